(** C74: marks, flags, normalisation. *)
From Verif Require Import Base StdAlgo Elem_model Elem_spec Elem_proofs Mesh_model LocalView_model LocalView_proofs Dofs_model Dofs_proofs Ownership_spec Ownership_proofs ImportExport_spec NodeVals_model NodeVals_spec NodeVals_proofs Exch_proofs LocalBC_model LocalBC_spec.

Lemma map_res_each {A B} (f : A -> res B) (P : A -> B -> Prop) l : (forall a, a ∈ l -> exists b, f a = Ok b /\ P a b) -> exists bs, map_res f l = Ok bs /\ Forall2 P l bs.
Proof.
  induction l as [|a l IH]; intros H; cbn [map_res]; [by exists []|]. destruct (H a) as (b & E & Hp); [left|]. rewrite E, bind_ok. destruct IH as (bs & Eb & HF); [intros x Hx; apply H; by right|]. rewrite Eb, bind_ok. eexists. split; [done|]. by constructor.
Qed.
Lemma collect {A B} (f : A -> res (list B)) (P : A -> B -> Prop) l : (forall a, a ∈ l -> exists bs, f a = Ok bs /\ forall d, d ∈ bs <-> P a d) ->
  exists ls, map_res f l = Ok ls /\ forall d, d ∈ concat ls <-> exists a, a ∈ l /\ P a d.
Proof.
  intros H. destruct (map_res_each f (fun a bs => forall d, d ∈ bs <-> P a d) l H) as (ls & E & HF). exists ls. split; [done|]. clear E H. induction HF as [|a bs l ls Ha HF IH]; intros d; cbn [concat].
  - split; [intros Hd; by apply elem_of_nil in Hd|intros (a & Ha & _); by apply elem_of_nil in Ha].
  - rewrite elem_of_app, IH, Ha. split.
    + intros [Hd|(a' & Ha' & Hd)]; [exists a; split; [left|done]|exists a'; split; [by right|done]].
    + intros (a' & Ha' & Hd). apply elem_of_cons in Ha' as [-> |Ha']; [by left|]. right. by exists a'.
Qed.
Lemma filter_In' {A} (p : A -> bool) l x : x ∈ List.filter p l <-> x ∈ l /\ p x = true.
Proof. by rewrite !elem_of_list_In, filter_In. Qed.
Lemma existsb_elem {A} (p : A -> bool) l : existsb p l = true <-> exists x, x ∈ l /\ p x = true.
Proof. rewrite existsb_exists. split; intros (x & H & E); exists x; [by rewrite elem_of_list_In|by rewrite <- elem_of_list_In]. Qed.
Lemma somes_elem l x : x ∈ somes l <-> Some x ∈ l.
Proof. unfold somes. rewrite elem_of_list_omap. split; [intros (o & H & ->); done|intros H; by exists (Some x)]. Qed.

Section marks.
  Context {V : Type} (D : nat) (def : bc_def) (Hdef : forall x, x ∈ bd_defs def -> Sorted Nat.le x.1).
  Lemma side_comps_elem d j : j ∈ side_comps D def d <-> j < D /\ prescribed def d j.
  Proof using Hdef.
    unfold side_comps. rewrite filter_In', elem_of_seq, existsb_elem. unfold prescribed. split.
    - intros [Hj ([doms inds] & Hx & Hb)]. apply andb_true_iff in Hb as [H1 H2]. split; [lia|]. exists doms, inds. split; [done|]. split; [apply binary_search_spec in H1; [done|by apply (Hdef (doms, inds))]|]. apply existsb_elem in H2 as (i & Hi & E). apply Nat.eqb_eq in E as ->. done.
    - intros [Hj (doms & inds & Hx & H1 & H2)]. split; [lia|]. exists (doms, inds). split; [done|]. apply andb_true_iff. split; [apply binary_search_spec; [by apply (Hdef (doms, inds))|done]|]. apply existsb_elem. exists j. split; [done|]. by apply Nat.eqb_refl.
  Qed.
  Context (c s : nat) (r : bc_rank V) (Hr : bc_rank_ok D c s r).
  Lemma view_marks_ok lv : lv ∈ br_border r ++ br_interior r -> exists l, view_marks D def (br_map r) lv = Ok l /\ forall d, d ∈ l <-> on_dirichlet_side D def (br_map r) lv d.
  Proof using Hdef Hr.
    intros Hlv. destruct (bk_views _ _ _ _ Hr lv Hlv) as (nodes & En & Ln & Ho & Ls & Hn). unfold view_marks. rewrite En, bind_ok.
    destruct (collect (fun sd : nat * nat => inds ← getSideNodeIndices (lv_type lv) (lv_order lv) sd.1;
        ls ← map_res (fun node_ind => n ← rd nodes node_ind; row ← dofs_at (br_map r) n; ds ← map_res (rd row) (side_comps D def sd.2); Ok (somes ds)) inds; Ok (concat ls))
      (fun sd d => exists i n j, on_side (lv_type lv) (lv_order lv) sd.1 i /\ nodes !! i = Some n /\ j < D /\ prescribed def sd.2 j /\ unknown_of (br_map r) n j d) (getBoundaries lv)) as (ls & El & Hl).
    - intros [sd b] Hsd. apply get_boundaries_elem in Hsd. cbn [fst snd]. unfold getSideNodeIndices. destruct (lookup_lt_is_Some_2 (boundary_table (lv_type lv) (lv_order lv)) sd) as [inds Hinds]; [rewrite table_length, <- Ls; by eapply lookup_lt_Some|]. rewrite Hinds, bind_ok.
      destruct (side_table_ok _ _ _ _ Hinds) as [_ Hside].
      destruct (collect (fun node_ind => n ← rd nodes node_ind; row ← dofs_at (br_map r) n; ds ← map_res (rd row) (side_comps D def b); Ok (somes ds))
        (fun i d => exists n j, nodes !! i = Some n /\ j < D /\ prescribed def b j /\ unknown_of (br_map r) n j d) inds) as (ls & El & Hl).
      + intros i Hi. apply Hside in Hi. destruct (lookup_lt_is_Some_2 nodes i) as [n Hni]; [rewrite Ln; apply Hi|]. rewrite (rd_ok _ _ _ Hni), bind_ok. unfold dofs_at.
        destruct (lookup_lt_is_Some_2 (ld_map (br_map r)) n) as [row Hrow]; [apply Hn; by eapply elem_of_list_lookup_2|]. rewrite Hrow, bind_ok. destruct (bk_rows _ _ _ _ Hr row ltac:(by eapply elem_of_list_lookup_2)) as [Lr _].
        destruct (map_res_each (rd row) (fun j o => row !! j = Some o) (side_comps D def b)) as (ds & Ed & HF); [intros j Hj; apply side_comps_elem in Hj as [Hj _]; destruct (lookup_lt_is_Some_2 row j) as [o Ho']; [lia|]; exists o; split; [by apply rd_ok|done]|].
        rewrite Ed, bind_ok. eexists. split; [done|]. intros d. rewrite somes_elem. split.
        * intros Hd. apply elem_of_list_lookup in Hd as [k Hk]. destruct (Forall2_lookup_r _ _ _ _ _ HF Hk) as (j & Hj & Hrj). apply elem_of_list_lookup_2, side_comps_elem in Hj as [Hj Hp]. exists n, j. split; [done|]. split; [done|]. split; [done|]. by exists row.
        * intros (n' & j & Hn' & Hj & Hp & (row' & Hrow' & Hrj)). assert (n' = n) as -> by congruence. assert (row' = row) as -> by congruence. assert (Hin : j ∈ side_comps D def b) by by apply side_comps_elem.
          apply elem_of_list_lookup in Hin as [k Hk]. destruct (Forall2_lookup_l _ _ _ _ _ HF Hk) as (o & Ho' & Hro). assert (o = Some d) as -> by congruence. by eapply elem_of_list_lookup_2.
      + rewrite El, bind_ok. eexists. split; [done|]. intros d. rewrite Hl. split.
        * intros (i & Hi & n & j & H). apply Hside in Hi. exists i, n, j. by split.
        * intros (i & n & j & Hi & H). exists i. split; [by apply Hside|]. by exists n, j.
    - rewrite El, bind_ok. eexists. split; [done|]. intros d. rewrite Hl. unfold on_dirichlet_side. split.
      + intros ([sd b] & Hsd & i & n & j & H1 & H2 & H3 & H4 & H5). apply get_boundaries_elem in Hsd. by exists nodes, sd, b, i, n, j.
      + intros (nodes' & sd & b & i & n & j & En' & Hsd & H1 & H2 & H3 & H4 & H5). assert (nodes' = nodes) as -> by congruence. exists (sd, b). split; [by apply get_boundaries_elem|]. by exists i, n, j.
  Qed.
  Lemma marks_ok views : (forall lv, lv ∈ views -> lv ∈ br_border r ++ br_interior r) -> exists l, marks D def (br_map r) views = Ok l /\ forall d, d ∈ l <-> exists lv, lv ∈ views /\ on_dirichlet_side D def (br_map r) lv d.
  Proof using Hdef Hr.
    intros Hv. unfold marks. destruct (collect (view_marks D def (br_map r)) (on_dirichlet_side D def (br_map r)) views) as (ls & El & Hl); [intros lv Hlv; by apply view_marks_ok, Hv|]. rewrite El, bind_ok. by exists (concat ls).
  Qed.
  Lemma unknown_lt n j l : unknown_of (br_map r) n j l -> l < c + s.
  Proof using Hr. intros (row & Hrow & Hj). destruct (bk_rows _ _ _ _ Hr row ltac:(by eapply elem_of_list_lookup_2)) as [_ Hl]. apply Hl. by eapply elem_of_list_lookup_2. Qed.
  Lemma dirichlet_lt (lv : lview V) l : on_dirichlet_side D def (br_map r) lv l -> l < c + s.
  Proof using Hr. intros (nodes & sd & b & i & n & j & _ & _ & _ & _ & _ & _ & Hu). by eapply unknown_lt. Qed.
  Lemma interior_lt (lv : lview V) l : lv ∈ br_interior r -> on_dirichlet_side D def (br_map r) lv l -> l < c.
  Proof using Hr. intros Hlv (nodes & sd & b & i & n & j & En & _ & _ & Hn & _ & _ & Hu). eapply (bk_interior _ _ _ _ Hr); [done|done|by eapply elem_of_list_lookup_2|done]. Qed.
End marks.

Lemma set_flags_ok l : forall f, (forall d, d ∈ l -> d < length f) -> exists f', set_flags l f = Ok f' /\ length f' = length f /\ forall i v, f !! i = Some v -> f' !! i = Some (v || bool_decide (i ∈ l)).
Proof.
  induction l as [|d l IH]; intros f H; cbn [set_flags for_each].
  - exists f. split; [done|]. split; [done|]. intros i v ->. f_equal. rewrite bool_decide_eq_false_2 by apply not_elem_of_nil. by rewrite orb_false_r.
  - rewrite (proj2 (Nat.ltb_lt _ _) (H d (elem_of_list_here _ _))). rewrite wr_ok by (apply H; left). rewrite bind_ok. destruct (IH (<[d := true]> f)) as (f' & E & L & Hf); [intros x Hx; rewrite insert_length; apply H; by right|]. unfold set_flags in E. rewrite E. exists f'. rewrite insert_length in L. split; [done|]. split; [done|]. intros i v Hi.
    destruct (decide (i = d)) as [-> |Hne].
    + rewrite (Hf d true) by (rewrite list_lookup_insert; [done|apply H; left]). rewrite (bool_decide_eq_true_2 (d ∈ d :: l)) by left. by rewrite orb_true_r.
    + rewrite (Hf i v) by (by rewrite list_lookup_insert_ne). f_equal. f_equal. apply bool_decide_ext. rewrite elem_of_cons. naive_solver.
Qed.

Section phase.
  Context {V : Type} (D : nat) (def : bc_def) (Hdef : forall x, x ∈ bd_defs def -> Sorted Nat.le x.1) (c s : nat) (r : bc_rank V) (Hr : bc_rank_ok D c s r) (o : bc_order) (Ho : order_ok o) (norm : list nat) (Hn : forall d, d ∈ norm -> d < c + s).
  Definition dmark (l : nat) : Prop := l ∈ norm \/ exists lv, lv ∈ br_border r ++ br_interior r /\ on_dirichlet_side D def (br_map r) lv l.
  Lemma flag_phase_ok : exists f1 f2, flag_phase D def o r norm = Ok (f1, f2) /\ length f1 = c + s /\ length f2 = c + s /\
    forall l, l < c + s -> exists v1 v2, f1 !! l = Some v1 /\ f2 !! l = Some v2 /\ (v2 = true <-> dmark l) /\ (c <= l -> v1 = v2).
  Proof using Hdef Hr Ho Hn.
    unfold flag_phase. destruct (bk_sizes _ _ _ _ Hr) as [Eo Et]. rewrite Et. destruct Ho as [Ob Oi].
    destruct (set_flags_ok norm (replicate (c + s) false)) as (f0 & E0 & L0 & H0); [intros d Hd; rewrite replicate_length; by apply Hn|]. rewrite E0, bind_ok. rewrite replicate_length in L0.
    destruct (marks_ok D def Hdef c s r Hr (br_border r)) as (mb & Eb & Hb); [intros lv Hlv; apply elem_of_app; by left|]. rewrite Eb, bind_ok.
    destruct (set_flags_ok (bo_border o mb) f0) as (f1 & E1 & L1 & H1); [intros d Hd; rewrite L0; rewrite Ob in Hd; apply Hb in Hd as (lv & _ & Hd); by apply (dirichlet_lt D def c s r Hr lv)|]. rewrite E1, bind_ok.
    destruct (marks_ok D def Hdef c s r Hr (br_interior r)) as (mi & Ei & Hi); [intros lv Hlv; apply elem_of_app; by right|]. rewrite Ei, bind_ok.
    destruct (set_flags_ok (bo_interior o mi) f1) as (f2 & E2 & L2 & H2); [intros d Hd; rewrite L1, L0; rewrite Oi in Hd; apply Hi in Hd as (lv & _ & Hd); by apply (dirichlet_lt D def c s r Hr lv)|]. rewrite E2, bind_ok.
    exists f1, f2. split; [done|]. split; [lia|]. split; [lia|]. intros l Hl. specialize (H0 l false (lookup_replicate_2 _ _ _ Hl)). rewrite orb_false_l in H0. pose proof (H1 _ _ H0) as H1'. pose proof (H2 _ _ H1') as H2'.
    eexists _, _. split; [exact H1'|]. split; [exact H2'|]. split.
    - rewrite !orb_true_iff, !bool_decide_eq_true. rewrite Ob, Oi, Hb, Hi. unfold dmark. setoid_rewrite elem_of_app. naive_solver.
    - intros Hc. rewrite (bool_decide_eq_false_2 (l ∈ bo_interior o mi)); [by rewrite orb_false_r|]. rewrite Oi, Hi. intros (lv & Hlv & Hd). pose proof (interior_lt D def c s r Hr lv l Hlv Hd). lia.
  Qed.
End phase.
