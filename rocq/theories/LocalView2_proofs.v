(** C36: reorderByAdjacency. *)
From Verif Require Import Base StdAlgo Elem_proofs Mesh_model LocalView_model.
Local Arguments Nat.mul : simpl never.
Local Arguments Nat.add : simpl never.
Local Arguments Nat.sub : simpl never.

(** ** Hash maps *)
Lemma hm_upd_forall {A} (P : nat * A -> Prop) k d f m : Forall P m -> P (k, f d) -> (forall a, P (k, a) -> P (k, f a)) -> Forall P (hm_upd k d f m).
Proof.
  intros Hm Hd Hf. induction Hm as [|[k' a] m Ha Hm IH]; cbn; [by repeat constructor|]. destruct (Nat.eqb_spec k k') as [<-|]; constructor; try done. by apply Hf.
Qed.
Lemma hm_upd_find {A} k (d : A) f m k' : dm_find k' (hm_upd k d f m) = if k' =? k then Some (f (default d (dm_find k m))) else dm_find k' m.
Proof.
  induction m as [|[k0 a] m IH]; cbn [hm_upd dm_find].
  - destruct (Nat.eqb_spec k' k) as [->|]; [|done]. done.
  - destruct (Nat.eqb_spec k k0) as [<-|Hk]; cbn [dm_find].
    + destruct (Nat.eqb_spec k' k); done.
    + destruct (Nat.eqb_spec k' k0) as [->|]; [|done]. destruct (Nat.eqb_spec k0 k); [congruence|done].
Qed.
Lemma dm_find_in {A} k (m : list (nat * A)) a : dm_find k m = Some a -> (k, a) ∈ m.
Proof. induction m as [|[k' a'] m IH]; [done|]. cbn. destruct (Nat.eqb_spec k k') as [<-|]; [intros [= <-]; left|intros H; right; by apply IH]. Qed.
Lemma hs_insert_elem x y s : x ∈ hs_insert y s <-> x = y \/ x ∈ s.
Proof. unfold hs_insert. case_bool_decide; [naive_solver|]. rewrite elem_of_app, elem_of_list_singleton. naive_solver. Qed.
Lemma hs_insert_nodup y s : NoDup s -> NoDup (hs_insert y s).
Proof. intros H. unfold hs_insert. case_bool_decide; [done|]. apply NoDup_app. split; [done|]. split; [|apply NoDup_singleton]. intros x Hx Hy. by apply elem_of_list_singleton in Hy as ->. Qed.

(** ** Rows: the elements containing a node *)
Lemma nodup_bounded l n : NoDup l -> (forall x, x ∈ l -> x < n) -> length l <= n.
Proof.
  intros Hn Hb. rewrite <- (seq_length n 0). apply submseteq_length, NoDup_submseteq; [done|]. intros x Hx. apply elem_of_seq. apply Hb in Hx. lia.
Qed.
Definition row_map (els : list (list nat)) (ies : list (nat * list nat)) (m : list (nat * list nat)) : list (nat * list nat) :=
  foldl (fun m (ie : nat * list nat) => foldl (fun m n => hm_upd n [] (hs_insert ie.1) m) m ie.2) m ies.
Lemma inner_find i ns m n : forall m', m' = foldl (fun m n => hm_upd n [] (hs_insert i) m) m ns ->
  (forall x, x ∈ default [] (dm_find n m') <-> (x = i /\ n ∈ ns) \/ x ∈ default [] (dm_find n m)) /\ (NoDup (default [] (dm_find n m)) -> NoDup (default [] (dm_find n m'))).
Proof.
  revert m. induction ns as [|k ns IH]; intros m m' ->; cbn [foldl].
  - split; [|done]. intros x. rewrite elem_of_nil. naive_solver.
  - destruct (IH (hm_upd k [] (hs_insert i) m) _ eq_refl) as [H1 H2]. split.
    + intros x. rewrite H1, elem_of_cons, hm_upd_find. destruct (Nat.eqb_spec n k) as [->|Hne].
      * change (default [] (Some ?y)) with y. rewrite hs_insert_elem. naive_solver.
      * naive_solver.
    + intros Hn. apply H2. rewrite hm_upd_find. destruct (Nat.eqb_spec n k) as [->|]; [|done]. change (default [] (Some ?y)) with y. by apply hs_insert_nodup.
Qed.
Lemma outer_find n : forall (ies m : list (nat * list nat)),
  (forall x, x ∈ default [] (dm_find n (row_map [] ies m)) <-> (exists ns, (x, ns) ∈ ies /\ n ∈ ns) \/ x ∈ default [] (dm_find n m)) /\ (NoDup (default [] (dm_find n m)) -> NoDup (default [] (dm_find n (row_map [] ies m)))).
Proof.
  induction ies as [|[i ns] ies IH]; intros m; cbn [row_map foldl fst snd].
  - split; [|done]. intros x. split; [by right|]. intros [(ns & H & _)|H]; [by apply elem_of_nil in H|done].
  - destruct (IH (foldl (fun m n => hm_upd n [] (hs_insert i) m) m ns)) as [H1 H2]. destruct (inner_find i ns m n _ eq_refl) as [H3 H4]. unfold row_map in *. split; [|by intros; apply H2, H4].
    intros x. rewrite H1, H3. split.
    + intros [(ns' & H & Hn)|[[-> Hn]|H]]; [left; exists ns'; split; [by right|done]|left; exists ns; split; [left|done]|by right].
    + intros [(ns' & H & Hn)|H]; [|by right; right]. apply elem_of_cons in H as [[= -> ->]|H]; [by right; left|]. left. by exists ns'.
Qed.
Lemma max_ge l x : x ∈ l -> x <= foldr Nat.max 0 l.
Proof. induction l as [|a l IH]; intros H; [by apply elem_of_nil in H|]. cbn. apply elem_of_cons in H as [->|H]; [lia|]. apply IH in H. lia. Qed.
Lemma node_rows_ok els n : (forall ns, ns ∈ els -> n ∈ ns -> n < length (node_rows els)) /\
  forall row, node_rows els !! n = Some row -> (forall i, i ∈ row <-> exists ns, els !! i = Some ns /\ n ∈ ns) /\ StronglySorted lt row /\ length row <= length els.
Proof.
  unfold node_rows. set (m := foldl _ _ _). split.
  - intros ns Hns Hn. rewrite map_length, seq_length. assert (Hin : n ∈ concat els) by (apply elem_of_concat; by exists ns). apply max_ge in Hin. lia.
  - intros row Hrow. rewrite map_lookup in Hrow. apply fmap_Some in Hrow as (n' & Hn' & ->). apply lookup_seq in Hn' as [-> _]. rewrite Nat.add_0_l.
    destruct (outer_find n (zip (seq 0 (length els)) els) []) as [H1 H2]. change (row_map [] _ []) with m in *.
    assert (HE : forall i, i ∈ sort (default [] (dm_find n m)) <-> exists ns, els !! i = Some ns /\ n ∈ ns).
    { intros i. rewrite sort_elem, H1. split.
      - intros [(ns & H & Hn)|H]; [|by apply elem_of_nil in H]. exists ns. split; [|done]. apply elem_of_list_lookup in H as [k Hk]. apply lookup_zip_with_Some in Hk as (a & b & [= -> ->] & Ha & Hb). by apply lookup_seq in Ha as [-> _].
      - intros (ns & H & Hn). left. exists ns. split; [|done]. apply (elem_of_list_lookup_2 _ i). apply lookup_zip_with_Some. exists i, ns. split; [done|]. split; [|done]. apply lookup_seq. split; [done|]. by eapply lookup_lt_Some. }
    assert (HN : NoDup (sort (default [] (dm_find n m)))) by (apply sort_nodup, H2; constructor). split; [done|]. split; [apply sorted_nodup_strict; [apply sort_sorted|done]|]. apply nodup_bounded; [done|].
    intros x Hx. apply HE in Hx as (ns & Hx & _). by eapply lookup_lt_Some.
Qed.

(** ** Optima *)
Lemma first_min_ok key l : l <> [] -> exists x, first_min key l = Some x /\ x ∈ l /\ forall y, y ∈ l -> key x <= key y.
Proof.
  destruct l as [|a l]; [done|]. intros _. cbn [first_min]. eexists. split; [done|]. revert a. induction l as [|b l IH]; intros a; cbn [foldl].
  - split; [left|]. intros y Hy. by apply elem_of_list_singleton in Hy as ->.
  - destruct (IH (if key b <? key a then b else a)) as [H1 H2]. set (x := foldl _ _ _) in *. split.
    + apply elem_of_cons in H1 as [->|H1]; [|by do 2 right]. destruct (_ <? _); [right; left|left].
    + intros y Hy. destruct (Nat.ltb_spec (key b) (key a)) as [Hb|Hb].
      * apply elem_of_cons in Hy as [->|Hy]; [specialize (H2 b ltac:(left)); lia|by apply H2].
      * apply elem_of_cons in Hy as [->|Hy]; [by apply H2; left|]. apply elem_of_cons in Hy as [->|Hy]; [specialize (H2 a ltac:(left)); lia|by apply H2; right].
Qed.
Lemma first_max_in key l : l <> [] -> exists x, first_max key l = Some x /\ x ∈ l.
Proof.
  destruct l as [|a l]; [done|]. intros _. cbn [first_max]. eexists. split; [done|]. revert a. induction l as [|b l IH]; intros a; cbn [foldl]; [left|].
  specialize (IH (if lex_lt (key a) (key b) then b else a)). apply elem_of_cons in IH as [->|IH]; [|by do 2 right]. destruct (lex_lt _ _); [right; left|left].
Qed.

Section reorder.
  Context (shuf : list (nat * nat) -> list (nat * nat)) (Hshuf : forall l, shuf l ≡ₚ l) (maxu : nat).
  Lemma connect_ok els : Forall (fun ns => length ns * length els < maxu) els -> exists c, elem_connect maxu els (node_rows els) = Ok c /\ length c = length els /\ Forall (fun x => x < maxu) c.
  Proof using.
    intros H. unfold elem_connect. assert (HM : forall l, (forall ns, ns ∈ l -> ns ∈ els) -> exists c, map_res (fun nodes => ds ← map_res (fun n => row ← rd (node_rows els) n; Ok (length row)) nodes; Ok (sum ds mod (maxu + 1))) l = Ok c /\ length c = length l /\ Forall (fun x => x < maxu) c); [|by apply HM].
    induction l as [|ns l IH]; intros Hl; [by exists []|]. destruct IH as (c & Ec & Hc & Hf); [intros; apply Hl; by right|]. cbn [map_res].
    assert (Hds : forall l, (forall n, n ∈ l -> n ∈ ns) -> exists ds, map_res (fun n => row ← rd (node_rows els) n; Ok (length row)) l = Ok ds /\ sum ds <= length l * length els).
    { induction l0 as [|n l0 IH]; intros Hn; [by exists []|]. destruct IH as (ds & Ed & Hd); [intros; apply Hn; by right|]. cbn [map_res]. destruct (node_rows_ok els n) as [H1 H2]. assert (Hlt : n < length (node_rows els)) by (apply (H1 ns); [apply Hl; left|apply Hn; left]).
      destruct (lookup_lt_is_Some_2 _ _ Hlt) as [row Hrow]. rewrite (rd_ok _ _ _ Hrow), !bind_ok, Ed, bind_ok. eexists. split; [done|]. destruct (H2 row Hrow) as (_ & _ & Hr). rewrite sum_cons. cbn [length]. lia. }
    destruct (Hds ns) as (ds & Ed & Hd); [done|]. rewrite Ed, !bind_ok, Ec, bind_ok. eexists. split; [done|]. split; [cbn; by rewrite Hc|]. constructor; [|done].
    pose proof (proj1 (Forall_forall _ _) H ns (Hl ns ltac:(left))) as Hb. cbn in Hb. rewrite Nat.mod_small; lia.
  Qed.
  Definition done_of (n : nat) (perm : list nat) : list bool := map (fun e => bool_decide (e ∈ perm)) (seq 0 n).
  Lemma done_lookup n perm e : e < n -> done_of n perm !! e = Some (bool_decide (e ∈ perm)).
  Proof using. intros H. unfold done_of. rewrite map_lookup, (proj2 (lookup_seq 0 n e e)) by lia. done. Qed.
  Lemma populate_ok els c perm : exists he, populate_hot_elems shuf maxu c (node_rows els) (done_of (length els) perm) = Ok he /\ Forall (fun x => x.1 < length els /\ x.1 ∉ perm) he.
  Proof using.
    unfold populate_hot_elems. set (Inv := Forall (fun x : nat * nat => x.1 < length els /\ x.1 ∉ perm)).
    assert (HG : forall l he, Inv he -> exists he', for_each (fun (nh : nat * nat) hot_elems => if length (node_rows els) <=? nh.1 then Ok hot_elems else
        row ← rd (node_rows els) nh.1; for_each (fun e he => d ← rd (done_of (length els) perm) e; Ok (if (d : bool) then he else hm_upd e 0 (fun h => (h + nh.2) mod (maxu + 1)) he)) row hot_elems) l he = Ok he' /\ Inv he'); [|apply HG; constructor].
    induction l as [|[n h] l IH]; intros he Hh; [by exists he|]. cbn [for_each fst snd]. destruct (Nat.leb_spec (length (node_rows els)) n) as [Hle|Hlt]; [by rewrite bind_ok; apply IH|].
    destruct (lookup_lt_is_Some_2 _ _ Hlt) as [row Hrow]. rewrite (rd_ok _ _ _ Hrow), bind_ok. destruct (node_rows_ok els n) as [_ H2]. destruct (H2 row Hrow) as (HE & _).
    assert (HR : forall r he, (forall e, e ∈ r -> e < length els) -> Inv he -> exists he', for_each (fun e he => d ← rd (done_of (length els) perm) e; Ok (if (d : bool) then he else hm_upd e 0 (fun h0 => (h0 + h) mod (maxu + 1)) he)) r he = Ok he' /\ Inv he').
    { induction r as [|e r IHr]; intros he0 Hr Hi; [by exists he0|]. cbn [for_each]. assert (He : e < length els) by (apply Hr; left). rewrite (rd_ok _ _ _ (done_lookup _ perm e He)), !bind_ok. apply IHr; [intros; apply Hr; by right|].
      case_bool_decide; [done|]. apply hm_upd_forall; [done|done|]. intros a Ha. done. }
    destruct (HR row he) as (he' & E & Hi); [intros e He; apply HE in He as (ns & He & _); by eapply lookup_lt_Some|done|]. rewrite E, bind_ok. by apply IH.
  Qed.
  Lemma next_ok n connect perm he : length connect = n -> Forall (fun x => x < maxu) connect -> Forall (fun x : nat * nat => x.1 < n /\ x.1 ∉ perm) he -> (exists e, e < n /\ e ∉ perm) ->
    exists e, get_next_elem shuf maxu connect (done_of n perm) he = Ok e /\ e < n /\ e ∉ perm.
  Proof using Hshuf.
    intros Hl Hc Hh (e0 & He0 & Hp0). unfold get_next_elem. destruct he as [|x he].
    - assert (Hdl : length (done_of n perm) = n) by (unfold done_of; by rewrite map_length, seq_length). rewrite Hdl. set (key := fun e : nat => if nth e (done_of n perm) false then maxu else nth e connect 0).
      destruct (first_min_ok key (seq 0 n)) as (e & E & Hin & Hmin); [destruct n; [lia|done]|]. rewrite E. exists e. split; [done|]. apply elem_of_seq in Hin. split; [lia|]. intros Hd.
      assert (Hk : forall e, e < n -> key e = if bool_decide (e ∈ perm) then maxu else nth e connect 0) by (intros e' He'; unfold key; by rewrite (nth_lookup_Some _ _ _ _ (done_lookup n perm e' He'))).
      pose proof (Hmin e0 ltac:(apply elem_of_seq; lia)) as Hm. rewrite !Hk, bool_decide_eq_true_2, bool_decide_eq_false_2 in Hm by (done || lia). destruct (lookup_lt_is_Some_2 connect e0) as [v Hv]; [lia|]. rewrite (nth_lookup_Some _ _ _ _ Hv) in Hm.
      pose proof (proj1 (Forall_lookup _ _) Hc e0 v Hv). cbn in *. lia.
    - rewrite (proj2 (forallb_forall _ _)).
      + change (throwing_assert true) with (Ok tt). rewrite bind_ok. destruct (first_max_in (fun eh => (eh.2, maxu - nth eh.1 connect 0)) (shuf (x :: he))) as (y & E & Hin).
        * intros E. pose proof (Hshuf (x :: he)) as HP. rewrite E in HP. by apply Permutation_nil_l in HP.
        * rewrite E. exists y.1. split; [done|]. rewrite Hshuf in Hin. exact (proj1 (Forall_forall _ _) Hh y Hin).
      + intros y Hy. apply Nat.ltb_lt. rewrite Hl. apply elem_of_list_In in Hy. apply (proj1 (Forall_forall _ _) Hh y Hy).
  Qed.
  Lemma done_insert n perm e : e < n -> wr (done_of n perm) e true = Ok (done_of n (perm ++ [e])).
  Proof using.
    intros He. rewrite wr_ok by (unfold done_of; by rewrite map_length, seq_length). f_equal. apply list_eq. intros i. destruct (decide (i < n)) as [Hi|Hi].
    - rewrite done_lookup by done. destruct (decide (i = e)) as [->|Hne].
      + rewrite list_lookup_insert by (unfold done_of; by rewrite map_length, seq_length). rewrite bool_decide_eq_true_2; [done|]. apply elem_of_app. right. left.
      + rewrite list_lookup_insert_ne, done_lookup by done. f_equal. apply bool_decide_ext. rewrite elem_of_app, elem_of_list_singleton. naive_solver.
    - rewrite !lookup_ge_None_2; [done|unfold done_of; rewrite map_length, seq_length; lia|rewrite insert_length; unfold done_of; rewrite map_length, seq_length; lia].
  Qed.
  Lemma loop_ok els connect c : length connect = length els -> Forall (fun x => x < maxu) connect -> forall k, k <= length els ->
    exists perm c', for_each (reorder_step shuf maxu els (node_rows els) connect) (seq 0 k) ([], replicate (length els) false, c) = Ok (perm, done_of (length els) perm, c') /\ length perm = k /\ NoDup perm /\ (forall e, e ∈ perm -> e < length els).
  Proof using Hshuf.
    intros Hl Hc. induction k as [|k IH]; intros Hk.
    - exists [], c. split; [|split; [done|split; [constructor|intros e He; by apply elem_of_nil in He]]]. cbn [seq for_each]. assert (ED : done_of (length els) [] = replicate (length els) false); [|by rewrite ED]. apply list_eq. intros i. destruct (decide (i < length els)) as [Hi|Hi]; [rewrite done_lookup, lookup_replicate_2 by done; by rewrite bool_decide_eq_false_2 by apply not_elem_of_nil|]. rewrite !lookup_ge_None_2; [done|rewrite replicate_length; lia|unfold done_of; rewrite map_length, seq_length; lia].
    - destruct IH as (perm & c' & E & Hp & Hn & Hb); [lia|]. rewrite seq_S, Nat.add_0_l, for_each_app, E, bind_ok. cbn [for_each]. unfold reorder_step.
      destruct (populate_ok els c' perm) as (he & Eh & Hhe). rewrite Eh, bind_ok. destruct (next_ok (length els) connect perm he) as (e & Ee & He & Hnp); [done..| |].
      { destruct (decide (Exists (fun e => e ∉ perm) (seq 0 (length els)))) as [H|H]; [apply Exists_exists in H as (e & He & H); apply elem_of_seq in He; exists e; split; [lia|done]|exfalso]. assert (Hsub : seq 0 (length els) ⊆+ perm). { apply NoDup_submseteq; [apply NoDup_ListNoDup, seq_NoDup|]. intros x Hx. apply elem_of_seq in Hx. destruct (decide (x ∈ perm)); [done|]. exfalso. apply H. apply Exists_exists. exists x. split; [apply elem_of_seq; lia|done]. } apply submseteq_length in Hsub. rewrite seq_length in Hsub. lia. }
      rewrite Ee, bind_ok, done_insert, bind_ok by done. destruct (lookup_lt_is_Some_2 els e He) as [ns Hns]. rewrite Hns, bind_ok. do 2 eexists. split; [done|]. split; [rewrite app_length; cbn; lia|]. split.
      + apply NoDup_app. split; [done|]. split; [|apply NoDup_singleton]. intros x Hx Hy. by apply elem_of_list_singleton in Hy as ->.
      + intros x Hx. apply elem_of_app in Hx as [Hx|Hx]; [by apply Hb|]. by apply elem_of_list_singleton in Hx as ->.
  Qed.
  Lemma reorder_ok {A} (nodes_of : A -> res (list nat)) elements els c : map_res nodes_of elements = Ok els -> Forall (fun ns => length ns * length els < maxu) els ->
    exists r c', reorderByAdjacency shuf maxu nodes_of elements c = Ok (r, c') /\ r ≡ₚ elements.
  Proof using Hshuf.
    intros He Hb. unfold reorderByAdjacency. rewrite He, bind_ok. destruct (connect_ok els Hb) as (con & Ec & Hl & Hf). cbv zeta. rewrite Ec, bind_ok.
    destruct (loop_ok els con c Hl Hf (length els)) as (perm & c' & E & Hp & Hn & Hlt); [lia|]. rewrite E, bind_ok. cbn [fst snd]. apply map_res_inv in He. apply Forall2_length in He.
    assert (HP : perm ≡ₚ seq 0 (length elements)).
    { apply submseteq_Permutation_length_eq; [rewrite seq_length; congruence|]. apply NoDup_submseteq; [done|]. intros x Hx. apply elem_of_seq. apply Hlt in Hx. lia. }
    assert (HR : exists r, map_res (fun p => match elements !! p with Some a => Ok a | None => Throw end) perm = Ok r /\ Forall2 (fun p a => elements !! p = Some a) perm r).
    { assert (Hlt' : forall e, e ∈ perm -> e < length elements) by (intros; rewrite He; by apply Hlt). clear -Hlt'. induction perm as [|p perm IH]; [exists []; by split|]. destruct IH as (r & Er & Hr); [intros; apply Hlt'; by right|]. destruct (lookup_lt_is_Some_2 elements p) as [a Ha]; [apply Hlt'; left|].
      exists (a :: r). cbn [map_res]. rewrite Ha, bind_ok, Er. split; [done|]. by constructor. }
    destruct HR as (r & Er & Hr). rewrite Er, bind_ok. exists r, c'. split; [done|].
    assert (Eo : forall l q, Forall2 (fun p a => elements !! p = Some a) l q -> q = omap (fun p => elements !! p) l). { clear. intros l q H. induction H as [|p a l q Ha _ IH]; [done|]. cbn. rewrite Ha. by f_equal. }
    rewrite (Eo _ _ Hr), HP. apply reflexive_eq. symmetry. apply Eo. apply Forall2_same_length_lookup_2; [apply seq_length|]. intros i p a Hi Ha. apply lookup_seq in Hi as [-> _]. done.
  Qed.
End reorder.
