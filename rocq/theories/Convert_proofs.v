(** Proofs for C76: the loops of the conversion. *)
From Verif Require Import Base StdAlgo Ownership_model Elem_model Elem_spec Elem_proofs Mesh_model Mesh_spec Mesh_proofs Merge_model Helpers_model Helpers_proofs Convert_model.

Lemma indexed_elem {A} (l : list A) k a : (k, a) ∈ indexed l <-> l !! k = Some a.
Proof. unfold indexed. exact (find_zip_seq l (k, a)). Qed.
Lemma find_pos_found {A} (p : A -> bool) l i x : l !! i = Some x -> p x = true -> exists y, l !! find_pos p l = Some y /\ p y = true.
Proof.
  intros Hi Hp. destruct (find_pos_spec p l) as (H1 & H2 & H3). apply H3. apply lookup_lt_Some in Hi as Hl.
  destruct (decide (find_pos p l < length l)); [done|]. specialize (H1 i x ltac:(lia) Hi). congruence.
Qed.

(** ** Marks *)
Section marks.
  Context (n : nat) (R : nat -> nat -> Prop).
  Definition marked (mn : list bool * list nat) : Prop :=
    length mn.1 = n /\ length mn.2 = n /\ forall i, mn.1 !! i = Some true -> exists a, mn.2 !! i = Some a /\ R i a.
  Lemma put_ok ind v mn : marked mn -> ind < n -> R ind v -> exists mn', put_node ind v mn = Ok mn' /\ marked mn' /\
    mn'.1 !! ind = Some true /\ (forall i, mn.1 !! i = Some true -> mn'.1 !! i = Some true) /\ (forall i, i <> ind -> mn'.1 !! i = mn.1 !! i).
  Proof.
    intros (H1 & H2 & H3) Hi Hr. unfold put_node. rewrite H1. destruct (Nat.ltb_spec ind n); [|lia]. rewrite wr_ok by lia. rewrite bind_ok.
    eexists. split; [done|]. unfold marked. cbn [fst snd]. rewrite !insert_length. split; [split; [done|split; [done|]]|].
    - intros i. destruct (decide (i = ind)) as [->|Hne].
      + intros _. exists v. rewrite list_lookup_insert by lia. done.
      + rewrite !list_lookup_insert_ne by done. apply H3.
    - split; [by rewrite list_lookup_insert by lia|]. split.
      + intros i Ht. destruct (decide (i = ind)) as [->|Hne]; [by rewrite list_lookup_insert by lia|by rewrite list_lookup_insert_ne].
      + intros i Hne. by rewrite list_lookup_insert_ne.
  Qed.
  Lemma puts_ok {A} (f : A -> list bool * list nat -> res (list bool * list nat)) (Q : A -> nat -> Prop) l mn :
    (forall a, a ∈ l -> exists ind v, (forall mn, f a mn = put_node ind v mn) /\ ind < n /\ R ind v /\ Q a ind) -> marked mn ->
    exists mn', for_each f l mn = Ok mn' /\ marked mn' /\ (forall i, mn.1 !! i = Some true -> mn'.1 !! i = Some true) /\
      (forall a, a ∈ l -> exists ind, Q a ind /\ mn'.1 !! ind = Some true) /\
      (forall i, mn'.1 !! i = Some true -> mn.1 !! i = Some true \/ exists a, a ∈ l /\ Q a i).
  Proof.
    revert mn. induction l as [|a l IH]; intros mn Hl Hm; cbn [for_each].
    - exists mn. split; [done|]. split; [done|]. split; [done|]. split; [intros a Ha; by apply elem_of_nil in Ha|auto].
    - destruct (Hl a ltac:(left)) as (ind & v & Hf & Hi & Hr & HQ). rewrite Hf.
      destruct (put_ok ind v mn Hm Hi Hr) as (mn1 & -> & Hm1 & Ht & Hk & Ho). rewrite bind_ok.
      destruct (IH mn1) as (mn2 & E & Hm2 & Hk2 & Hl2 & Hb2); [intros; apply Hl; by right|done|]. exists mn2. split; [done|]. split; [done|]. split; [auto|]. split.
      + intros b Hb. apply elem_of_cons in Hb as [->|Hb]; [exists ind; auto|auto].
      + intros i Hi2. destruct (Hb2 i Hi2) as [H|(b & Hb & H)]; [|right; exists b; split; [by right|done]].
        destruct (decide (i = ind)) as [->|Hne]; [right; exists a; split; [by left|done]|left; by rewrite <- Ho].
  Qed.
End marks.

(** ** Fresh ids *)
Section numbering.
  Context (n : nat).
  (** [number_nodes] gives distinct ids from [N] to the unmasked indices. *)
  Lemma number_ok inds (mask : list bool) (nodes : list nat) N : length mask = n -> length nodes = n -> NoDup inds -> (forall i, i ∈ inds -> i < n) ->
    exists nodes' N', number_nodes inds ((mask, nodes), N) = Ok ((mask, nodes'), N') /\ length nodes' = n /\ N <= N' /\
      (forall i, (i ∉ inds \/ mask !! i = Some true) -> nodes' !! i = nodes !! i) /\
      (forall i, i ∈ inds -> mask !! i = Some false -> exists a, nodes' !! i = Some a /\ N <= a < N') /\
      (forall i j a, i ∈ inds -> j ∈ inds -> mask !! i = Some false -> mask !! j = Some false -> nodes' !! i = Some a -> nodes' !! j = Some a -> i = j) /\
      (forall a, N <= a < N' -> exists i, i ∈ inds /\ mask !! i = Some false /\ nodes' !! i = Some a).
  Proof.
    intros Hm. revert nodes N. induction inds as [|i inds IH]; intros nodes N Hn Hnd Hi.
    - exists nodes, N. split; [done|]. split; [done|]. split; [done|]. split; [done|]. split; [intros i H; by apply elem_of_nil in H|]. split; [intros i j a H; by apply elem_of_nil in H|lia].
    - unfold number_nodes. cbn [for_each]. cbn [fst snd]. assert (Hin : i < n) by (apply Hi; left).
      destruct (lookup_lt_is_Some_2 mask i) as [b Hb]; [lia|]. rewrite (rd_ok _ _ _ Hb), bind_ok. apply NoDup_cons in Hnd as [Hni Hnd]. destruct b.
      + rewrite bind_ok. destruct (IH nodes N Hn Hnd) as (nodes' & N' & E & H1 & H2 & H3 & H4 & H5 & H6); [intros; apply Hi; by right|].
        exists nodes', N'. split; [exact E|]. split; [done|]. split; [done|]. split; [|split; [|split]].
        * intros j [Hj|Hj]; [|apply H3; auto]. apply H3. left. set_solver.
        * intros j Hj Hf. apply elem_of_cons in Hj as [->|Hj]; [congruence|auto].
        * intros j k a Hj Hk Hfj Hfk. apply elem_of_cons in Hj as [->|Hj]; [congruence|]. apply elem_of_cons in Hk as [->|Hk]; [congruence|eauto].
        * intros a Ha. destruct (H6 a Ha) as (j & ? & ?). exists j. split; [by right|done].
      + rewrite wr_ok by lia. rewrite !bind_ok.
        destruct (IH (<[i := N]> nodes) (S N)) as (nodes' & N' & E & H1 & H2 & H3 & H4 & H5 & H6); [by rewrite insert_length|done|intros; apply Hi; by right|].
        assert (Hia : nodes' !! i = Some N) by (rewrite H3 by auto; by rewrite list_lookup_insert by lia).
        exists nodes', N'. split; [exact E|]. split; [done|]. split; [lia|]. split; [|split; [|split]].
        * intros j Hj. destruct (decide (j = i)) as [->|Hne]; [destruct Hj as [Hj|Hj]; [by destruct Hj; left|congruence]|].
          rewrite H3; [by rewrite list_lookup_insert_ne|]. destruct Hj; [left; set_solver|by right].
        * intros j Hj Hf. apply elem_of_cons in Hj as [->|Hj]; [exists N; split; [done|lia]|]. destruct (H4 j Hj Hf) as (a & ? & ?). exists a. split; [done|lia].
        * intros j k a Hj Hk Hfj Hfk Ea Eb. apply elem_of_cons in Hj. apply elem_of_cons in Hk. destruct Hj as [->|Hj], Hk as [->|Hk]; [done| | |by eapply H5].
          -- destruct (H4 k Hk Hfk) as (a' & ? & ?). rewrite Hia in Ea. simplify_eq. lia.
          -- destruct (H4 j Hj Hfj) as (a' & ? & ?). rewrite Hia in Eb. simplify_eq. lia.
        * intros a Ha. destruct (decide (a = N)) as [->|Hne]; [exists i; split; [by left|done]|]. destruct (H6 a ltac:(lia)) as (j & ? & ?). exists j. split; [by right|done].
  Qed.
  (** Both rounds. *)
  Lemma number2_ok t O (mask : list bool) (nodes : list nat) N : n = nodes_per_element t O -> length mask = n -> length nodes = n ->
    exists nodes' N', (s ← number_nodes (boundary_node_inds t O) ((mask, nodes), N); number_nodes (internal_node_inds t O) s) = Ok ((mask, nodes'), N') /\ length nodes' = n /\ N <= N' /\
      (forall i, mask !! i = Some true -> nodes' !! i = nodes !! i) /\
      (forall i, mask !! i = Some false -> exists a, nodes' !! i = Some a /\ N <= a < N') /\
      (forall i j a, mask !! i = Some false -> mask !! j = Some false -> nodes' !! i = Some a -> nodes' !! j = Some a -> i = j) /\
      (forall a, N <= a < N' -> exists i, mask !! i = Some false /\ nodes' !! i = Some a).
  Proof.
    intros Hn Hm Hl. destruct (boundary_inds_ok t O) as [B1 B2]. destruct (internal_ok t O) as [I1 I2].
    assert (HB : forall i, i ∈ boundary_node_inds t O -> i < n) by (intros i Hi; apply B2 in Hi as (s & Hi & _); lia).
    assert (HI : forall i, i ∈ internal_node_inds t O -> i < n) by (intros i Hi; apply I2 in Hi as (Hi & _); lia).
    assert (Hdis : forall i, i ∈ boundary_node_inds t O -> i ∉ internal_node_inds t O) by (intros i Hi Hj; apply I2 in Hj as [_ []]; by apply B2).
    assert (Hall : forall i, i < n -> i ∈ boundary_node_inds t O \/ i ∈ internal_node_inds t O).
    { intros i Hi. destruct (decide (i ∈ boundary_node_inds t O)) as [H|H]; [by left|]. right. apply I2. split; [lia|]. intros Hs. by apply H, B2. }
    destruct (number_ok (boundary_node_inds t O) mask nodes N Hm Hl (strict_nodup _ B1) HB) as (nd1 & N1 & -> & L1 & LN1 & K1 & F1 & D1 & S1). rewrite bind_ok.
    destruct (number_ok (internal_node_inds t O) mask nd1 N1 Hm L1 (strict_nodup _ I1) HI) as (nd2 & N2 & -> & L2 & LN2 & K2 & F2 & D2 & S2).
    assert (Kb : forall i, i ∈ boundary_node_inds t O -> nd2 !! i = nd1 !! i) by (intros i Hi; apply K2; left; by apply Hdis).
    exists nd2, N2. split; [done|]. split; [done|]. split; [lia|]. split; [|split; [|split]].
    - intros i Hi. rewrite K2, K1; auto.
    - intros i Hi. assert (Hlt : i < n) by (apply lookup_lt_Some in Hi; lia). destruct (Hall i Hlt) as [H|H].
      + destruct (F1 i H Hi) as (a & E & ?). exists a. rewrite Kb by done. split; [done|lia].
      + destruct (F2 i H Hi) as (a & E & ?). exists a. split; [done|lia].
    - intros i j a Hi Hj Ei Ej. assert (Hlt : i < n) by (apply lookup_lt_Some in Hi; lia). assert (Hlt' : j < n) by (apply lookup_lt_Some in Hj; lia).
      destruct (Hall i Hlt) as [H|H], (Hall j Hlt') as [H'|H'].
      + rewrite Kb in Ei, Ej by done. by eapply D1.
      + rewrite Kb in Ei by done. destruct (F1 i H Hi) as (b & ? & ?), (F2 j H' Hj) as (c & ? & ?). simplify_eq. lia.
      + rewrite Kb in Ej by done. destruct (F2 i H Hi) as (b & ? & ?), (F1 j H' Hj) as (c & ? & ?). simplify_eq. lia.
      + by eapply D2.
    - intros a Ha. destruct (decide (a < N1)) as [Hlt|Hge].
      + destruct (S1 a ltac:(lia)) as (i & Hi & Hm1 & E). exists i. split; [done|]. by rewrite Kb.
      + destruct (S2 a ltac:(lia)) as (i & Hi & Hm1 & E). exists i. done.
  Qed.
End numbering.

(** ** Built domains *)
Section built.
  Context {V : Type} (OC : nat).
  Notation el := (element V).
  Notation doms := (dmap (domain V)).
  Definition pairs (m : doms) : list (nat * el) := concat (map (fun d : nat * domain V => map (pair d.1) (concat (d_els d.2))) m).
  Definition conv (nu : nat -> list nat) (e : el) : el := mk_el (el_type e) OC (nu (el_id e)) (el_verts e) (el_id e).
  (** The elements of domain [id] and type [t] among [l]. *)
  Definition pick (l : list (nat * el)) (dom : nat) (t : etype) : list el :=
    map snd (List.filter (fun de : nat * el => bool_decide (de.1 = dom /\ el_type de.2 = t)) l).
  Definition built (m : doms) (l : list (nat * el)) (nu : nat -> list nat) : doms :=
    map (fun d : nat * domain V => (d.1, mk_dom (map (fun s : etype * nat => map (conv nu) (pick l d.1 s.1)) (slots [OC])) (d_dim d.2))) m.
  Lemma pick_elem l dom t e : e ∈ pick l dom t <-> (dom, e) ∈ l /\ el_type e = t.
  Proof.
    unfold pick. rewrite elem_of_list_fmap. split.
    - intros ([d e'] & -> & H). apply elem_of_list_In, filter_In in H as [H E]. apply bool_decide_eq_true in E as [E1 E2]. cbn in *. subst. split; [by apply elem_of_list_In|done].
    - intros [H E]. exists (dom, e). split; [done|]. apply elem_of_list_In, filter_In. split; [by apply elem_of_list_In|]. by apply bool_decide_eq_true.
  Qed.
  Lemma pick_app l1 l2 dom t : pick (l1 ++ l2) dom t = pick l1 dom t ++ pick l2 dom t.
  Proof. unfold pick. by rewrite List.filter_app, map_app. Qed.
  Lemma built_find m l nu dom d : dm_find dom m = Some d ->
    dm_find dom (built m l nu) = Some (mk_dom (map (fun s : etype * nat => map (conv nu) (pick l dom s.1)) (slots [OC])) (d_dim d)).
  Proof.
    unfold built. induction m as [|[k a] m IH]; cbn [dm_find map]; [done|]. destruct (Nat.eqb_spec dom k) as [->|Hne].
    - intros [= ->]. cbn [dm_find fst snd]. by rewrite Nat.eqb_refl.
    - intros H. cbn [dm_find fst snd]. destruct (Nat.eqb_spec dom k); [done|]. by apply IH.
  Qed.
  Lemma slots1 o : slots [o] = [(Hex, o); (Quad, o); (Line, o)]. Proof. done. Qed.
  Definition slot_of (t : etype) : nat := match t with Hex => 0 | Quad => 1 | Line => 2 end.
  Lemma slot_pos t o : pos_of (t, o) (slots [o]) = Some (slot_of t).
  Proof. rewrite slots1. destruct t; cbn; repeat case_decide; try congruence; done. Qed.
  Lemma conv_ext nu nu' l : (forall e, e ∈ l -> nu (el_id e) = nu' (el_id e)) -> map (conv nu) l = map (conv nu') l.
  Proof. intros H. apply map_ext_in. intros e He. apply elem_of_list_In in He. unfold conv. by rewrite H. Qed.
  (** Appending an element to its domain. *)
  Lemma built_push m l nu dom d e ns : StronglySorted lt m.*1 -> dm_find dom m = Some d -> d_dim d = Some (native_dim (el_type e)) -> (forall de, de ∈ l -> el_id de.2 <> el_id e) ->
    let nu' := fun i => if i =? el_id e then ns else nu i in
    exists d1 d2, dm_find dom (built m l nu) = Some d1 /\ pushToDomain [OC] d1 (mk_el (el_type e) OC ns (el_verts e) (el_id e)) = Ok d2 /\
      dm_set dom d2 (built m l nu) = built m (l ++ [(dom, e)]) nu'.
  Proof.
    intros Hs Hd Hdim Hfresh nu'. rewrite (built_find m l nu dom d Hd). eexists _, _. split; [done|]. split.
    - unfold pushToDomain. cbn [d_dim d_els el_type el_order]. rewrite Hdim. cbn [default]. change (default _ (Some ?x)) with x. rewrite Nat.eqb_refl. change (throwing_assert true) with (Ok tt). rewrite bind_ok, slot_pos.
      rewrite (rd_ok _ _ (map (conv nu) (pick l dom (el_type e)))) by (by destruct (el_type e)). rewrite bind_ok. reflexivity.
    - assert (Hnu : forall de, de ∈ l -> nu' (el_id de.2) = nu (el_id de.2)) by (intros de Hde; unfold nu'; destruct (Nat.eqb_spec (el_id de.2) (el_id e)) as [E|]; [by apply Hfresh in Hde|done]).
      assert (Hpick : forall k t, map (conv nu') (pick (l ++ [(dom, e)]) k t) = map (conv nu) (pick l k t) ++ (if decide (k = dom /\ t = el_type e) then [mk_el (el_type e) OC ns (el_verts e) (el_id e)] else [])).
      { intros k t. rewrite pick_app, map_app. f_equal.
        - apply conv_ext. intros e' He'. apply pick_elem in He' as [He' _]. exact (Hnu (k, e') He').
        - unfold pick. cbn [List.filter]. cbn [fst snd]. destruct (bool_decide_reflect (dom = k /\ el_type e = t)) as [[-> <-]|Hn]; [rewrite decide_True by done|rewrite decide_False by (intros [-> ->]; by apply Hn); done].
          cbn. unfold conv, nu'. by rewrite Nat.eqb_refl. }
      assert (Hgen : forall m, StronglySorted lt m.*1 -> dom ∈ m.*1 -> forall d3, (forall d, (dom, d) ∈ m -> d3 = mk_dom (map (fun s : etype * nat => map (conv nu') (pick (l ++ [(dom, e)]) dom s.1)) (slots [OC])) (d_dim d)) ->
        dm_set dom d3 (built m l nu) = built m (l ++ [(dom, e)]) nu').
      { clear m Hs Hd. intros m. unfold built. induction m as [|[k a] m IH]; cbn [map dm_set fst snd]; intros Hs Hin d3 H3; [by apply elem_of_nil in Hin|].
        apply StronglySorted_inv in Hs as [Hs Hlt]. assert (Hother : forall k, k <> dom -> map (fun s : etype * nat => map (conv nu) (pick l k s.1)) (slots [OC]) = map (fun s : etype * nat => map (conv nu') (pick (l ++ [(dom, e)]) k s.1)) (slots [OC])).
        { intros k' Hk'. apply map_ext. intros s. rewrite Hpick, decide_False by (intros [? _]; done). by rewrite app_nil_r. }
        assert (Hrest : forall m, dom ∉ m.*1 -> map (fun d : nat * domain V => (d.1, mk_dom (map (fun s : etype * nat => map (conv nu) (pick l d.1 s.1)) (slots [OC])) (d_dim d.2))) m
          = map (fun d : nat * domain V => (d.1, mk_dom (map (fun s : etype * nat => map (conv nu') (pick (l ++ [(dom, e)]) d.1 s.1)) (slots [OC])) (d_dim d.2))) m).
        { clear -Hother. intros m Hm. apply map_ext_in. intros [k a] Hk. apply elem_of_list_In in Hk. cbn [fst snd]. rewrite Hother; [done|]. intros ->. apply Hm. apply elem_of_list_fmap. by exists (dom, a). }
        destruct (Nat.ltb_spec dom k) as [Hlt'|Hge].
        - exfalso. apply elem_of_cons in Hin as [->|Hin]; [cbn in Hlt'; lia|]. rewrite Forall_forall in Hlt. apply Hlt in Hin. cbn in Hin. lia.
        - destruct (Nat.eqb_spec dom k) as [->|Hne].
          + f_equal; [f_equal; apply H3; by left|]. apply Hrest. intros Hk. rewrite Forall_forall in Hlt. apply Hlt in Hk. cbn in Hk. lia.
          + f_equal; [rewrite Hother by done; done|]. apply IH; [done| |intros d' Hd'; apply H3; by right]. apply elem_of_cons in Hin as [Hin|Hin]; [by cbn in Hin|done]. }
      apply Hgen; [done|apply dm_find_elem in Hd; apply elem_of_list_fmap; by exists (dom, d)|]. intros d' Hd'.
      apply dm_find_elem in Hd. assert (d' = d) as -> by (apply (dm_find_iff dom d' m Hs) in Hd'; apply (dm_find_iff dom d m Hs) in Hd; congruence).
      f_equal; [|done]. rewrite !slots1. cbn [map fst snd d_els]. rewrite !Hpick.
      destruct (el_type e) eqn:Et; cbn [slot_of]; repeat match goal with |- context [decide ?P] => destruct (decide P) as [Hy|Hy]; [try (destruct Hy; discriminate)|try (exfalso; apply Hy; split; reflexivity)]; clear Hy end; rewrite ?app_nil_r; done.
  Qed.
End built.
