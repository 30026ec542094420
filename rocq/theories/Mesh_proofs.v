From Verif Require Import Base StdAlgo Ownership_model Elem_model Elem_spec Elem_proofs Parallel_model Parallel_proofs Mesh_model Mesh_spec.
Local Arguments Nat.leb : simpl never.
Local Arguments Nat.ltb : simpl never.
Local Arguments Nat.eqb : simpl never.
Local Arguments Nat.mul : simpl never.
Local Arguments Nat.add : simpl never.

(** ** Maps *)
Lemma dm_find_elem {A} k (a : A) (m : dmap A) : dm_find k m = Some a -> (k, a) ∈ m.
Proof.
  induction m as [|[k' a'] m IH]; cbn; [done|]. destruct (Nat.eqb_spec k k').
  - intros [= ->]. subst. left.
  - intros H. right. auto.
Qed.
Lemma dm_find_none {A} k (m : dmap A) : dm_find k m = None <-> k ∉ m.*1.
Proof.
  induction m as [|[k' a'] m IH]; cbn; [split; [intros _; apply not_elem_of_nil|done]|].
  rewrite not_elem_of_cons. destruct (Nat.eqb_spec k k'); [split; [done|tauto]|]. rewrite IH. tauto.
Qed.
Lemma elem_dm_find {A} k (a : A) (m : dmap A) : NoDup m.*1 -> (k, a) ∈ m -> dm_find k m = Some a.
Proof.
  induction m as [|[k' a'] m IH]; cbn; [intros _ H; by apply elem_of_nil in H|]. rewrite NoDup_cons. intros [Hn Hnd].
  rewrite elem_of_cons. intros [[= -> ->]|H]; [by rewrite Nat.eqb_refl|].
  destruct (Nat.eqb_spec k k') as [->|]; [|auto].
  exfalso. apply Hn. apply elem_of_list_fmap. by exists (k', a).
Qed.

Section visit.
  Context {V : Type}.
  Notation el := (element V).
  Notation doms := (dmap (domain V)).
  Lemma visit_elem (m : doms) ids e : NoDup m.*1 ->
    e ∈ visit_elems m ids <-> exists id, id ∈ ids /\ in_domain m id e.
  Proof.
    intros Hnd. unfold visit_elems. rewrite elem_of_concat. split.
    - intros (l & He & Hl). apply (elem_of_list_fmap_2 (fun id => match dm_find id m with Some d => concat (d_els d) | None => [] end)) in Hl.
      destruct Hl as (id & -> & Hid). exists id. split; [done|].
      destruct (dm_find id m) as [d|] eqn:E; [|by apply elem_of_nil in He].
      apply elem_of_concat in He. destruct He as (v & He & Hv). exists d, v. split; [by apply dm_find_elem|done].
    - intros (id & Hid & d & v & Hd & Hv & He). exists (concat (d_els d)). split; [apply elem_of_concat; eauto|].
      apply (elem_of_list_fmap_1_alt (fun id => match dm_find id m with Some d => concat (d_els d) | None => [] end) _ id); [done|].
      by rewrite (elem_dm_find id d m Hnd Hd).
  Qed.
  Lemma visit_concat (m m' : doms) : NoDup m'.*1 -> (forall p, p ∈ m -> p ∈ m') ->
    visit_elems m' m.*1 = concat (map (fun p => concat (d_els p.2)) m).
  Proof.
    intros Hnd. unfold visit_elems. induction m as [|[k d] m IH]; intros H; [done|]. cbn.
    rewrite (elem_dm_find k d m' Hnd) by (apply H; left). f_equal. apply IH. intros p Hp. apply H. by right.
  Qed.
  Lemma all_elems_concat (m : doms) : NoDup m.*1 -> all_elems m = concat (map (fun p => concat (d_els p.2)) m).
  Proof. intros H. by apply visit_concat. Qed.
  Lemma all_elems_elem (m : doms) e : NoDup m.*1 -> e ∈ all_elems m <-> is_elem m e.
  Proof.
    intros H. unfold all_elems. rewrite visit_elem by done. split.
    - intros (id & _ & He). by exists id.
    - intros (id & He). exists id. split; [|done]. destruct He as (d & v & Hd & _).
      apply elem_of_list_fmap. by exists (id, d).
  Qed.
  Lemma length_concat {A} (l : list (list A)) : length (concat l) = sum (map length l).
  Proof. induction l as [|a l IH]; [done|]. cbn. rewrite app_length, IH. done. Qed.
  Lemma nelements_ok (m : doms) : NoDup m.*1 -> getNElements m = length (all_elems m).
  Proof.
    intros H. rewrite all_elems_concat by done. clear H. unfold getNElements. induction m as [|[k d] m IH]; [done|].
    cbn. rewrite app_length, length_concat. unfold sum in IH at 1. rewrite IH. done.
  Qed.

  (** ** find *)
  Lemma find_res_none {A B} (f : A -> res (option B)) l : (forall a, a ∈ l -> f a = Ok None) -> find_res f l = Ok None.
  Proof.
    induction l as [|a l IH]; intros H; [done|]. cbn. rewrite (H a) by left. cbn. apply IH. intros b Hb. apply H. by right.
  Qed.
  Lemma find_res_total {A B} (f : A -> res (option B)) l : (forall a, a ∈ l -> exists o, f a = Ok o) ->
    (find_res f l = Ok None /\ forall a, a ∈ l -> f a = Ok None) \/
    (exists a b, find_res f l = Ok (Some b) /\ a ∈ l /\ f a = Ok (Some b)).
  Proof.
    induction l as [|a l IH]; intros H.
    { left. split; [done|]. intros a Ha. by apply elem_of_nil in Ha. }
    destruct (H a) as [o Ho]; [left|]. cbn. rewrite Ho. cbn. destruct o as [b|].
    - right. exists a, b. split; [done|]. split; [left|done].
    - destruct IH as [[-> Hn]|(a' & b & -> & Ha & Hb)]; [intros a' Ha'; apply H; by right| |].
      + left. split; [done|]. intros a' Ha'. apply elem_of_cons in Ha' as [->|Ha']; auto.
      + right. exists a', b. split; [done|]. split; [by right|done].
  Qed.
  Lemma strict_lookup (l : list nat) i j a b : StronglySorted lt l -> l !! i = Some a -> l !! j = Some b -> i < j -> a < b.
  Proof. intros H Ha Hb Hij. apply (elem_of_StronglySorted_app lt (take (S i) l) (drop (S i) l)).
    - by rewrite take_drop.
    - apply elem_of_list_lookup. exists i. rewrite lookup_take by lia. done.
    - apply elem_of_list_lookup. exists (j - S i). rewrite lookup_drop. by replace (S i + (j - S i)) with j by lia.
  Qed.
  Lemma strict_gap (l : list nat) i j a b : StronglySorted lt l -> l !! i = Some a -> l !! j = Some b -> i <= j -> a + (j - i) <= b.
  Proof.
    intros H Ha. revert b. induction (j - i) as [|k IH] eqn:E in j |- *; intros b Hb Hij.
    - assert (i = j) as -> by lia. simplify_eq. lia.
    - destruct j as [|j]; [lia|].
      destruct (l !! j) as [c|] eqn:Ec.
      2: { apply lookup_ge_None in Ec. apply lookup_lt_Some in Hb. lia. }
      assert (a + k <= c) by (apply (IH j); [lia|done|lia]).
      assert (c < b) by (apply (strict_lookup l j (S j)); auto). lia.
  Qed.
  Lemma vec_find_ok (v : list el) id : StronglySorted lt (map el_id v) ->
    exists o, find_in_vec id v = Ok o /\
      match o with Some e => e ∈ v /\ el_id e = id | None => forall e, e ∈ v -> el_id e <> id end.
  Proof.
    intros Hs. assert (Hc : v = [] \/ exists f, v !! 0 = Some f) by (destruct v as [|f v']; [by left|right; by exists f]).
    destruct Hc as [-> |[f Hf]].
    { exists None. split; [done|]. intros e He. by apply elem_of_nil in He. }
    assert (Hlen : 0 < length v) by (by eapply lookup_lt_Some).
    assert (Hdef : find_in_vec id v =
      (back ← rd v (length v - 1);
       if (id <? el_id f) || (el_id back <? id) then Ok None
       else if el_id back - el_id f + 1 =? length v then e ← rd v (id - el_id f); Ok (Some e)
       else match v !! lower_bound (map el_id v) id with
            | Some e => if el_id e =? id then Ok (Some e) else Ok None
            | None => Ok None
            end)) by (destruct v as [|f' v']; [done|]; cbn in Hf; by injection Hf as ->).
    rewrite Hdef. clear Hdef.
    destruct (lookup_lt_is_Some_2 v (length v - 1)) as [b Hb]; [lia|]. rewrite (rd_ok v (length v - 1) b Hb), bind_ok.
    assert (Hid : forall i e, v !! i = Some e -> map el_id v !! i = Some (el_id e)).
    { intros i e H. change (map el_id v) with (el_id <$> v). by rewrite list_lookup_fmap, H. }
    assert (Hrange : forall i e, v !! i = Some e -> el_id f + i <= el_id e /\ el_id e + (length v - 1 - i) <= el_id b).
    { intros i e He. pose proof (lookup_lt_Some _ _ _ He). split.
      - assert (el_id f + (i - 0) <= el_id e); [|lia]. apply (strict_gap (map el_id v) 0 i); auto; lia.
      - apply (strict_gap (map el_id v) i (length v - 1)); auto; lia. }
    destruct (Nat.ltb_spec id (el_id f)); cbn [orb].
    { exists None. split; [done|]. intros e He. apply elem_of_list_lookup in He as [i He]. apply Hrange in He. lia. }
    destruct (Nat.ltb_spec (el_id b) id); cbn [orb].
    { exists None. split; [done|]. intros e He. apply elem_of_list_lookup in He as [i He]. apply Hrange in He. lia. }
    destruct (Nat.eqb_spec (el_id b - el_id f + 1) (length v)) as [Hcont|_].
    - destruct (lookup_lt_is_Some_2 v (id - el_id f)) as [e He]; [lia|]. rewrite (rd_ok _ _ _ He), bind_ok.
      exists (Some e). split; [done|]. split; [by eapply elem_of_list_lookup_2|]. apply Hrange in He. lia.
    - assert (Hsort : Sorted Nat.le (map el_id v)) by (by apply strict_sorted).
      destruct (v !! lower_bound (map el_id v) id) as [e|] eqn:E.
      + destruct (Nat.eqb_spec (el_id e) id).
        * exists (Some e). split; [done|]. split; [by eapply elem_of_list_lookup_2|done].
        * exists None. split; [done|]. intros e' He' <-.
          assert (Hin : el_id e' ∈ map el_id v) by (by apply (elem_of_list_fmap_1 el_id)).
          pose proof (lower_bound_found (map el_id v) (el_id e') Hsort Hin) as Hl. rewrite (Hid _ _ E) in Hl. congruence.
      + exists None. split; [done|]. intros e' He' <-.
        assert (Hin : el_id e' ∈ map el_id v) by (by apply (elem_of_list_fmap_1 el_id)).
        pose proof (lower_bound_found (map el_id v) (el_id e') Hsort Hin) as Hl.
        apply lookup_lt_Some in Hl. apply lookup_ge_None in E. rewrite map_length in Hl. lia.
  Qed.
  Lemma find_id_ok (m : doms) id : ascending m ->
    exists o, find_id id m = Ok o /\
      match o with Some e => is_elem m e /\ el_id e = id | None => forall e, is_elem m e -> el_id e <> id end.
  Proof.
    intros Ha. unfold find_id.
    assert (Hv : forall v, v ∈ concat (map (fun d : nat * domain V => d_els d.2) m) <-> exists k d, (k, d) ∈ m /\ v ∈ d_els d).
    { intros v. rewrite elem_of_concat. split.
      - intros (l & Hv & Hl). apply (elem_of_list_fmap_2 (fun d : nat * domain V => d_els d.2)) in Hl.
        destruct Hl as ([k d] & -> & Hd). by exists k, d.
      - intros (k & d & Hd & Hv). exists (d_els d). split; [done|].
        by apply (elem_of_list_fmap_1 (fun d : nat * domain V => d_els d.2) _ (k, d)). }
    destruct (find_res_total (find_in_vec id) (concat (map (fun d : nat * domain V => d_els d.2) m))) as [[-> Hn]|(v & e & -> & Hin & He)].
    - intros v Hin. apply Hv in Hin as (k & d & Hd & Hin). destruct (vec_find_ok v id) as (o & Ho & _); [by eapply Ha|]. by exists o.
    - exists None. split; [done|]. intros e (k & d & v & Hd & Hin & He).
      assert (Hf : find_in_vec id v = Ok None) by (apply Hn, Hv; by exists k, d).
      destruct (vec_find_ok v id) as (o & Ho & Hoo); [by eapply Ha|]. rewrite Hf in Ho. injection Ho as <-. by apply Hoo.
    - exists (Some e). split; [done|]. apply Hv in Hin as (k & d & Hd & Hin).
      destruct (vec_find_ok v id) as (o & Ho & Hoo); [by eapply Ha|]. rewrite He in Ho. injection Ho as <-.
      split; [|apply Hoo]. exists k, d, v. split; [done|]. split; [done|apply Hoo].
  Qed.
  Lemma find_id_unique (m : doms) e : ascending m -> unique_ids m -> is_elem m e -> find_id (el_id e) m = Ok (Some e).
  Proof.
    intros Ha Hu He. destruct (find_id_ok m (el_id e) Ha) as ([e'|] & -> & H).
    - destruct H as [He' Hid]. by rewrite (Hu e' e).
    - exfalso. by apply (H e).
  Qed.
End visit.

(** ** Boundary views *)
Lemma map_res_total {A B} (f : A -> res B) (l : list A) : (forall a, a ∈ l -> exists b, f a = Ok b) -> exists bs, map_res f l = Ok bs.
Proof.
  induction l as [|a l IH]; intros H; [by exists []|]. destruct (H a) as [b Hb]; [left|]. cbn. rewrite Hb. cbn.
  destruct IH as [bs ->]; [intros a' Ha; apply H; by right|]. by exists (b :: bs).
Qed.
Lemma map_res_not_ub {A B} (f : A -> res B) (l : list A) : (forall a, a ∈ l -> f a <> UB) -> map_res f l <> UB.
Proof.
  induction l as [|a l IH]; intros H; [done|]. cbn. pose proof (H a ltac:(left)).
  destruct (f a); cbn; [|done|done]. destruct (map_res f l) eqn:E; cbn; [done|done|].
  exfalso. apply IH; [|done]. intros b Hb. apply H. by right.
Qed.
Lemma map_res_throw {A B} (f : A -> res B) (l : list A) : map_res f l = Throw -> exists a, a ∈ l /\ f a = Throw.
Proof.
  induction l as [|a l IH]; [done|]. cbn. destruct (f a) eqn:E; cbn; [|intros _; exists a; split; [left|done]|done].
  destruct (map_res f l); cbn; [done|intros _|done]. destruct IH as (b & Hb & Hf); [done|]. exists b. split; [by right|done].
Qed.
Lemma find_zip_seq {A} (l : list A) (p : nat * A) : p ∈ zip (seq 0 (length l)) l <-> l !! p.1 = Some p.2.
Proof.
  rewrite elem_of_list_lookup. split.
  - intros [i Hi]. apply lookup_zip_with_Some in Hi as (x & y & -> & Hx & Hy). apply lookup_seq in Hx as [-> _]. done.
  - intros H. exists p.1. apply lookup_zip_with_Some. exists p.1, p.2. split; [by destruct p|].
    split; [|done]. apply lookup_seq. split; [done|by eapply lookup_lt_Some].
Qed.

Section boundary.
  Context {V : Type}.
  Notation el := (element V).
  Notation doms := (dmap (domain V)).

  Lemma side_match_ok (e b : el) s inds : typed_el e -> boundary_table (el_type e) (el_order e) !! s = Some inds ->
    exists r, doesSideMatch e inds (sort (el_nodes b)) = Ok r /\ (r = true <-> side_of b e s).
  Proof.
    intros [Ht _] Hs. destruct (side_table_ok _ _ _ _ Hs) as [Hsort Hin].
    assert (Hn : s < n_sides (el_type e)).
    { rewrite <- (table_length (el_type e) (el_order e)). by eapply lookup_lt_Some. }
    destruct (map_res_total (rd (el_nodes e)) inds) as [ns Hns].
    { intros i Hi. apply Hin in Hi as [Hi _]. rewrite <- Ht in Hi. destruct (lookup_lt_is_Some_2 _ _ Hi) as [n Hnn].
      exists n. by apply rd_ok. }
    pose proof (map_res_inv _ _ _ Hns) as Hf.
    assert (HF : Forall2 (fun i n => el_nodes e !! i = Some n) inds ns).
    { eapply Forall2_impl; [exact Hf|]. intros i n H. by apply rd_inv. }
    assert (Hlen : length ns = length inds) by (symmetry; by eapply Forall2_length).
    assert (Huniq : side_of b e s -> el_nodes b ≡ₚ ns).
    { intros (inds' & ns' & Hnd & Hin' & Hf' & Hp & _). rewrite Hp.
      assert (Hpi : inds' ≡ₚ inds).
      { apply NoDup_Permutation; [done|by apply strict_nodup|]. intros i. by rewrite Hin', Hin. }
      clear - Hpi HF Hf'. assert (Hmap : forall l l', Forall2 (fun i n => el_nodes e !! i = Some n) l l' -> l' = map (fun i => default 0 (el_nodes e !! i)) l).
      { induction 1 as [|i n l l' H _ IH]; [done|]. cbn. rewrite H, IH. done. }
      rewrite (Hmap _ _ Hf'), (Hmap _ _ HF). by apply Permutation_map. }
    unfold doesSideMatch. rewrite sort_length. destruct (Nat.eqb_spec (length inds) (length (el_nodes b))) as [E|E].
    - rewrite Hns, bind_ok. eexists. split; [done|]. rewrite bool_decide_eq_true. split.
      + intros H. exists inds, ns. split; [by apply strict_nodup|]. split; [done|]. split; [done|]. split; [|done].
        rewrite <- (sort_perm (el_nodes b)), <- H. apply sort_perm.
      + intros H. apply sort_ext. symmetry. auto.
    - exists false. split; [done|]. split; [done|]. intros H. apply Huniq, Permutation_length in H. lia.
  Qed.
  Lemma match_ok (e b : el) : typed_el e ->
    (matchBoundaryNodesToElement e (sort (el_nodes b)) = Ok None /\ forall s, ~ side_of b e s) \/
    (exists s, matchBoundaryNodesToElement e (sort (el_nodes b)) = Ok (Some s) /\ side_of b e s).
  Proof.
    intros Ht. unfold matchBoundaryNodesToElement. set (table := boundary_table (el_type e) (el_order e)).
    set (f := fun s : nat * list nat => _). assert (Hf : forall s inds, table !! s = Some inds ->
      exists r : bool, f (s, inds) = Ok (if r then Some s else None) /\ (r = true <-> side_of b e s)).
    { intros s inds H. destruct (side_match_ok e b s inds Ht H) as (r & Hr & Hiff). exists r. unfold f. cbn [fst snd]. rewrite Hr. done. }
    destruct (find_res_total f (zip (seq 0 (length table)) table)) as [[-> Hn]|([s inds] & s' & -> & Hin & He)].
    - intros [s inds] H. apply (find_zip_seq table (s, inds)) in H. destruct (Hf _ _ H) as (r & Hr & _). by eexists.
    - left. split; [done|]. intros s Hs. destruct (Hs) as (_ & _ & _ & _ & _ & _ & Hlt). rewrite <- (table_length _ (el_order e)) in Hlt.
      destruct (lookup_lt_is_Some_2 _ _ Hlt) as [inds Hi]. destruct (Hf _ _ Hi) as (r & Hr & Hiff).
      pose proof (Hn (s, inds) ltac:(by apply find_zip_seq)) as Hn2. assert (Hrf : Ok (if r then Some s else None) = Ok None) by (by rewrite <- Hr, <- Hn2). destruct r; [done|]. destruct Hiff as [_ Hiff]. by specialize (Hiff Hs).
    - right. apply (find_zip_seq table (s, inds)) in Hin. cbn [fst snd] in Hin. destruct (Hf _ _ Hin) as (r & Hr & Hiff). rewrite He in Hr.
      destruct r; [|done]. injection Hr as ->. exists s. split; [done|]. by apply Hiff.
  Qed.

  Lemma in_domain_typed orders (m : doms) id e : valid_doms orders m -> in_domain m id e ->
    typed_el e /\ exists d, (id, d) ∈ m /\ d_dim d = Some (native_dim (el_type e)).
  Proof.
    intros [_ Hm] (d & v & Hd & Hv & He). rewrite Forall_forall in Hm. destruct (Hm _ Hd) as [Ht Hdim]. cbn in Ht, Hdim. split.
    - apply elem_of_list_lookup in Hv as [i Hv]. destruct (Forall2_lookup_r _ _ _ _ _ Ht Hv) as (s & _ & Hs).
      rewrite Forall_forall in Hs. by apply Hs.
    - exists d. split; [done|]. by eapply Hdim.
  Qed.
  Lemma ids_of_dim_elem (m : doms) dim id : id ∈ ids_of_dim m dim <-> exists d, (id, d) ∈ m /\ d_dim d = Some dim.
  Proof.
    unfold ids_of_dim. rewrite (elem_of_list_fmap fst). split.
    - intros ([k d] & -> & H). rewrite elem_of_list_In, filter_In, <- elem_of_list_In in H. cbn in H.
      destruct H as [H1 H2%bool_decide_eq_true]. by exists d.
    - intros (d & H1 & H2). exists (id, d). split; [done|]. rewrite elem_of_list_In, filter_In, <- elem_of_list_In.
      split; [done|]. cbn. by apply bool_decide_eq_true.
  Qed.
  Lemma put_ok orders (m : doms) (b : el) : valid_doms orders m ->
    (exists e s, put_bnd_el_view m b = Ok (Some (e, s)) /\ attached m b e s) \/
    ((put_bnd_el_view m b = Ok None \/ put_bnd_el_view m b = Throw) /\ forall e s, ~ attached m b e s).
  Proof.
    intros Hv. assert (Hnd : NoDup m.*1) by (by apply strict_nodup, Hv). unfold put_bnd_el_view.
    pose proof (ids_of_dim_elem m (native_dim (el_type b) + 1)) as Hids.
    assert (Hlook : forall e, is_elem m e -> native_dim (el_type e) = native_dim (el_type b) + 1 ->
      exists id, id ∈ ids_of_dim m (native_dim (el_type b) + 1) /\ in_domain m id e).
    { intros e [id He] Hd. exists id. split; [|done]. apply Hids. destruct (in_domain_typed _ _ _ _ Hv He) as [_ (d & H1 & H2)].
      exists d. by rewrite H2, Hd. }
    destruct (ids_of_dim m (native_dim (el_type b) + 1)) as [|i0 ids0] eqn:E.
    { right. split; [by right|]. intros e s (He & Hd & _). destruct (Hlook e He Hd) as (id & H & _). by apply elem_of_nil in H. }
    rewrite <- E in *. clear E. set (ids := ids_of_dim m (native_dim (el_type b) + 1)) in *.
    assert (Hel : forall e, e ∈ visit_elems m ids -> typed_el e /\ is_elem m e /\ native_dim (el_type e) = native_dim (el_type b) + 1).
    { intros e He. apply visit_elem in He as (id & Hid & He); [|done]. destruct (in_domain_typed _ _ _ _ Hv He) as [Ht (d & H1 & H2)].
      split; [done|]. split; [by exists id|]. apply Hids in Hid as (d' & H3 & H4).
      apply (elem_dm_find _ _ _ Hnd) in H1. apply (elem_dm_find _ _ _ Hnd) in H3. congruence. }
    set (f := fun e : el => s ← matchBoundaryNodesToElement e (sort (el_nodes b)); Ok (match s with Some s => Some (e, s) | None => None end)).
    destruct (find_res_total f (visit_elems m ids)) as [[-> Hn]|(e & [e' s] & -> & Hin & He)].
    - intros e He. unfold f. destruct (match_ok e b) as [[-> _]|(s & -> & _)]; [by apply Hel|by eexists|by eexists].
    - right. split; [by left|]. intros e s (He & Hd & Hs). destruct (Hlook e He Hd) as (id & Hid & Hdom).
      assert (Hin : e ∈ visit_elems m ids) by (apply visit_elem; [done|]; by exists id).
      specialize (Hn e Hin). unfold f in Hn. destruct (match_ok e b) as [[_ H]|(s' & H & _)]; [by apply Hel|by apply (H s)|].
      rewrite H in Hn. done.
    - left. destruct (Hel e Hin) as (Ht & Hm & Hd). unfold f in He. destruct (match_ok e b Ht) as [[H _]|(s' & H & Hs)]; rewrite H in He; [done|].
      cbn in He. injection He as -> ->. exists e', s. split; [done|]. done.
  Qed.

  Lemma check_ok (m : doms) ids : NoDup m.*1 ->
    let r := for_each (fun id _ => match dm_find id m with
                              | Some d => match d_dim d with
                                          | Some dim => throwing_assert (negb (length (ids_of_dim m (dim + 1)) =? 0))
                                          | None => Throw
                                          end
                              | None => Ok tt
                              end) ids tt in
    (r = Ok tt /\ parents_exist m ids) \/ (r = Throw /\ ~ parents_exist m ids).
  Proof.
    intros Hnd. induction ids as [|id ids IH]; cbn -[native_dim].
    { left. split; [done|]. intros id d H. by apply elem_of_nil in H. }
    set (r1 := match dm_find id m with Some d => _ | None => _ end).
    assert (H1 : (r1 = Ok tt /\ forall d, (id, d) ∈ m -> exists dim, d_dim d = Some dim /\ exists id' d', (id', d') ∈ m /\ d_dim d' = Some (dim + 1)) \/
                 (r1 = Throw /\ exists d, (id, d) ∈ m /\ ~ exists dim, d_dim d = Some dim /\ exists id' d', (id', d') ∈ m /\ d_dim d' = Some (dim + 1))).
    { unfold r1. destruct (dm_find id m) as [d|] eqn:E.
      - pose proof (dm_find_elem _ _ _ E) as Hd. destruct (d_dim d) as [dim|] eqn:Ed.
        + destruct (ids_of_dim m (dim + 1)) as [|i l] eqn:Ei; cbn.
          * right. split; [done|]. exists d. split; [done|]. intros (dim' & Hdim & id' & d' & H1 & H2).
            assert (dim' = dim) as -> by congruence.
            assert (H : id' ∈ ids_of_dim m (dim + 1)) by (apply ids_of_dim_elem; by exists d').
            rewrite Ei in H. by apply elem_of_nil in H.
          * left. split; [done|]. intros d0 H0. apply (elem_dm_find _ _ _ Hnd) in H0. rewrite E in H0. injection H0 as <-.
            exists dim. split; [done|]. assert (H : i ∈ ids_of_dim m (dim + 1)) by (rewrite Ei; left).
            apply ids_of_dim_elem in H as (d' & ? & ?). by exists i, d'.
        + right. split; [done|]. exists d. split; [done|]. intros (dim & H & _). congruence.
      - left. split; [done|]. intros d H. apply (elem_dm_find _ _ _ Hnd) in H. congruence. }
    destruct H1 as [[-> H1]|[-> (d & Hd & H1)]]; cbn.
    - destruct IH as [[-> IH]|[-> IH]].
      + left. split; [done|]. intros id' d' Hin. apply elem_of_cons in Hin as [-> |Hin]; [apply H1|by apply IH].
      + right. split; [done|]. intros H. apply IH. intros id' d' Hin. apply H. by right.
    - right. split; [done|]. intros H. apply H1, (H id); [left|done].
  Qed.
  Lemma views_ok orders sched (m : doms) ids : valid_doms orders m -> (forall l, sched l ≡ₚ l) ->
    let r := makeBoundaryElementViews sched m ids in
    (exists views bs, r = Ok views /\ bs ≡ₚ visit_elems m ids /\ Forall2 (fun b v => attached m b v.1 v.2) bs views /\
       parents_exist m ids) \/
    (r = Throw /\ (~ parents_exist m ids \/ exists b, b ∈ visit_elems m ids /\ forall e s, ~ attached m b e s)).
  Proof.
    intros Hv Hsched. unfold makeBoundaryElementViews. assert (Hnd : NoDup m.*1) by (by apply strict_nodup, Hv).
    destruct (check_ok m ids Hnd) as [[-> Hp]|[-> Hp]]; cbn [mbind res_bind]; [|by right; split; [|left]].
    set (bs := sched (visit_elems m ids)). assert (Hbs : bs ≡ₚ visit_elems m ids) by apply Hsched.
    destruct (map_res (put_bnd_el_view m) bs) as [views| |] eqn:E; cbn.
    - apply map_res_inv in E. destruct (forallb _ views) eqn:Ef; cbn.
      + left. eexists _, bs. split; [done|]. split; [done|]. split; [|done].
        clear - E Ef Hv. induction E as [|b o bs' vs' Hb _ IH]; [constructor|]. cbn in Ef. apply andb_true_iff in Ef as [Ho Ef].
        destruct o as [[e s]|]; [|done]. cbn. constructor; [|auto]. cbn.
        destruct (put_ok orders m b Hv) as [(e' & s' & Hp & Ha)|[[Hp|Hp] _]]; rewrite Hp in Hb; [|done|done]. by injection Hb as <- <-.
      + right. split; [done|]. right.
        assert (Hex : exists b, b ∈ bs /\ put_bnd_el_view m b = Ok None).
        { clear - E Ef. induction E as [|b o bs' vs' Hb _ IH]; [done|]. cbn in Ef. destruct o as [v|].
          - destruct IH as (b' & H1 & H2); [done|]. exists b'. split; [by right|done].
          - exists b. split; [left|done]. }
        destruct Hex as (b & Hin & Hn). exists b. split; [by rewrite <- Hbs|].
        destruct (put_ok orders m b Hv) as [(e' & s' & Hp' & Ha)|[_ H]]; [congruence|done].
    - right. split; [done|]. right. apply map_res_throw in E as (b & Hin & Ht). exists b. split; [by rewrite <- Hbs|].
      destruct (put_ok orders m b Hv) as [(e' & s' & Hp' & Ha)|[_ H]]; [congruence|done].
    - exfalso. revert E. apply map_res_not_ub. intros b _. destruct (put_ok orders m b Hv) as [(? & ? & -> & _)|[[-> | ->] _]]; done.
  Qed.
  (** The two cases exclude each other. *)
  Lemma views_ok_iff orders sched (m : doms) ids : valid_doms orders m -> (forall l, sched l ≡ₚ l) ->
    (exists views, makeBoundaryElementViews sched m ids = Ok views) <->
    parents_exist m ids /\ forall b, b ∈ visit_elems m ids -> exists e s, attached m b e s.
  Proof.
    intros Hv Hs. destruct (views_ok orders sched m ids Hv Hs) as [(views & bs & Hr & Hbs & Hf & Hp)|[Hr Hn]]; cbn in Hr; rewrite Hr.
    - split; [|by eexists]. intros _. split; [done|]. intros b Hb. rewrite <- Hbs in Hb. apply elem_of_list_lookup in Hb as [i Hb].
      destruct (Forall2_lookup_l _ _ _ _ _ Hf Hb) as (v & _ & Ha). by eexists _, _.
    - split; [by intros [? ?]|]. intros [Hp Ha]. destruct Hn as [Hn|(b & Hb & Hn)]; [done|]. destruct (Ha b Hb) as (e & s & H). by destruct (Hn e s).
  Qed.
End boundary.

(** ** Constructors *)
Lemma dm_set_keys {A} k (a : A) (m : dmap A) j : j ∈ (dm_set k a m).*1 <-> j = k \/ j ∈ m.*1.
Proof.
  induction m as [|[k' a'] m IH]; cbn.
  - rewrite elem_of_list_singleton. split; [auto|]. intros [H|H]; [done|by apply elem_of_nil in H].
  - destruct (k <? k'); [cbn; by rewrite elem_of_cons|]. destruct (Nat.eqb_spec k k') as [->|]; cbn; rewrite !elem_of_cons; [tauto|].
    rewrite IH. tauto.
Qed.
Lemma dm_set_sorted {A} k (a : A) (m : dmap A) : StronglySorted lt m.*1 -> StronglySorted lt (dm_set k a m).*1.
Proof.
  induction m as [|[k' a'] m IH]; cbn; intros H; [repeat constructor|]. inversion H as [|? ? Hs Hf]; subst.
  destruct (Nat.ltb_spec k k').
  - cbn. constructor; [done|]. constructor; [done|]. eapply Forall_impl; [exact Hf|]. cbn. intros; lia.
  - destruct (Nat.eqb_spec k k') as [->|]; cbn; [by constructor|]. constructor; [auto|]. apply Forall_forall. intros j Hj.
    apply dm_set_keys in Hj as [->|Hj]; [lia|]. rewrite Forall_forall in Hf. by apply Hf.
Qed.
Lemma dm_set_elem {A} k (a : A) (m : dmap A) j b : StronglySorted lt m.*1 ->
  (j, b) ∈ dm_set k a m <-> (j = k /\ b = a) \/ (j <> k /\ (j, b) ∈ m).
Proof.
  induction m as [|[k' a'] m IH]; cbn; intros H.
  - rewrite elem_of_list_singleton. split; [intros [= -> ->]; auto|]. intros [[-> ->]|[_ H']]; [done|by apply elem_of_nil in H'].
  - inversion H as [|? ? Hs Hf]; subst. rewrite Forall_forall in Hf.
    assert (Hlt : forall j b, (j, b) ∈ m -> k' < j).
    { intros j' b' Hj. apply Hf, elem_of_list_fmap. by exists (j', b'). }
    destruct (Nat.ltb_spec k k').
    + rewrite !elem_of_cons. split.
      * intros [[= -> ->]|[[= -> ->]|Hin]]; [auto|right; split; [lia|auto]|]. right. split; [|auto]. apply Hlt in Hin. lia.
      * intros [[-> ->]|[_ [?|?]]]; auto.
    + destruct (Nat.eqb_spec k k') as [->|]; rewrite !elem_of_cons.
      * split; [intros [[= -> ->]|Hin]; [auto|]; right; split; [apply Hlt in Hin; lia|auto]|].
        intros [[-> ->]|[? [[= ? ?]|?]]]; auto; done.
      * rewrite IH by done. split; [intros [[= -> ->]|[?|[? ?]]]; auto|]. intros [?|[? [?|?]]]; auto.
Qed.
Lemma dm_find_iff {A} k (a : A) (m : dmap A) : StronglySorted lt m.*1 -> dm_find k m = Some a <-> (k, a) ∈ m.
Proof. intros H. split; [apply dm_find_elem|apply elem_dm_find; by apply strict_nodup]. Qed.

(** ** Parallel visits and reductions *)
Lemma Forall2_concat_perm {A B} (P : A -> list B -> Prop) (g : A -> list B) l ls :
  Forall2 P l ls -> (forall a b, P a b -> b ≡ₚ g a) -> concat ls ≡ₚ concat (map g l).
Proof. intros H Hp. induction H as [|a b l ls Hab _ IH]; [done|]. cbn. by rewrite (Hp a b Hab), IH. Qed.
Lemma visit_par_ok {V} (m : dmap (domain V)) ids calls : visit_par m ids calls -> calls ≡ₚ visit_elems m ids.
Proof.
  intros (per & Hf & Hi). rewrite (interleaves_perm _ _ Hi). eapply Forall2_concat_perm; [exact Hf|]. cbn.
  intros id l. destruct (dm_find id m); [apply uv_visit_par_ok|by intros ->].
Qed.
Section reduce.
  Context {R : Type} (op : R -> R -> R) (zero : R).
  Hypothesis Ha : forall x y z, op x (op y z) = op (op x y) z.
  Hypothesis Hc : forall x y, op x y = op y x.
  Hypothesis Hi : forall x, op zero x = x.
  Lemma foldl_op l x : foldl op x l = op x (foldl op zero l).
  Proof.
    revert x. induction l as [|a l IH]; intros x; cbn; [by rewrite Hc, Hi|]. rewrite IH, (IH (op zero a)), Hi. by rewrite Ha.
  Qed.
  Lemma mesh_reduce_ok {V} par (f : element V -> R) (m : dmap (domain V)) ids r :
    mesh_transformReduce par op f m ids zero r -> r = foldl op zero (map f (visit_elems m ids)).
  Proof.
    intros (parts & Hf & Hg). apply (gen_sum_fold op zero Ha Hc Hi) in Hg. rewrite Hg. rewrite <- (foldl_fold op zero Ha Hc Hi).
    clear Hg r. cbn. rewrite Hi. revert parts Hf. unfold visit_elems. induction ids as [|id ids IH]; intros parts Hf; cbn in Hf.
    - inversion Hf. done.
    - destruct (dm_find id m) as [d|] eqn:E; cbn; rewrite E.
      + inversion Hf as [|? p ? parts' Hp Hrest]; subst. apply (uv_reduce_ok op zero Ha Hc Hi) in Hp. cbn.
        rewrite Hi, map_app, foldl_app, foldl_op, (IH _ Hrest), Hp, <- foldl_op. done.
      + cbn. by apply IH.
  Qed.
End reduce.

Section ctors.
  Context {V : Type}.
  Notation el := (element V).
  Notation doms := (dmap (domain V)).
  Lemma init_ok orders sched (m : doms) ids : valid_doms orders m -> (forall l, sched l ≡ₚ l) ->
    (exists r, initBoundaryViews sched m ids = Ok r /\ StronglySorted lt r.*1 /\ (forall id, id ∈ r.*1 <-> id ∈ ids) /\
       forall id v, (id, v) ∈ r -> makeBoundaryElementViews sched m [id] = Ok v) \/
    (initBoundaryViews sched m ids = Throw /\ exists id, id ∈ ids /\ makeBoundaryElementViews sched m [id] = Throw).
  Proof.
    intros Hv Hs. unfold initBoundaryViews.
    assert (Hgen : forall r0 pre, StronglySorted lt r0.*1 -> (forall id, id ∈ r0.*1 <-> id ∈ pre) ->
      (forall id v, (id, v) ∈ r0 -> makeBoundaryElementViews sched m [id] = Ok v) ->
      let q := for_each (fun id r => bv ← makeBoundaryElementViews sched m [id]; Ok (dm_emplace id bv r)) ids r0 in
      (exists r, q = Ok r /\ StronglySorted lt r.*1 /\ (forall id, id ∈ r.*1 <-> id ∈ pre ++ ids) /\
         forall id v, (id, v) ∈ r -> makeBoundaryElementViews sched m [id] = Ok v) \/
      (q = Throw /\ exists id, id ∈ ids /\ makeBoundaryElementViews sched m [id] = Throw)).
    { induction ids as [|i ids IH]; intros r0 pre H1 H2 H3; cbn [for_each].
      - left. exists r0. rewrite app_nil_r. done.
      - destruct (views_ok orders sched m [i] Hv Hs) as [(views & _ & Hr & _)|[Hr _]]; cbv zeta in Hr; rewrite Hr; cbn [mbind res_bind].
        + destruct (IH (dm_emplace i views r0) (pre ++ [i])) as [(r & Hq & Hr1 & Hr2 & Hr3)|(Hq & id & Hid & Ht)].
          * unfold dm_emplace. destruct (dm_find i r0); [done|by apply dm_set_sorted].
          * intros id. rewrite elem_of_app, elem_of_list_singleton. unfold dm_emplace. destruct (dm_find i r0) as [v|] eqn:E.
            -- rewrite H2. split; [auto|]. intros [?| ->]; [done|]. apply H2, elem_of_list_fmap. exists (i, v). split; [done|by apply dm_find_elem].
            -- rewrite dm_set_keys, H2. tauto.
          * intros id v. unfold dm_emplace. destruct (dm_find i r0) as [v'|] eqn:E; [apply H3|].
            rewrite dm_set_elem by done. intros [[-> ->]|[_ H]]; [done|by apply H3].
          * left. exists r. rewrite <- app_assoc in Hr2. done.
          * right. split; [done|]. exists id. split; [by right|done].
        + right. split; [done|]. exists i. split; [left|done]. }
    apply (Hgen [] []); [constructor|done|]. intros id v H. by apply elem_of_nil in H.
  Qed.
  Lemma node_set_elem (m : doms) n : NoDup m.*1 -> n ∈ node_set m <-> is_node m n.
  Proof.
    intros H. unfold node_set, is_node. rewrite elem_of_remove_dups, elem_of_concat. split.
    - intros (l & Hn & Hl). apply (elem_of_list_fmap_2 el_nodes) in Hl as (e & -> & He). exists e. split; [|done]. by apply all_elems_elem.
    - intros (e & He & Hn). exists (el_nodes e). split; [done|]. apply (elem_of_list_fmap_1 el_nodes). by apply all_elems_elem.
  Qed.
  Lemma make_ownership_ok b n sh : (forall x, x ∈ sh -> ~ (b <= x < b + n)) ->
    make_ownership b n sh = Ok {| so_begin := b; so_end := b + n; so_shared := sort sh |}.
  Proof.
    intros H. unfold make_ownership. replace (forallb _ sh) with true; [done|]. symmetry. apply forallb_forall.
    intros x Hx. apply elem_of_list_In in Hx. apply H in Hx. unfold isOwned. cbn.
    destruct (Nat.leb_spec b x); [|done]. destruct (Nat.ltb_spec x (b + n)); [lia|done].
  Qed.
  Lemma make_ownership_inv b n sh so : make_ownership b n sh = Ok so ->
    so = {| so_begin := b; so_end := b + n; so_shared := sort sh |} /\ forall x, x ∈ sh -> ~ (b <= x < b + n).
  Proof.
    unfold make_ownership. destruct (forallb _ sh) eqn:E; cbn; [|done]. intros [= <-]. split; [done|].
    intros x Hx Hr. rewrite forallb_forall in E. specialize (E x ltac:(by apply elem_of_list_In)). unfold isOwned in E. cbn in E.
    destruct (Nat.leb_spec b x); [|lia]. destruct (Nat.ltb_spec x (b + n)); [done|lia].
  Qed.
  Lemma mesh2_ok orders sched shuffle (m : doms) b n ids :
    valid_doms orders m -> (forall l, sched l ≡ₚ l) -> (forall l, shuffle l ≡ₚ l) ->
    match initBoundaryViews sched m ids with
    | Ok bnds => exists so, make_mesh2 sched shuffle m b n ids = Ok (mk_mesh m so bnds) /\
        so_begin so = b /\ so_end so = b + n /\ StronglySorted lt (so_shared so) /\
        (forall x, x ∈ so_shared so <-> is_node m x /\ ~ (b <= x < b + n))
    | _ => make_mesh2 sched shuffle m b n ids = Throw
    end.
  Proof.
    intros Hv Hs Hsh. unfold make_mesh2. assert (Hnd : NoDup m.*1) by (by apply strict_nodup, Hv).
    destruct (init_ok orders sched m ids Hv Hs) as [(r & -> & _)|[-> _]]; cbn [mbind res_bind]; [|done].
    set (gh := List.filter _ (node_set m)).
    assert (Hgh : forall x, x ∈ gh <-> is_node m x /\ ~ (b <= x < b + n)).
    { intros x. unfold gh. rewrite elem_of_list_In, filter_In, <- elem_of_list_In, node_set_elem by done.
      destruct (Nat.ltb_spec x b), (Nat.leb_spec (b + n) x); cbn; intuition lia. }
    rewrite make_ownership_ok by (intros x; rewrite Hsh, Hgh; tauto). cbn. eexists. split; [done|]. cbn.
    split; [done|]. split; [done|]. split.
    - apply sorted_nodup_strict; [apply sort_sorted|]. apply sort_nodup. rewrite Hsh. unfold gh.
      apply NoDup_ListNoDup. apply List.NoDup_filter. apply NoDup_ListNoDup. apply NoDup_remove_dups.
    - intros x. by rewrite sort_elem, Hsh, Hgh.
  Qed.
  Lemma list_min_le l x : x ∈ l -> list_min l <= x.
  Proof.
    destruct l as [|a l]; [intros H; by apply elem_of_nil in H|]. cbn. intros H. apply elem_of_cons in H as [->|H].
    - induction l as [|b l IH]; cbn; [lia|]. lia.
    - induction l as [|b l IH]; [by apply elem_of_nil in H|]. cbn. apply elem_of_cons in H as [->|H]; [lia|]. specialize (IH H). lia.
  Qed.
  Lemma list_min_elem l : l <> [] -> list_min l ∈ l.
  Proof.
    destruct l as [|a l]; [done|]. intros _. cbn. induction l as [|b l IH]; cbn; [left|].
    destruct (Nat.min_spec b (foldr Nat.min a l)) as [[_ ->]|[_ ->]]; [right; left|]. apply elem_of_cons in IH as [->|IH]; [left|right; by right].
  Qed.
  (** A set of numbers without gaps. *)
  Lemma contiguous_list l b n : NoDup l -> (forall x, x ∈ l <-> b <= x < b + n) -> length l = n /\ (n <> 0 -> list_min l = b).
  Proof.
    intros Hnd H. split.
    - assert (Hp : l ≡ₚ seq b n) by (apply NoDup_Permutation; [done|apply NoDup_seq|]; intros x; rewrite H, elem_of_seq; lia).
      by rewrite Hp, seq_length.
    - intros Hn. assert (Hb : b ∈ l) by (apply H; lia). apply list_min_le in Hb. assert (list_min l ∈ l) as Hm%H; [|lia].
      apply list_min_elem. intros ->. specialize (proj2 (H b)). intros Hx. assert (b ∈ ([] : list nat)) as He by (apply Hx; lia). by apply elem_of_nil in He.
  Qed.
  Lemma mesh1_ok orders sched (m : doms) ids b n :
    valid_doms orders m -> (forall l, sched l ≡ₚ l) -> (forall x, is_node m x <-> b <= x < b + n) ->
    match initBoundaryViews sched m ids with
    | Ok bnds => exists so, make_mesh1 sched m ids = Ok (mk_mesh m so bnds) /\
        so_shared so = [] /\ (forall x, isOwned so x = true <-> is_node m x) /\ numOwned so = n
    | _ => make_mesh1 sched m ids = Throw
    end.
  Proof.
    intros Hv Hs Hc. unfold make_mesh1. assert (Hnd : NoDup m.*1) by (by apply strict_nodup, Hv).
    rewrite make_ownership_ok by (intros x H; by apply elem_of_nil in H). cbn [mbind res_bind].
    destruct (init_ok orders sched m ids Hv Hs) as [(r & -> & _)|[-> _]]; cbn [mbind res_bind]; [|done].
    destruct (contiguous_list (node_set m) b n) as [Hl Hm].
    { apply NoDup_remove_dups. } { intros x. by rewrite node_set_elem. }
    eexists. split; [done|]. cbn. split; [done|]. rewrite Hl. unfold isOwned, numOwned. cbn. split; [|lia].
    intros x. rewrite Hc. destruct (decide (n = 0)) as [->|Hn].
    - destruct (Nat.leb_spec (list_min (node_set m)) x), (Nat.ltb_spec x (list_min (node_set m) + 0)); cbn; split; try done; lia.
    - rewrite Hm by done. destruct (Nat.leb_spec b x), (Nat.ltb_spec x (b + n)); cbn; split; try done; lia.
  Qed.

  (** ** reindexNodes *)
  Lemma reindex_ok f (m : mesh V) b : let so := m_own m in let n := numOwned so in
    (forall y, (exists x, so_begin so <= x < so_begin so + n /\ f x = y) <-> b <= y < b + n) ->
    (forall x, x ∈ so_shared so -> ~ (b <= f x < b + n)) ->
    exists m', reindexNodes f m = Ok m' /\
      numOwned (m_own m') = n /\ (forall y, isOwned (m_own m') y = true <-> b <= y < b + n) /\
      so_shared (m_own m') = sort (map f (so_shared so)) /\
      m_domains m' = map (fun d : nat * domain V => (d.1, reindex_domain f d.2)) (m_domains m) /\
      m_bnds m' = map (fun v : nat * list (el * nat) => (v.1, map (fun w => (reindex_el f w.1, w.2)) v.2)) (m_bnds m).
  Proof.
    intros so n Ho Hsh. unfold reindexNodes. fold so. fold n.
    set (nb := match seq (so_begin so) n with [] => 0 | _ => _ end).
    assert (Hnb : n <> 0 -> nb = b).
    { intros Hn. unfold nb. destruct (seq (so_begin so) n) as [|a l] eqn:E; [destruct n; done|]. rewrite <- E.
      assert (Hel : forall y, y ∈ map f (seq (so_begin so) n) <-> b <= y < b + n).
      { intros y. rewrite (elem_of_list_fmap f), <- Ho. split.
        - intros (x & -> & Hx). apply elem_of_seq in Hx. by exists x.
        - intros (x & Hx & <-). exists x. split; [done|]. by apply elem_of_seq. }
      assert (list_min (map f (seq (so_begin so) n)) <= b) by (apply list_min_le, Hel; lia).
      assert (list_min (map f (seq (so_begin so) n)) ∈ map f (seq (so_begin so) n)) as Hm%Hel; [|lia].
      apply list_min_elem. rewrite E. done. }
    rewrite make_ownership_ok; cbn [mbind res_bind].
    2: { intros y Hy. apply (elem_of_list_fmap f) in Hy as (x & -> & Hx). specialize (Hsh x Hx).
         destruct (decide (n = 0)) as [Hz|Hz]; [lia|]. rewrite (Hnb Hz). done. }
    eexists. split; [done|]. cbn. unfold numOwned, isOwned. cbn. split; [lia|]. split; [|done].
    intros y. destruct (decide (n = 0)) as [Hz|Hz].
    - rewrite Hz. destruct (Nat.leb_spec nb y), (Nat.ltb_spec y (nb + 0)); cbn; split; try done; lia.
    - rewrite (Hnb Hz). destruct (Nat.leb_spec b y), (Nat.ltb_spec y (b + n)); cbn; split; try done; lia.
  Qed.
End ctors.

(** ** pushToDomain *)
Lemma pos_of_some {A} `{EqDecision A} (x : A) l : x ∈ l -> exists i, pos_of x l = Some i /\ l !! i = Some x.
Proof.
  induction l as [|y l IH]; intros H; [by apply elem_of_nil in H|]. cbn. destruct (decide (x = y)) as [->|Hn]; [by exists 0|].
  apply elem_of_cons in H as [->|H]; [done|]. destruct (IH H) as (i & -> & Hi). by exists (S i).
Qed.
Lemma pos_of_lookup {A} `{EqDecision A} (x : A) l i : pos_of x l = Some i -> l !! i = Some x.
Proof.
  revert i. induction l as [|y l IH]; intros i; [done|]. cbn. destruct (decide (x = y)) as [->|Hn]; [by intros [= <-]|].
  destruct (pos_of x l) as [j|]; [|done]. intros [= <-]. cbn. auto.
Qed.
Lemma concat_insert_app {A} (ls : list (list A)) i v x : ls !! i = Some v -> concat (<[i := v ++ [x]]> ls) ≡ₚ x :: concat ls.
Proof.
  revert i. induction ls as [|l ls IH]; intros i H; [done|]. destruct i as [|i]; cbn in *.
  - injection H as ->. rewrite <- app_assoc. cbn. symmetry. apply Permutation_middle.
  - rewrite (IH i H). symmetry. apply Permutation_middle.
Qed.
Section push.
  Context {V : Type} (orders : list nat).
  Notation el := (element V).
  Lemma push_ok (d : domain V) (e : el) : typed_domain orders d -> typed_el e -> (el_type e, el_order e) ∈ slots orders ->
    if decide (d_dim d = None \/ d_dim d = Some (native_dim (el_type e)))
    then exists d', pushToDomain orders d e = Ok d' /\ typed_domain orders d' /\ d_dim d' = Some (native_dim (el_type e)) /\
           (dim_domain d -> dim_domain d') /\
           exists i v, slots orders !! i = Some (el_type e, el_order e) /\ d_els d !! i = Some v /\ d_els d' = <[i := v ++ [e]]> (d_els d)
    else pushToDomain orders d e = Throw.
  Proof.
    intros Ht Hte Hs. unfold pushToDomain. case_decide as Hd.
    - assert (default (native_dim (el_type e)) (d_dim d) = native_dim (el_type e)) as -> by (destruct Hd as [-> | ->]; done).
      rewrite Nat.eqb_refl. change (throwing_assert true) with (Ok tt). rewrite bind_ok.
      destruct (pos_of_some _ _ Hs) as (i & Hpos & Hi). rewrite Hpos.
      destruct (Forall2_lookup_l _ _ _ _ _ Ht Hi) as (v & Hv & Hf). rewrite (rd_ok _ _ _ Hv), bind_ok.
      eexists. split; [done|]. cbn. split; [|split; [done|split]].
      + assert (Forall2 (fun s v => Forall (fun e => (el_type e, el_order e) = s /\ typed_el e) v) (<[i := (el_type e, el_order e)]> (slots orders)) (<[i := v ++ [e]]> (d_els d))) as H.
        { apply Forall2_insert; [exact Ht|]. apply Forall_app. split; [done|]. repeat constructor; apply Hte. }
        rewrite list_insert_id in H by done. exact H.
      + intros Hdd v' e' Hv' He'. cbn in Hv'. cbn. apply elem_of_list_lookup in Hv' as [j Hj].
        destruct (decide (i = j)) as [->|Hij].
        * rewrite list_lookup_insert in Hj by (by eapply lookup_lt_Some). injection Hj as <-. apply elem_of_app in He' as [He'|He'].
          -- assert (d_dim d = Some (native_dim (el_type e'))) by (eapply Hdd; [by eapply elem_of_list_lookup_2|done]). destruct Hd as [H'|H']; congruence.
          -- apply elem_of_list_singleton in He' as ->. done.
        * rewrite list_lookup_insert_ne in Hj by done.
          assert (d_dim d = Some (native_dim (el_type e'))) by (eapply Hdd; [by eapply elem_of_list_lookup_2|done]). destruct Hd as [H'|H']; congruence.
      + exists i, v. done.
    - destruct (d_dim d) as [k|]; [|by destruct Hd; left]. cbn. destruct (Nat.eqb_spec k (native_dim (el_type e))) as [->|]; [by destruct Hd; right|]. done.
  Qed.
  Lemma empty_domain_ok : typed_domain (V := V) orders (empty_domain orders) /\ dim_domain (V := V) (empty_domain orders).
  Proof.
    split.
    - unfold typed_domain, empty_domain. cbn. change (map (fun _ => []) (slots orders)) with ((fun _ => @nil el) <$> slots orders).
      rewrite Forall2_fmap_r. apply Forall_Forall2_diag, Forall_true. constructor.
    - intros v e Hv He. unfold empty_domain in Hv. cbn in Hv. apply (elem_of_list_fmap (fun _ => [])) in Hv as (? & -> & _). by apply elem_of_nil in He.
  Qed.
End push.

(** ** copy *)
Lemma sorted_map_ext {A} (g : nat -> option A) (m1 m2 : dmap A) : StronglySorted lt m1.*1 -> StronglySorted lt m2.*1 ->
  (forall k, k ∈ m1.*1 <-> k ∈ m2.*1) -> (forall k a, (k, a) ∈ m1 -> g k = Some a) -> (forall k a, (k, a) ∈ m2 -> g k = Some a) -> m1 = m2.
Proof.
  intros H1 H2 Hk Hg1 Hg2. assert (Hm : m1.*1 = m2.*1) by (by apply strict_ext).
  clear H1 H2 Hk. revert m2 Hm Hg2. induction m1 as [|[k a] m1 IH]; intros [|[k' a'] m2] Hm Hg2; try done. cbn in Hm. injection Hm as -> Hm.
  assert (g k' = Some a) by (apply Hg1; left). assert (g k' = Some a') by (apply Hg2; left). f_equal; [congruence|].
  apply IH; [intros; apply Hg1; by right|done|]. intros; apply Hg2; by right.
Qed.
Lemma copy_ok {V} orders sched shuffle shuffle' (m : dmap (domain V)) b n ids x :
  valid_doms orders m -> (forall l, sched l ≡ₚ l) -> (forall l, shuffle l ≡ₚ l) -> (forall l, shuffle' l ≡ₚ l) ->
  make_mesh2 sched shuffle m b n ids = Ok x ->
  exists so, copy_mesh sched shuffle' x = Ok (mk_mesh (m_domains x) so (m_bnds x)) /\
    so_shared so = so_shared (m_own x) /\ numOwned so = numOwned (m_own x) /\ forall i, isOwned so i = isOwned (m_own x) i.
Proof.
  intros Hv Hs H1 H2 Hx. pose proof (mesh2_ok orders sched shuffle m b n ids Hv Hs H1) as Hm.
  destruct (init_ok orders sched m ids Hv Hs) as [(r & Hr & Hr1 & Hr2 & Hr3)|[Hr _]]; rewrite Hr in Hm; [|congruence].
  destruct Hm as (so & Hso & Hb & He & Hsort & Hsh). rewrite Hx in Hso. injection Hso as ->. unfold copy_mesh. cbn [m_own m_domains m_bnds].
  assert (Hno : numOwned so = n) by (unfold numOwned; lia). rewrite Hno, Hb. set (b' := if n =? 0 then 0 else b).
  pose proof (mesh2_ok orders sched shuffle' m b' n r.*1 Hv Hs H2) as Hm.
  destruct (init_ok orders sched m r.*1 Hv Hs) as [(r' & Hr' & Hr1' & Hr2' & Hr3')|[Hr' (id & Hid & Ht)]].
  - rewrite Hr' in Hm. destruct Hm as (so' & -> & Hb' & He' & Hsort' & Hsh'). exists so'.
    assert (r' = r) as ->.
    { apply (sorted_map_ext (fun k => match makeBoundaryElementViews sched m [k] with Ok v => Some v | _ => None end)); [done|done|done| |].
      - intros k a H. by rewrite (Hr3' k a H).
      - intros k a H. by rewrite (Hr3 k a H). }
    split; [done|]. assert (Hrange : forall i, b' <= i < b' + n <-> b <= i < b + n).
    { intros i. unfold b'. destruct (Nat.eqb_spec n 0); lia. }
    split; [|split].
    + apply strict_ext; [done|done|]. intros i. by rewrite Hsh, Hsh', Hrange.
    + unfold numOwned. lia.
    + intros i. unfold isOwned. rewrite Hb, He, Hb', He'. specialize (Hrange i).
      destruct (Nat.leb_spec b' i), (Nat.ltb_spec i (b' + n)), (Nat.leb_spec b i), (Nat.ltb_spec i (b + n)); cbn; try done; lia.
  - exfalso. apply elem_of_list_fmap in Hid as ([k v] & -> & Hkv). cbn [fst] in Ht. rewrite (Hr3 k v Hkv) in Ht. done.
Qed.
