(** Lemmas for C80: the coordinates of the boundary nodes. *)
From Coq Require Import QArith Qabs.
From Verif Require Import Base StdAlgo Ownership_model Elem_model Elem_spec Elem_proofs Mesh_model Mesh_spec Mesh_proofs Merge_model Merge_spec Merge_proofs Merge3_proofs Merge4_proofs Spatial_model Match_model Match_spec.
Local Open Scope nat_scope.

Lemma concat_elem {A} (ls : list (list A)) x : x ∈ concat ls <-> exists l, l ∈ ls /\ x ∈ l.
Proof.
  induction ls as [|l ls IH]; cbn; [rewrite elem_of_nil; split; [done|]; intros (l & Hl & _); by apply elem_of_nil in Hl|].
  rewrite elem_of_app, IH. split; [intros [H|(l' & H1 & H2)]; [exists l; split; [left|done]|exists l'; split; [by right|done]]|].
  intros (l' & H1 & H2). apply elem_of_cons in H1 as [-> |H1]; [by left|right; by exists l'].
Qed.
Section coords.
  Context (n : nat) (loc : nat -> pt).
  Definition inv (done : list nat) (lookup : list (list fl)) : Prop :=
    length lookup = n /\ forall i, i < n -> (i ∈ done /\ exists v, lookup !! i = Some (coords v) /\ same_point v (loc i)) \/ (i ∉ done /\ lookup !! i = Some nan_point).
  Lemma inv_wr done l i v : inv done l -> i < n -> same_point v (loc i) -> wr l i (coords v) = Ok (<[i := coords v]> l) /\ inv (done ++ [i]) (<[i := coords v]> l).
  Proof.
    intros [Hl H] Hi Hv. split; [apply wr_ok; lia|]. split; [by rewrite insert_length|]. intros j Hj. destruct (decide (j = i)) as [-> |Hne].
    - left. split; [apply elem_of_app; right; by left|]. exists v. split; [|done]. apply list_lookup_insert. lia.
    - rewrite list_lookup_insert_ne by done. destruct (H j Hj) as [[H1 H2]|[H1 H2]]; [left|right]; (split; [|done]).
      + apply elem_of_app. by left.
      + rewrite elem_of_app, elem_of_list_singleton. tauto.
  Qed.
  Lemma put_ok (e : element pt) s ns done l : inv done l -> side_view_nodes (e, s) = Ok ns -> (forall i, i ∈ ns -> i < n) ->
    Forall2 (fun n v => same_point v (loc n)) (el_nodes e) (el_verts e) -> exists l', put_nodes (e, s) l = Ok l' /\ inv (done ++ ns) l'.
  Proof.
    intros HI Hs Hn Hloc. unfold side_view_nodes in Hs. cbn [fst snd] in Hs. apply bind_inv in Hs as (inds & Hr & Hs). unfold put_nodes. cbn [fst snd]. rewrite Hr, bind_ok. apply map_res_inv in Hs. clear Hr.
    revert done l HI. induction Hs as [|i m inds ns Him Hs IH]; intros done l HI; cbn [for_each].
    - exists l. by rewrite app_nil_r.
    - rewrite Him, bind_ok. apply rd_inv in Him. destruct (Forall2_lookup_l _ _ _ _ _ Hloc Him) as (v & Hv & Hsp). rewrite (rd_ok _ _ _ Hv), bind_ok.
      assert (Hm : m < n) by (apply Hn; left). destruct (inv_wr done l m v HI Hm Hsp) as [Hw HI']. destruct HI as [Hl _]. rewrite (proj2 (Nat.ltb_lt m (length l))) by lia. change (throwing_assert true) with (Ok tt). rewrite bind_ok, Hw, bind_ok.
      destruct (IH ltac:(intros j Hj; apply Hn; by right) _ _ HI') as (l' & Hl' & HI2). exists l'. split; [done|]. by rewrite <- app_assoc in HI2.
  Qed.
  Lemma put_all (vs : list (element pt * nat)) done l : inv done l ->
    (forall v, v ∈ vs -> (exists ns, side_view_nodes v = Ok ns /\ forall i, i ∈ ns -> i < n) /\ Forall2 (fun n v => same_point v (loc n)) (el_nodes v.1) (el_verts v.1)) ->
    exists l' D, for_each put_nodes vs l = Ok l' /\ inv (done ++ D) l' /\ forall i, i ∈ D <-> exists v ns, v ∈ vs /\ side_view_nodes v = Ok ns /\ i ∈ ns.
  Proof.
    revert done l. induction vs as [|[e s] vs IH]; intros done l HI H; cbn [for_each].
    - exists l, []. rewrite app_nil_r. split; [done|]. split; [done|]. intros i. rewrite elem_of_nil. split; [done|]. intros (v & ns & Hv & _). by apply elem_of_nil in Hv.
    - destruct (H (e, s) ltac:(left)) as [(ns & Hns & Hlt) Hloc]. destruct (put_ok e s ns done l HI Hns Hlt Hloc) as (l1 & H1 & HI1). rewrite H1, bind_ok.
      destruct (IH (done ++ ns) l1 HI1) as (l2 & D & H2 & HI2 & HD); [intros v Hv; apply H; by right|]. exists l2, (ns ++ D). split; [done|]. split; [by rewrite app_assoc|].
      intros i. rewrite elem_of_app, HD. split.
      + intros [Hi|(v & ns' & Hv & Hn & Hi)]; [exists (e, s), ns; split; [left|done]|]. exists v, ns'. split; [by right|done].
      + intros (v & ns' & Hv & Hn & Hi). apply elem_of_cons in Hv as [-> |Hv]; [left; rewrite Hns in Hn; by injection Hn as <-|]. right. by exists v, ns'.
  Qed.
End coords.

(** What the map of boundary nodes holds: every node. *)
Definition node_coords (x : mesh pt) (n : nat) (loc : nat -> pt) (E : list (nat * list fl)) : Prop :=
  NoDup E.*1 /\ (forall i, i < n -> exists c, (i, c) ∈ E) /\
  forall i c, (i, c) ∈ E -> i < n /\ ((boundary_node x i /\ exists v, c = coords v /\ same_point v (loc i)) \/ (~ boundary_node x i /\ c = nan_point)).

Lemma nan_differs p : point_eq p nan_point = false.
Proof.
  unfold point_eq, nan_point. destruct p as [|a [|b [|c [|d p]]]]; try done. cbn. by destruct a.
Qed.
Lemma filter_none {A} (l : list A) f : (forall a, f a = true) -> List.filter f l = l.
Proof. intros H. induction l as [|a l IH]; [done|]. cbn. by rewrite H, IH. Qed.
Lemma zip_seq_elem {A} (l : list A) k i c : (i, c) ∈ zip (seq k (length l)) l <-> k <= i /\ l !! (i - k) = Some c.
Proof.
  revert k. induction l as [|a l IH]; intros k; cbn [length seq zip_with].
  - rewrite elem_of_nil. split; [done|]. intros [_ H]. by rewrite lookup_nil in H.
  - rewrite elem_of_cons, IH. split.
    + intros [[= -> ->]|[H1 H2]]; [split; [lia|]; by rewrite Nat.sub_diag|]. split; [lia|]. replace (i - k) with (S (i - S k)) by lia. done.
    + intros [H1 H2]. destruct (decide (i = k)) as [-> |Hne]; [left; rewrite Nat.sub_diag in H2; by injection H2 as ->|]. right. split; [lia|]. replace (i - k) with (S (i - S k)) in H2 by lia. done.
Qed.
Lemma local_size_whole (x : mesh pt) n k : whole_mesh x n k -> localSize (m_own x) = n.
Proof. intros H. destruct (wm_own _ _ _ H) as (H1 & H2 & H3). unfold localSize, numOwned. rewrite H1, H2, H3. cbn. lia. Qed.
Lemma node_coords_ok sched (order : list (nat * list fl) -> list (nat * list fl)) (x : mesh pt) n k loc : (forall l, sched l ≡ₚ l) -> (forall l, order l ≡ₚ l) -> whole_mesh x n k -> located x loc ->
  exists c, makeBoundaryNodeCoordsMap sched x = Ok c /\ node_coords x n loc (order c).
Proof.
  intros Hsch Hord H Hloc. unfold makeBoundaryNodeCoordsMap. rewrite (local_size_whole _ _ _ H).
  assert (Hv : forall v, v ∈ concat (m_bnds x).*2 -> exists b ns, boundary_el x b /\ is_elem (m_domains x) v.1 /\ side_view_nodes v = Ok ns /\ ns ≡ₚ el_nodes b).
  { intros v Hv. apply concat_elem in Hv as (vs & Hvs & Hv). apply elem_of_list_fmap in Hvs as ([b0 vs'] & -> & Hin). cbn in Hv.
    destruct (wm_views _ _ _ H b0 vs' Hin) as (bs & Hbs & HF). apply elem_of_list_lookup in Hv as [j Hj]. destruct (Forall2_lookup_r _ _ _ _ _ HF Hj) as (b & Hb & Ha & _ & Hso).
    destruct v as [e s]. cbn [fst snd] in *. destruct (side_view_ok b e s Hso) as (ns & Hns & Hp). exists b, ns. split; [|done]. exists b0. split; [apply elem_of_list_fmap; by exists (b0, vs')|].
    apply Hbs. by apply elem_of_list_lookup_2 in Hb. }
  assert (Hb : forall b, boundary_el x b -> exists v ns, v ∈ concat (m_bnds x).*2 /\ side_view_nodes v = Ok ns /\ ns ≡ₚ el_nodes b).
  { intros b (b0 & Hb0 & Hb). apply elem_of_list_fmap in Hb0 as ([b1 vs] & -> & Hin). cbn [fst] in *. destruct (wm_views _ _ _ H b1 vs Hin) as (bs & Hbs & HF). apply Hbs in Hb. apply elem_of_list_lookup in Hb as [j Hj].
    destruct (Forall2_lookup_l _ _ _ _ _ HF Hj) as ([e s] & Hvj & _ & _ & Hso). cbn [fst snd] in *. destruct (side_view_ok b e s Hso) as (ns & Hns & Hp). exists (e, s), ns. split; [|done].
    apply concat_elem. exists vs. split; [|by apply elem_of_list_lookup_2 in Hvj]. apply elem_of_list_fmap. by exists (b1, vs). }
  destruct (put_all n loc (sched (concat (m_bnds x).*2)) [] (replicate n nan_point)) as (l & D & Hl & [Hlen HI] & HD).
  - split; [apply replicate_length|]. intros i Hi. right. split; [apply not_elem_of_nil|]. by apply lookup_replicate_2.
  - intros v Hvin. rewrite (Hsch _) in Hvin. destruct (Hv v Hvin) as (b & ns & (b0 & Hb0 & Hbd) & He & Hns & Hp). split; [|by apply Hloc]. exists ns. split; [done|]. intros i Hi. apply (wm_nodes _ _ _ H). exists b. split; [by exists b0|]. by rewrite <- Hp.
  - assert (HDb : forall i, i ∈ D <-> boundary_node x i).
    { intros i. rewrite HD. split.
      - intros (v & ns & Hvin & Hns & Hi). rewrite (Hsch _) in Hvin. destruct (Hv v Hvin) as (b & ns' & Hbe & _ & Hns' & Hp). rewrite Hns in Hns'. injection Hns' as <-. exists b. split; [done|]. by rewrite <- Hp.
      - intros (b & Hbe & Hi). destruct (Hb b Hbe) as (v & ns & Hvin & Hns & Hp). exists v, ns. split; [by rewrite (Hsch _)|]. split; [done|]. by rewrite Hp. }
    rewrite Hl, bind_ok, filter_none by (intros a; by rewrite nan_differs). eexists. split; [reflexivity|]. cbn [app] in HI. split; [|split].
    + rewrite (Hord _). rewrite fst_zip by (rewrite seq_length; lia). apply NoDup_seq.
    + intros i Hi. destruct (lookup_lt_is_Some_2 l i ltac:(lia)) as [c Hc]. exists c. rewrite (Hord _). apply zip_seq_elem. split; [lia|]. by rewrite Nat.sub_0_r.
    + intros i c Hic. rewrite (Hord _) in Hic. apply zip_seq_elem in Hic as [_ Hc]. rewrite Nat.sub_0_r in Hc. assert (Hi : i < n) by (apply lookup_lt_Some in Hc; lia). split; [done|]. destruct (HI i Hi) as [[H1 (v & H2 & H3)]|[H1 H2]]; rewrite HDb in H1; rewrite Hc in H2; injection H2 as ->; [left|by right]. split; [done|]. by exists v.
Qed.
