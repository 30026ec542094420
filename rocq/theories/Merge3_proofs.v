(** C22: faces of a mesh, renumbering of ids and nodes. *)
From Verif Require Import Base StdAlgo Ownership_model Elem_model Elem_spec Elem_proofs Mesh_model Mesh_spec Mesh_proofs Build_proofs Prim_spec Prim_proofs Merge_model Merge_spec Merge_proofs Merge2_proofs.
Local Arguments Nat.mul : simpl never.
Local Arguments Nat.add : simpl never.
Local Arguments Nat.sub : simpl never.

Lemma map_res_f2 {A B} (f : A -> res B) l bs : Forall2 (fun a b => f a = Ok b) l bs -> map_res f l = Ok bs.
Proof. induction 1 as [|a b l bs H HF IH]; [done|]. cbn. rewrite H. cbn. by rewrite IH. Qed.
Lemma perm_filter {A} (p : A -> bool) l : List.filter (fun x => negb (p x)) l ++ List.filter p l ≡ₚ l.
Proof.
  induction l as [|a l IH]; [done|]. cbn [List.filter]. destruct (p a); cbn [negb app]; [|by rewrite IH].
  rewrite <- IH at 3. by rewrite <- Permutation_middle.
Qed.
Lemma concat_app_perm {A B} (F G H : A -> list B) l : (forall a, F a ++ G a ≡ₚ H a) -> concat (map F l) ++ concat (map G l) ≡ₚ concat (map H l).
Proof.
  intros HF. induction l as [|a l IH]; [done|]. cbn [map concat]. rewrite <- IH, <- HF, <- !app_assoc. apply Permutation_app_head.
  rewrite !app_assoc. apply Permutation_app_tail, Permutation_app_comm.
Qed.

Section faces.
  Context {V : Type}.
  Notation el := (element V).
  Lemma side_view_ok (b e : el) s : side_of b e s -> exists ns, side_view_nodes (e, s) = Ok ns /\ ns ≡ₚ el_nodes b.
  Proof.
    intros (inds & ns & Hnd & Hi & Hf & Hp & Hs). unfold side_view_nodes. cbn [fst snd].
    destruct (lookup_lt_is_Some_2 (boundary_table (el_type e) (el_order e)) s) as [l Hl]; [by rewrite table_length|].
    rewrite (rd_ok _ _ _ Hl), bind_ok. destruct (side_table_ok _ _ _ _ Hl) as [Hsort Hin].
    assert (Hpl : inds ≡ₚ l) by (apply NoDup_Permutation; [done|by apply strict_nodup|]; intros i; by rewrite Hi, Hin).
    destruct (forall2_perm_l _ _ _ _ Hf Hpl) as (k & Hk & Hp2). exists k. split; [|by rewrite <- Hp2].
    apply map_res_f2. eapply Forall2_impl; [exact Hk|]. intros i n Hn. by apply rd_ok.
  Qed.
  Lemma face_set_ok (x : mesh V) n k : whole_mesh x n k -> exists fs, getFaceSet x = Ok fs /\
    forall f, f ∈ fs <-> exists b, boundary_el x b /\ f = sort (el_nodes b).
  Proof.
    intros H. unfold getFaceSet, boundary_el. assert (Hv := wm_views _ _ _ H). revert Hv. clear H.
    induction (m_bnds x) as [|[id vs] l IH]; intros Hv.
    - exists []. split; [done|]. intros f. split; [intros Hf; by apply elem_of_nil in Hf|]. intros (b & (id & Hid & _) & _). by apply elem_of_nil in Hid.
    - destruct IH as (fs & Hfs & Hin); [intros id' vs' Hid; apply Hv; by right|]. destruct (Hv id vs) as (bs & Hbs & HF); [left|].
      assert (exists fs0, map_res (fun v => ns ← side_view_nodes v; Ok (sort ns)) vs = Ok fs0 /\ fs0 = map (fun b => sort (el_nodes b)) bs) as (fs0 & H0 & ->).
      { eexists. split; [|done]. apply map_res_f2. clear - HF. induction HF as [|b [e s] bs vs Hb HF IH]; [constructor|]. cbn [map]. constructor; [|done].
        destruct Hb as (_ & _ & Hb). cbn [fst snd] in Hb. destruct (side_view_ok b e s Hb) as (ns & -> & Hp). rewrite bind_ok. f_equal. by apply sort_ext. }
      exists (map (fun b => sort (el_nodes b)) bs ++ fs). split.
      { clear - H0 Hfs. cbn [fmap list_fmap concat snd map]. change ((fix go l := match l with [] => [] | x :: l0 => x.2 :: go l0 end) l) with (l.*2) || idtac.
        apply map_res_f2. apply map_res_inv in H0, Hfs. by apply Forall2_app. }
      intros f. rewrite elem_of_app, Hin, (elem_of_list_fmap (fun b : el => sort (el_nodes b))). split.
      + intros [(b & -> & Hb)|(b & (id' & Hid & Hb) & ->)]; exists b; (split; [|done]).
        * exists id. split; [left|by apply Hbs].
        * exists id'. split; [by right|done].
      + intros (b & (id' & Hid & Hb) & ->). cbn in Hid. apply elem_of_cons in Hid as [-> |Hid]; [left; exists b; split; [done|by apply Hbs]|]. right. exists b. split; [by exists id'|done].
  Qed.
  Lemma deleted_ok (x1 x2 : mesh V) n1 k1 n2 k2 mm : whole_mesh x1 n1 k1 -> whole_mesh x2 n2 k2 -> NoDup mm.*1 ->
    exists fs1 fs2, getFaceSet x1 = Ok fs1 /\ getFaceSet x2 = Ok fs2 /\
      (forall b, boundary_el x1 b -> sort (el_nodes b) ∈ (getFacesToDelete fs1 fs2 mm).1 <-> removed1 mm x1 x2 b) /\
      (forall b, boundary_el x2 b -> sort (el_nodes b) ∈ (getFacesToDelete fs1 fs2 mm).2 <-> removed2 mm x1 x2 b).
  Proof.
    intros H1 H2 Hnd. destruct (face_set_ok x1 n1 k1 H1) as (fs1 & E1 & Hf1). destruct (face_set_ok x2 n2 k2 H2) as (fs2 & E2 & Hf2).
    exists fs1, fs2. split; [done|]. split; [done|]. split; intros b Hb.
    - destruct (to_delete mm fs1 fs2 (sort (el_nodes b)) [] Hnd) as [-> _]. unfold removed1, coincide. split.
      + intros (f & ns & Hf & HF & Hs & _). split; [done|]. apply Hf2 in Hf as (b2 & Hb2 & ->). exists b2. split; [done|].
        destruct (forall2_perm_l _ _ (el_nodes b2) _ HF (sort_perm _)) as (ns' & HF' & Hp). exists ns'. split; [done|]. rewrite <- Hp. apply perm_sort. by rewrite Hs.
      + intros [_ (b2 & Hb2 & ns & HF & Hp)]. assert (Hp2 : el_nodes b2 ≡ₚ sort (el_nodes b2)) by (symmetry; apply sort_perm).
        destruct (forall2_perm_l _ _ _ _ HF Hp2) as (ns' & HF' & Hp'). exists (sort (el_nodes b2)), ns'. split; [apply Hf2; by exists b2|]. split; [done|].
        split; [apply sort_ext; by rewrite <- Hp', Hp|]. apply Hf1. by exists b.
    - destruct (to_delete mm fs1 fs2 [] (sort (el_nodes b)) Hnd) as [_ ->]. unfold removed2, coincide. split.
      + intros [_ (ns & HF & Hs)]. split; [done|]. apply Hf1 in Hs as (b1 & Hb1 & Hs). exists b1. split; [done|].
        destruct (forall2_perm_l _ _ (el_nodes b) _ HF (sort_perm _)) as (ns' & HF' & Hp). exists ns'. split; [done|]. rewrite <- Hp. by apply perm_sort.
      + intros [_ (b1 & Hb1 & ns & HF & Hp)]. split; [apply Hf2; by exists b|]. assert (Hp2 : el_nodes b ≡ₚ sort (el_nodes b)) by (symmetry; apply sort_perm).
        destruct (forall2_perm_l _ _ _ _ HF Hp2) as (ns' & HF' & Hp'). exists ns'. split; [done|]. apply Hf1. exists b1. split; [done|]. apply sort_ext. by rewrite <- Hp', Hp.
  Qed.

  (** fixElementIds. *)
  Context (dimf : nat -> nat).
  Lemma merge_sort_perm' (l : list el) : merge_sort by_id l ≡ₚ l.
  Proof. apply merge_sort_Permutation. Qed.
  Lemma fix_holds (m : dmap (domain V)) vs al nb D : holds dimf m vs al nb -> let g := set_el_id (fun i => i - lower_bound D i) in
    NoDup (map el_id (map g al)) ->
    holds dimf (fixElementIds m D) (fun k => map g (vs k)) (map g al) nb /\ ascending (fixElementIds m D) /\ (fixElementIds m D).*1 = m.*1.
  Proof.
    intros [[Hs Hv] H2 H3 H4 H5]. cbv zeta. set (g := set_el_id _). intros Hnd.
    set (fd := fun d : domain V => mk_dom (map (fun v => merge_sort by_id (map g v)) (d_els d)) (d_dim d)).
    assert (Em : fixElementIds m D = map (fun p => (p.1, fd p.2)) m) by done. rewrite Em. clear Em.
    assert (Hk : (map (fun p : nat * domain V => (p.1, fd p.2)) m).*1 = m.*1) by (change (map ?f m) with (f <$> m); by rewrite <- list_fmap_compose).
    assert (Hin : forall k d, (k, d) ∈ map (fun p : nat * domain V => (p.1, fd p.2)) m <-> exists d0, (k, d0) ∈ m /\ d = fd d0).
    { intros k d. rewrite (elem_of_list_fmap (fun p : nat * domain V => (p.1, fd p.2))). split; [intros ([k0 d0] & [= -> ->] & H); by exists d0|intros (d0 & H & ->); by exists (k, d0)]. }
    assert (Hc : forall d, concat (d_els (fd d)) ≡ₚ map g (concat (d_els d))).
    { intros d. unfold fd. cbn [d_els]. induction (d_els d) as [|v l IH]; [done|]. cbn [map concat]. by rewrite merge_sort_perm', map_app, IH. }
    assert (Hfind : forall k, dm_find k (map (fun p : nat * domain V => (p.1, fd p.2)) m) = fd <$> dm_find k m).
    { intros k. clear. induction m as [|[k' d'] m IH]; [done|]. cbn [map dm_find fst snd]. by destruct (k =? k'). }
    assert (Hall : all_elems (map (fun p : nat * domain V => (p.1, fd p.2)) m) ≡ₚ map g al).
    { rewrite <- H4, !all_elems_concat by (rewrite ?Hk; by apply strict_nodup). rewrite map_map. clear - Hc. induction m as [|[k d] m IH]; [done|]. cbn [map concat snd]. by rewrite map_app, Hc, IH. }
    split; [|split; [|done]].
    - split.
      + split; [by rewrite Hk|]. rewrite Forall_forall in Hv |- *. intros [k d] Hkd. apply Hin in Hkd as (d0 & Hkd & ->). destruct (Hv _ Hkd) as [Ht Hd]. cbn [snd] in Ht, Hd |- *. split.
        * unfold typed_domain in *. unfold fd. cbn [d_els]. clear - Ht. induction Ht as [|s v ss vs' Hsv HF IH]; [constructor|]. cbn [map]. constructor; [|done].
          rewrite Forall_forall in Hsv |- *. intros e He. rewrite merge_sort_perm' in He. apply elem_of_list_fmap in He as (e0 & -> & He). apply Hsv in He. done.
        * intros v e Hve He. unfold fd in Hve. cbn [d_els] in Hve. apply (elem_of_list_fmap (fun v => merge_sort by_id (map g v))) in Hve as (v0 & -> & Hve).
          rewrite merge_sort_perm' in He. apply elem_of_list_fmap in He as (e0 & -> & He). exact (Hd v0 e0 Hve He).
      + intros k d x Hkd Hx. apply Hin in Hkd as (d0 & Hkd & ->). by eapply H2.
      + intros k. rewrite vis_find, Hfind. rewrite <- H3, vis_find. destruct (dm_find k m) as [d|]; [apply Hc|done].
      + exact Hall.
      + intros k d Hkd Hx. apply Hin in Hkd as (d0 & Hkd & ->). eapply H5; [done|]. pose proof (Hc d0) as Hp. rewrite Hx in Hp. apply Permutation_nil_l in Hp. by destruct (concat (d_els d0)).
    - intros k d v Hkd Hv'. assert (Hvn : NoDup (map el_id v)).
      { rewrite <- Hall in Hnd. rewrite all_elems_concat in Hnd by (rewrite Hk; by apply strict_nodup).
        apply elem_of_list_split in Hkd as (m1 & m2 & Em). rewrite Em in Hnd. apply elem_of_list_split in Hv' as (v1 & v2 & E).
        rewrite map_app in Hnd. cbn [map] in Hnd. rewrite concat_app in Hnd. cbn [concat snd] in Hnd. rewrite E, concat_app in Hnd. cbn [concat] in Hnd. rewrite !map_app in Hnd.
        apply NoDup_app in Hnd as (_ & _ & Hnd). apply NoDup_app in Hnd as (Hnd & _ & _). apply NoDup_app in Hnd as (_ & _ & Hnd). by apply NoDup_app in Hnd as (Hnd & _ & _). }
      apply Hin in Hkd as (d0 & Hkd & ->). unfold fd in Hv'. cbn [d_els] in Hv'. apply (elem_of_list_fmap (fun v => merge_sort by_id (map g v))) in Hv' as (v0 & -> & _).
      apply sorted_nodup_strict; [|done]. assert (Hsrt : Sorted by_id (merge_sort by_id (map g v0))).
      { apply Sorted_merge_sort. intros a b. unfold by_id. lia. }
      revert Hsrt. generalize (merge_sort by_id (map g v0)). clear. induction 1 as [|a l Hl IH Ha]; [constructor|]. cbn [map]. constructor; [done|]. destruct Ha; constructor. done.
  Qed.
End faces.

(** new_node_id. *)
Lemma renumber_ok mm n1 n2 : matching mm n1 n2 -> renumbering mm n1 n2 (n1 + n2 - length mm) (new_node_id mm n1).
Proof.
  intros [Hnd Hlt]. unfold new_node_id. set (D := sort mm.*1).
  assert (HD : StronglySorted lt D) by (apply sorted_nodup_strict; [apply sort_sorted|by apply sort_nodup]).
  assert (HDe : forall a, a ∈ D <-> a ∈ mm.*1) by (intros; apply sort_elem).
  assert (HDl : length D = length mm) by (unfold D; rewrite sort_length; apply fmap_length).
  assert (Hnone : forall a, a ∉ mm.*1 -> dm_find a mm = None).
  { intros a Ha. destruct (dm_find a mm) as [b|] eqn:E; [|done]. exfalso. apply Ha, elem_of_list_fmap. exists (a, b). split; [done|by apply dm_find_elem]. }
  assert (Hall : forall d, d ∈ D -> d < n2). { intros d Hd. apply HDe, elem_of_list_fmap in Hd as ([a b] & -> & Hd). by destruct (Hlt _ _ Hd). }
  pose proof (close_gaps D HD n2) as Hg. rewrite (below_all D n2 Hall), HDl in Hg.
  assert (Hle : length mm <= n2) by (rewrite <- HDl, <- (below_all D n2 Hall); by apply below_le).
  assert (Hb : forall a, lower_bound D a <= a) by (intros a; rewrite lower_bound_below by done; by apply below_le).
  assert (Hmem : forall r, r < n2 - length mm <-> exists a, a < n2 /\ a ∉ D /\ r = a - lower_bound D a).
  { intros r. transitivity (r ∈ seq 0 (n2 - length mm)); [rewrite elem_of_seq; lia|]. rewrite <- Hg, (elem_of_list_fmap (fun i => i - lower_bound D i)). split.
    - intros (a & -> & Ha). apply filter_elem in Ha as [Ha Hn]. apply elem_of_seq in Ha. exists a. split; [lia|]. split; [|done]. by apply negb_true_iff, bool_decide_eq_false in Hn.
    - intros (a & Ha & Hn & ->). exists a. split; [done|]. apply filter_elem. split; [apply elem_of_seq; lia|]. by apply negb_true_iff, bool_decide_eq_false. }
  split; [|split; [|split]].
  - intros a b Hab. by rewrite (elem_dm_find _ _ _ Hnd Hab).
  - intros a Ha Hn. rewrite (Hnone a Hn). specialize (Hb a). assert (a - lower_bound D a < n2 - length mm); [|lia]. apply Hmem. exists a. by rewrite HDe.
  - intros a a' Haa Ha' Hn Hn'. rewrite (Hnone a Hn), (Hnone a' Hn'). pose proof (Hb a). pose proof (Hb a'). pose proof (gap_mono D HD a a' Haa). rewrite HDe in H1. specialize (H1 Hn). lia.
  - intros c Hc. destruct (proj1 (Hmem (c - n1))) as (a & Ha & Hn & E); [lia|]. exists a. split; [done|]. rewrite HDe in Hn. split; [done|]. rewrite (Hnone a Hn). specialize (Hb a). lia.
Qed.
