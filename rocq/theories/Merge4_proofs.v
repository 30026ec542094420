(** C22: the merged mesh. *)
From Verif Require Import Base StdAlgo Ownership_model Elem_model Elem_spec Elem_proofs Mesh_model Mesh_spec Mesh_proofs Build_proofs Prim_spec Prim_proofs Merge_model Merge_spec Merge_proofs Merge2_proofs Merge3_proofs.
Local Arguments Nat.mul : simpl never.
Local Arguments Nat.add : simpl never.
Local Arguments Nat.sub : simpl never.

Lemma concat_map_inj {A B C} (h : B -> C) (F : A -> list B) l a b x : NoDup (map h (concat (map F l))) -> a ∈ l -> b ∈ l -> x ∈ F a -> x ∈ F b -> a = b.
Proof.
  induction l as [|c l IH]; [intros _ H; by apply elem_of_nil in H|]. cbn [map concat]. rewrite map_app. intros Hnd Ha Hb Hxa Hxb. apply NoDup_app in Hnd as (_ & Hd & Hnd).
  assert (Hl : forall d, d ∈ l -> x ∈ F d -> h x ∈ map h (concat (map F l))).
  { intros d Hdl Hx. apply (elem_of_list_fmap_1 h). apply elem_of_concat. exists (F d). split; [done|]. by apply (elem_of_list_fmap_1 F). }
  apply elem_of_cons in Ha as [-> |Ha], Hb as [-> |Hb].
  - done.
  - exfalso. apply (Hd (h x)); [by apply (elem_of_list_fmap_1 h)|by apply (Hl b)].
  - exfalso. apply (Hd (h x)); [by apply (elem_of_list_fmap_1 h)|by apply (Hl a)].
  - by apply IH.
Qed.
Lemma match_length mm n1 n2 : matching mm n1 n2 -> length mm <= n2.
Proof.
  intros [Hnd Hlt]. rewrite <- (fmap_length fst mm), <- (seq_length n2 0). apply submseteq_length, NoDup_submseteq; [done|].
  intros a Ha. apply elem_of_list_fmap in Ha as ([x y] & -> & Ha). apply elem_of_seq. destruct (Hlt _ _ Ha). cbn. lia.
Qed.

Section one.
  Context {V : Type}.
  Notation el := (element V).
  Lemma vis_elem (m : dmap (domain V)) id e : NoDup m.*1 -> e ∈ vis m id <-> in_domain m id e.
  Proof. intros H. unfold vis. rewrite visit_elem by done. split; [intros (i & Hi & He); apply elem_of_list_singleton in Hi as ->; done|intros He; exists id; split; [by apply elem_of_list_singleton|done]]. Qed.
  Lemma all_vis (m : dmap (domain V)) : all_elems m = concat (map (vis m) m.*1).
  Proof. unfold all_elems, visit_elems. f_equal. apply map_ext. intros id. by rewrite vis_find. Qed.
  Lemma in_keys (m : dmap (domain V)) id e : in_domain m id e -> id ∈ m.*1.
  Proof. intros (d & v & Hd & _). apply elem_of_list_fmap. by exists (id, d). Qed.
  Context (x : mesh V) (n k : nat) (H : whole_mesh x n k).
  Lemma wm_nd : NoDup (m_domains x).*1.
  Proof using H. apply strict_nodup, (wm_valid _ _ _ H). Qed.
  Lemma wm_idnd : NoDup (map el_id (all_elems (m_domains x))).
  Proof using H. rewrite (wm_ids _ _ _ H). apply NoDup_seq. Qed.
  Lemma one_domain id id' e : in_domain (m_domains x) id e -> in_domain (m_domains x) id' e -> id = id'.
  Proof using H.
    intros H1 H2. pose proof wm_idnd as Hi. rewrite all_vis in Hi. pose proof wm_nd as Hnd.
    eapply (concat_map_inj el_id (vis (m_domains x))); [exact Hi|by eapply in_keys|by eapply in_keys|by apply vis_elem|by apply vis_elem].
  Qed.
  Lemma bnd_iff id e : in_domain (m_domains x) id e -> boundary_el x e <-> id ∈ (m_bnds x).*1.
  Proof using H. intros He. split; [|intros Hid; by exists id]. intros (id' & Hid & He'). by rewrite (one_domain _ _ _ He He'). Qed.
  Lemma kept_elem del id e : e ∈ kept_of x del id <-> in_domain (m_domains x) id e /\ ~ (boundary_el x e /\ sort (el_nodes e) ∈ del).
  Proof using H.
    unfold kept_of. rewrite filter_elem, vis_elem by apply wm_nd. rewrite negb_true_iff, andb_false_iff, !bool_decide_eq_false. split.
    - intros [He Hn]. split; [done|]. rewrite (bnd_iff id e He). tauto.
    - intros [He Hn]. split; [done|]. rewrite (bnd_iff id e He) in Hn. destruct (decide (id ∈ (m_bnds x).*1)); tauto.
  Qed.
  Lemma kept_gone del : concat (map (kept_of x del) (m_domains x).*1) ++ concat (map (gone_of x del) (m_domains x).*1) ≡ₚ all_elems (m_domains x).
  Proof using Type. rewrite all_vis. apply concat_app_perm. intros id. unfold kept_of, gone_of. apply perm_filter. Qed.
  Lemma wm_typed id e : in_domain (m_domains x) id e -> typed_el e /\ el_order e = 1.
  Proof using H.
    intros (d & v & Hd & Hv & He). destruct (wm_valid _ _ _ H) as [_ Hf]. rewrite Forall_forall in Hf. destruct (Hf _ Hd) as [Ht _]. cbn [snd] in Ht. unfold typed_domain in Ht.
    apply elem_of_list_lookup in Hv as [i Hi]. destruct (Forall2_lookup_r _ _ _ _ _ Ht Hi) as (s & Hs & Hs2). rewrite Forall_forall in Hs2. destruct (Hs2 e He) as [E Hty]. split; [done|].
    apply elem_of_list_lookup_2 in Hs. unfold slots in Hs. rewrite <- E in Hs. clear - Hs.
    cbn in Hs. rewrite !elem_of_cons, elem_of_nil in Hs. destruct Hs as [Hs|[Hs|[Hs|[]]]]; congruence.
  Qed.
  Lemma wm_dim id e e' : in_domain (m_domains x) id e -> in_domain (m_domains x) id e' -> native_dim (el_type e) = native_dim (el_type e').
  Proof using H.
    intros (d & v & Hd & Hv & He) (d' & v' & Hd' & Hv' & He'). pose proof wm_nd as Hnd.
    assert (d' = d) as -> by (apply (elem_dm_find _ _ _ Hnd) in Hd, Hd'; congruence).
    destruct (wm_valid _ _ _ H) as [_ Hf]. rewrite Forall_forall in Hf. destruct (Hf _ Hd) as [_ Hdd]. cbn [snd] in Hdd. pose proof (Hdd v e Hv He). pose proof (Hdd v' e' Hv' He'). congruence.
  Qed.
  (** Every node is in an element that is not a boundary element. *)
  Lemma inner_node i : i < n -> exists id e, id ∉ (m_bnds x).*1 /\ in_domain (m_domains x) id e /\ i ∈ el_nodes e.
  Proof using H.
    intros Hi. apply (wm_nodes _ _ _ H) in Hi as (e & [id He] & Hi). destruct (decide (id ∈ (m_bnds x).*1)) as [Hb|Hb]; [|by exists id, e].
    destruct (wm_bnds _ _ _ H id e Hb He) as (id' & p & s & Hid' & Hp & _ & inds & ns & _ & _ & HF & Hperm & _). exists id', p. split; [done|]. split; [done|].
    rewrite Hperm in Hi. apply elem_of_list_lookup in Hi as [j Hj]. destruct (Forall2_lookup_r _ _ _ _ _ HF Hj) as (q & _ & Hq). by eapply elem_of_list_lookup_2.
  Qed.
End one.

Lemma side_moved {V} f g g' (b e b' e' : element V) s : moved f g b b' -> moved f g' e e' -> side_of b e s -> side_of b' e' s.
Proof.
  intros (Tb & Ob & _ & Nb & _) (Te & Oe & _ & Ne & _) (inds & ns & H1 & H2 & H3 & H4 & H5). exists inds, (map f ns). split; [done|]. rewrite Te, Oe. split; [done|]. split; [|split; [|done]].
  - rewrite Ne. clear - H3. induction H3 as [|i m l l' Hi HF IH]; [constructor|]. cbn [map]. constructor; [|done]. by rewrite list_lookup_fmap, Hi.
  - rewrite Nb. by rewrite H4.
Qed.

(** Views of a mesh made from domains. *)
Lemma made_views {V} sched shuffle (m : dmap (domain V)) b n ids x : valid_doms [1] m -> (forall l, sched l ≡ₚ l) -> (forall l, shuffle l ≡ₚ l) ->
  make_mesh2 sched shuffle m b n ids = Ok x -> forall id vs, (id, vs) ∈ m_bnds x -> exists bs, (forall b, b ∈ bs <-> in_domain m id b) /\
                 Forall2 (fun b v => attached m b v.1 v.2) bs vs.
Proof.
  intros Hv Hs Hsh Hx id vs Hid. pose proof (mesh2_ok [1] sched shuffle m b n ids Hv Hs Hsh) as Hm.
  destruct (init_ok [1] sched m ids Hv Hs) as [(r & Hr & H1 & H2 & H3)|[Hr _]]; rewrite Hr in Hm; [|congruence].
  destruct Hm as (so & Hm & _). rewrite Hm in Hx. injection Hx as <-. cbn [m_bnds] in Hid. apply H3 in Hid.
  destruct (views_ok [1] sched m [id] Hv Hs) as [(views & bs & Hr' & Hbs & Hf & _)|[Hr' _]]; cbv zeta in Hr'; [|congruence]. rewrite Hid in Hr'. injection Hr' as ->.
  exists bs. split; [|done]. intros e. rewrite Hbs. apply vis_elem. apply strict_nodup, Hv.
Qed.

Theorem merge_ok {V} sched shuffle mm (x1 x2 : mesh V) n1 k1 n2 k2 :
  (forall l, sched l ≡ₚ l) -> (forall l, shuffle l ≡ₚ l) ->
  whole_mesh x1 n1 k1 -> whole_mesh x2 n2 k2 -> compatible x1 x2 -> matching mm n1 n2 ->
  exists y f g1 g2, merge sched shuffle mm x1 x2 = Ok y /\
    let m := m_domains y in let N := n1 + n2 - length mm in
    renumbering mm n1 n2 N f /\
    (forall id e', in_domain m id e' <->
       (exists e, in_domain (m_domains x1) id e /\ ~ removed1 mm x1 x2 e /\ moved (fun i => i) g1 e e') \/
       (exists e, in_domain (m_domains x2) id e /\ ~ removed2 mm x1 x2 e /\ moved f g2 e e')) /\
    (forall e e', is_elem (m_domains x1) e -> is_elem (m_domains x1) e' -> ~ removed1 mm x1 x2 e -> el_id e < el_id e' -> g1 (el_id e) < g1 (el_id e')) /\
    (forall e e', is_elem (m_domains x2) e -> is_elem (m_domains x2) e' -> ~ removed2 mm x1 x2 e -> el_id e < el_id e' -> g2 (el_id e) < g2 (el_id e')) /\
    (forall e e', is_elem (m_domains x1) e -> is_elem (m_domains x2) e' -> ~ removed1 mm x1 x2 e -> g1 (el_id e) < g2 (el_id e')) /\
    whole_mesh y N (length (all_elems m)) /\ ascending m /\
    forall id, id ∈ (m_bnds y).*1 <-> (id ∈ (m_bnds x1).*1 \/ id ∈ (m_bnds x2).*1) /\ exists e, in_domain m id e.
Proof.
  intros Hsched Hsh H1 H2 (Hc1 & Hc2 & Hc3) Hmm. pose proof (match_length mm n1 n2 Hmm) as Hmml. pose proof (renumber_ok mm n1 n2 Hmm) as Hren. destruct Hmm as [Hmnd Hmlt].
  destruct (deleted_ok x1 x2 n1 k1 n2 k2 mm H1 H2 Hmnd) as (fs1 & fs2 & E1 & E2 & Hd1 & Hd2).
  unfold merge. rewrite E1, bind_ok, E2, bind_ok. clear E1 E2. cbv zeta. revert Hd1 Hd2. generalize (getFacesToDelete fs1 fs2 mm). intros [del1 del2] Hd1 Hd2. cbn [fst snd] in *.
  assert (Ek1 : getNElements (m_domains x1) = k1). { rewrite nelements_ok by (by eapply wm_nd). rewrite <- (map_length el_id), (wm_ids _ _ _ H1). apply seq_length. }
  assert (En1 : localSize (m_own x1) = n1). { destruct (wm_own _ _ _ H1) as (Eb & Ee & Es). unfold localSize, numOwned. rewrite Eb, Ee, Es. cbn [List.length]. lia. }
  assert (En2 : localSize (m_own x2) = n2). { destruct (wm_own _ _ _ H2) as (Eb & Ee & Es). unfold localSize, numOwned. rewrite Eb, Ee, Es. cbn [List.length]. lia. }
  rewrite Ek1, En1, En2. clear Ek1 En1 En2 fs1 fs2. set (N := n1 + n2 - length mm) in *. set (f := new_node_id mm n1) in *. set (tr := translateElement mm n1 k1).
  set (dimf := fun id => match vis (m_domains x1) id ++ vis (m_domains x2) id with e :: _ => native_dim (el_type e) | [] => 0 end).
  pose proof (wm_nd _ _ _ H1) as Hnd1. pose proof (wm_nd _ _ _ H2) as Hnd2.
  assert (Hdim1 : forall id e, in_domain (m_domains x1) id e -> native_dim (el_type e) = dimf id).
  { intros id e He. unfold dimf. destruct (vis (m_domains x1) id) as [|e0 l] eqn:Ev.
    - apply (vis_elem _ _ _ Hnd1) in He. rewrite Ev in He. by apply elem_of_nil in He.
    - cbn [app]. apply (wm_dim _ _ _ H1 id); [done|]. apply vis_elem; [done|]. rewrite Ev. left. }
  assert (Hdim2 : forall id e, in_domain (m_domains x2) id e -> native_dim (el_type e) = dimf id).
  { intros id e He. unfold dimf. destruct (vis (m_domains x1) id) as [|e0 l] eqn:Ev.
    - cbn [app]. destruct (vis (m_domains x2) id) as [|e0 l] eqn:Ev2.
      + apply (vis_elem _ _ _ Hnd2) in He. rewrite Ev2 in He. by apply elem_of_nil in He.
      + apply (wm_dim _ _ _ H2 id); [done|]. apply vis_elem; [done|]. rewrite Ev2. left.
    - cbn [app]. symmetry. apply (Hc1 id); [|done]. apply vis_elem; [done|]. rewrite Ev. left. }
  change (copyElements [] x1 del1 id) with (copyElements [] x1 del1 (fun e : element V => e)).
  destruct (copy_holds dimf [] (fun _ => []) [] (fun _ => False) x1 del1 (fun e => e)) as (r1 & D1 & -> & ED1 & HH1).
  { split; [split; constructor| | | |]; try done; intros; by apply elem_of_nil in H. }
  { apply (wm_valid _ _ _ H1). } { apply (wm_keys _ _ _ H1). }
  { intros id e He. destruct (wm_typed _ _ _ H1 id e He) as [Ht Ho]. split; [done|]. split; [done|]. by apply Hdim1. }
  rewrite bind_ok. cbn [fst snd].
  destruct (copy_holds dimf _ _ _ _ x2 del2 tr HH1) as (r2 & D2 & -> & ED2 & HH2).
  { apply (wm_valid _ _ _ H2). } { apply (wm_keys _ _ _ H2). }
  { intros id e He. destruct (wm_typed _ _ _ H2 id e He) as [[Ht Ht2] Ho]. split; [split; [|done]|split; [done|]].
    - unfold tr, translateElement. cbn [el_nodes el_type el_order]. by rewrite map_length.
    - exact (Hdim2 id e He). }
  rewrite bind_ok. cbn [fst snd]. clear HH1 r1. cbn [app] in HH2. rewrite map_id in HH2.
  set (K1 := concat (map (kept_of x1 del1) (m_domains x1).*1)) in *. set (K2 := concat (map (kept_of x2 del2) (m_domains x2).*1)) in *.
  set (G1 := concat (map (gone_of x1 del1) (m_domains x1).*1)) in *. set (G2 := concat (map (gone_of x2 del2) (m_domains x2).*1)) in *.
  assert (P1 : map el_id K1 ++ D1 ≡ₚ seq 0 k1).
  { rewrite ED1, sort_perm, <- map_app, <- (wm_ids _ _ _ H1). apply Permutation_map, kept_gone. }
  assert (P2 : map el_id (map tr K2) ++ D2 ≡ₚ seq k1 k2).
  { rewrite ED2, sort_perm, map_map, <- map_app. unfold tr. change (fun e : element V => el_id (translateElement mm n1 k1 e)) with (fun e : element V => el_id e + k1).
    rewrite <- (map_map el_id (fun i => i + k1)). pose proof (Permutation_map el_id (kept_gone x2 del2)) as Hq. fold K2 G2 in Hq. rewrite Hq, (wm_ids _ _ _ H2). clear. apply NoDup_Permutation.
    - assert (Inj eq eq (fun i => i + k1)) by (intros a b; lia). apply (NoDup_fmap_2 (fun i => i + k1)), NoDup_seq.
    - apply NoDup_seq.
    - intros i. rewrite (elem_of_list_fmap (fun i => i + k1)). setoid_rewrite elem_of_seq. split; [intros (a & -> & Ha); lia|intros Hi; exists (i - k1); lia]. }
  set (D := D1 ++ D2) in *. set (al := K1 ++ map tr K2) in *.
  assert (P : map el_id al ++ D ≡ₚ seq 0 (k1 + k2)).
  { rewrite seq_app. unfold al, D. rewrite map_app, <- P1, <- P2, <- !app_assoc. apply Permutation_app_head. rewrite !app_assoc. apply Permutation_app_tail, Permutation_app_comm. }
  assert (Hb1 : forall d, d ∈ D1 -> d < k1). { intros d Hd. assert (Hx : d ∈ seq 0 k1) by (rewrite <- P1; apply elem_of_app; by right). apply elem_of_seq in Hx. lia. }
  assert (Hb2 : forall d, d ∈ D2 -> k1 <= d). { intros d Hd. assert (Hx : d ∈ seq k1 k2) by (rewrite <- P2; apply elem_of_app; by right). apply elem_of_seq in Hx. lia. }
  assert (HD : StronglySorted lt D).
  { apply sorted_nodup_strict.
    - unfold D. assert (S1 : StronglySorted le D1) by (rewrite ED1; apply Sorted_StronglySorted; [intros a b c; lia|apply sort_sorted] || apply sort_sorted).
      assert (S2 : StronglySorted le D2) by (rewrite ED2; apply Sorted_StronglySorted; [intros a b c; lia|apply sort_sorted] || apply sort_sorted).
      assert (S : StronglySorted le (D1 ++ D2)); [|first [exact S|by apply StronglySorted_Sorted]]. clear - S1 S2 Hb1 Hb2. induction S1 as [|a l S1 IH Ha]; [done|]. cbn [app]. constructor; [apply IH; intros; apply Hb1; by right|].
      apply Forall_app. split; [done|]. apply Forall_forall. intros d Hd. apply Hb2 in Hd. specialize (Hb1 a ltac:(left)). lia.
    - pose proof (NoDup_seq 0 (k1 + k2)) as Hnd. rewrite <- P in Hnd. by apply NoDup_app in Hnd as (_ & _ & Hnd). }
  set (G := fun i => i - lower_bound D i). set (ge := set_el_id (V := V) G).
  assert (Hnew : map el_id (map ge al) ≡ₚ seq 0 (length al)).
  { transitivity (map G (map el_id al)); [by rewrite !map_map|]. pose proof (filter_gap D (seq 0 (k1 + k2)) (map el_id al) (k1 + k2) (NoDup_seq _ _) ltac:(done) P) as HF. rewrite HF. pose proof (close_gaps D HD (k1 + k2)) as HG. fold G in HG. rewrite HG.
    replace (k1 + k2 - below D (k1 + k2)) with (length al); [done|]. rewrite <- (seq_length (k1 + k2 - below D (k1 + k2)) 0), <- HG, map_length, <- HF. by rewrite map_length. }
  pose proof (fix_holds dimf r2 _ _ _ D HH2) as Hfix. cbv zeta in Hfix. fold G ge in Hfix. destruct Hfix as (HH3 & Hasc & Hk3); [rewrite Hnew; apply NoDup_seq|].
  set (m := fixElementIds r2 D) in *. clear HH2. clearbody m. destruct HH3 as [Hv Hdims Hvis Hall Hnone].
  assert (Hndm : NoDup m.*1) by (apply strict_nodup, Hv).
  assert (Hkn1 : forall id e, in_domain (m_domains x1) id e -> removed1 mm x1 x2 e <-> boundary_el x1 e /\ sort (el_nodes e) ∈ del1).
  { intros id e He. split; [intros Hr; split; [apply Hr|]; apply Hd1; [apply Hr|done]|]. intros [Hb Hs]. by apply Hd1. }
  assert (Hkn2 : forall id e, in_domain (m_domains x2) id e -> removed2 mm x1 x2 e <-> boundary_el x2 e /\ sort (el_nodes e) ∈ del2).
  { intros id e He. split; [intros Hr; split; [apply Hr|]; apply Hd2; [apply Hr|done]|]. intros [Hb Hs]. by apply Hd2. }
  assert (Hin : forall id e', in_domain m id e' <->
       (exists e, in_domain (m_domains x1) id e /\ ~ removed1 mm x1 x2 e /\ moved (fun i => i) G e e') \/
       (exists e, in_domain (m_domains x2) id e /\ ~ removed2 mm x1 x2 e /\ moved f (fun i => G (i + k1)) e e')).
  { intros id e'. rewrite <- vis_elem by done. rewrite Hvis, (elem_of_list_fmap ge). cbn [app]. rewrite map_id. setoid_rewrite elem_of_app. split.
    - intros (e & -> & [He|He]).
      + left. exists e. apply (kept_elem _ _ _ H1) in He as [He Hr]. split; [done|]. rewrite (Hkn1 _ _ He). split; [done|]. repeat split. by rewrite map_id.
      + right. apply elem_of_list_fmap in He as (e0 & -> & He). exists e0. apply (kept_elem _ _ _ H2) in He as [He Hr]. split; [done|]. rewrite (Hkn2 _ _ He). split; [done|]. by repeat split.
    - assert (Hel : forall a b : element V, el_type a = el_type b -> el_order a = el_order b -> el_verts a = el_verts b -> el_nodes a = el_nodes b -> el_id a = el_id b -> a = b) by (intros [] []; cbn; congruence).
      intros [(e & He & Hr & T & O & Ve & Nn & I)|(e & He & Hr & T & O & Ve & Nn & I)].
      + exists e. split; [|left; apply (kept_elem _ _ _ H1); split; [done|]; by rewrite <- (Hkn1 _ _ He)]. apply Hel; try done. by rewrite Nn, map_id.
      + exists (tr e). split; [|right; apply elem_of_list_fmap; exists e; split; [done|]; apply (kept_elem _ _ _ H2); split; [done|]; by rewrite <- (Hkn2 _ _ He)]. by apply Hel. }
  assert (Hlive : forall i, i ∈ map el_id al -> i ∉ D).
  { pose proof (NoDup_seq 0 (k1 + k2)) as Hnd. rewrite <- P in Hnd. by apply NoDup_app in Hnd as (_ & Hnd & _). }
  assert (Hl1 : forall e, is_elem (m_domains x1) e -> ~ removed1 mm x1 x2 e -> el_id e ∉ D).
  { intros e [id He] Hr. apply Hlive. unfold al. rewrite map_app. apply elem_of_app. left. apply (elem_of_list_fmap_1 el_id). unfold K1. apply elem_of_concat. exists (kept_of x1 del1 id). split.
    - apply (kept_elem _ _ _ H1). split; [done|]. by rewrite <- (Hkn1 _ _ He).
    - apply (elem_of_list_fmap_1 (kept_of x1 del1)). by eapply in_keys. }
  assert (Hl2 : forall e, is_elem (m_domains x2) e -> ~ removed2 mm x1 x2 e -> el_id e + k1 ∉ D).
  { intros e [id He] Hr. apply Hlive. unfold al. rewrite map_app. apply elem_of_app. right. change (el_id e + k1) with (el_id (tr e)). apply (elem_of_list_fmap_1 el_id). apply (elem_of_list_fmap_1 tr). unfold K2. apply elem_of_concat. exists (kept_of x2 del2 id). split.
    - apply (kept_elem _ _ _ H2). split; [done|]. by rewrite <- (Hkn2 _ _ He).
    - apply (elem_of_list_fmap_1 (kept_of x2 del2)). by eapply in_keys. }
  assert (Hid1 : forall e, is_elem (m_domains x1) e -> el_id e < k1).
  { intros e He. assert (Hx : el_id e ∈ seq 0 k1) by (rewrite <- (wm_ids _ _ _ H1); apply (elem_of_list_fmap_1 el_id); by apply all_elems_elem). apply elem_of_seq in Hx. lia. }
  destruct Hren as (Hr1 & Hr2 & Hr3 & Hr4).
  (** elements of inner domains stay *)
  assert (Hstay1 : forall id e, id ∉ (m_bnds x1).*1 -> in_domain (m_domains x1) id e -> exists e', in_domain m id e' /\ moved (fun i => i) G e e').
  { intros id e Hid He. exists (ge e). assert (Hmv : moved (fun i => i) G e (ge e)) by (repeat split; by rewrite map_id). split; [|done]. apply Hin. left. exists e. split; [done|]. split; [|done].
    intros Hr. destruct Hr as [Hr _]. by apply (bnd_iff _ _ _ H1 _ _ He) in Hr. }
  assert (Hstay2 : forall id e, id ∉ (m_bnds x2).*1 -> in_domain (m_domains x2) id e -> exists e', in_domain m id e' /\ moved f (fun i => G (i + k1)) e e').
  { intros id e Hid He. exists (ge (tr e)). assert (Hmv : moved f (fun i => G (i + k1)) e (ge (tr e))) by (by repeat split). split; [|done]. apply Hin. right. exists e. split; [done|]. split; [|done].
    intros Hr. destruct Hr as [Hr _]. by apply (bnd_iff _ _ _ H2 _ _ He) in Hr. }
  assert (Hnode : forall i, is_node m i <-> i < N).
  { intros i. split.
    - intros (e' & [id He'] & Hi). apply Hin in He' as [(e & He & _ & _ & _ & _ & Nn & _)|(e & He & _ & _ & _ & _ & Nn & _)]; rewrite Nn in Hi.
      + rewrite map_id in Hi. assert (i < n1) by (apply (wm_nodes _ _ _ H1); exists e; split; [by exists id|done]). lia.
      + apply (elem_of_list_fmap f) in Hi as (a & -> & Ha). assert (Hlt : a < n2) by (apply (wm_nodes _ _ _ H2); exists e; split; [by exists id|done]).
        destruct (decide (a ∈ mm.*1)) as [Hin'|Hin']; [|by apply Hr2]. apply elem_of_list_fmap in Hin' as ([a' b] & -> & Hab). cbn [fst] in *. rewrite (Hr1 _ _ Hab). destruct (Hmlt _ _ Hab). lia.
    - intros Hi. destruct (decide (i < n1)) as [Hlt|Hge].
      + destruct (inner_node _ _ _ H1 i Hlt) as (id & e & Hid & He & Hie). destruct (Hstay1 id e Hid He) as (e' & He' & _ & _ & _ & Nn & _). exists e'. split; [by exists id|]. by rewrite Nn, map_id.
      + destruct (Hr4 i) as (a & Ha & _ & <-); [lia|]. destruct (inner_node _ _ _ H2 a Ha) as (id & e & Hid & He & Hie). destruct (Hstay2 id e Hid He) as (e' & He' & _ & _ & _ & Nn & _). exists e'. split; [by exists id|]. rewrite Nn. by apply (elem_of_list_fmap_1 f). }
  (** boundary elements are attached *)
  assert (Hatt : forall id b', (id ∈ (m_bnds x1).*1 \/ id ∈ (m_bnds x2).*1) -> in_domain m id b' -> exists id' e' s, ~ (id' ∈ (m_bnds x1).*1 \/ id' ∈ (m_bnds x2).*1) /\ in_domain m id' e' /\ native_dim (el_type e') = native_dim (el_type b') + 1 /\ side_of b' e' s).
  { intros id b' Hid Hb'. apply Hin in Hb' as [(b & Hb & Hr & Hmv)|(b & Hb & Hr & Hmv)].
    - assert (Hbid : id ∈ (m_bnds x1).*1) by (destruct Hid as [|Hid]; [done|]; apply Hc3; [done|by eapply in_keys]).
      destruct (wm_bnds _ _ _ H1 id b Hbid Hb) as (id' & e & s & Hid' & He & Hdm & Hs). destruct (Hstay1 id' e Hid' He) as (e' & He' & Hmv'). exists id', e', s. split; [intros [?|Hx]; [done|]; apply Hid', Hc3; [done|by eapply in_keys]|]. split; [done|]. split; [|by eapply side_moved].
      destruct Hmv as (-> & _), Hmv' as (-> & _). done.
    - assert (Hbid : id ∈ (m_bnds x2).*1) by (destruct Hid as [Hid|]; [|done]; apply Hc2; [done|by eapply in_keys]).
      destruct (wm_bnds _ _ _ H2 id b Hbid Hb) as (id' & e & s & Hid' & He & Hdm & Hs). destruct (Hstay2 id' e Hid' He) as (e' & He' & Hmv'). exists id', e', s. split; [intros [Hx|?]; [|done]; apply Hid', Hc2; [done|by eapply in_keys]|]. split; [done|]. split; [|by eapply side_moved].
      destruct Hmv as (-> & _), Hmv' as (-> & _). done. }
  set (ids := set_intersection _ _).
  assert (Hids : forall id, id ∈ ids <-> (id ∈ (m_bnds x1).*1 \/ id ∈ (m_bnds x2).*1) /\ id ∈ m.*1).
  { intros id. unfold ids. rewrite set_intersection_elem; [|apply unique_strict, sort_sorted|apply Hv]. by rewrite unique_elem, sort_elem, elem_of_app. }
  assert (Hne : forall id d, (id ∈ (m_bnds x1).*1 \/ id ∈ (m_bnds x2).*1) -> (id, d) ∈ m -> exists e v, v ∈ d_els d /\ e ∈ v).
  { intros id d Hid Hd. destruct (concat (d_els d)) as [|e l] eqn:Ec.
    - exfalso. destruct (Hnone _ _ Hd Ec) as [[[]|[Ha Hb]]|[Ha Hb]]; destruct Hid as [Hid|Hid]; try done; apply Hb; [by apply Hc3|by apply Hc2].
    - assert (He : e ∈ concat (d_els d)) by (rewrite Ec; left). apply elem_of_concat in He as (v & He & Hve). by exists e, v. }
  assert (Hdd : forall id d v e, (id, d) ∈ m -> v ∈ d_els d -> e ∈ v -> d_dim d = Some (native_dim (el_type e))).
  { intros id d v e Hd Hve He. destruct Hv as [_ HF]. rewrite Forall_forall in HF. destruct (HF _ Hd) as [_ Hdd]. by apply (Hdd v). }
  destruct (finish sched shuffle m N ids Hv Hsched Hsh) as (so & bnds & Emk & Hso1 & Hso2 & Hso3 & Hso4 & Hso5).
  - intros id d Hid Hd. apply Hids in Hid as [Hid _]. destruct (Hne id d Hid Hd) as (e & v & Hve & He). exists (native_dim (el_type e)). split; [by apply (Hdd id d v)|].
    destruct (Hatt id e Hid) as (id' & e' & s & _ & (d' & v' & Hd' & Hv' & He') & Hdm & _); [by exists d, v|]. exists id', d'. split; [done|]. rewrite (Hdd id' d' v' e' Hd' Hv' He'). by rewrite Hdm.
  - intros b id Hid Hb. apply Hids in Hid as [Hid _]. destruct (Hatt id b Hid Hb) as (id' & e' & s & _ & He' & Hdm & Hs). exists e', s. split; [by exists id'|done].
  - intros i Hi. by apply Hnode.
  - exists (mk_mesh m so bnds), f, G, (fun i => G (i + k1)). split; [done|]. cbn [m_domains m_own m_bnds]. split; [by split; [|split; [|split]]|]. split; [exact Hin|]. split; [|split; [|split]].
    + intros e e' He He' Hr Hlt. apply gap_mono; [done|done|by apply Hl1].
    + intros e e' He He' Hr Hlt. apply gap_mono; [done|lia|by apply Hl2].
    + intros e e' He He' Hr. apply gap_mono; [done| |by apply Hl1]. pose proof (Hid1 e He). lia.
    + assert (Hbids : forall id, id ∈ bnds.*1 <-> (id ∈ (m_bnds x1).*1 \/ id ∈ (m_bnds x2).*1) /\ id ∈ m.*1) by (intros; by rewrite Hso5, Hids).
      split; [|split; [done|]].
      * split; cbn [m_domains m_own m_bnds].
        -- done.
        -- rewrite Hall. rewrite map_length. exact Hnew.
        -- done.
        -- done.
        -- done.
        -- apply (made_views sched shuffle m 0 N ids _ Hv Hsched Hsh Emk).
        -- intros id b Hid Hb. apply Hbids in Hid as [Hid _]. destruct (Hatt id b Hid Hb) as (id' & e' & s & Hn & He' & Hdm & Hs). exists id', e', s. split; [|done]. rewrite Hbids. tauto.
      * intros id. rewrite Hso5, Hids. split.
        -- intros [Hid Hk]. split; [done|]. apply elem_of_list_fmap in Hk as ([id' d] & -> & Hd). cbn [fst] in *. destruct (Hne id' d Hid Hd) as (e & v & Hve & He). by exists e, d, v.
        -- intros [Hid (e & He)]. split; [done|by eapply in_keys].
Qed.
