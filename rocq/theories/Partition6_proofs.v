From Verif Require Import Base StdAlgo Ownership_model Elem_model Elem_spec Elem_proofs Mesh_model Mesh_spec Mesh_proofs MeshSerial_proofs Helpers_model Helpers_spec Partition_model Partition_spec Partition1_proofs Partition2_proofs Partition3_proofs Partition4_proofs Partition5_proofs.
Local Arguments Nat.mul : simpl never.
Local Arguments Nat.add : simpl never.
Local Arguments Nat.sub : simpl never.
Section final.
  Context {V : Type} (orders : list nat) (x : mesh V) (N n_parts : nat) (w : list nat) (E : env (V := V)).
  Notation el := (element V).
  Notation doms := (dmap (domain V)).
  Notation m := (m_domains x).
  Notation B := (m_bnds x).*1.
  Notation ids := (getDomainIds m B).
  Context (Hun : unpartitioned orders x N) (HE : env_ok E) (Hnp : 1 <= n_parts) (Hw : w = [] \/ length w = N).
  Lemma offers_one (e : el) : offers m e 1 <-> exists id, (exists e' s, side_in m id e e' s) /\ forall id', (exists e' s, side_in m id' e e' s) -> id' = id.
  Proof.
    split.
    - intros (l & Hnd & Hl & Hin). destruct l as [|id [|? ?]]; try done. exists id. split; [apply Hin; left|]. intros id' Hid'. apply Hin in Hid'. by apply elem_of_list_singleton.
    - intros (id & Hid & Hu). exists [id]. split; [apply NoDup_singleton|]. split; [done|]. intros id'. rewrite elem_of_list_singleton. split; [by intros ->|apply Hu].
  Qed.
  (** Up to the boundary elements. *)
  Lemma assign_stage (c : el -> nat) ep : length ep = length (visit_elems m ids) -> Forall (fun p => p < n_parts) ep ->
    (forall b e, b ∈ B -> in_domain m b e -> offers m e (c e)) ->
    exists maps0, makeDomainMaps orders m n_parts ep ids = Ok maps0 /\
    if sum (map c (visit_elems m B)) =? length (visit_elems m B)
    then exists bps maps', assignBoundaryElements orders (e_sort E) (e_assign E) m ep maps0 ids B = Ok maps' /\ rep orders n_parts (dom_pushes m ep ids ++ bps) maps' /\
      (forall y, y ∈ bps -> y.1.2 ∈ B /\ in_domain m y.1.2 y.2 /\ exists id e s, id ∈ ids /\ attached_in m id y.2 e s /\ part_of m ids ep e y.1.1 /\ y.1.1 < n_parts) /\
      ((forall b e, b ∈ B -> in_domain m b e -> c e = 1) -> forall b, b ∈ B -> map snd (List.filter (fun y => y.1.2 =? b) bps) ≡ₚ visit_elems m [b])
    else assignBoundaryElements orders (e_sort E) (e_assign E) m ep maps0 ids B = Throw.
  Proof.
    intros Hlen Hep Hc. pose proof (un_valid _ _ _ Hun) as Hv. pose proof (un_orders _ _ _ Hun) as Hord. destruct (un_bnds _ _ _ Hun) as [HBnd HB]. destruct (un_parents _ _ _ Hun) as [Hpe _].
    destruct (domain_maps_ok orders Hord m Hv n_parts ep ids Hlen Hep) as (maps0 & Hm0 & Hr0). exists maps0. split; [done|].
    pose proof (assign_gen orders Hord m Hv ids ep n_parts Hlen Hep (ids_nodup orders x N Hun) B HBnd HB Hpe (parents_ids orders x N Hun) (e_sort E) (e_assign E) (dom_pushes m ep ids) maps0 c) as Hag.
    unfold bcounts in Hag. apply Hag; [apply (eo_sort _ HE)|apply (eo_assign _ HE)|done| |done].
    intros y Hy. by apply (dom_pushes_in orders x N n_parts Hun ep Hlen Hep) in Hy as (? & _).
  Qed.
  Lemma sum_const {A} (l : list A) : sum (map (fun _ => 1) l) = length l.
  Proof. induction l as [|a l IH]; [done|]. cbn [map]. rewrite sum_cons, IH. done. Qed.
  Lemma zip_lookup3 (rs gs : list (list nat)) (ms : list doms) p z : zip (zip rs gs) ms !! p = Some z <-> rs !! p = Some z.1.1 /\ gs !! p = Some z.1.2 /\ ms !! p = Some z.2.
  Proof.
    rewrite lookup_zip_with_Some. destruct z as [[r g] d]. cbn [fst snd]. split.
    - intros (rg & d' & [= <- ->] & H & Hd). apply lookup_zip_with_Some in H as (? & ? & [= -> ->] & ? & ?). done.
    - intros (Hr & Hg & Hd). exists (r, g), d. split; [done|]. split; [|done]. apply lookup_zip_with_Some. by exists r, g.
  Qed.
  Lemma partition_impl_ok : one_parent x ->
    exists parts nm f a1 a2 a3 a4 a5 ep np, partitionMeshImpl orders E x n_parts B w = Ok (parts, nm) /\ partition_of orders x N n_parts parts f /\
      (forall n, n < N -> (n, f n) ∈ nm) /\ e_metis E a1 a2 a3 a4 a5 n_parts = Ok (ep, np) /\
      forall k e p, visit_elems m ids !! k = Some e -> ep !! k = Some p -> exists y id, parts !! p = Some y /\ id ∉ B /\ in_domain (m_domains y) id (reindex_el f e).
  Proof.
    intros Hone. unfold partitionMeshImpl.
    destruct (metis_stage orders x N n_parts w E Hun HE Hnp Hw) as (ep & q & a1 & a2 & a3 & a4 & a5 & np & Hmet & -> & Hlen & Hep & Hlq & Hqn). rewrite bind_ok. cbn [fst snd].
    destruct (assign_stage (fun _ => 1) ep Hlen Hep) as (maps0 & -> & Has). { intros b e Hb He. apply offers_one. by apply (Hone b). }
    rewrite bind_ok. rewrite sum_const, Nat.eqb_refl in Has. destruct Has as (bps & maps & -> & Hr & Hb1 & Hb2). rewrite bind_ok. specialize (Hb2 ltac:(done)).
    pose proof (maps_valid orders x N n_parts Hun ep Hlen Hep bps maps Hr Hb1) as Hmv.
    pose proof (maps_node_lt orders x N n_parts Hun ep Hlen Hep bps maps Hr Hb1) as Hml.
    pose proof (maps_cover orders x N n_parts Hun ep Hlen Hep bps maps Hr Hb1) as Hmc.
    assert (Hlm : length maps = n_parts) by apply Hr.
    destruct (assign_nodes_ok N n_parts q maps Hlq Hqn Hlm (fun p dm H => strict_nodup _ (proj1 (Hmv p dm H))) Hml Hmc) as (vecs & -> & Hlv & Hvecs). rewrite bind_ok.
    destruct (renumber_stage orders x N n_parts w Hun Hnp Hw ep q Hlen Hep Hlq Hqn bps maps Hr Hb1 vecs Hlv Hvecs) as (gs & Hlg & ->). rewrite bind_ok. cbn [fst snd].
    set (f := num (concat vecs.*1)).
    pose proof (C_elem orders x N n_parts w Hun Hnp Hw ep q Hlen Hep Hlq Hqn bps maps Hr Hb1 vecs Hlv Hvecs) as HC.
    pose proof (C_nodup orders x N n_parts Hun ep q Hlen Hep Hlq Hqn bps maps Hr Hb1 vecs Hvecs) as HCn.
    pose proof (C_length orders x N n_parts w Hun Hnp Hw ep q Hlen Hep Hlq Hqn bps maps Hr Hb1 vecs Hlv Hvecs) as HCl.
    assert (Hone' : forall p dm o g, maps !! p = Some dm -> vecs !! p = Some (o, g) -> exists y, make_mesh2 (e_views E) (e_hash E) (rdoms f dm) (first (rng vecs p (o, g))) (length (rng vecs p (o, g))) B = Ok y /\ m_domains y = rdoms f dm /\
      so_begin (m_own y) = first (rng vecs p (o, g)) /\ so_end (m_own y) = first (rng vecs p (o, g)) + length o /\
      (forall n, owned y n <-> exists n', n' ∈ o /\ n = f n') /\
      StronglySorted lt (so_shared (m_own y)) /\ (forall n, n ∈ so_shared (m_own y) <-> is_node (m_domains y) n /\ ~ owned y n) /\
      StronglySorted lt (m_bnds y).*1 /\ (forall b, b ∈ (m_bnds y).*1 <-> b ∈ B) /\
      forall b views, (b, views) ∈ m_bnds y -> exists bs, bs ≡ₚ dom_elems (m_domains y) b /\ Forall2 (fun b v => attached (m_domains y) b v.1 v.2) bs views).
    { intros p dm o g Hdm Hog. eapply (one_mesh orders x N n_parts w E Hun HE Hnp Hw ep q Hlen Hep Hlq Hqn bps maps Hr Hb1 vecs Hlv Hvecs p dm o g Hdm Hog). }
    unfold makeMeshFromPartitionComponents.
    set (mk := fun z : list nat * list nat * doms => make_mesh2 (e_views E) (e_hash E) z.2 match z.1.1 with [] => 0 | o :: _ => o end (length z.1.1) B).
    assert (Hz : forall p z, zip (zip (imap (rng vecs) vecs) gs) (map (rdoms f) maps) !! p = Some z -> exists dm o g, maps !! p = Some dm /\ vecs !! p = Some (o, g) /\ z.2 = rdoms f dm /\ z.1.1 = rng vecs p (o, g)).
    { intros p z Hz. apply zip_lookup3 in Hz as (H1 & _ & H3). change (map (rdoms f) maps) with (rdoms f <$> maps) in H3. rewrite list_lookup_fmap in H3. destruct (maps !! p) as [dm|] eqn:Ed; [|done]. cbn in H3. injection H3 as <-.
      rewrite list_lookup_imap in H1. destruct (vecs !! p) as [[o g]|] eqn:Ev; [|done]. cbn in H1. injection H1 as <-. exists dm, o, g. done. }
    destruct (map_res_total mk (zip (zip (imap (rng vecs) vecs) gs) (map (rdoms f) maps))) as [parts Hparts].
    { intros z Hi. apply elem_of_list_lookup in Hi as [p Hp]. destruct (Hz p z Hp) as (dm & o & g & Hdm & Hog & E1 & E2). destruct (Hone' p dm o g Hdm Hog) as (y & Hy & _). exists y. unfold mk. rewrite E1, E2. exact Hy. }
    rewrite Hparts, bind_ok. pose proof (map_res_inv _ _ _ Hparts) as HF.
    assert (Hlp : length parts = n_parts). { rewrite <- (Forall2_length _ _ _ HF). rewrite !zip_with_length, imap_length, map_length. lia. }
    assert (Hpart : forall p y, parts !! p = Some y -> exists dm o g, maps !! p = Some dm /\ vecs !! p = Some (o, g) /\ m_domains y = rdoms f dm /\
      so_begin (m_own y) = first (rng vecs p (o, g)) /\ so_end (m_own y) = first (rng vecs p (o, g)) + length o /\
      (forall n, owned y n <-> exists n', n' ∈ o /\ n = f n') /\
      StronglySorted lt (so_shared (m_own y)) /\ (forall n, n ∈ so_shared (m_own y) <-> is_node (m_domains y) n /\ ~ owned y n) /\
      StronglySorted lt (m_bnds y).*1 /\ (forall b, b ∈ (m_bnds y).*1 <-> b ∈ B) /\
      forall b views, (b, views) ∈ m_bnds y -> exists bs, bs ≡ₚ dom_elems (m_domains y) b /\ Forall2 (fun b v => attached (m_domains y) b v.1 v.2) bs views).
    { intros p y Hy. destruct (Forall2_lookup_r _ _ _ _ _ HF Hy) as (z & Hzp & Hmk). destruct (Hz p z Hzp) as (dm & o & g & Hdm & Hog & E1 & E2). unfold mk in Hmk. rewrite E1, E2 in Hmk.
      destruct (Hone' p dm o g Hdm Hog) as (y' & Hy' & Hrest). unfold first in Hy' at 1. rewrite Hmk in Hy'. injection Hy' as <-. exists dm, o, g. done. }
    assert (Hsz : map (fun y => so_end (m_own y) - so_begin (m_own y)) parts = map length vecs.*1).
    { apply list_eq. intros p. change (map ?g parts) with (g <$> parts). change (map length vecs.*1) with (length <$> vecs.*1). rewrite !list_lookup_fmap.
      destruct (parts !! p) as [y|] eqn:Ep.
      - destruct (Hpart p y Ep) as (dm & o & g & _ & Hog & _ & Hbg & Hen & _). rewrite Hog. cbn. f_equal. rewrite Hbg, Hen. lia.
      - apply lookup_ge_None in Ep. rewrite (lookup_ge_None_2 vecs) by lia. done. }
    exists parts, (zip (concat vecs.*1) (seq 0 N)), f, a1, a2, a3, a4, a5, ep, np. split; [done|]. split; [|split; [|split; [done|]]].
    - split.
      + done.
      + intros n Hn. unfold f. rewrite <- HCl. apply (num_ok _ HCn). by apply HC.
      + intros n n' Hn Hn' Heq. destruct (num_ok _ HCn n) as [H1 _]; [by apply HC|]. destruct (num_ok _ HCn n') as [H2 _]; [by apply HC|]. unfold f in Heq. rewrite Heq in H1. congruence.
      + intros y Hy. apply elem_of_list_lookup in Hy as [p Hy]. destruct (Hpart p y Hy) as (dm & o & g & Hdm & _ & -> & _). by eapply rdoms_valid, Hmv.
      + intros id. rewrite <- (elems_perm orders x N n_parts w Hun Hnp Hw ep q Hlen Hep Hlq bps maps Hr Hb1 Hb2 id). rewrite concat_map, map_map. apply Permutation_refl'. f_equal.
        apply list_eq. intros p. change (map ?g parts) with (g <$> parts). change (map ?g maps) with (g <$> maps). rewrite !list_lookup_fmap.
        destruct (parts !! p) as [y|] eqn:Ep.
        * destruct (Hpart p y Ep) as (dm & o & g & Hdm & _ & Hd & _). rewrite Hdm. cbn. f_equal. by rewrite Hd, rdoms_dom_elems.
        * apply lookup_ge_None in Ep. rewrite (lookup_ge_None_2 maps) by lia. done.
      + intros p y Hy. destruct (Hpart p y Hy) as (dm & o & g & Hdm & Hog & Hd & Hbg & Hen & _). rewrite Hbg, Hen. split; [lia|]. intros Hlt.
        assert (Ht : map (fun y0 : mesh V => so_end (m_own y0) - so_begin (m_own y0)) (take p parts) = map length (take p vecs.*1)).
        { rewrite <- !firstn_map, Hsz. done. }
        rewrite Ht, <- length_concat. unfold rng, first. cbn [fst]. destruct o as [|a o]; [cbn in Hlt; lia|]. cbn [List.length seq]. done.
      + rewrite Hsz, <- length_concat. done.
      + intros y n Hy Hn. apply elem_of_list_lookup in Hy as [p Hy]. destruct (Hpart p y Hy) as (dm & o & g & Hdm & Hog & Hd & _ & _ & Ho & _). apply Ho in Hn as (n' & Hn' & ->).
        rewrite Hd. apply rdoms_node. exists n'. split; [|done]. apply (Hvecs p o g Hog) in Hn' as [(dm' & Hdm' & Hi) _]. congruence.
      + intros y Hy. apply elem_of_list_lookup in Hy as [p Hy]. destruct (Hpart p y Hy) as (dm & o & g & Hdm & Hog & Hd & _ & _ & Ho & H1 & H2 & _). done.
      + intros y b e Hy Hb He. apply elem_of_list_lookup in Hy as [p Hy]. destruct (Hpart p y Hy) as (dm & o & g & Hdm & Hog & Hd & _). rewrite Hd in *. apply rdoms_in_domain in He as (e0 & He & ->).
        destruct (follow orders x N n_parts Hun ep Hlen Hep bps maps Hr Hb1 p dm b e0 Hdm Hb He) as (id & e' & s & Hid & Hin & Hdim & Hside). exists id, (reindex_el f e'), s.
        split; [by apply (ids_elem x) in Hid as [_ ?]|]. split; [apply rdoms_in_domain; eauto|]. split; [done|]. by apply side_of_reindex.
      + intros y Hy. apply elem_of_list_lookup in Hy as [p Hy]. destruct (Hpart p y Hy) as (dm & o & g & Hdm & Hog & Hd & _ & _ & Ho & H1 & H2 & H3 & H4 & H5). done.
      + intros id Hid Hasc y d v Hy Hdin Hvin. apply elem_of_list_lookup in Hy as [p Hy]. destruct (Hpart p y Hy) as (dm & o & g & Hdm & Hog & Hd & _). rewrite Hd in Hdin. apply rdoms_in in Hdin as (d' & Hdin & ->).
        apply rdom_vec in Hvin as (v' & Hvin & ->). rewrite map_map. cbn [reindex_el el_id].
        apply (order_kept orders x N n_parts Hun ep Hlen bps maps Hr Hb1 p dm id d' v' Hdm Hid Hasc Hdin Hvin).
    - intros n Hn. destruct (num_ok _ HCn n) as [H1 H2]; [by apply HC|]. fold f in H1, H2. apply elem_of_list_lookup. exists (f n). apply lookup_zip_with_Some. exists n, (f n).
      split; [done|]. split; [done|]. apply lookup_seq. lia.
    - intros k e p Hk Hp. destruct (part_of_L orders x N Hun ep Hlen bps e p) as (id & HL & Hid); [by exists k|].
      assert (Hplt : p < n_parts). { rewrite Forall_forall in Hep. apply Hep. by eapply elem_of_list_lookup_2. }
      destruct (lookup_lt_is_Some_2 parts p) as [y Hy]; [lia|]. destruct (Hpart p y Hy) as (dm & o & g & Hdm & _ & Hd & _). exists y, id. split; [done|].
      split; [by apply (ids_elem x) in Hid as [_ ?]|]. rewrite Hd. apply rdoms_in_domain. exists e. split; [|done]. by apply (maps_in orders x N n_parts Hun ep Hlen Hep bps maps Hr Hb1 p).
  Qed.

  (** ** Rejected meshes *)
  Definition n_parents (e : el) : nat :=
    length (List.filter (fun id => match findDomainElement m e [id] with Ok (Some _) => true | _ => false end) m.*1).
  Lemma n_parents_ok (e : el) : offers m e (n_parents e).
  Proof.
    pose proof (un_valid _ _ _ Hun) as Hv. pose proof (strict_nodup _ (proj1 Hv)) as Hnd.
    eexists. split; [apply NoDup_ListNoDup, List.NoDup_filter, NoDup_ListNoDup, Hnd|]. split; [done|]. intros id. rewrite elem_of_list_In, filter_In, <- elem_of_list_In.
    destruct (find_dom_ok orders m Hv e id) as [[-> Hn]|(e' & s & -> & Ha)].
    - split; [by intros [_ ?]|]. intros (e' & s & Ha). by destruct (Hn e' s).
    - split; [eauto|]. intros _. split; [|done]. destruct Ha as [Hin _]. destruct (in_domain_typed orders m id e' Hv Hin) as (_ & d & Hd & _). apply elem_of_list_fmap. by exists (id, d).
  Qed.
  Lemma throw_gen : sum (map n_parents (visit_elems m B)) <> length (visit_elems m B) -> partitionMeshImpl orders E x n_parts B w = Throw.
  Proof.
    intros Hne. unfold partitionMeshImpl.
    destruct (metis_stage orders x N n_parts w E Hun HE Hnp Hw) as (ep & q & a1 & a2 & a3 & a4 & a5 & np & Hmet & -> & Hlen & Hep & Hlq & Hqn). rewrite bind_ok. cbn [fst snd].
    destruct (assign_stage n_parents ep Hlen Hep) as (maps0 & -> & Has). { intros b e Hb He. apply n_parents_ok. }
    rewrite bind_ok. apply Nat.eqb_neq in Hne. rewrite Hne in Has. by rewrite Has.
  Qed.
  Lemma sum_ge {A} (c : A -> nat) l : (forall a, a ∈ l -> 1 <= c a) -> length l <= sum (map c l).
  Proof. induction l as [|a l IH]; intros H; [done|]. cbn [map]. rewrite sum_cons. cbn [List.length]. pose proof (H a ltac:(left)). assert (forall b, b ∈ l -> _) as H2 by (intros b Hb; apply H; right; exact Hb). pose proof (IH H2). lia. Qed.
  Lemma sum_gt {A} (c : A -> nat) l a : (forall a, a ∈ l -> 1 <= c a) -> a ∈ l -> 2 <= c a -> length l < sum (map c l).
  Proof.
    intros H Ha Hc. apply elem_of_list_split in Ha as (l1 & l2 & ->). rewrite map_app, sum_app. cbn [map]. rewrite sum_cons, app_length. cbn [List.length].
    pose proof (sum_ge c l1 ltac:(intros z Hz; apply H; apply elem_of_app; first [by left|by right; right])). pose proof (sum_ge c l2 ltac:(intros z Hz; apply H; apply elem_of_app; first [by left|by right; right])). lia.
  Qed.
  Lemma sum_le {A} (c : A -> nat) l : (forall a, a ∈ l -> c a <= 1) -> sum (map c l) <= length l.
  Proof. induction l as [|a l IH]; intros H; [done|]. cbn [map]. rewrite sum_cons. cbn [List.length]. pose proof (H a ltac:(left)). assert (forall b, b ∈ l -> _) as H2 by (intros b Hb; apply H; right; exact Hb). pose proof (IH H2). lia. Qed.
  Lemma sum_lt {A} (c : A -> nat) l a : (forall a, a ∈ l -> c a <= 1) -> a ∈ l -> c a = 0 -> sum (map c l) < length l.
  Proof.
    intros H Ha Hc. apply elem_of_list_split in Ha as (l1 & l2 & ->). rewrite map_app, sum_app. cbn [map]. rewrite sum_cons, app_length. cbn [List.length].
    pose proof (sum_le c l1 ltac:(intros z Hz; apply H; apply elem_of_app; first [by left|by right; right])). pose proof (sum_le c l2 ltac:(intros z Hz; apply H; apply elem_of_app; first [by left|by right; right])). lia.
  Qed.
  Lemma visit_B e : e ∈ visit_elems m B <-> exists b, b ∈ B /\ in_domain m b e.
  Proof. apply visit_elem. apply strict_nodup, (un_valid _ _ _ Hun). Qed.
  Lemma throw_interface b e id1 id2 e1 e2 s1 s2 :
    (forall b e, b ∈ B -> in_domain m b e -> exists id e' s, side_in m id e e' s) ->
    b ∈ B -> in_domain m b e -> side_in m id1 e e1 s1 -> side_in m id2 e e2 s2 -> id1 <> id2 -> partitionMeshImpl orders E x n_parts B w = Throw.
  Proof.
    intros Hall Hb He H1 H2 Hne. apply throw_gen. cut (length (visit_elems m B) < sum (map n_parents (visit_elems m B))); [lia|].
    apply (sum_gt _ _ e).
    - intros e0 He0. apply visit_B in He0 as (b0 & Hb0 & He0). destruct (Hall b0 e0 Hb0 He0) as (id & e' & s & Hs). destruct (n_parents_ok e0) as (l & _ & <- & Hl).
      assert (Hin : id ∈ l) by (apply Hl; eauto). destruct l; [by apply elem_of_nil in Hin|cbn; lia].
    - apply visit_B. eauto.
    - destruct (n_parents_ok e) as (l & Hnd & <- & Hl). assert (Ha : id1 ∈ l) by (apply Hl; eauto). assert (Hb' : id2 ∈ l) by (apply Hl; eauto).
      destruct l as [|a [|c l]]; cbn; [by apply elem_of_nil in Ha| |lia]. apply elem_of_list_singleton in Ha, Hb'. congruence.
  Qed.
  Lemma throw_orphan b e :
    (forall b e id1 id2 e1 e2 s1 s2, b ∈ B -> in_domain m b e -> side_in m id1 e e1 s1 -> side_in m id2 e e2 s2 -> id1 = id2) ->
    b ∈ B -> in_domain m b e -> (forall id e' s, ~ side_in m id e e' s) -> partitionMeshImpl orders E x n_parts B w = Throw.
  Proof.
    intros Hall Hb He Hn. apply throw_gen. cut (sum (map n_parents (visit_elems m B)) < length (visit_elems m B)); [lia|].
    apply (sum_lt _ _ e).
    - intros e0 He0. apply visit_B in He0 as (b0 & Hb0 & He0). destruct (n_parents_ok e0) as (l & Hnd & <- & Hl).
      destruct l as [|i [|j l]]; cbn; [lia|lia|]. apply NoDup_cons in Hnd as [Hij _]. destruct (proj1 (Hl i)) as (e1 & s1 & H1); [left|]. destruct (proj1 (Hl j)) as (e2 & s2 & H2); [right; left|].
      destruct Hij. assert (i = j) as -> by eauto. left.
    - apply visit_B. eauto.
    - destruct (n_parents_ok e) as (l & _ & <- & Hl). destruct l as [|i l]; [done|]. destruct (proj1 (Hl i)) as (e1 & s1 & H1); [left|]. by destruct (Hn i e1 s1).
  Qed.
  (** ** The front end *)
  Lemma reindex_id (e : el) : reindex_el (fun n => n) e = e.
  Proof. destruct e. unfold reindex_el. cbn. f_equal. apply list_fmap_id. Qed.
  Lemma copy_stage : one_parent x -> exists y, copy_mesh (e_views E) (e_hash E) x = Ok y /\ partition_of orders x N 1 [y] (fun n => n).
  Proof.
    intros Hone. pose proof (un_valid _ _ _ Hun) as Hv. destruct (un_bnds _ _ _ Hun) as [HBnd HB]. destruct (un_parents _ _ _ Hun) as [Hpe Hpar].
    pose proof (un_own _ _ _ Hun) as Hown. pose proof (un_pos _ _ _ Hun) as Hpos. unfold copy_mesh. rewrite Hown. unfold numOwned. cbn [so_begin so_end]. rewrite Nat.sub_0_r.
    replace (if N =? 0 then 0 else 0) with 0 by (by destruct (N =? 0)).
    assert (Hviews : forall b, b ∈ B -> exists views, makeBoundaryElementViews (e_views E) m [b] = Ok views).
    { intros b Hb. apply (views_ok_iff orders); [done|apply (eo_views _ HE)|]. split.
      - intros id d Hid Hd. apply elem_of_list_singleton in Hid as ->. exact (Hpe b d Hb Hd).
      - intros e He. apply visit_elem in He as (b' & Hb' & He); [|by apply strict_nodup, Hv]. apply elem_of_list_singleton in Hb' as ->.
        destruct (Hone b e Hb He) as (id & (e' & s & Hin & Hd & Hs) & _). exists e', s. split; [by exists id|done]. }
    pose proof (mesh2_ok orders (e_views E) (e_hash E) m 0 N B Hv (eo_views _ HE) (eo_hash _ HE)) as Hm2.
    destruct (init_ok orders (e_views E) m B Hv (eo_views _ HE)) as [(bn & Hbn & Hbs & Hbk & Hbv)|[_ (id & Hid & Ht)]].
    2:{ destruct (Hviews id Hid) as [? ?]. congruence. }
    rewrite Hbn in Hm2. destruct Hm2 as (so & Hmk & Hb & He & Hss & Hsh). exists (mk_mesh m so bn). split; [done|].
    split; cbn [m_domains m_own m_bnds].
    - done.
    - done.
    - done.
    - intros y Hy. apply elem_of_list_singleton in Hy as ->. done.
    - intros id. cbn [map concat]. rewrite app_nil_r. cbn [m_domains]. apply Permutation_refl'. symmetry. rewrite (map_ext _ (fun e => e)); [apply map_id|apply reindex_id].
    - intros [|p] y Hy; [|done]. injection Hy as <-. cbn [m_own take map]. rewrite Hb, He. cbn. lia.
    - cbn [map m_own]. rewrite Hb, He. cbn. lia.
    - intros y n Hy Hn. apply elem_of_list_singleton in Hy as ->. unfold owned in Hn. cbn [m_own m_domains] in *. rewrite Hb, He in Hn. destruct (un_cover _ _ _ Hun n) as (id & e & _ & Hin & Hne); [lia|]. exists e. split; [by exists id|done].
    - intros y Hy. apply elem_of_list_singleton in Hy as ->. cbn [m_own m_domains]. split; [done|]. intros n. rewrite Hsh. unfold owned. cbn [m_own]. by rewrite Hb, He.
    - intros y b e Hy Hbb Hin. apply elem_of_list_singleton in Hy as ->. cbn [m_domains] in *. destruct (Hone b e Hbb Hin) as (id & (e' & s & Hs) & _). exists id, e', s. split; [|done].
      destruct (in_domain_typed orders m b e Hv Hin) as (_ & d & Hd & Hdim). destruct Hs as (Hi & Hd' & _). destruct (in_domain_typed orders m id e' Hv Hi) as (_ & d2 & Hd2 & Hdim2).
      eapply Hpar; [exact Hbb|exact Hd|exact Hdim|exact Hd2|]. by rewrite Hdim2, Hd'.
    - intros y Hy. apply elem_of_list_singleton in Hy as ->. cbn [m_bnds m_domains]. split; [done|]. split; [done|]. intros b views Hbvw. pose proof (Hbv b views Hbvw) as Hmv.
      destruct (views_ok orders (e_views E) m [b] Hv (eo_views _ HE)) as [(views' & bs & Hr' & Hbs' & HF & _)|[Hr' _]]; rewrite Hmv in Hr'; [|done]. injection Hr' as <-.
      exists bs. split; [|done]. by rewrite Hbs', (dom_elems_visit _ _ (proj1 Hv)).
    - intros id Hid Hasc y d v Hy Hd Hvin. apply elem_of_list_singleton in Hy as ->. by eapply Hasc.
  Qed.
  Lemma assert_ok : assertUnpartitionedMesh x = Ok tt.
  Proof.
    unfold assertUnpartitionedMesh. rewrite (un_own _ _ _ Hun). pose proof (un_pos _ _ _ Hun). unfold numOwned. cbn [so_begin so_end so_shared List.length negb Nat.eqb].
    rewrite Nat.sub_0_r. destruct (Nat.eqb_spec N 0); [lia|]. cbn [Nat.add]. by rewrite Nat.eqb_refl.
  Qed.
  Lemma front_ok : one_parent x -> exists parts f, partitionMesh orders E x n_parts w = Ok parts /\ partition_of orders x N n_parts parts f.
  Proof.
    intros Hone. unfold partitionMesh. rewrite assert_ok, bind_ok. destruct (Nat.leb_spec 1 n_parts); [|lia]. change (throwing_assert true) with (Ok tt). rewrite bind_ok.
    destruct (Nat.eqb_spec n_parts 1) as [Heq|].
    - destruct (copy_stage Hone) as (y & -> & Hy). rewrite bind_ok, Heq. by exists [y], (fun n => n).
    - destruct (partition_impl_ok Hone) as (parts & nm & f & ? & ? & ? & ? & ? & ? & ? & -> & Hp & _). rewrite bind_ok. by exists parts, f.
  Qed.
End final.
