From Verif Require Import Base StdAlgo Ownership_model Elem_model Elem_spec Elem_proofs Mesh_model Mesh_spec Mesh_proofs MeshSerial_proofs Helpers_model Helpers_spec Helpers_proofs Partition_model Partition_spec Partition1_proofs Partition2_proofs Partition3_proofs Partition4_proofs.
Local Arguments Nat.mul : simpl never.
Local Arguments Nat.add : simpl never.
Local Arguments Nat.sub : simpl never.

Lemma sublist_elem {A} (l l' : list A) a : l `sublist_of` l' -> a ∈ l -> a ∈ l'.
Proof.
  induction 1 as [|x l l' H IH|x l l' H IH]; [done| |]; rewrite ?elem_of_cons; [|auto]. intros [->|Ha]; auto.
Qed.
Lemma sublist_nodup {A} (l l' : list A) : l `sublist_of` l' -> NoDup l' -> NoDup l.
Proof.
  induction 1 as [|x l l' H IH|x l l' H IH]; [done| |]; rewrite !NoDup_cons; [|naive_solver]. intros [H1 H2]. split; [|auto]. intros Hx. apply H1. by eapply sublist_elem.
Qed.
Lemma sublist_map {A B} (f : A -> B) (l l' : list A) : l `sublist_of` l' -> map f l `sublist_of` map f l'.
Proof. induction 1 as [|x l l' H IH|x l l' H IH]; [done| |]; cbn [map]; [by apply sublist_skip|by apply sublist_cons]. Qed.
Lemma sorted_sublist (l l' : list nat) : l `sublist_of` l' -> StronglySorted lt l' -> StronglySorted lt l.
Proof.
  induction 1 as [|x l l' H IH|x l l' H IH]; [done| |]; intros Hs; inversion Hs as [|? ? H1 H2]; subst; [|by apply IH].
  constructor; [by apply IH|]. rewrite Forall_forall in *. intros y Hy. apply H2. by eapply sublist_elem.
Qed.
Lemma filter_sublist {A} (f g : A -> bool) l : List.filter (fun x => f x && g x) l `sublist_of` List.filter g l.
Proof.
  induction l as [|a l IH]; [done|]. cbn [List.filter]. destruct (f a), (g a); cbn [andb]; try done; [by apply sublist_skip|by apply sublist_cons].
Qed.
Lemma filter_mono {A} (f : A -> bool) l l' : l `sublist_of` l' -> List.filter f l `sublist_of` List.filter f l'.
Proof.
  induction 1 as [|x l l' H IH|x l l' H IH]; [done| |]; cbn [List.filter]; destruct (f x); try done; [by apply sublist_skip|by apply sublist_cons].
Qed.
Lemma slot_vector {V} sl (vs : list (list (element V))) s v i : Forall2 (fun s v => Forall (fun e => (el_type e, el_order e) = s /\ typed_el e) v) sl vs -> NoDup sl ->
  sl !! i = Some s -> vs !! i = Some v -> List.filter (fun e => bool_decide ((el_type e, el_order e) = s)) (concat vs) = v.
Proof.
  intros H. revert i. induction H as [|s0 v0 sl vs H0 H IH]; intros i Hnd Hs Hv; [done|]. apply NoDup_cons in Hnd as [Hn Hnd]. cbn [concat]. rewrite List.filter_app.
  destruct i as [|i]; cbn in Hs, Hv.
  - injection Hs as ->. injection Hv as ->. rewrite filter_all, filter_none, app_nil_r; [done| |].
    + intros e He. apply elem_of_concat in He as (w & He & Hw). apply elem_of_list_lookup in Hw as [j Hj]. destruct (Forall2_lookup_r _ _ _ _ _ H Hj) as (s' & Hs' & Hall).
      rewrite Forall_forall in Hall. destruct (Hall e He) as [-> _]. apply bool_decide_eq_false. intros ->. apply Hn. by eapply elem_of_list_lookup_2.
    + intros e He. rewrite Forall_forall in H0. destruct (H0 e He) as [-> _]. by apply bool_decide_eq_true.
  - rewrite filter_none; [by apply (IH i)|]. intros e He. rewrite Forall_forall in H0. destruct (H0 e He) as [-> _]. apply bool_decide_eq_false. intros ->. apply Hn. by eapply elem_of_list_lookup_2.
Qed.

Section main.
  Context {V : Type} (orders : list nat) (x : mesh V) (N n_parts : nat) (w : list nat) (E : env (V := V)).
  Notation el := (element V).
  Notation doms := (dmap (domain V)).
  Notation m := (m_domains x).
  Notation B := (m_bnds x).*1.
  Notation ids := (getDomainIds m B).
  Context (Hun : unpartitioned orders x N) (HE : env_ok E) (Hnp : 1 <= n_parts) (Hw : w = [] \/ length w = N).
  Let Hv : valid_doms orders m := un_valid _ _ _ Hun.
  Let Hsm : StronglySorted lt m.*1 := proj1 Hv.
  Let Hnd : NoDup m.*1 := strict_nodup _ Hsm.
  Lemma ids_elem id : id ∈ ids <-> id ∈ m.*1 /\ id ∉ B.
  Proof. unfold getDomainIds. rewrite filter_elem, negb_true_iff, bool_decide_eq_false. done. Qed.
  Lemma in_dom_key (dm : doms) id (e : el) : in_domain dm id e -> id ∈ dm.*1.
  Proof. intros (d & v & Hd & _). apply elem_of_list_fmap. by exists (id, d). Qed.
  Lemma els_typed e : e ∈ all_elems m -> typed_el e /\ forall n, n ∈ el_nodes e -> n < N.
  Proof.
    intros He. apply all_elems_elem in He; [|done]. destruct He as [id He]. destruct (in_domain_typed orders m id e Hv He) as [Ht _]. split; [done|].
    intros n Hn. apply (un_nodes _ _ _ Hun). exists e. split; [by exists id|done].
  Qed.
  Lemma visit_all e : e ∈ visit_elems m ids -> e ∈ all_elems m.
  Proof. intros He. apply visit_elem in He as (id & _ & He); [|done]. apply all_elems_elem; [done|]. by exists id. Qed.
  Lemma own_size : localSize (m_own x) = N.
  Proof. rewrite (un_own _ _ _ Hun). unfold localSize, numOwned. cbn. lia. Qed.
  Lemma metis_stage : exists ep q a1 a2 a3 a4 a5 np, e_metis E a1 a2 a3 a4 a5 n_parts = Ok (ep, np) /\ partitionCondensedMesh E x ids n_parts w = Ok (ep, q) /\
    length ep = length (visit_elems m ids) /\ Forall (fun p => p < n_parts) ep /\ length q = N /\ forall n, n < N -> exists p, q !! n = Some (Some p) /\ p < n_parts.
  Proof.
    unfold partitionCondensedMesh. rewrite own_size.
    destruct (condensation_ok N (e_visit E (all_elems m))) as (fwd & rev & -> & Hlf & Hsr & Hrev & Hfw & _).
    { intros e He. rewrite (eo_visit _ HE) in He. by apply els_typed. }
    rewrite bind_ok. cbn [fst snd].
    assert (Hrev' : forall n, n ∈ rev <-> exists e, e ∈ all_elems m /\ bnd_node e n) by (intros n; rewrite Hrev; by setoid_rewrite (eo_visit _ HE)).
    assert (HrN : forall n, n ∈ rev -> n < N). { intros n Hn. apply Hrev' in Hn as (e & He & Hb). by apply (els_typed e He), bnd_node_in. }
    assert (exists w', condenseNodeWeights w rev = Ok w') as [w' ->].
    { unfold condenseNodeWeights. destruct Hw as [-> |Hl]; [by eexists|]. destruct (length w =? 0); [by eexists|]. destruct (weights_ok w rev Hsr) as (w' & -> & _); [by rewrite Hl|by eexists]. }
    rewrite bind_ok. destruct (prep_ok m fwd rev ids) as (segs & e_ptr & -> & _).
    { intros e He. apply visit_all in He. split; [by apply els_typed|]. intros n Hb. assert (Hn : n ∈ rev) by (apply Hrev'; eauto). apply elem_of_list_lookup in Hn as [c Hc].
      exists c. split; [by apply Hfw|done]. }
    rewrite bind_ok. cbn [fst snd]. destruct (eo_metis _ HE (length (visit_elems m ids)) (length rev) e_ptr (concat segs) w' n_parts Hnp) as (ep & np & Hmet & Hle & Hln & Hep & Hnpp).
    rewrite Hmet, bind_ok. cbn [fst snd]. destruct (uncondense_ok N ep np rev m ids) as (q & -> & Hlq & Hq); [by apply strict_nodup|done|done|done| |].
    { intros e He. by apply els_typed, visit_all. }
    rewrite bind_ok. exists ep, q. do 6 eexists. split; [exact Hmet|]. split; [done|]. split; [done|]. split; [done|]. split; [done|].
    rewrite Forall_forall in Hep, Hnpp. intros n Hn. destruct (Hq n Hn) as [(k & e & p & _ & _ & Hp & Hqn)|[Hno [(c & p & _ & Hp & Hqn)|[Hnr _]]]].
    - exists p. split; [done|]. apply Hep. by eapply elem_of_list_lookup_2.
    - exists p. split; [done|]. apply Hnpp. by eapply elem_of_list_lookup_2.
    - exfalso. destruct (un_cover _ _ _ Hun n Hn) as (id & e & Hid & He & Hne).
      assert (Hev : e ∈ visit_elems m ids). { apply visit_elem; [done|]. exists id. split; [|done]. apply ids_elem. split; [by eapply in_dom_key|done]. }
      destruct (node_cases e n (proj1 (els_typed e (visit_all e Hev))) Hne) as [Hb|Hi]; [|by apply (Hno e)]. apply Hnr, Hrev'. exists e. split; [by apply visit_all|done].
  Qed.
  Lemma ids_nodup : NoDup (map el_id (visit_elems m ids)).
  Proof.
    pose proof (un_ids _ _ _ Hun) as H. rewrite <- all_elems_concat in H by done. eapply sublist_nodup; [|exact H].
    apply sublist_map. unfold all_elems, visit_elems, getDomainIds. apply sublist_concat_filter.
  Qed.
  Lemma parents_ids b d id d' dim : b ∈ B -> (b, d) ∈ m -> d_dim d = Some dim -> (id, d') ∈ m -> d_dim d' = Some (dim + 1) -> id ∈ ids.
  Proof.
    intros Hb Hd Hdim Hid Hd'. apply ids_elem. split; [apply elem_of_list_fmap; by exists (id, d')|]. by eapply (proj2 (un_parents _ _ _ Hun)).
  Qed.

  Section with_q.
  Context (ep : list nat) (q : list (option nat)) (Hlen : length ep = length (visit_elems m ids)) (Hep : Forall (fun p => p < n_parts) ep)
    (Hlq : length q = N) (Hqn : forall n, n < N -> exists p, q !! n = Some (Some p) /\ p < n_parts).
  Lemma dom_pushes_in y : y ∈ dom_pushes m ep ids -> in_domain m y.1.2 y.2 /\ y.1.1 < n_parts /\ y.1.2 ∈ ids.
  Proof.
    intros Hy. apply (dom_pushes_elem m) in Hy; [|done]. destruct Hy as (k & Hk & Ht). apply elem_of_list_lookup_2, (dom_tasks_elem orders m Hv) in Ht as [Hi Hin]. cbn [fst snd] in *.
    split; [done|]. split; [|done]. rewrite Forall_forall in Hep. apply Hep. by eapply elem_of_list_lookup_2.
  Qed.
  Context (bps : list (nat * nat * el)) (maps : list doms) (Hr : rep orders n_parts (dom_pushes m ep ids ++ bps) maps)
    (Hb1 : forall y, y ∈ bps -> y.1.2 ∈ B /\ in_domain m y.1.2 y.2 /\ exists id e s, id ∈ ids /\ attached_in m id y.2 e s /\ part_of m ids ep e y.1.1 /\ y.1.1 < n_parts)
    (Hb2 : forall b, b ∈ B -> map snd (List.filter (fun y => y.1.2 =? b) bps) ≡ₚ visit_elems m [b]).
  Let L := dom_pushes m ep ids ++ bps.
  Lemma L_in y : y ∈ L -> in_domain m y.1.2 y.2 /\ y.1.1 < n_parts.
  Proof.
    intros Hy. apply elem_of_app in Hy as [Hy|Hy]; [by apply dom_pushes_in in Hy as (? & ? & _)|]. apply Hb1 in Hy as (_ & Hin & id & e & s & _ & _ & _ & Hlt). done.
  Qed.
  Lemma L_slot y : y ∈ L -> (el_type y.2, el_order y.2) ∈ slots orders.
  Proof. intros Hy. apply L_in in Hy as [Hin _]. by eapply in_slots. Qed.
  Lemma maps_len : length maps = n_parts.
  Proof. apply Hr. Qed.
  Lemma maps_in p dm id e : maps !! p = Some dm -> in_domain dm id e <-> (p, id, e) ∈ L.
  Proof. intros Hdm. eapply rep_in; [exact Hr|apply L_slot|done]. Qed.
  Lemma maps_valid p dm : maps !! p = Some dm -> valid_doms orders dm.
  Proof.
    intros Hdm. eapply rep_valid; [exact Hr| | |exact Hdm].
    - intros y Hy. split; [by apply L_slot|]. apply L_in in Hy as [Hin _]. by apply (in_domain_typed orders m y.1.2 y.2 Hv Hin).
    - intros y z Hy Hz Hyz. apply L_in in Hy as [Hy _]. apply L_in in Hz as [Hz _]. rewrite Hyz in Hy. by eapply same_dim.
  Qed.
  Lemma maps_node_lt p dm n : maps !! p = Some dm -> is_node dm n -> n < N.
  Proof.
    intros Hdm (e & (id & He) & Hn). apply (maps_in p dm id e Hdm), L_in in He as [He _]. apply (un_nodes _ _ _ Hun). exists e. split; [by eexists|done].
  Qed.
  Lemma dom_in_part id (e : el) k p : id ∈ ids -> in_domain m id e -> visit_elems m ids !! k = Some e -> ep !! k = Some p -> exists id', (p, id', e) ∈ L /\ id' ∈ ids.
  Proof.
    intros Hi He Hk Hp. rewrite <- dom_tasks_snd in Hk. change (map snd ?l) with (snd <$> l) in Hk. rewrite list_lookup_fmap in Hk. destruct (dom_tasks m ids !! k) as [[id' e']|] eqn:Ek; [|done].
    cbn in Hk. injection Hk as ->. exists id'. split; [apply elem_of_app; left; apply (dom_pushes_elem m ep ids (p, id', e)); [done|]; exists k; done|].
    apply elem_of_list_lookup_2, (dom_tasks_elem orders m Hv) in Ek as [? _]. done.
  Qed.
  Lemma part_of_L (e : el) p : part_of m ids ep e p -> exists id, (p, id, e) ∈ L /\ id ∈ ids.
  Proof.
    intros (k & Hk & Hp). assert (Hin : e ∈ visit_elems m ids) by (by eapply elem_of_list_lookup_2). apply visit_elem in Hin as (id & Hid & Hin); [|done]. by eapply dom_in_part.
  Qed.
  Lemma maps_cover n : n < N -> exists p dm, maps !! p = Some dm /\ is_node dm n.
  Proof.
    intros Hn. destruct (un_cover _ _ _ Hun n Hn) as (id & e & Hid & He & Hne).
    assert (Hid' : id ∈ ids) by (apply ids_elem; split; [by eapply in_dom_key|done]).
    destruct (part_of_total orders m Hv ids ep n_parts Hlen Hep id e He Hid') as (p & Hp & Hlt). apply part_of_L in Hp as (id' & HL & _).
    destruct (lookup_lt_is_Some_2 maps p) as [dm Hdm]; [by rewrite maps_len|]. exists p, dm. split; [done|]. exists e. split; [|done]. exists id'. by apply (maps_in p).
  Qed.
  (** A boundary element is with its parent. *)
  Lemma follow p dm b e : maps !! p = Some dm -> b ∈ B -> in_domain dm b e -> exists id e' s, id ∈ ids /\ side_in dm id e e' s.
  Proof.
    intros Hdm Hb He. apply (maps_in p dm b e Hdm) in He. apply elem_of_app in He as [He|He].
    - apply dom_pushes_in in He as (_ & _ & Hi). cbn in Hi. apply ids_elem in Hi. naive_solver.
    - apply Hb1 in He as (_ & Hin & id & e' & s & Hi & (Ha1 & Ha2 & Ha3) & Hpo & _). cbn [fst snd] in *. destruct (part_of_L e' p Hpo) as (id' & HL & Hi').
      exists id', e', s. split; [done|]. split; [|done]. by apply (maps_in p).
  Qed.
  Lemma elems_perm id : concat (map (fun dm => dom_elems dm id) maps) ≡ₚ dom_elems m id.
  Proof.
    transitivity (concat (map (fun p => sel p id L) (seq 0 n_parts))).
    { assert (G : forall l k, (forall i dm, l !! i = Some dm -> dom_elems dm id ≡ₚ sel (k + i) id L) -> concat (map (fun dm => dom_elems dm id) l) ≡ₚ concat (map (fun p => sel p id L) (seq k (length l)))).
      { induction l as [|dm l IH]; intros k H; [done|]. cbn [map concat List.length seq]. rewrite (H 0 dm eq_refl), Nat.add_0_r. f_equiv. apply IH. intros i dm' Hi. rewrite (H (S i) dm' Hi). by replace (k + S i) with (S k + i) by lia. }
      rewrite <- maps_len. apply G. intros i dm Hi. eapply (rep_concat orders (un_orders _ _ _ Hun)); [exact Hr|apply L_slot|done]. }
    rewrite (parts_perm L n_parts id) by (intros y Hy; by apply L_in). unfold L. rewrite List.filter_app, map_app.
    assert (Hidn : NoDup ids) by (apply filter_nodup, Hnd). rewrite (dom_pushes_id m ep ids id Hidn Hsm Hlen), (dom_elems_visit m id Hsm).
    destruct (decide (id ∈ B)) as [Hin|Hin].
    - rewrite decide_False by (rewrite ids_elem; tauto). cbn [app]. by apply Hb2.
    - rewrite (filter_none _ bps). 2:{ intros y Hy. apply Nat.eqb_neq. intros <-. apply Hb1 in Hy as [? _]. done. }
      cbn [map]. rewrite app_nil_r. case_decide as Hi; [done|]. rewrite ids_elem in Hi.
      assert (Hnone : dm_find id m = None) by (apply dm_find_none; tauto). unfold visit_elems. cbn [map concat]. by rewrite Hnone.
  Qed.
  Lemma order_kept p dm id d v : maps !! p = Some dm -> id ∉ B -> (forall d v, (id, d) ∈ m -> v ∈ d_els d -> StronglySorted lt (map el_id v)) -> (id, d) ∈ dm -> v ∈ d_els d -> StronglySorted lt (map el_id v).
  Proof.
    intros Hdm Hb Hasc Hd Hvv. destruct (proj2 Hr p dm Hdm) as [Hs Hf]. fold L in Hf. apply (dm_find_iff _ _ _ Hs) in Hd. rewrite Hf in Hd.
    assert (Hd' : d = d_of orders (sel p id L)) by (destruct (sel p id L); [done|by injection Hd]). clear Hd. subst d.
    unfold d_of in Hvv. cbn [d_els] in Hvv. apply (elem_of_list_fmap (fun s => List.filter (fun e : el => bool_decide ((el_type e, el_order e) = s)) (sel p id L))) in Hvv as (s & -> & Hsl).
    assert (Hsel : sel p id L `sublist_of` visit_elems m [id]).
    { unfold L. rewrite sel_app. assert (Hnil : sel p id bps = []). { unfold sel. rewrite filter_none; [done|]. intros y Hy. apply andb_false_iff. right. apply Nat.eqb_neq. intros <-. by apply Hb1 in Hy as [? _]. }
      rewrite Hnil, app_nil_r. assert (Hidn : NoDup ids) by (apply filter_nodup, Hnd). pose proof (dom_pushes_id m ep ids id Hidn Hsm Hlen) as Hp.
      assert (Hs1 : sel p id (dom_pushes m ep ids) `sublist_of` map snd (List.filter (fun y => y.1.2 =? id) (dom_pushes m ep ids))).
      { unfold sel. apply (sublist_map snd). apply (filter_sublist (fun y => y.1.1 =? p) (fun y => y.1.2 =? id)). }
      rewrite Hp in Hs1. case_decide; [done|]. etransitivity; [exact Hs1|]. apply sublist_nil_l. }
    eapply sorted_sublist; [apply (sublist_map el_id), filter_mono, Hsel|].
    unfold visit_elems. cbn [map concat]. rewrite app_nil_r. destruct (dm_find id m) as [d|] eqn:Ed; [|cbn; constructor]. apply dm_find_elem in Ed.
    pose proof (proj2 (un_valid _ _ _ Hun)) as HF. rewrite Forall_forall in HF. destruct (HF _ Ed) as [Ht _]. cbn [snd] in Ht. apply elem_of_list_lookup in Hsl as [i Hi].
    destruct (Forall2_lookup_l _ _ _ _ _ Ht Hi) as (v & Hvi & _). rewrite (slot_vector _ _ _ _ _ Ht (slots_nodup _ (un_orders _ _ _ Hun)) Hi Hvi). apply (Hasc d); [done|by eapply elem_of_list_lookup_2].
  Qed.

  (** Nodes. *)
  Context (vecs : list (list nat * list nat)) (Hlv : length vecs = n_parts)
    (Hvecs : forall p o g, vecs !! p = Some (o, g) -> StronglySorted lt o /\ StronglySorted lt g /\ (forall n, n ∈ o <-> owns q maps p n) /\ (forall n, n ∈ g <-> in_part maps p n /\ ~ owns q maps p n)).
  Let C := concat vecs.*1.
  Lemma owns_lt p n : owns q maps p n -> n < N.
  Proof. intros [(dm & Hdm & Hi) _]. by eapply maps_node_lt. Qed.
  Lemma C_elem n : n ∈ C <-> n < N.
  Proof.
    unfold C. rewrite elem_of_concat. split.
    - intros (o & Hn & Ho). apply elem_of_list_fmap in Ho as ([o' g] & -> & Hi). apply elem_of_list_lookup in Hi as [p Hp]. destruct (Hvecs p o' g Hp) as (_ & _ & H & _). cbn in Hn. apply H in Hn. by eapply owns_lt.
    - intros Hn. destruct (owner_unique N n_parts q maps Hlq Hqn maps_len (fun p dm H => strict_nodup _ (proj1 (maps_valid p dm H))) maps_cover n Hn) as (p & Hp & Ho & _).
      destruct (lookup_lt_is_Some_2 vecs p) as [[o g] Hog]; [lia|]. exists o. split; [by apply (Hvecs p o g Hog)|]. apply elem_of_list_fmap. exists (o, g). split; [done|by eapply elem_of_list_lookup_2].
  Qed.
  Lemma C_nodup : NoDup C.
  Proof.
    unfold C. assert (Hu : forall n p p', owns q maps p n -> owns q maps p' n -> p = p').
    { intros n p p' H H'. destruct (owner_unique N n_parts q maps Hlq Hqn maps_len (fun p dm H => strict_nodup _ (proj1 (maps_valid p dm H))) maps_cover n (owns_lt _ _ H)) as (p0 & _ & _ & Hu).
      rewrite (Hu p H), (Hu p' H'). done. }
    assert (G : forall k, (forall p o g, vecs !! p = Some (o, g) -> NoDup o /\ forall n, n ∈ o -> owns q maps (k + p) n) -> NoDup (concat vecs.*1)).
    { clear -Hu. induction vecs as [|[o g] l IH]; intros k H; [constructor|]. cbn [fmap list_fmap concat fst]. destruct (H 0 o g eq_refl) as [H1 H2]. apply NoDup_app. split; [done|]. split.
      - intros n Hn Hn'. apply elem_of_concat in Hn' as (o' & Hn' & Ho'). apply elem_of_list_fmap in Ho' as ([o'' g'] & -> & Hi). apply elem_of_list_lookup in Hi as [j Hj].
        destruct (H (S j) o'' g' Hj) as [_ H3]. pose proof (Hu n _ _ (H2 n Hn) (H3 n Hn')). lia.
      - apply (IH (S k)). intros p o' g' Hp. replace (S k + p) with (k + S p) by lia. by apply (H (S p) o' g'). }
    apply (G 0). intros p o g Hp. destruct (Hvecs p o g Hp) as (H1 & _ & H3 & _). split; [by apply strict_nodup|]. intros n Hn. by apply H3.
  Qed.
  Lemma C_length : length C = N.
  Proof.
    rewrite <- (seq_length N 0). apply Permutation_length, NoDup_Permutation; [apply C_nodup|apply NoDup_seq|]. intros n. rewrite C_elem, elem_of_seq. lia.
  Qed.
  Let f := num C.
  Lemma f_find n : n < N -> hm_find n (zip C (seq 0 (length C))) = Some (f n).
  Proof.
    intros Hn. rewrite hm_find_zip. unfold f, num. destruct (pos_of_some n C) as (i & Hi & _); [by apply C_elem|]. rewrite Hi. done.
  Qed.
  Definition rng (p : nat) (v : list nat * list nat) : list nat := seq (length (concat (take p vecs.*1))) (length v.1).
  Lemma renumber_stage : exists gs, length gs = n_parts /\ renumberNodes maps vecs = Ok (zip C (seq 0 N), zip (imap rng vecs) gs, map (rdoms f) maps).
  Proof.
    unfold renumberNodes. rewrite number_all. fold C. rewrite number_nodup by (apply C_nodup || done). cbn [fst app].
    rewrite owned_ranges. cbn [fst app].
    destruct (map_res_total (fun v : list nat * list nat => g ← map_res (at_map (zip C (seq 0 (length C)))) v.2; Ok (sort g)) vecs) as [gs Hgs].
    { intros [o g] Hi. apply elem_of_list_lookup in Hi as [p Hp]. destruct (Hvecs p o g Hp) as (_ & _ & _ & Hg). cbn [snd].
      destruct (map_res_total (at_map (zip C (seq 0 (length C)))) g) as [g' ->]; [|by eexists]. intros n Hn. apply Hg in Hn as [(dm & Hdm & Hi) _]. exists (f n). unfold at_map. rewrite f_find; [done|]. by eapply maps_node_lt. }
    rewrite Hgs, bind_ok. rewrite (map_res_ok _ (rdoms f)).
    - rewrite bind_ok. exists gs. split; [by rewrite <- Hlv, (Forall2_length _ _ _ (map_res_inv _ _ _ Hgs))|]. rewrite C_length. done.
    - intros dm Hi. apply elem_of_list_lookup in Hi as [p Hp]. apply renumber_ok. intros n Hn. apply f_find. by eapply maps_node_lt.
  Qed.
  (** Owned nodes of a part, renumbered. *)
  Lemma rng_elem p o g n : vecs !! p = Some (o, g) -> (exists n', n' ∈ o /\ n = f n') <-> length (concat (take p vecs.*1)) <= n < length (concat (take p vecs.*1)) + length o.
  Proof.
    intros Hp. assert (Ho : vecs.*1 !! p = Some o) by (by rewrite list_lookup_fmap, Hp). split.
    - intros (n' & Hn' & ->). apply elem_of_list_lookup in Hn' as [i Hi]. pose proof (concat_take_lookup _ _ _ _ _ Ho Hi) as Hc. fold C in Hc. unfold f. rewrite (num_lookup C _ n' C_nodup Hc). apply lookup_lt_Some in Hi. lia.
    - intros Hn. set (k := length (concat (take p vecs.*1))) in *. destruct (lookup_lt_is_Some_2 o (n - k)) as [n' Hn']; [lia|]. exists n'. split; [by eapply elem_of_list_lookup_2|].
      pose proof (concat_take_lookup _ _ _ _ _ Ho Hn') as Hc. fold C k in Hc. replace (k + (n - k)) with n in Hc by lia. unfold f. by rewrite (num_lookup C _ n' C_nodup Hc).
  Qed.
  Definition first (l : list nat) : nat := match l with [] => 0 | o :: _ => o end.
  Lemma one_mesh p dm o g : maps !! p = Some dm -> vecs !! p = Some (o, g) ->
    exists y, make_mesh2 (e_views E) (e_hash E) (rdoms f dm) (first (rng p (o, g))) (length (rng p (o, g))) B = Ok y /\ m_domains y = rdoms f dm /\
      so_begin (m_own y) = first (rng p (o, g)) /\ so_end (m_own y) = first (rng p (o, g)) + length o /\
      (forall n, owned y n <-> exists n', n' ∈ o /\ n = f n') /\
      StronglySorted lt (so_shared (m_own y)) /\ (forall n, n ∈ so_shared (m_own y) <-> is_node (m_domains y) n /\ ~ owned y n) /\
      StronglySorted lt (m_bnds y).*1 /\ (forall b, b ∈ (m_bnds y).*1 <-> b ∈ B) /\
      forall b views, (b, views) ∈ m_bnds y -> exists bs, bs ≡ₚ dom_elems (m_domains y) b /\ Forall2 (fun b v => attached (m_domains y) b v.1 v.2) bs views.
  Proof.
    intros Hdm Hog. assert (Hvr : valid_doms orders (rdoms f dm)) by (eapply rdoms_valid, maps_valid, Hdm).
    assert (Hviews : forall b, b ∈ B -> exists views, makeBoundaryElementViews (e_views E) (rdoms f dm) [b] = Ok views).
    { intros b Hb. apply (views_ok_iff orders); [done|apply (eo_views _ HE)|]. split.
      - intros id d Hid Hd. apply elem_of_list_singleton in Hid as ->. apply rdoms_in in Hd as (d' & Hd & ->). cbn [reindex_domain d_dim].
        pose proof (maps_valid p dm Hdm) as Hvd. destruct (proj2 Hr p dm Hdm) as [Hs Hf]. pose proof Hd as Hd1. apply (dm_find_iff _ _ _ Hs) in Hd1. rewrite Hf in Hd1.
        fold L in Hd1. destruct (sel p b L) as [|e es] eqn:Es; [done|]. assert (He : e ∈ sel p b L) by (rewrite Es; left). apply sel_elem in He. apply (maps_in p dm b e Hdm) in He.
        destruct (in_domain_typed orders dm b e Hvd He) as (_ & d0 & Hd0 & Hdim0). assert (d0 = d') as ->. { apply (dm_find_iff _ _ _ Hs) in Hd0. apply (dm_find_iff _ _ _ Hs) in Hd. congruence. }
        exists (native_dim (el_type e)). split; [done|]. destruct (follow p dm b e Hdm Hb He) as (id & e' & s & _ & Hin & Hdim & _).
        destruct (in_domain_typed orders dm id e' Hvd Hin) as (_ & d2 & Hd2 & Hdim2). exists id, (reindex_domain f d2). split; [apply rdoms_in; eauto|]. cbn. by rewrite Hdim2, Hdim.
      - intros be Hbe. apply visit_elem in Hbe as (b' & Hb' & Hbe); [|by apply strict_nodup, Hvr]. apply elem_of_list_singleton in Hb' as ->.
        apply rdoms_in_domain in Hbe as (e & He & ->). destruct (follow p dm b e Hdm Hb He) as (id & e' & s & _ & Hin & Hdim & Hside). exists (reindex_el f e'), s.
        split; [exists id; apply rdoms_in_domain; eauto|]. split; [done|]. by apply side_of_reindex. }
    pose proof (mesh2_ok orders (e_views E) (e_hash E) (rdoms f dm) (first (rng p (o, g))) (length (rng p (o, g))) B Hvr (eo_views _ HE) (eo_hash _ HE)) as Hm2.
    destruct (init_ok orders (e_views E) (rdoms f dm) B Hvr (eo_views _ HE)) as [(bn & Hbn & Hbs & Hbk & Hbv)|[_ (id & Hid & Ht)]].
    2:{ destruct (Hviews id Hid) as [? ?]. congruence. }
    rewrite Hbn in Hm2. destruct Hm2 as (so & Hmk & Hb & He & Hss & Hsh). exists (mk_mesh (rdoms f dm) so bn). split; [done|]. cbn [m_domains m_own m_bnds].
    assert (Hlr : length (rng p (o, g)) = length o) by (unfold rng; by rewrite seq_length). rewrite Hlr in *. split; [done|]. split; [done|]. split; [done|].
    assert (Howned : forall n, so_begin so <= n < so_end so <-> exists n', n' ∈ o /\ n = f n').
    { intros n. rewrite Hb, He, (rng_elem p o g n Hog). unfold rng, first. cbn [fst]. destruct o as [|a o]; [cbn; lia|]. cbn [List.length seq]. done. }
    split; [exact Howned|]. split; [done|]. split.
    - intros n. rewrite Hsh. unfold owned. cbn [m_own]. by rewrite Hb, He.
    - split; [done|]. split; [done|]. intros b views Hbvw. pose proof (Hbv b views Hbvw) as Hmv.
      destruct (views_ok orders (e_views E) (rdoms f dm) [b] Hvr (eo_views _ HE)) as [(views' & bs & Hr' & Hbs' & HF & _)|[Hr' _]]; rewrite Hmv in Hr'; [|done]. injection Hr' as <-.
      exists bs. split; [|done]. by rewrite Hbs', (dom_elems_visit _ _ (proj1 Hvr)).
  Qed.
  End with_q.
End main.
