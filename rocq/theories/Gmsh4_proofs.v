(** Proofs for C64: element blocks and the whole file. *)
From Coq Require Import QArith Lqa.
From Verif Require Import Base StdAlgo Elem_model Mesh_model Mesh_proofs Merge_model Merge2_proofs Merge3_proofs Gmsh_model Gmsh_spec Gmsh_proofs Gmsh2_proofs Gmsh3_proofs.
Local Open Scope nat_scope.

Definition slot_of (e : element pt3) : etype * nat := (el_type e, el_order e).
(** Elements of group [k] and slot [s] among those read. *)
Definition pick (els : list (nat * element pt3)) (k : nat) (s : etype * nat) : list (element pt3) :=
  map snd (List.filter (fun x => (x.1 =? k) && bool_decide (slot_of x.2 = s)) els).
Lemma pick_app l l' k s : pick (l ++ l') k s = pick l k s ++ pick l' k s.
Proof. unfold pick. rewrite List.filter_app. apply map_app. Qed.
Lemma pick_all k es s : (forall e, e ∈ es -> slot_of e = s) -> pick (map (fun e => (k, e)) es) k s = es.
Proof.
  induction es as [|e es IH]; intros H; [done|]. unfold pick. cbn [map List.filter fst snd]. rewrite Nat.eqb_refl, bool_decide_eq_true_2 by (apply H; left). cbn [andb map snd]. f_equal. apply IH. intros x Hx. apply H. by right.
Qed.
Lemma pick_none els k s : (forall x, x ∈ els -> x.1 = k -> slot_of x.2 <> s) -> pick els k s = [].
Proof.
  induction els as [|x els IH]; intros H; [done|]. unfold pick. cbn [List.filter]. destruct (Nat.eqb_spec x.1 k) as [E|E].
  - rewrite bool_decide_eq_false_2 by (apply H; [left|done]). cbn [andb]. apply IH. intros y Hy. apply H. by right.
  - cbn [andb]. apply IH. intros y Hy. apply H. by right.
Qed.
Lemma pick_elem els k s e : e ∈ pick els k s <-> (k, e) ∈ els /\ slot_of e = s.
Proof.
  unfold pick. rewrite (elem_of_list_fmap snd). split.
  - intros ([k' e'] & -> & H). apply elem_of_list_In, filter_In in H as [H1 H2]. apply andb_true_iff in H2 as [H2 H3]. apply Nat.eqb_eq in H2. apply bool_decide_eq_true in H3. cbn in *. subst. split; [by apply elem_of_list_In|done].
  - intros [H1 H2]. exists (k, e). split; [done|]. apply elem_of_list_In, filter_In. split; [by apply elem_of_list_In|]. cbn. rewrite Nat.eqb_refl. by rewrite bool_decide_eq_true_2.
Qed.

Section blocks.
  Context (f : gmsh_file) (Hnodes : NoDup (map fst (file_nodes f))) (ents : list (dmap nat)) (Hents : Forall2 ent_map (gf_entities f) ents).
  Context (Htag : forall dim es, gf_entities f !! dim = Some es -> NoDup (map en_tag es)).
  Context (Hdims : forall b b' k, b ∈ gf_blocks f -> b' ∈ gf_blocks f -> group_of f b k -> group_of f b' k -> native_dim (eb_type b) = native_dim (eb_type b')).
  Notation nodes := (numbered (file_nodes f)).
  Definition els_of (bs : list el_block) : list (el_block * list nat) := concat (map (fun b => map (fun x => (b, x.2)) (eb_els b)) bs).
  Definition block_state (bs : list el_block) (st : dmap (domain pt3) * nat) : Prop := exists els,
    st.2 = length els /\ length els = length (els_of bs) /\
    (forall i k e, els !! i = Some (k, e) -> el_id e = i /\ exists b tags data, els_of bs !! i = Some (b, tags) /\ group_of f b k /\ Forall2 (node_is f) tags data /\ imported (eb_type b) data e) /\
    StronglySorted lt st.1.*1 /\ (forall k, k ∈ st.1.*1 <-> exists b, b ∈ bs /\ group_of f b k) /\
    forall k d, dm_find k st.1 = Some d -> d_els d = map (pick els k) (slots [1]) /\ exists b, b ∈ bs /\ group_of f b k /\ d_dim d = Some (native_dim (eb_type b)).
  Lemma group_at b k : group_of f b k -> exists m, rd ents (eb_dim b) = Ok m /\ at_key m (eb_entity b) = Ok k.
  Proof using Hents.
    intros (es & e & Hes & He & Ht & Hk). destruct (Forall2_lookup_l _ _ _ _ _ Hents Hes) as (m & Hm & _ & Hf). exists m. split; [by apply rd_ok|]. unfold at_key. by rewrite (proj2 (Hf (eb_entity b) k) (ex_intro _ e (conj He (conj Ht Hk)))).
  Qed.
  Lemma group_unique b k k' : group_of f b k -> group_of f b k' -> k = k'.
  Proof using Hents. intros H1 H2. destruct (group_at b k H1) as (m & E1 & A1), (group_at b k' H2) as (m' & E2 & A2). congruence. Qed.
  Lemma gmsh_type_number t : gmsh_type (type_number t) = Some t.
  Proof. by destruct t. Qed.
  Lemma slot_pos t : exists i, pos_of (t, 1) (slots [1]) = Some i /\ slots [1] !! i = Some (t, 1) /\ forall j, slots [1] !! j = Some (t, 1) -> j = i.
  Proof. destruct t; [exists 0|exists 1|exists 2]; (split; [done|]; split; [done|]); intros [|[|[|j]]] H; try discriminate H; done. Qed.
  Lemma reads_block b bs st : b ∈ gf_blocks f -> (forall b', b' ∈ bs -> b' ∈ gf_blocks f) -> (exists k, group_of f b k) ->
    (forall x, x ∈ eb_els b -> length x.2 = length (gmsh_place (eb_type b)) /\ forall tag, tag ∈ x.2 -> tag ∈ map fst (file_nodes f)) -> block_state bs st ->
    exists st', reads (parse_element_block ents nodes st) (write_el_block b) st' /\ block_state (bs ++ [b]) st'.
  Proof using Hnodes Hents Hdims.
    intros Hb Hbs [k Hk] Hok (els & Hn & HL & Hel & Hsrt & Hkeys & Hdom). destruct (group_at b k Hk) as (m & Em & Ek). destruct (slot_pos (eb_type b)) as (i & Ei & Hi & Hiu).
    set (d := default (empty_domain [1]) (dm_find k st.1)).
    assert (Hde : d_els d = map (pick els k) (slots [1])).
    { unfold d. destruct (dm_find k st.1) as [d0|] eqn:E; [by apply Hdom|]. apply dm_find_none in E. unfold empty_domain. cbn [default d_els]. apply map_ext. intros s. symmetry. apply pick_none. intros [k' e] Hx Ek'. cbn in Ek'. subst k'. exfalso. apply E. apply elem_of_list_lookup in Hx as [j Hj]. apply Hel in Hj as (_ & b0 & tags & data & H1 & H2 & _). apply Hkeys. exists b0. split; [|done].
      apply elem_of_list_lookup_2 in H1. unfold els_of in H1. apply elem_of_concat in H1 as (y & H1 & Hy). apply (elem_of_list_fmap (fun b => map (fun x => (b, x.2)) (eb_els b))) in Hy as (b1 & -> & Hb1). apply (elem_of_list_fmap (fun x => (b1, x.2))) in H1 as (x & E1 & _). injection E1 as -> _. done. }
    assert (Hdd : default (native_dim (eb_type b)) (d_dim d) = native_dim (eb_type b)).
    { unfold d. destruct (dm_find k st.1) as [d0|] eqn:E; [|done]. destruct (Hdom k d0 E) as (_ & b0 & Hb0 & Hg & E0). change (default (native_dim (eb_type b)) (d_dim d0) = native_dim (eb_type b)). rewrite E0. change (native_dim (eb_type b0) = native_dim (eb_type b)). apply (Hdims b0 b k); [by apply Hbs|done..]. }
    destruct (reads_elements f Hnodes (eb_type b) (eb_els b) (pick els k (eb_type b, 1)) st.2 Hok) as (es & Hr & Hle & Hes).
    assert (Hslot : forall e, e ∈ es -> slot_of e = (eb_type b, 1)).
    { intros e He. apply elem_of_list_lookup in He as [j Hj]. destruct (lookup_lt_is_Some_2 (eb_els b) j) as [x Hx]; [rewrite <- Hle; by eapply lookup_lt_Some|]. destruct (Hes j x e Hx Hj) as (_ & data & _ & H1 & H2 & _). unfold slot_of. congruence. }
    eexists. split.
    - unfold parse_element_block, write_el_block. apply (reads_then _ _ [_] _ (eb_dim b)); [apply reads_nat|]. apply (reads_then _ _ [_] _ (eb_entity b)); [apply reads_nat|]. apply (reads_then _ _ [_] _ (type_number (eb_type b))); [apply reads_nat|]. apply (reads_then _ _ [_] _ (length (eb_els b))); [apply reads_nat|].
      rewrite Em. apply (reads_then0 _ _ _ m); [apply reads_lift|]. rewrite Ek. apply (reads_then0 _ _ _ k); [apply reads_lift|]. fold d. cbv zeta. rewrite gmsh_type_number, Hdd, Nat.eqb_refl. change (throwing_assert true) with (Ok tt). apply (reads_then0 _ _ _ tt); [apply reads_lift|].
      rewrite Ei. rewrite (rd_ok (d_els d) i (pick els k (eb_type b, 1))) by (rewrite Hde, (list_lookup_fmap (pick els k)), Hi; done). apply (reads_then0 _ _ _ (pick els k (eb_type b, 1))); [apply reads_lift|]. rewrite <- (app_nil_r (concat _)). eapply reads_then; [exact Hr|]. apply reads_ret.
    - exists (els ++ map (fun e => (k, e)) es). cbn [fst snd]. assert (Hsnoc : els_of (bs ++ [b]) = els_of bs ++ map (fun x => (b, x.2)) (eb_els b)) by apply (concat_snoc (fun b => map (fun x => (b, x.2)) (eb_els b))).
      split; [rewrite app_length, map_length; lia|]. split; [rewrite Hsnoc, !app_length, !map_length; lia|]. split; [|split; [by apply dm_set_sorted|split]].
      + intros j k' e Hj. apply lookup_app_Some in Hj as [Hj|[Hj He]].
        * destruct (Hel j k' e Hj) as (H1 & b0 & tags & data & H2 & H3). split; [done|]. exists b0, tags, data. split; [rewrite Hsnoc; by apply lookup_app_l_Some|done].
        * rewrite (list_lookup_fmap (fun e => (k, e))) in He. destruct (es !! (j - length els)) as [e'|] eqn:Ee; [|done]. injection He as <- <-. destruct (lookup_lt_is_Some_2 (eb_els b) (j - length els)) as [x Hx]; [rewrite <- Hle; by eapply lookup_lt_Some|].
          destruct (Hes _ x e' Hx Ee) as (H1 & data & H2 & H3). split; [lia|]. exists b, x.2, data. split; [|done]. rewrite Hsnoc, lookup_app_r by lia. rewrite <- HL. rewrite (list_lookup_fmap (fun x => (b, x.2))), Hx. done.
      + intros k'. rewrite dm_set_keys, Hkeys. split.
        * intros [-> |(b' & Hb' & Hg)]; [exists b; split; [apply elem_of_app; right; left|done]|]. exists b'. split; [apply elem_of_app; by left|done].
        * intros (b' & Hb' & Hg). apply elem_of_app in Hb' as [Hb'|Hb']; [right; by exists b'|]. apply elem_of_list_singleton in Hb' as ->. left. by apply (group_unique b).
      + intros k' d' Hd'. rewrite dm_find_set in Hd' by done. case_decide as Hkk.
        * subst k'. injection Hd' as <-. cbn [d_els d_dim]. split; [|exists b; split; [apply elem_of_app; right; left|by rewrite ?Hdd]].
          rewrite Hde. apply list_eq. intros j. rewrite (list_lookup_fmap (pick (els ++ map (fun e => (k, e)) es) k)). destruct (decide (i = j)) as [<-|Hij].
          -- rewrite list_lookup_insert by (rewrite map_length; by eapply lookup_lt_Some). rewrite Hi. cbn [fmap option_fmap option_map]. by rewrite pick_app, pick_all.
          -- rewrite list_lookup_insert_ne by done. rewrite (list_lookup_fmap (pick els k)). destruct (slots [1] !! j) as [s|] eqn:Es; [|done]. cbn [fmap option_fmap option_map]. rewrite pick_app, (pick_none (map _ es)); [by rewrite app_nil_r|]. intros x Hx _ Hs. apply (elem_of_list_fmap (fun e => (k, e))) in Hx as (e & -> & He). cbn in Hs. rewrite (Hslot e He) in Hs. subst s. apply Hij. symmetry. by apply Hiu.
        * destruct (Hdom k' d' Hd') as (H1 & b0 & H2 & H3). split; [|exists b0; split; [apply elem_of_app; by left|done]]. rewrite H1. apply map_ext. intros s. rewrite pick_app, (pick_none (map _ es)); [by rewrite app_nil_r|]. intros x Hx Hk' _. apply (elem_of_list_fmap (fun e => (k, e))) in Hx as (e & -> & He). cbn in Hk'. by symmetry in Hk'.
  Qed.
End blocks.

Lemma perm_sorted_eq (l l' : list (element pt3)) : l ≡ₚ l' -> NoDup (map el_id l) -> StronglySorted by_id l -> StronglySorted by_id l' -> l = l'.
Proof.
  revert l'. induction l as [|a l IH]; intros l' Hp Hnd Hs Hs'; [by apply Permutation_nil in Hp|].
  destruct l' as [|b l']; [by apply Permutation_sym, Permutation_nil in Hp|]. inversion Hs as [|? ? Hs1 Ha]; subst. inversion Hs' as [|? ? Hs2 Hb]; subst. cbn [map] in Hnd. apply NoDup_cons in Hnd as [Hna Hnd].
  assert (a = b) as <-.
  { assert (Ha' : a ∈ b :: l') by (rewrite <- Hp; left). assert (Hb' : b ∈ a :: l) by (rewrite Hp; left). apply elem_of_cons in Ha' as [-> |Ha']; [done|]. apply elem_of_cons in Hb' as [-> |Hb']; [done|].
    rewrite Forall_forall in Ha. rewrite Forall_forall in Hb. specialize (Ha b Hb'). specialize (Hb a Ha'). unfold by_id in *. destruct Hna. apply (elem_of_list_fmap el_id). exists b. split; [lia|done]. }
  f_equal. apply IH; [by eapply Permutation_cons_inv|done..].
Qed.
Lemma merge_sort_id (l : list (element pt3)) : StronglySorted lt (map el_id l) -> merge_sort by_id l = l.
Proof.
  intros Hs. symmetry. assert (Tr : Transitive (@by_id pt3)) by (intros a b c; unfold by_id; lia). apply perm_sorted_eq.
  - symmetry. apply merge_sort_Permutation.
  - by apply strict_nodup.
  - clear -Hs. induction l as [|a l IH]; [constructor|]. cbn [map] in Hs. inversion Hs as [|? ? H1 H2]; subst. constructor; [by apply IH|]. rewrite Forall_forall in H2. apply Forall_forall. intros b Hb. unfold by_id. apply Nat.lt_le_incl, H2. apply (elem_of_list_fmap el_id). by exists b.
  - apply Sorted_StronglySorted; [done|]. apply Sorted_merge_sort. intros a b. unfold by_id. lia.
Qed.
Lemma pick_sorted els k s : (forall i k e, els !! i = Some (k, e) -> el_id e = i) -> StronglySorted lt (map el_id (pick els k s)).
Proof.
  intros H. assert (G : forall l n, (forall i k e, l !! i = Some (k, e) -> el_id e = n + i) -> StronglySorted lt (map el_id (pick l k s)) /\ Forall (fun i => n <= i) (map el_id (pick l k s))).
  { induction l as [|[k' e] l IH]; intros n Hl; [by split; constructor|]. destruct (IH (S n)) as [H1 H2]; [intros i k0 e0 Hi; rewrite (Hl (S i) k0 e0 Hi); lia|].
    assert (H3 : Forall (fun i => n <= i) (map el_id (pick l k s))) by (eapply Forall_impl; [exact H2|]; cbn; intros; lia).
    unfold pick in *. cbn [List.filter fst snd]. destruct ((k' =? k) && bool_decide (slot_of e = s)); [|done]. cbn [map snd]. rewrite (Hl 0 k' e eq_refl), Nat.add_0_r. split; [constructor; [done|]|constructor; [lia|done]]. eapply Forall_impl; [exact H2|]. cbn. lia. }
  by apply (G els 0).
Qed.

Theorem read_mesh_right f : valid_file f -> (forall b, b ∈ gf_nodes f -> nb_nodes b <> []) -> exists m, readMesh (write f) = Ok m /\ mesh_right f m.
Proof.
  intros (Hv & Hbet & Hi & Hi' & H4 & Hent & Hnd & Hblk & Hdim) Hne.
  destruct (reads_entities (gf_between f) (gf_entities f) H4 Hbet Hent) as (ents & Re & Hents).
  pose proof (reads_nodes (gf_nodes f) (gf_info f) Hi Hne Hnd) as Rn. fold (file_nodes f) in Rn.
  destruct (reads_iterate (parse_element_block ents (numbered (file_nodes f))) write_el_block (block_state f) (gf_blocks f) ([], 0)) as (st & Rb & HR).
  - intros l b l2 s Hl HR. assert (Hb : b ∈ gf_blocks f) by (rewrite Hl; apply elem_of_app; right; left). apply (reads_block f Hnd ents Hents Hdim b l s Hb); [|by apply Hblk..|done]. intros b' Hb'. rewrite Hl. apply elem_of_app. by left.
  - exists []. split; [done|]. split; [done|]. split; [intros i k e H; done|]. split; [constructor|]. split; [|intros k d H; done]. intros k. split; [intros H; by apply elem_of_nil in H|]. intros (b & Hb & _). by apply elem_of_nil in Hb.
  - destruct HR as (els & Hn & HL & Hel & Hsrt & Hkeys & Hdom).
    set (out := map (fun p => (p.1, mk_dom (map (merge_sort by_id) (d_els p.2)) (d_dim p.2))) st.1).
    assert (Hout : out = st.1).
    { unfold out. rewrite <- (map_id st.1) at 2. apply map_ext_in. intros [k d] Hkd. apply elem_of_list_In in Hkd. cbn [fst snd]. destruct (Hdom k d) as [Hd _]; [by apply dm_find_iff|]. f_equal. destruct d as [de dd]. cbn [d_els d_dim] in *. f_equal. rewrite <- (map_id de) at 2. apply map_ext_in. intros v Hv'. apply merge_sort_id. rewrite Hd in Hv'. apply elem_of_list_In, (elem_of_list_fmap (pick els k)) in Hv' as (s & -> & _). apply pick_sorted. intros i k0 e0 H0. by apply (Hel i k0 e0). }
    exists st.1. split.
    + unfold readMesh. assert (R : reads (_ <~ parse_format; ents <~ parse_entities; nodes <~ parse_nodes; parse_elements ents nodes)
        ([Name MeshFormat; Val (gf_version f); num 0; num (gf_size f); Name EndMeshFormat] ++ (gf_between f ++ [Name Entities] ++ write_entities (gf_entities f) ++ [Name EndEntities]) ++
         ([Name Nodes; num (length (gf_nodes f))] ++ map num (gf_info f) ++ concat (map write_node_block (gf_nodes f)) ++ [Name EndNodes]) ++
         [Name Elements; num (length (gf_blocks f))] ++ map num (gf_info' f) ++ concat (map write_el_block (gf_blocks f)) ++ [Name EndElements]) st.1).
      { eapply reads_then; [by apply reads_format|]. eapply reads_then; [exact Re|]. eapply reads_then; [exact Rn|]. unfold parse_elements.
        apply (reads_then _ _ [_] _ tt); [apply reads_skip1|]. apply (reads_then _ _ [_] _ (length (gf_blocks f))); [apply reads_nat|]. eapply reads_then; [apply (reads_times1 get_nat num); [apply reads_nat|done]|].
        eapply reads_then; [exact Rb|]. apply (reads_then _ _ [_] [] tt); [apply reads_skip1|]. fold out. rewrite Hout. apply reads_ret. }
      specialize (R (gf_after f)). unfold write. rewrite <- !app_assoc in R. rewrite R. done.
    + split; [done|]. split; [done|]. intros k d Hkd. apply dm_find_iff in Hkd; [|done]. destruct (Hdom k d Hkd) as [Hd Hb]. split; [by rewrite Hd, map_length|]. split; [done|].
      intros s t v Hs Hvv. rewrite Hd, (list_lookup_fmap (pick els k)), Hs in Hvv. injection Hvv as <-. split; [apply pick_sorted; intros i k0 e0 H0; by apply (Hel i k0 e0)|]. split.
      * intros e He. apply pick_elem in He as [He Hsl]. apply elem_of_list_lookup in He as [i Hi0]. destruct (Hel i k e Hi0) as (Hid & b & tags & data & H1 & H2 & H3 & H5). split; [done|]. injection Hsl as Ht _. assert (Et : eb_type b = t) by (destruct H5 as [E _]; congruence). exists b, tags, data. rewrite Hid. split; [exact H1|]. rewrite <- Et. done.
      * intros i b tags Hf Ht Hg. destruct (lookup_lt_is_Some_2 els i) as [[k' e] He]; [rewrite HL; by eapply lookup_lt_Some|]. destruct (Hel i k' e He) as (Hid & b' & tags' & data & H1 & H2 & H3 & H5). change (els_of (gf_blocks f)) with (file_elements f) in H1. assert (b' = b) as -> by congruence. assert (k' = k) as -> by by apply (group_unique f ents Hents b).
        exists e. split; [|done]. apply pick_elem. split; [by eapply elem_of_list_lookup_2|]. destruct H5 as (E1 & E2 & _). unfold slot_of. congruence.
Qed.
