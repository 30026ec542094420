(** C23: the run of [extrude], its counts and its failures. *)
From Verif Require Import Base StdAlgo Ownership_model Elem_model Elem_spec Mesh_model Mesh_spec Mesh_proofs Prim_model Prim_spec Build_proofs Prim_proofs Extrude_model Extrude_spec Extrude_proofs Extrude2_proofs Extrude3_proofs.
Local Arguments Nat.mul : simpl never.
Local Arguments Nat.add : simpl never.
Local Arguments Nat.sub : simpl never.

Section lemmas.
  Context {C : Type}.
  Notation pt := (C * C * C)%type.
  Notation el := (element pt).
  Context (sched : list el -> list el) (Hsched : forall l, sched l ≡ₚ l).
  Lemma at_z_map z (vs : list pt) : Forall2 (at_z z) vs (map (set_z z) vs).
  Proof. induction vs; constructor; done. Qed.
  Lemma extrude_run (x : mesh pt) N zs ib fr : plane_mesh (m_domains x) N (m_bnds x).*1 -> localSize (m_own x) = N -> 1 < length zs ->
    ib ∉ (m_domains x).*1 -> fr ∉ (m_domains x).*1 ->
    exists z0 st y, zs <> [] /\ built (dim_of (m_domains x)) (cmds (m_domains x) N zs z0 ib fr) st /\ extrude sched x zs ib fr = Ok y /\
      m_domains y = st.1 /\ so_shared (m_own y) = [] /\ (forall n, isOwned (m_own y) n = true <-> n < length zs * N) /\ numOwned (m_own y) = length zs * N /\
      StronglySorted lt (m_bnds y).*1 /\ forall id, id ∈ (m_bnds y).*1 <-> id ∈ (m_bnds x).*1 ++ [ib; fr].
  Proof.
    intros HP HN Hz Hib Hfr. destruct zs as [|z0 zs0] eqn:Ez; [cbn in Hz; lia|]. rewrite <- Ez in *. clear Ez. 
    assert (HzL : exists zl, zs !! (length zs - 1) = Some zl) by (apply lookup_lt_is_Some_2; lia). destruct HzL as [zl HzL].
    assert (Hzf : exists zf, zs !! 0 = Some zf) by (apply lookup_lt_is_Some_2; lia). destruct Hzf as [zf Hzf].
    destruct (ext_run (m_domains x) N _ zs z0 ib fr HP Hz Hib Hfr) as (st & Hst & Hb).
    destruct (ext_finish (m_domains x) N _ zs z0 ib fr HP Hz Hib Hfr st Hb sched Hsched) as (so & bv & Hm & H).
    exists z0, st, (mk_mesh st.1 so bv). split; [by intros ->; cbn in Hz; lia|]. split; [done|]. split; [|by split].
    unfold extrude. cbv zeta. replace (1 <? length zs) with true by (symmetry; by apply Nat.ltb_lt). change (throwing_assert true) with (Ok tt). rewrite bind_ok.
    rewrite (rd_ok _ _ _ Hzf), bind_ok, (rd_ok _ _ _ HzL), bind_ok, HN.
    pose proof (run_model (m_domains x) N _ zs z0 ib fr HP Hz ([], 0)) as Hrun. unfold zat in Hrun.
    rewrite (nth_lookup_Some _ _ _ _ Hzf), (nth_lookup_Some _ _ _ _ HzL) in Hrun. cbv zeta in Hrun. rewrite Hrun, Hst, bind_ok. exact Hm.
  Qed.
  Definition n_quads (l : list el) : nat := length (filter (fun e => el_type e = Quad) l).
  Lemma count_tags (m : dmap (domain pt)) N bnds zs : plane_mesh m N bnds ->
    length (tags m zs) = (length zs - 1) * length (all_elems m) + 2 * n_quads (all_elems m).
  Proof.
    intros HP. unfold tags, all_elems, visit_elems.
    assert (Hk : forall id e, e ∈ els m id -> el_type e = Line \/ el_type e = Quad) by (intros id e He; apply (pm_flat _ _ _ HP); exists id; by apply (els_elem m N bnds HP)).
    assert (Hin : forall id, (match dm_find id m with Some d => concat (d_els d) | None => [] end) = els m id) by (intros; unfold els, visit_elems; cbn [map concat]; by rewrite app_nil_r).
    induction (m.*1) as [|id ids IH]; [cbn; lia|]. cbn [map concat]. rewrite !app_length, Hin, IH. clear IH. unfold n_quads. rewrite filter_app, !app_length.
    assert (He : length (tags_ext m zs id) = (length zs - 1) * length (els m id)).
    { unfold tags_ext. induction (els m id) as [|e l IHl]; [cbn; lia|]. cbn [map concat length]. rewrite app_length, map_length, seq_length, IHl. lia. }
    assert (Hbf : length (tags_bf m id) = 2 * length (filter (fun e => el_type e = Quad) (els m id))).
    { clear He. unfold tags_bf. specialize (Hk id). induction (els m id) as [|e l IHl]; [done|]. cbn [map concat]. rewrite app_length, IHl by (intros; apply Hk; by right). rewrite filter_cons.
      destruct (Hk e) as [Ht|Ht]; [left| |]; rewrite Ht.
      - destruct (decide (Line = Quad)); [done|]. cbn. lia.
      - destruct (decide (Quad = Quad)); [|done]. cbn. lia. }
    rewrite He, Hbf. lia.
  Qed.

  (** Failure. *)
  Definition full (st : build pt) : Prop := Forall (fun p => length (d_els p.2) = 3) st.1.
  Definition safe (r : res (build pt)) : Prop := match r with Ok st => full st | Throw => True | UB => False end.
  Lemma full_find st id d : full st -> dm_find id st.1 = Some d -> length (d_els d) = 3.
  Proof. intros Hf Hd. unfold full in Hf. rewrite Forall_forall in Hf. apply (Hf (id, d)). by apply dm_find_elem. Qed.
  Lemma full_set st id d k : full st -> length (d_els d) = 3 -> full (dm_set id d st.1, k).
  Proof.
    unfold full. cbn [fst]. intros Hf Hd. induction (st.1) as [|[k' a] mm IH]; cbn [dm_set]; [by constructor|]. inversion Hf; subst.
    destruct (id <? k'); [by repeat constructor|]. destruct (id =? k'); constructor; auto.
  Qed.
  Lemma emplace_safe st id t ns vs : full st -> safe (emplace id t ns vs st).
  Proof.
    intros Hf. unfold emplace, pushToDomain. assert (Hl : length (d_els (default (empty_domain [1]) (dm_find id st.1))) = 3).
    { destruct (dm_find id st.1) as [d|] eqn:E; [|done]. by apply (full_find st id). }
    revert Hl. generalize (default (empty_domain [1]) (dm_find id st.1)) as d. intros d Hl. cbn [el_type el_order]. destruct (_ =? _); [|done].
    change (throwing_assert true) with (Ok tt). rewrite bind_ok. assert (exists i, pos_of (t, 1) (slots [1]) = Some i /\ i < 3) as (i & -> & Hi) by (destruct t; vm_compute; eauto).
    destruct (lookup_lt_is_Some_2 (d_els d) i) as [v Hv]; [lia|]. rewrite (rd_ok _ _ _ Hv), !bind_ok. apply full_set; [done|]. cbn [d_els]. by rewrite insert_length.
  Qed.
  Lemma for_each_safe {A} (f : A -> build pt -> res (build pt)) l st : (forall a st, full st -> safe (f a st)) -> full st -> safe (for_each f l st).
  Proof.
    intros Hf. revert st. induction l as [|a l IH]; intros st Hst; [done|]. cbn [for_each]. specialize (Hf a st Hst). destruct (f a st) as [st'| |]; [|done|done]. cbn [mbind res_bind]. by apply IH.
  Qed.
  Lemma for_each_throws {A} (f : A -> build pt -> res (build pt)) l st a : (forall a st, full st -> safe (f a st)) -> full st -> a ∈ l -> (forall st, full st -> f a st = Throw) ->
    for_each f l st = Throw.
  Proof.
    intros Hf Hst Ha Hthrow. revert st Hst. induction l as [|b l IH]; [by apply elem_of_nil in Ha|]; intros st Hst; cbn [for_each].
    apply elem_of_cons in Ha as [-> |Ha]; [by rewrite Hthrow|].
    specialize (Hf b st Hst). destruct (f b st) as [st'| |]; [|done|done]. cbn [mbind res_bind]. by apply IH.
  Qed.
  Lemma bind_safe (r : res (build pt)) (f : build pt -> res (build pt)) : safe r -> (forall st, full st -> safe (f st)) -> safe (r ≫= f).
  Proof. destruct r; cbn; auto. Qed.
  Lemma extrude_element_safe zs N id e st : full st -> safe (extrude_element zs N id e st).
  Proof.
    intros Hf. unfold extrude_element. destruct (native_dim (el_type e) <? 3); [|done]. change (throwing_assert true) with (Ok tt). rewrite bind_ok. destruct (extruded_type _); [|done].
    apply for_each_safe; [|done]. intros [l [za zb]] st' Hst'. by apply emplace_safe.
  Qed.
  Lemma back_front_safe za zb ib fr n N e st : full st -> safe (make_back_front_elems za zb ib fr n N e st).
  Proof. intros Hf. unfold make_back_front_elems. destruct (el_type e); try done; (apply bind_safe; [by apply emplace_safe|intros; by apply emplace_safe]). Qed.
  Lemma extrude_hex (x : mesh pt) zs ib fr e : StronglySorted lt (m_domains x).*1 -> is_elem (m_domains x) e -> el_type e = Hex -> extrude sched x zs ib fr = Throw.
  Proof.
    intros Hv [id He] Ht. unfold extrude. cbv zeta. destruct (Nat.ltb_spec 1 (length zs)) as [Hz|]; [|done]. change (throwing_assert true) with (Ok tt). rewrite bind_ok.
    destruct (lookup_lt_is_Some_2 zs 0) as [zf Hzf]; [lia|]. destruct (lookup_lt_is_Some_2 zs (length zs - 1)) as [zl HzL]; [lia|].
    rewrite (rd_ok _ _ _ Hzf), bind_ok, (rd_ok _ _ _ HzL), bind_ok. rewrite (for_each_throws _ _ _ id); [done| | |by apply (in_keys (m_domains x) id e)|].
    - intros i st Hst. apply bind_safe; [apply for_each_safe|]; [intros; by apply extrude_element_safe| |intros; apply for_each_safe; [intros; by apply back_front_safe|done]].
      unfold touch, dm_emplace. destruct (dm_find i st.1); [done|]. by apply full_set.
    - by constructor.
    - intros st Hst. rewrite (for_each_throws _ _ _ e); [done|intros; by apply extrude_element_safe| | |].
      + unfold touch, dm_emplace. destruct (dm_find id st.1); [done|]. by apply full_set.
      + apply visit_elem; [by apply strict_nodup|]. exists id. split; [left|done].
      + intros st' _. unfold extrude_element. by rewrite Ht.
  Qed.
End lemmas.
