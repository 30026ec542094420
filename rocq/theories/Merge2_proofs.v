(** C22: filling the map of domains. *)
From Verif Require Import Base StdAlgo Ownership_model Elem_model Elem_spec Elem_proofs Mesh_model Mesh_spec Mesh_proofs Build_proofs Prim_spec Prim_proofs Merge_model Merge_spec Merge_proofs.
Local Arguments Nat.mul : simpl never.
Local Arguments Nat.add : simpl never.
Local Arguments Nat.sub : simpl never.

Lemma concat_perm {A B} (F : A -> list B) l l' : l ≡ₚ l' -> concat (map F l) ≡ₚ concat (map F l').
Proof.
  induction 1 as [|a l l' H IH|a b l|l1 l2 l3 H1 IH1 H2 IH2]; cbn [map concat]; [done|by rewrite IH| |by rewrite IH1].
  rewrite !app_assoc. apply Permutation_app_tail, Permutation_app_comm.
Qed.
Section fill.
  Context {V : Type}.
  Notation el := (element V).
  Notation doms := (dmap (domain V)).
  Context (dimf : nat -> nat).
  Definition vis (m : doms) (id : nat) : list el := visit_elems m [id].
  Lemma vis_find m id : vis m id = match dm_find id m with Some d => concat (d_els d) | None => [] end.
  Proof. unfold vis, visit_elems. cbn [map concat]. by rewrite app_nil_r. Qed.
  Record holds (m : doms) (vs : nat -> list el) (al : list el) (nb : nat -> Prop) : Prop := {
    h_valid : valid_doms [1] m;
    h_dims : forall id d x, (id, d) ∈ m -> d_dim d = Some x -> x = dimf id;
    h_vis : forall id, vis m id ≡ₚ vs id;
    h_all : all_elems m ≡ₚ al;
    h_none : forall id d, (id, d) ∈ m -> concat (d_els d) = [] -> nb id }.
  Definition fits (id : nat) (e : el) : Prop := typed_el e /\ el_order e = 1 /\ native_dim (el_type e) = dimf id.

  Lemma all_vals (m : doms) : NoDup m.*1 -> all_elems m ≡ₚ concat (map (fun d : domain V => concat (d_els d)) m.*2).
  Proof. apply all_elems_perm. Qed.
  Lemma dm_find_set {A} k (a : A) m j : StronglySorted lt m.*1 -> dm_find j (dm_set k a m) = if decide (j = k) then Some a else dm_find j m.
  Proof.
    intros Hs. assert (Hs' := dm_set_sorted k a m Hs). assert (Hnd := strict_nodup _ Hs'). case_decide as Hj.
    - subst j. apply elem_dm_find; [done|]. apply dm_set_elem; [done|]. by left.
    - destruct (dm_find j m) as [b|] eqn:E.
      + apply elem_dm_find; [done|]. apply dm_set_elem; [done|]. right. split; [done|by apply dm_find_elem].
      + destruct (dm_find j (dm_set k a m)) as [b|] eqn:E'; [|done]. apply dm_find_elem, dm_set_elem in E' as [[? _]|[_ H]]; [done| |done].
        apply elem_dm_find in H; [congruence|by apply strict_nodup].
  Qed.
  Lemma concat_empty : concat (d_els (empty_domain (V := V) [1])) = [].
  Proof. done. Qed.
  Lemma empty_typed : typed_domain [1] (empty_domain (V := V) [1]) /\ dim_domain (empty_domain (V := V) [1]).
  Proof.
    split; [repeat constructor|]. intros v e Hv He. unfold empty_domain in Hv. cbn in Hv. rewrite !elem_of_cons, elem_of_nil in Hv. exfalso.
    destruct Hv as [-> |[-> |[-> |[]]]]; by apply elem_of_nil in He.
  Qed.
  Lemma touch_holds m vs al nb id : holds m vs al nb -> holds (dm_emplace id (empty_domain [1]) m) vs al (fun k => nb k \/ k = id).
  Proof.
    intros [[Hs Hv] H2 H3 H4 H5]. unfold dm_emplace. destruct (dm_find id m) as [d|] eqn:E.
    - split; auto; [by split|]. intros k d' Hk Hd. left. by eapply H5.
    - assert (Hin := fun k d => dm_set_elem id (empty_domain [1]) m k d Hs). split.
      + split; [by apply dm_set_sorted|]. rewrite Forall_forall in Hv |- *. intros [k d] Hk. apply Hin in Hk as [[-> ->]|[_ Hk]]; [apply empty_typed|by apply (Hv (k, d))].
      + intros k d x Hk Hd. apply Hin in Hk as [[-> ->]|[_ Hk]]; [done|by eapply H2].
      + intros k. rewrite <- H3, !vis_find, dm_find_set by done. case_decide; [subst; by rewrite E|done].
      + rewrite <- H4, !all_vals by (apply strict_nodup; try apply dm_set_sorted; done). pose proof (dm_set_vals id (empty_domain [1]) m Hs) as Hvv. rewrite E in Hvv. rewrite Hvv. done.
      + intros k d Hk Hd. apply Hin in Hk as [[-> ->]|[_ Hk]]; [by right|left; by eapply H5].
  Qed.
  Lemma push_holds m vs al nb id e : holds m vs al nb -> fits id e -> exists m', push_at id e m = Ok m' /\
    holds m' (fun k => vs k ++ (if decide (k = id) then [e] else [])) (al ++ [e]) (fun k => nb k /\ k <> id).
  Proof.
    intros [[Hs Hv] H2 H3 H4 H5] (Hty & Ho & Hdim). unfold push_at. set (d := default (empty_domain [1]) (dm_find id m)).
    assert (Hd : typed_domain [1] d /\ dim_domain d /\ (d_dim d = None \/ d_dim d = Some (dimf id))).
    { unfold d. destruct (dm_find id m) as [d0|] eqn:E; [|by split; [apply empty_typed|split; [apply empty_typed|left]]]. change (default (empty_domain [1]) (Some d0)) with d0. apply dm_find_elem in E. rewrite Forall_forall in Hv.
      destruct (Hv _ E) as [Ht Hdd]. split; [done|]. split; [done|]. destruct (d_dim d0) as [x|] eqn:Ex; [|by left]. right. f_equal. by eapply H2. }
    destruct Hd as (Ht & Hdd & Hdv). pose proof (push_ok [1] d e Ht Hty) as Hp. rewrite Ho in Hp. specialize (Hp (in_slots1 _)).
    rewrite decide_True in Hp by (rewrite Hdim; tauto). destruct Hp as (d' & -> & Ht' & Hdim' & Hdd' & i & v & _ & Hi & Hels). rewrite bind_ok.
    eexists. split; [done|]. assert (Hin := fun k d0 => dm_set_elem id d' m k d0 Hs).
    assert (Hc : concat (d_els d') ≡ₚ concat (d_els d) ++ [e]). { rewrite Hels, (concat_insert_app _ _ _ _ Hi). by rewrite Permutation_app_comm. }
    split.
    - split; [by apply dm_set_sorted|]. rewrite Forall_forall in Hv |- *. intros [k d0] Hk. apply Hin in Hk as [[-> ->]|[_ Hk]]; [by split; [|apply Hdd']|by apply (Hv (k, d0))].
    - intros k d0 x Hk Hx. apply Hin in Hk as [[-> ->]|[_ Hk]]; [congruence|by eapply H2].
    - intros k. rewrite <- H3, !vis_find, dm_find_set by done. case_decide as Hk; [|by rewrite app_nil_r]. subst k. rewrite Hc. unfold d. by destruct (dm_find id m).
    - rewrite <- H4, !all_vals by (apply strict_nodup; try apply dm_set_sorted; done). pose proof (dm_set_vals id d' m Hs) as Hvv. unfold d in *. destruct (dm_find id m) as [d0|].
      + destruct Hvv as (r & Hr1 & Hr2). rewrite Hr1, Hr2. cbn [map concat]. change (default (empty_domain [1]) (Some d0)) with d0 in Hc. rewrite Hc, <- !app_assoc. apply Permutation_app_head. apply Permutation_app_comm.
      + rewrite Hvv. cbn [map concat]. change (default (empty_domain [1]) None) with (empty_domain (V := V) [1]) in Hc. rewrite Hc, concat_empty. cbn [app]. by rewrite Permutation_app_comm.
    - intros k d0 Hk Hx. apply Hin in Hk as [[-> ->]|[Hne Hk]]; [|split; [by eapply H5|done]]. rewrite Hx in Hc. apply Permutation_nil_l in Hc. by destruct (concat (d_els d)).
  Qed.
  Lemma holds_ext m vs vs' al al' (nb nb' : nat -> Prop) : (forall k, vs k ≡ₚ vs' k) -> al ≡ₚ al' -> (forall k, nb k -> nb' k) -> holds m vs al nb -> holds m vs' al' nb'.
  Proof. intros E1 E2 E3 [H1 H2 H3 H4 H5]. split; auto; [intros; by rewrite H3|by rewrite H4|]. intros k d Hk Hd. by eapply E3, H5. Qed.
  Lemma push_all m vs al nb id (l : list el) : holds m vs al nb -> (forall e, e ∈ l -> fits id e) -> exists m', for_each (push_at id) l m = Ok m' /\
    holds m' (fun k => vs k ++ (if decide (k = id) then l else [])) (al ++ l) (fun k => nb k).
  Proof.
    revert m vs al nb. induction l as [|e l IH]; intros m vs al nb H Hl.
    - exists m. split; [done|]. eapply holds_ext; [| | |exact H]; [intros k; case_decide; by rewrite app_nil_r|by rewrite app_nil_r|done].
    - cbn [for_each]. destruct (push_holds m vs al nb id e H (Hl e ltac:(left))) as (m1 & -> & H1). rewrite bind_ok.
      destruct (IH _ _ _ _ H1) as (m2 & -> & Hm2); [intros; apply Hl; by right|]. exists m2. split; [done|]. eapply holds_ext; [| | |exact Hm2].
      + intros k. cbn beta. case_decide; rewrite <- app_assoc; done.
      + rewrite <- app_assoc. done.
      + intros k [? _]. done.
  Qed.
  Lemma for_each_map {A B} (f : B -> doms -> res doms) (g : A -> B) l m : for_each (fun a m => f (g a) m) l m = for_each f (map g l) m.
  Proof. revert m. induction l as [|a l IH]; intros m; [done|]. cbn [map for_each]. destruct (f (g a) m); [|done|done]. rewrite !bind_ok. apply IH. Qed.
  Lemma copy_domain_holds m vs al nb src proj id : holds m vs al nb -> (forall e, e ∈ vis src id -> fits id (proj e)) -> exists m', copy_domain src proj id m = Ok m' /\
    holds m' (fun k => vs k ++ (if decide (k = id) then map proj (vis src id) else [])) (al ++ map proj (vis src id)) (fun k => nb k \/ k = id).
  Proof.
    intros H Hf. unfold copy_domain. rewrite (for_each_map (push_at id) proj). apply push_all; [by apply touch_holds|].
    intros e He. apply elem_of_list_fmap in He as (e0 & -> & He). by apply Hf.
  Qed.
  Lemma erase_holds m vs al nb id : holds m vs al (fun k => nb k \/ k = id) ->
    holds (match dm_find id m with Some d => if forallb (fun v : list el => length v =? 0) (d_els d) then dm_erase id m else m | None => m end) vs al nb.
  Proof.
    intros [[Hs Hv] H2 H3 H4 H5]. pose proof (strict_nodup _ Hs) as Hnd. destruct (dm_find id m) as [d|] eqn:E.
    - assert (Hc : forallb (fun v : list el => length v =? 0) (d_els d) = true <-> concat (d_els d) = []).
      { clear. induction (d_els d) as [|v l IH]; [done|]. cbn [forallb concat]. rewrite andb_true_iff, IH, Nat.eqb_eq. split.
        - intros [Hl ->]. by destruct v.
        - intros Hn. apply app_eq_nil in Hn as [-> ->]. done. }
      destruct (forallb _ (d_els d)) eqn:Ef.
      + pose proof (proj1 Hc eq_refl) as Hcd. assert (Hin : forall k d0, (k, d0) ∈ dm_erase id m <-> k <> id /\ (k, d0) ∈ m).
        { intros k d0. unfold dm_erase. rewrite filter_elem. cbn [fst]. rewrite negb_true_iff, Nat.eqb_neq. tauto. }
        assert (Hs' : StronglySorted lt (dm_erase id m).*1).
        { clear - Hs. unfold dm_erase. induction m as [|[k a] m IH]; [constructor|]. cbn in Hs. inversion Hs as [|? ? Hs' Hf]; subst. cbn [List.filter fst]. destruct (k =? id); cbn [negb]; [by apply IH|].
          cbn. constructor; [by apply IH|]. rewrite Forall_forall in Hf |- *. intros x Hx. apply Hf. apply elem_of_list_fmap in Hx as ([k' a'] & -> & Hx). apply filter_elem in Hx as [Hx _]. apply elem_of_list_fmap. by exists (k', a'). }
        assert (Hfind : forall k, dm_find k (dm_erase id m) = if decide (k = id) then None else dm_find k m).
        { intros k. destruct (dm_find k (dm_erase id m)) as [a|] eqn:Ek.
          - apply dm_find_elem, Hin in Ek as [Hne Ek]. rewrite decide_False by done. symmetry. by apply elem_dm_find.
          - case_decide; [done|]. destruct (dm_find k m) as [a|] eqn:Ek'; [|done]. apply dm_find_elem in Ek'. assert ((k, a) ∈ dm_erase id m) as Hx by (by apply Hin).
            apply elem_dm_find in Hx; [congruence|by apply strict_nodup]. }
        split.
        * split; [done|]. rewrite Forall_forall in Hv |- *. intros [k d0] Hk. apply Hin in Hk as [_ Hk]. by apply (Hv (k, d0)).
        * intros k d0 x Hk. apply Hin in Hk as [_ Hk]. by eapply H2.
        * intros k. rewrite <- H3, !vis_find, Hfind. case_decide; [subst; by rewrite E, Hcd|done].
        * rewrite <- H4. rewrite !all_elems_concat by (try apply strict_nodup; done). apply dm_find_elem in E. clear - E Hcd Hnd. unfold dm_erase.
          induction m as [|[k a] m IH]; [by apply elem_of_nil in E|]. cbn in Hnd. apply NoDup_cons in Hnd as [Hk Hnd]. cbn [List.filter fst map concat snd].
          apply elem_of_cons in E as [[= -> ->]|E].
          -- rewrite Nat.eqb_refl, Hcd. cbn [negb app]. rewrite filter_all; [done|]. intros [k' a'] Hx. cbn [fst]. apply negb_true_iff, Nat.eqb_neq. intros ->. apply Hk, elem_of_list_fmap. by exists (k, a').
          -- destruct (Nat.eqb_spec k id) as [-> |]; [exfalso; apply Hk, elem_of_list_fmap; by exists (id, d)|]. cbn [negb map concat snd]. by rewrite IH.
        * intros k d0 Hk Hd. apply Hin in Hk as [Hne Hk]. by destruct (H5 _ _ Hk Hd).
      + split; auto; [by split|]. intros k d0 Hk Hd. destruct (H5 _ _ Hk Hd) as [?| ->]; [done|]. exfalso.
        apply (elem_dm_find _ _ _ Hnd) in Hk. assert (d0 = d) as -> by congruence. by discriminate (proj2 Hc Hd).
    - split; auto; [by split|]. intros k d0 Hk Hd. destruct (H5 _ _ Hk Hd) as [?| ->]; [done|]. apply (elem_dm_find _ _ _ Hnd) in Hk. congruence.
  Qed.
  Lemma copy_boundary_holds m vs al nb src del proj id D : holds m vs al nb -> (forall e, e ∈ vis src id -> fits id (proj e)) ->
    let kept := List.filter (fun e : el => negb (bool_decide (sort (el_nodes e) ∈ del))) (vis src id) in
    let gone := List.filter (fun e : el => bool_decide (sort (el_nodes e) ∈ del)) (vis src id) in
    exists m', copy_boundary src del proj id (m, D) = Ok (m', D ++ map (fun e => el_id (proj e)) gone) /\
    holds m' (fun k => vs k ++ (if decide (k = id) then map proj kept else [])) (al ++ map proj kept) nb.
  Proof.
    intros H Hf. cbv zeta. unfold copy_boundary. cbn [fst snd]. change (visit_elems src [id]) with (vis src id).
    assert (Hloop : forall l m0 D0, (forall e, e ∈ l -> fits id (proj e)) -> for_each (fun e st =>
           let new_element := proj e in
           if bool_decide (sort (el_nodes e) ∈ del) then Ok (st.1, st.2 ++ [el_id new_element])
           else m ← push_at id new_element st.1; Ok (m, st.2)) l (m0, D0) =
       m' ← for_each (push_at id) (map proj (List.filter (fun e : el => negb (bool_decide (sort (el_nodes e) ∈ del))) l)) m0;
       Ok (m', D0 ++ map (fun e => el_id (proj e)) (List.filter (fun e : el => bool_decide (sort (el_nodes e) ∈ del)) l))).
    { induction l as [|e l IH]; intros m0 D0 Hl; [cbn; by rewrite app_nil_r|]. cbn [for_each List.filter]. cbv zeta. destruct (bool_decide (sort (el_nodes e) ∈ del)); cbn [negb map for_each fst snd].
      - rewrite bind_ok, IH by (intros; apply Hl; by right). by rewrite <- app_assoc.
      - destruct (push_at id (proj e) m0) as [m1| |]; [|done|done]. rewrite !bind_ok. apply IH. intros; apply Hl; by right. }
    rewrite Hloop by done. clear Hloop. destruct (push_all _ _ _ _ id (map proj (List.filter (fun e : el => negb (bool_decide (sort (el_nodes e) ∈ del))) (vis src id))) (touch_holds _ _ _ _ id H)) as (m1 & -> & H1).
    { intros e He. apply elem_of_list_fmap in He as (e0 & -> & He). apply filter_elem in He as [He _]. by apply Hf. }
    rewrite !bind_ok. cbn [fst snd]. eexists. split; [done|]. by apply erase_holds.
  Qed.
  (** All domains of a mesh. *)
  Definition kept_of (src : mesh V) (del : list (list nat)) (id : nat) : list el :=
    List.filter (fun e : el => negb (bool_decide (id ∈ (m_bnds src).*1) && bool_decide (sort (el_nodes e) ∈ del))) (vis (m_domains src) id).
  Definition gone_of (src : mesh V) (del : list (list nat)) (id : nat) : list el :=
    List.filter (fun e : el => bool_decide (id ∈ (m_bnds src).*1) && bool_decide (sort (el_nodes e) ∈ del)) (vis (m_domains src) id).
  Lemma copy_holds m vs al nb (src : mesh V) del proj : holds m vs al nb -> StronglySorted lt (m_domains src).*1 -> StronglySorted lt (m_bnds src).*1 ->
    (forall id e, in_domain (m_domains src) id e -> fits id (proj e)) ->
    exists m' D, copyElements m src del proj = Ok (m', D) /\
      D = sort (map (fun e => el_id (proj e)) (concat (map (gone_of src del) (m_domains src).*1))) /\
      holds m' (fun k => vs k ++ map proj (kept_of src del k)) (al ++ map proj (concat (map (kept_of src del) (m_domains src).*1)))
        (fun k => nb k \/ (k ∈ (m_domains src).*1 /\ k ∉ (m_bnds src).*1)).
  Proof.
    intros H Hs Hb Hf. unfold copyElements. cbv zeta. set (bnds := (m_bnds src).*1) in *. set (keys := (m_domains src).*1) in *.
    assert (Hfv : forall id e, e ∈ vis (m_domains src) id -> fits id (proj e)).
    { intros id e He. apply Hf. unfold vis in He. apply visit_elem in He as (id' & Hid & He); [|by apply strict_nodup]. apply elem_of_list_singleton in Hid as ->. done. }
    (* domains *)
    assert (H1 : forall ids m vs al nb, NoDup ids -> (forall i, i ∈ ids -> i ∉ bnds) -> holds m vs al nb -> exists m', for_each (copy_domain (m_domains src) proj) ids m = Ok m' /\
      holds m' (fun k => vs k ++ (if decide (k ∈ ids) then map proj (kept_of src del k) else [])) (al ++ map proj (concat (map (kept_of src del) ids))) (fun k => nb k \/ k ∈ ids)).
    { clear - Hfv. induction ids as [|i ids IH]; intros m vs al nb Hnd Hni H.
      - exists m. split; [done|]. eapply holds_ext; [| | |exact H]; [|by rewrite app_nil_r|by left]. intros k. case_decide as Hk; [by apply elem_of_nil in Hk|by rewrite app_nil_r].
      - apply NoDup_cons in Hnd as [Hi Hnd]. cbn [for_each]. destruct (copy_domain_holds m vs al nb (m_domains src) proj i H (Hfv i)) as (m1 & -> & Hm1). rewrite bind_ok.
        destruct (IH _ _ _ _ Hnd (fun j Hj => Hni j (elem_of_list_further _ _ _ Hj)) Hm1) as (m2 & -> & Hm2). exists m2. split; [done|].
        assert (Hk : kept_of src del i = vis (m_domains src) i).
        { unfold kept_of. apply filter_all. intros e _. rewrite bool_decide_eq_false_2 by (apply Hni; left). done. }
        eapply holds_ext; [| | |exact Hm2]; cbn beta.
        + intros k. rewrite <- app_assoc. apply Permutation_app_head. destruct (decide (k = i)) as [-> |].
          * rewrite decide_False by done. rewrite decide_True by left. by rewrite app_nil_r, Hk.
          * cbn [app]. destruct (decide (k ∈ ids)); [rewrite decide_True by (by right); done|]. rewrite decide_False; [done|]. rewrite elem_of_cons. tauto.
        + cbn [map concat]. rewrite map_app, Hk, <- app_assoc. done.
        + intros k. rewrite elem_of_cons. tauto. }
    destruct (H1 (set_difference keys bnds) m vs al nb) as (m1 & -> & Hm1); [by apply strict_nodup, set_difference_sorted| |done|].
    { intros i Hi. by apply set_difference_elem in Hi as [_ ?]. }
    rewrite bind_ok. clear H1.
    assert (H2 : forall ids m vs al nb D, NoDup ids -> (forall i, i ∈ ids -> i ∈ bnds) -> holds m vs al nb -> exists m', for_each (copy_boundary (m_domains src) del proj) ids (m, D) =
      Ok (m', D ++ map (fun e => el_id (proj e)) (concat (map (gone_of src del) ids))) /\
      holds m' (fun k => vs k ++ (if decide (k ∈ ids) then map proj (kept_of src del k) else [])) (al ++ map proj (concat (map (kept_of src del) ids))) nb).
    { clear - Hfv. induction ids as [|i ids IH]; intros m vs al nb D Hnd Hni H.
      - exists m. split; [cbn; by rewrite app_nil_r|]. eapply holds_ext; [| | |exact H]; [|by rewrite app_nil_r|done]. intros k. case_decide as Hk; [by apply elem_of_nil in Hk|by rewrite app_nil_r].
      - apply NoDup_cons in Hnd as [Hi Hnd]. cbn [for_each].
        destruct (copy_boundary_holds m vs al nb (m_domains src) del proj i D H (Hfv i)) as (m1 & -> & Hm1). rewrite bind_ok.
        destruct (IH _ _ _ _ (D ++ map (fun e => el_id (proj e)) (gone_of src del i)) Hnd (fun j Hj => Hni j (elem_of_list_further _ _ _ Hj)) Hm1) as (m2 & Hr & Hm2).
        assert (Hib : bool_decide (i ∈ (m_bnds src).*1) = true) by (apply bool_decide_eq_true_2; apply Hni; left).
        assert (Hk : kept_of src del i = List.filter (fun e : el => negb (bool_decide (sort (el_nodes e) ∈ del))) (vis (m_domains src) i)) by (unfold kept_of; by rewrite Hib).
        assert (Hg : gone_of src del i = List.filter (fun e : el => bool_decide (sort (el_nodes e) ∈ del)) (vis (m_domains src) i)) by (unfold gone_of; by rewrite Hib).
        rewrite <- Hg, Hr. exists m2. split; [cbn [map concat]; by rewrite map_app, app_assoc|].
        eapply holds_ext; [| | |exact Hm2]; cbn beta.
        + intros k. rewrite <- app_assoc. apply Permutation_app_head. destruct (decide (k = i)) as [-> |].
          * rewrite decide_False by done. rewrite decide_True by left. by rewrite app_nil_r, Hk.
          * cbn [app]. destruct (decide (k ∈ ids)); [rewrite decide_True by (by right); done|]. rewrite decide_False; [done|]. rewrite elem_of_cons. tauto.
        + cbn [map concat]. rewrite map_app, Hk, <- app_assoc. done.
        + done. }
    destruct (H2 bnds _ _ _ _ [] (strict_nodup _ Hb) (fun i Hi => Hi) Hm1) as (m2 & -> & Hm2). clear H2. rewrite bind_ok. cbn [fst snd app].
    assert (Hnot : forall (F : nat -> list el), (forall i, i ∉ keys -> F i = []) -> concat (map F (set_difference keys bnds ++ bnds)) ≡ₚ concat (map F keys)).
    { intros F HF. transitivity (concat (map F (set_difference keys bnds ++ List.filter (fun x => bool_decide (x ∈ keys)) bnds))).
      - rewrite !map_app, !concat_app. apply Permutation_app_head. clear - HF. induction bnds as [|b l IH]; [done|]. cbn [List.filter map concat]. case_bool_decide as Hb; cbn [map concat]; [by rewrite IH|].
        rewrite (HF b Hb). exact IH.
      - apply concat_perm. by rewrite (split_perm keys bnds Hs Hb). }
    assert (Hout : forall i, i ∉ keys -> vis (m_domains src) i = []).
    { intros i Hi. rewrite vis_find. destruct (dm_find i (m_domains src)) as [d|] eqn:E; [|done]. exfalso. apply Hi, elem_of_list_fmap. exists (i, d). split; [done|by apply dm_find_elem]. }
    exists m2, (sort (map (fun e => el_id (proj e)) (concat (map (gone_of src del) bnds)))). split; [done|]. split.
    { apply sort_ext. apply Permutation_map. rewrite <- (Hnot (gone_of src del)) by (intros i Hi; unfold gone_of; by rewrite Hout). rewrite map_app, concat_app.
      assert (E : concat (map (gone_of src del) (set_difference keys bnds)) = []); [|by rewrite E].
      assert (Hg : forall i, i ∈ set_difference keys bnds -> gone_of src del i = []).
      { intros i Hi. apply set_difference_elem in Hi as [_ Hi]; [|done|done]. unfold gone_of. fold bnds. rewrite bool_decide_eq_false_2 by done. cbn [andb]. clear. induction (vis _ i); done. }
      clear - Hg. induction (set_difference keys bnds) as [|i l IH]; [done|]. cbn [map concat]. rewrite (Hg i) by left. apply IH. intros j Hj. apply Hg. by right. }
    eapply holds_ext; [| | |exact Hm2]; cbn beta.
    - intros k. rewrite <- app_assoc. apply Permutation_app_head. destruct (decide (k ∈ bnds)) as [Hkb|Hkb].
      + rewrite decide_False; [done|]. intros Hx. by apply set_difference_elem in Hx as [_ ?].
      + rewrite app_nil_r. case_decide as Hx; [done|]. rewrite set_difference_elem in Hx by done. unfold kept_of. rewrite Hout by tauto. done.
    - rewrite <- app_assoc, <- map_app, <- concat_app, <- map_app. apply Permutation_app_head, Permutation_map. apply Hnot. intros i Hi. unfold kept_of. by rewrite Hout.
    - intros k [?|Hk]; [by left|]. right. by apply set_difference_elem in Hk.
  Qed.
End fill.
