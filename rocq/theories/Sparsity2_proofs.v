(** C41: the graph of one rank, from the elements. *)
From Verif Require Import Base StdAlgo Ownership_model Ownership_spec Ownership_proofs Elem_model Elem_spec Mesh_model Mesh_spec Mesh_proofs Helpers_model Helpers_proofs Graph_model Graph_spec Graph_proofs Partition_model Partition_spec Dofs_model Dofs_spec Dofs_proofs Dofs2_proofs Periodic_proofs Sparsity_model Sparsity_spec Sparsity_proofs.
Local Arguments Nat.mul : simpl never.
Local Arguments Nat.add : simpl never.
Local Arguments Nat.sub : simpl never.

(** ** Local indices. *)
Definition own_ok (o : ownership) : Prop := so_begin o <= so_end o /\ StronglySorted lt (so_shared o) /\ forall k, k ∈ so_shared o -> ~ dof_owned o k.
Section own.
  Context (o : ownership) (Ho : own_ok o).
  Notation lid k := (getLocalIndex o k).
  Lemma isOwned_iff k : isOwned o k = true <-> dof_owned o k.
  Proof. apply isOwned_spec. Qed.
  Lemma isOwned_false k : isOwned o k = false <-> ~ dof_owned o k.
  Proof. rewrite <- isOwned_iff. by destruct (isOwned o k). Qed.
  Lemma glid k : dof_local o k -> lid k < localSize o /\ getGlobalIndex o (lid k) = Ok k.
  Proof.
    destruct Ho as (H0 & H1 & H2). unfold getLocalIndex, getGlobalIndex, localSize, numOwned. intros [Hk|Hk].
    - rewrite (proj2 (isOwned_iff k) Hk). unfold dof_owned in Hk. rewrite (proj2 (Nat.ltb_lt _ _)) by lia. split; [lia|]. f_equal. lia.
    - rewrite (proj2 (isOwned_false k) (H2 k Hk)). pose proof (lower_bound_found _ _ (strict_sorted _ H1) Hk) as Hf. apply lookup_lt_Some in Hf as Hl. rewrite (proj2 (Nat.ltb_ge _ _)) by lia. split; [lia|].
      replace (_ + _ - _) with (lower_bound (so_shared o) k) by lia. by apply rd_ok.
  Qed.
  Lemma glid_inj k k' : dof_local o k -> dof_local o k' -> lid k = lid k' -> k = k'.
  Proof. intros Hk Hk' E. destruct (glid k Hk) as [_ H1]. destruct (glid k' Hk') as [_ H2]. rewrite E in H1. congruence. Qed.
  Lemma glid_onto l : l < localSize o -> exists k, getGlobalIndex o l = Ok k /\ dof_local o k /\ lid k = l.
  Proof.
    destruct Ho as (H0 & H1 & H2). unfold getGlobalIndex, localSize, numOwned. intros Hl. destruct (Nat.ltb_spec l (so_end o - so_begin o)) as [Hlt|Hge].
    - exists (so_begin o + l). assert (Hd : dof_owned o (so_begin o + l)) by (unfold dof_owned; lia). split; [done|]. split; [by left|]. unfold getLocalIndex. rewrite (proj2 (isOwned_iff _) Hd). lia.
    - destruct (lookup_lt_is_Some_2 (so_shared o) (l - (so_end o - so_begin o))) as [k Hk]; [lia|]. exists k. split; [by apply rd_ok|]. assert (Hin : k ∈ so_shared o) by (by eapply elem_of_list_lookup_2). split; [by right|].
      unfold getLocalIndex. rewrite (proj2 (isOwned_false _) (H2 k Hin)). rewrite (lower_bound_elem _ _ _ (strict_sorted _ H1) (strict_nodup _ H1) Hk). unfold numOwned. lia.
  Qed.
End own.

Lemma passes_elem ds k d : (k, d) ∈ passes ds <-> d ∈ ds /\ k ∈ d.
Proof.
  unfold passes. rewrite elem_of_concat. split.
  - intros (l & H & Hl). apply (elem_of_list_fmap (fun d => map (fun k => (k, d)) d)) in Hl as (d' & -> & Hd). apply (elem_of_list_fmap (fun k => (k, d'))) in H as (k' & [= -> ->] & Hk). done.
  - intros [Hd Hk]. exists (map (fun k => (k, d)) d). split; [apply (elem_of_list_fmap (fun k => (k, d))); by exists k|]. apply (elem_of_list_fmap (fun d => map (fun k => (k, d)) d)). by exists d.
Qed.

Section local.
  Context {V : Type}.
  Lemma local_graph_ok sc cond (m : mesh V) g pdef ds : fair sc -> own_ok (dm_own g) -> element_dofs cond m g pdef = Ok ds -> (forall d k, d ∈ ds -> k ∈ d -> dof_local (dm_own g) k) ->
    exists lg, computeLocalGraph sc cond m g pdef = Ok lg /\ length (lg_sizes lg) = localSize (dm_own g) /\
      forall k, dof_local (dm_own g) k -> exists r, lg_row lg (getLocalIndex (dm_own g) k) = Ok r /\ StronglySorted lt r /\ forall c, c ∈ r <-> exists d, d ∈ ds /\ k ∈ d /\ c ∈ d.
  Proof.
    intros (Fc & Fr & Fw & Fs & _) Ho Eds Hloc. set (own := dm_own g) in *. set (evs := passes ds). set (ps := s_reserve sc evs). set (n := localSize own) in *.
    assert (Hlid : forall p, p ∈ evs -> getLocalIndex own p.1 < n). { intros [k d] Hp. apply passes_elem in Hp as [Hd Hk]. apply (glid own Ho k). by eapply Hloc. }
    assert (Hps : ps ≡ₚ evs) by apply Fr. unfold computeLocalGraph. cbv zeta. rewrite Eds, bind_ok. fold own. fold n. fold evs.
    pose proof (count_ok own evs Hlid _ (Fc evs)) as Ec. fold n in Ec. rewrite Ec, bind_ok.
    assert (Esz : map (fun l => weight own l (s_count sc evs)) (seq 0 n) = map length (goal_rows own ps)).
    { unfold n. rewrite (goal_sizes own evs ps Hps). apply map_ext. intros l. apply weight_perm, Fc. }
    rewrite Esz. fold ps. destruct (reserve_ok own evs Hlid ps Hps (s_fill sc)) as (rs & Er & Hrs). fold n in Er. rewrite Er, bind_ok. cbn [fst snd]. set (rows := goal_rows own ps) in *.
    assert (Hlr : length rows = n) by (unfold rows, goal_rows; by rewrite map_length, seq_length).
    rewrite (copies_ok (concat rows)).
    2:{ unfold make_crs. cbn [crs_adj]. rewrite map_length, seq_length.
        assert (Hlast : (0 :: inclusive_scan 0 (map length rows)) !! length rows = Some (List.last (0 :: inclusive_scan 0 (map length rows)) 0)).
        { rewrite <- last_at by done. f_equal. cbn [length]. rewrite inclusive_scan_length, map_length. lia. }
        rewrite offs_at in Hlast by done. apply (inj Some) in Hlast. rewrite <- Hlast, concat_len. unfold offset. by rewrite take_ge by done. }
    2:{ intros p d q x Hin Hx. rewrite (Fw rs) in Hin. apply Hrs in Hin as (pre & [k d'] & post & Hpp & [= -> ->]). cbn [fst snd] in *. set (l := getLocalIndex own k) in *.
        assert (Hl : l < n) by (apply (Hlid (k, d')); rewrite <- Hps, Hpp; set_solver). assert (Hrow : rows !! l = Some (concat (of_row own l ps))) by (by apply goal_at).
        assert (Erow : concat (of_row own l ps) = concat (of_row own l pre) ++ d' ++ concat (of_row own l post)).
        { rewrite Hpp, of_row_app. change ((k, d') :: post) with ([(k, d')] ++ post). rewrite of_row_app, of_row_one. cbn [fst snd]. fold l. rewrite Nat.eqb_refl, !concat_app. cbn. by rewrite app_nil_r. }
        apply lookup_lt_Some in Hx as Hq. rewrite <- Nat.add_assoc. unfold weight. rewrite <- concat_len. rewrite (concat_at' rows l _ _ Hrow); rewrite Erow.
        - rewrite lookup_app_r by lia. replace (_ + q - _) with q by lia. by rewrite lookup_app_l.
        - rewrite !app_length. lia. }
    2:{ intros i Hi. destruct (concat_index rows i Hi) as (l & r & q & Hr & Hq & ->). assert (Hl : l < n) by (rewrite <- Hlr; by eapply lookup_lt_Some). assert (r = concat (of_row own l ps)) as -> by (unfold rows in Hr; rewrite goal_at in Hr by done; congruence).
        destruct (concat_index _ q Hq) as (j & d & q' & Hd & Hq' & ->).
        assert (Hex : exists pre p post, ps = pre ++ p :: post /\ getLocalIndex own p.1 = l /\ p.2 = d /\ of_row own l pre = take j (of_row own l ps)).
        { clear -Hd. revert j Hd. unfold of_row. induction ps as [|p ps' IH]; intros j Hd; [done|]. cbn [List.filter] in *. destruct (getLocalIndex own p.1 =? l) eqn:E.
          - destruct j as [|j]; [cbn in Hd; injection Hd as <-; exists [], p, ps'; split; [done|]; split; [by apply Nat.eqb_eq|]; done|]. cbn [map] in Hd. destruct (IH j Hd) as (pre & p' & post & -> & H1 & H2 & H3). exists (p :: pre), p', post. split; [done|]. split; [done|]. split; [done|]. cbn [List.filter map]. rewrite E. cbn [map take]. by rewrite H3.
          - destruct (IH j Hd) as (pre & p' & post & -> & H1 & H2 & H3). exists (p :: pre), p', post. split; [done|]. split; [done|]. split; [done|]. cbn [List.filter]. by rewrite E. }
        destruct Hex as (pre & [k d'] & post & Hpp & H1 & H2 & H3). cbn [fst snd] in *. subst d'. exists (offset rows l + weight own l pre), d. split; [rewrite (Fw rs); apply Hrs; exists pre, (k, d), post; split; [done|]; unfold spot; cbn [fst snd]; by rewrite H1|].
        assert (Ew : weight own l pre = offset (of_row own l ps) j) by (unfold weight, offset; by rewrite H3). rewrite Ew. lia. }
    rewrite bind_ok. assert (Hz : forallb (fun s => s =? 0) (replicate n 0) = true) by (clear; induction n; [done|]; cbn; done). fold n. rewrite Hz. change (throwing_assert true) with (Ok tt). rewrite bind_ok.
    destruct (sort_rows_ok (s_fill sc) (crs_offs (make_crs (s_fill sc) (map length rows))) rows (replicate n 0) (s_rows sc (seq 0 n))) as (gr & s & E & Hpk & ->); [done|by rewrite replicate_length|by rewrite Hlr|]. rewrite E, bind_ok. cbn [fst snd].
    eexists. split; [reflexivity|]. cbn [lg_sizes]. split; [by rewrite map_length|]. intros k Hk. destruct (glid own Ho k Hk) as [Hl _]. fold n in Hl. set (l := getLocalIndex own k) in *. assert (Hrow : rows !! l = Some (concat (of_row own l ps))) by (by apply goal_at).
    exists (unique (sort (concat (of_row own l ps)))). split; [|split; [apply unique_strict, sort_sorted|]].
    - unfold lg_row. cbn [lg_graph lg_sizes]. rewrite (packed_row gr _ l (tidy (s_fill sc) (concat (of_row own l ps))) Hpk).
      + rewrite bind_ok. unfold at_. rewrite (list_lookup_fmap (fun r => length (unique (sort r)))), Hrow. cbn [fmap option_fmap option_map]. rewrite bind_ok. rewrite (proj2 (Nat.leb_le _ _)); [|rewrite tidy_length; pose proof (unique_length (sort (concat (of_row own l ps)))) as Hu; by rewrite sort_length in Hu]. f_equal. unfold tidy. by rewrite take_app.
      + change (map (tidy (s_fill sc)) rows) with (tidy (s_fill sc) <$> rows). by rewrite list_lookup_fmap, Hrow.
    - intros c. rewrite unique_elem, sort_elem, elem_of_concat. split.
      + intros (d & Hc & Hd). apply of_row_elem in Hd as (k' & Hin & El). rewrite Hps in Hin. apply passes_elem in Hin as [Hd Hk']. exists d. split; [done|]. split; [|done]. assert (k = k') as -> by (apply (glid_inj own Ho); [done|by eapply Hloc|done]). done.
      + intros (d & Hd & Hkd & Hc). exists d. split; [done|]. apply of_row_elem. exists k. split; [|done]. rewrite Hps. by apply passes_elem.
  Qed.

  Lemma getDofs_ok cond g (e : element V) bits D : typed_el e -> length bits = D -> NoDup (dm_map g).*1 -> (forall n, n ∈ el_nodes e -> n ∈ (dm_map g).*1) -> (forall n row, (n, row) ∈ dm_map g -> length row = D) ->
    exists d, getDofsCopy cond g e (true_inds bits) = Ok d /\ forall k, k ∈ d <-> el_unknown cond g bits e k.
  Proof.
    intros Ht Hb Hnd Hn Hrow. unfold getDofsCopy. destruct (primary_ok cond e Ht) as (ns & -> & Hns). rewrite bind_ok.
    set (rows := fun n => match hm_find n (dm_map g) with Some row => map (fun j => default None (row !! j)) (true_inds bits) | None => [] end).
    assert (Hf : forall n, n ∈ ns -> exists row, hm_find n (dm_map g) = Some row /\ (n, row) ∈ dm_map g).
    { intros n Hi. apply Hns, primary_in, Hn in Hi. destruct (hm_find n (dm_map g)) as [row|] eqn:E; [|by apply hm_find_None in E]. exists row. split; [done|]. by apply (hm_find_elem (dm_map g) n row Hnd). }
    rewrite (map_res_ok _ rows).
    2:{ intros n Hi. destruct (Hf n Hi) as (row & E & Hr). unfold rows. rewrite E. apply map_res_ok. intros j Hj. apply true_inds_elem, lookup_lt_Some in Hj. destruct (lookup_lt_is_Some_2 row j) as [x Hx]; [rewrite (Hrow n row Hr); lia|]. rewrite Hx. by apply rd_ok. }
    rewrite bind_ok. eexists. split; [reflexivity|]. intros k. rewrite unique_elem, sort_elem, elem_of_list_omap. unfold el_unknown. split.
    - intros (x & Hx & Ex). cbn in Ex. subst x. apply elem_of_concat in Hx as (l & Hk & Hl). apply (elem_of_list_fmap rows) in Hl as (n & -> & Hi). destruct (Hf n Hi) as (row & E & Hr). unfold rows in Hk. rewrite E in Hk.
      apply (elem_of_list_fmap (fun j => default None (row !! j))) in Hk as (j & Ej & Hj). apply true_inds_elem in Hj. exists n, row, j. split; [by apply Hns|]. split; [done|]. split; [done|]. destruct (row !! j); cbn in Ej; congruence.
    - intros (n & row & j & Hp & Hr & Hj & Hk). exists (Some k). split; [|done]. apply Hns in Hp. apply elem_of_concat. exists (rows n). split; [|apply (elem_of_list_fmap rows); by exists n].
      unfold rows. rewrite (proj2 (hm_find_elem (dm_map g) n row Hnd) Hr). apply (elem_of_list_fmap (fun j => default None (row !! j))). exists j. split; [by rewrite Hk|]. by apply true_inds_elem.
  Qed.
  Lemma map_res_ex {A B} (f : A -> res B) l : (forall a, a ∈ l -> exists b, f a = Ok b) -> exists bs, map_res f l = Ok bs /\ Forall2 (fun a b => f a = Ok b) l bs.
  Proof.
    induction l as [|a l IH]; intros H; [exists []; split; [done|constructor]|]. destruct (H a ltac:(left)) as [b E]. destruct IH as (bs & E' & Hb); [intros x Hx; apply H; by right|]. exists (b :: bs). cbn. rewrite E. cbn. rewrite E'. split; [done|]. by constructor.
  Qed.
  Lemma element_dofs_ok D ranks T cond (m : mesh V) g pdef : usable D ranks pdef T -> (m, g) ∈ ranks ->
    exists ds, element_dofs cond m g pdef = Ok ds /\ (forall d k, d ∈ ds -> k ∈ d -> dof_local (dm_own g) k) /\
      forall k c, (exists d, d ∈ ds /\ k ∈ d /\ c ∈ d) <-> coupled cond pdef m g k c.
  Proof.
    intros U Hmg. destruct (us_keys _ _ _ _ U m g Hmg) as [Hnd Hkeys]. pose proof (us_domains _ _ _ _ U m g Hmg) as Hdk.
    assert (Hg : forall ids bits e, (ids, bits) ∈ pdef -> e ∈ visit_elems (m_domains m) ids -> exists d, getDofsCopy cond g e (true_inds bits) = Ok d /\ forall k, k ∈ d <-> el_unknown cond g bits e k).
    { intros ids bits e Hd He. apply visit_elem in He as (id & Hid & He); [|done]. assert (Hie : is_elem (m_domains m) e) by (by exists id). apply (getDofs_ok cond g e bits D); [by apply (us_typed _ _ _ _ U m g)|by apply (us_bits _ _ _ _ U ids)|done|intros n Hn; by apply (Hkeys e n)|]. intros n row Hr. by apply (us_rows _ _ _ _ U m g n row Hmg). }
    unfold element_dofs. destruct (map_res_ex (fun d : list nat * list bool => map_res (fun e => getDofsCopy cond g e (true_inds d.2)) (visit_elems (m_domains m) d.1)) pdef) as (dss & -> & Hdss).
    { intros [ids bits] Hd. cbn [fst snd]. destruct (map_res_ex (fun e => getDofsCopy cond g e (true_inds bits)) (visit_elems (m_domains m) ids)) as (bs & E & _); [|by exists bs]. intros e He. destruct (Hg ids bits e Hd He) as (d & E & _). by exists d. }
    rewrite bind_ok. exists (concat dss). split; [done|].
    assert (Hin : forall d, d ∈ concat dss <-> exists ids bits e, (ids, bits) ∈ pdef /\ e ∈ visit_elems (m_domains m) ids /\ getDofsCopy cond g e (true_inds bits) = Ok d).
    { intros d. rewrite elem_of_concat. split.
      - intros (l & Hd & Hl). apply elem_of_list_lookup in Hl as [i Hl]. destruct (Forall2_lookup_r _ _ _ _ _ Hdss Hl) as ([ids bits] & Hi & E). cbn [fst snd] in E. apply map_res_inv in E. apply elem_of_list_lookup in Hd as [q Hq].
        destruct (Forall2_lookup_r _ _ _ _ _ E Hq) as (e & He & Ed). exists ids, bits, e. split; [by eapply elem_of_list_lookup_2|]. split; [by eapply elem_of_list_lookup_2|done].
      - intros (ids & bits & e & Hd & He & Ed). apply elem_of_list_lookup in Hd as [i Hi]. destruct (Forall2_lookup_l _ _ _ _ _ Hdss Hi) as (l & Hl & E). cbn [fst snd] in E. apply map_res_inv in E. apply elem_of_list_lookup in He as [q Hq].
        destruct (Forall2_lookup_l _ _ _ _ _ E Hq) as (d' & Hd' & Ed'). assert (d' = d) as -> by congruence. exists l. split; by eapply elem_of_list_lookup_2. }
    split.
    - intros d k Hd Hk. apply Hin in Hd as (ids & bits & e & Hd & He & Ed). destruct (Hg ids bits e Hd He) as (d' & Ed' & Hu). assert (d' = d) as -> by congruence. apply Hu in Hk as (n & row & j & _ & Hr & _ & Hk). by eapply (us_rows _ _ _ _ U m g n row Hmg Hr).
    - intros k c. unfold coupled. split.
      + intros (d & Hd & Hk & Hc). apply Hin in Hd as (ids & bits & e & Hd & He & Ed). destruct (Hg ids bits e Hd He) as (d' & Ed' & Hu). assert (d' = d) as -> by congruence. apply visit_elem in He as (id & Hid & He); [|done]. exists ids, bits, id, e. split; [done|]. split; [done|]. split; [done|]. split; by apply Hu.
      + intros (ids & bits & id & e & Hd & Hid & He & Hk & Hc). assert (Hv : e ∈ visit_elems (m_domains m) ids) by (apply visit_elem; [done|]; by exists id). destruct (Hg ids bits e Hd Hv) as (d & Ed & Hu). exists d. split; [|split; by apply Hu]. apply Hin. by exists ids, bits, e.
  Qed.
End local.
