(** C41: all ranks. *)
From Verif Require Import Base StdAlgo Ownership_model Ownership_spec Ownership_proofs Elem_model Elem_spec Mesh_model Mesh_spec Mesh_proofs Helpers_model Helpers_proofs Graph_model Graph_spec Graph_proofs Merge_model Merge_proofs Partition_model Partition_spec Dofs_model Dofs_spec Dofs_proofs Dofs2_proofs Dofs4_proofs Periodic_proofs Sparsity_model Sparsity_spec Sparsity_proofs Sparsity2_proofs Sparsity3_proofs.
Local Arguments Nat.mul : simpl never.
Local Arguments Nat.add : simpl never.
Local Arguments Nat.sub : simpl never.

Section world.
  Context (owns : list ownership) (T : nat) (lgs : list local_graph) (L : nat -> nat -> list nat).
  Context (Hc : consecutive owns T) (Hown : forall r o, owns !! r = Some o -> own_ok o /\ forall k, k ∈ so_shared o -> k < T).
  Context (Hlg : forall r o, owns !! r = Some o -> exists lg, lgs !! r = Some lg /\ length (lg_sizes lg) = localSize o /\
    forall k, dof_local o k -> lg_row lg (getLocalIndex o k) = Ok (L r k) /\ StronglySorted lt (L r k) /\ forall c, c ∈ L r k -> dof_local o c).
  Notation counts := (map numOwned owns).
  Lemma counts_total : total counts = T.
  Proof. destruct Hc as [H _]. exact H. Qed.
  Lemma owned_iff r o k : owns !! r = Some o -> dof_owned o k <-> Ownership_spec.owns counts r k.
  Proof.
    intros Hr. destruct Hc as [_ H]. destruct (H r o Hr) as [H1 H2]. assert (Hcr : counts !! r = Some (so_end o - so_begin o)) by (change (map numOwned owns) with (numOwned <$> owns); by rewrite list_lookup_fmap, Hr).
    unfold Ownership_spec.owns, dof_owned. rewrite first_owned_sum. split.
    - intros Hk. exists (so_end o - so_begin o). split; [done|]. change (map (fun o => so_end o - so_begin o) owns) with counts in H2. lia.
    - intros (c & Hc' & Hk). change (map (fun o => so_end o - so_begin o) owns) with counts in H2. assert (c = so_end o - so_begin o) as -> by congruence. lia.
  Qed.
  Lemma owner_ex k : k < T -> exists r o, owns !! r = Some o /\ dof_owned o k.
  Proof.
    intros Hk. rewrite <- counts_total in Hk. pose proof (get_owner_spec counts k Hk) as Ho. pose proof (owns_lt _ _ _ Ho) as Hl. rewrite map_length in Hl. destruct (lookup_lt_is_Some_2 owns _ Hl) as [o Hr]. exists (get_owner (getOwnershipDist counts) k), o. split; [done|]. by apply (owned_iff _ _ _ Hr).
  Qed.
  Definition rows_of (r s : nat) : list nat := match owns !! s with Some o => List.filter (fun k => get_owner (getOwnershipDist counts) k =? r) (so_shared o) | None => [] end.
  Lemma outs_at s o : owns !! s = Some o -> all_outs owns !! s = Some (info 0 (length counts) (fun r => List.filter (fun k => get_owner (getOwnershipDist counts) k =? r) (so_shared o))).
  Proof.
    intros Hs. unfold all_outs. rewrite (list_lookup_fmap (fun so => computeOutNbrInfo so (getOwnershipDist (map numOwned owns)))), Hs. cbn [fmap option_fmap option_map]. f_equal. apply out_nbr_spec. apply Forall_forall. intros k Hk. rewrite counts_total. by apply (Hown s o Hs).
  Qed.
  Lemma rows_elem r or s os k : owns !! r = Some or -> owns !! s = Some os -> k ∈ rows_of r s <-> k ∈ so_shared os /\ dof_owned or k.
  Proof.
    intros Hr Hs. unfold rows_of. rewrite Hs. rewrite elem_of_list_In, filter_In, <- elem_of_list_In, Nat.eqb_eq, (owned_iff _ _ _ Hr). split; intros [Hk Ho]; (split; [done|]); apply (get_owner_iff counts k r); try done; rewrite counts_total; by apply (Hown s os Hs).
  Qed.
  Lemma rows_nodup r s : NoDup (rows_of r s).
  Proof. unfold rows_of. destruct (owns !! s) as [o|] eqn:E; [|constructor]. apply NoDup_ListNoDup, List.NoDup_filter, NoDup_ListNoDup, strict_nodup. apply (Hown s o E). Qed.
  Lemma info_nodup a n f : NoDup (info a n f).*1.
  Proof.
    unfold info. revert a. induction n as [|n IH]; intros a; [constructor|]. cbn [seq omap list_omap]. destruct (f a) eqn:E; [apply IH|]. rewrite fmap_cons. apply NoDup_cons. split; [|apply IH].
    intros Hin. apply elem_of_list_fmap in Hin as (x & Hx & Hin). fold (info (S a) n f) in Hin. apply info_keys in Hin. cbn in Hx. lia.
  Qed.
  Lemma nbr_in r s : r < length owns -> s ∈ in_nbr_keys (all_outs owns) r <-> s < length owns /\ rows_of r s <> [].
  Proof.
    intros Hr. rewrite in_nbr_keys_elem. unfold msg_of, rows_of. split.
    - intros (ids & m & Hm & Hin). assert (Hs : s < length owns) by (apply lookup_lt_Some in Hm; unfold all_outs in Hm; by rewrite map_length in Hm). destruct (lookup_lt_is_Some_2 owns s Hs) as [o Ho]. rewrite Ho. rewrite (outs_at s o Ho) in Hm. injection Hm as <-. apply info_elem in Hin as (_ & -> & Hne). done.
    - intros [Hs Hne]. destruct (lookup_lt_is_Some_2 owns s Hs) as [o Ho]. rewrite Ho in Hne. eexists _, _. split; [by apply outs_at|]. apply info_elem. rewrite map_length. split; [lia|]. split; [reflexivity|done].
  Qed.
  Lemma message_ok r or s os : owns !! r = Some or -> owns !! s = Some os -> rows_of r s <> [] -> message owns lgs s r = Ok (packet (rows_of r s) (L s)).
  Proof.
    intros Hr Hs Hne. unfold message. rewrite (rd_ok _ _ _ Hs), bind_ok. destruct (Hlg s os Hs) as (lg & Hl & _ & Hrow). rewrite (rd_ok _ _ _ Hl), bind_ok, (rd_ok _ _ _ (outs_at s os Hs)), bind_ok.
    assert (Hf : hm_find r (info 0 (length counts) (fun r => List.filter (fun k => get_owner (getOwnershipDist counts) k =? r) (so_shared os))) = Some (rows_of r s)).
    { apply hm_find_elem; [apply info_nodup|]. apply info_elem. unfold rows_of. rewrite Hs. rewrite map_length. apply lookup_lt_Some in Hr. unfold rows_of in Hne. rewrite Hs in Hne. split; [lia|]. done. }
    rewrite Hf. apply serialize_ok. intros k Hk. apply Hrow. right. by apply (rows_elem r or s os k Hr Hs) in Hk as [Hk _].
  Qed.

  Section rank.
    Context (r : nat) (o : ownership) (lg : local_graph) (Hr : owns !! r = Some o) (Hl : lgs !! r = Some lg).
    (** What the other ranks add to row [k]. *)
    Definition extra (k c : nat) : Prop := c ∉ L r k /\ exists s os, owns !! s = Some os /\ k ∈ so_shared os /\ c ∈ L s k.
    Definition data_ok (data : list (nat * list nat)) : Prop := NoDup data.*1 /\ forall k, match hm_find k data with
      | None => dof_owned o k -> forall c, ~ extra k c
      | Some l => dof_owned o k /\ StronglySorted lt l /\ forall c, c ∈ l <-> extra k c end.
    Lemma lg_facts : own_ok o /\ length (lg_sizes lg) = localSize o /\ forall k, dof_local o k -> lg_row lg (getLocalIndex o k) = Ok (L r k) /\ StronglySorted lt (L r k) /\ forall c, c ∈ L r k -> dof_local o c.
    Proof. destruct (Hlg r o Hr) as (lg' & Hl' & H). assert (lg' = lg) as -> by congruence. split; [apply (Hown r o Hr)|done]. Qed.
    Lemma in_data_ok sc : fair sc -> exists data, computeInNbrData sc owns lgs r o lg = Ok data /\ data_ok data.
    Proof.
      intros (_ & _ & _ & _ & Fa & Fp). destruct lg_facts as (Ho & Hsz & Hrow). unfold computeInNbrData. set (keys := in_nbr_keys (all_outs owns) r).
      assert (Hrl : r < length owns) by (by eapply lookup_lt_Some). assert (Hk : forall s, s ∈ keys <-> s < length owns /\ rows_of r s <> []) by (intros s; by apply nbr_in).
      assert (Hrows : forall s, NoDup (rows_of r s) /\ forall k, k ∈ rows_of r s -> lg_row lg (getLocalIndex o k) = Ok (L r k) /\ StronglySorted lt (L r k) /\ StronglySorted lt (L s k)).
      { intros s. split; [apply rows_nodup|]. intros k Hk'. destruct (owns !! s) as [os|] eqn:Hs; [|unfold rows_of in Hk'; rewrite Hs in Hk'; by apply elem_of_nil in Hk']. destruct (proj1 (rows_elem r o s os k Hr Hs) Hk') as [Hks Hod]. destruct (Hrow k ltac:(by left)) as (E & Hst & _). split; [done|]. split; [done|].
        destruct (Hlg s os Hs) as (lg' & _ & _ & H'). apply (H' k). by right. }
      destruct (for_each_inv (fun s cur => serial ← message owns lgs s r; appendSharedFromSerial sc serial lg o cur) (fun pre cur => collected (L r) (rows_of r) L pre cur) (s_arrive sc keys) [] []) as (data & E & H).
      - split; [constructor|]. intros k. cbn. intros s Hs. by apply elem_of_nil in Hs.
      - intros pre s cur [post Hp] Hcur. cbn [app] in Hp. assert (Hs : s ∈ keys) by (rewrite <- (Fa keys), Hp; set_solver). apply Hk in Hs as [Hs Hne]. destruct (lookup_lt_is_Some_2 owns s Hs) as [os Hos]. rewrite (message_ok r o s os Hr Hos Hne), bind_ok. by apply append_ok.
      - cbn [app] in H. exists data. split; [done|]. destruct H as [Hn Hf]. split; [done|]. intros k. specialize (Hf k).
        assert (Hex : dof_owned o k -> forall c, (exists s, s ∈ s_arrive sc keys /\ k ∈ rows_of r s /\ c ∈ L s k) <-> exists s os, owns !! s = Some os /\ k ∈ so_shared os /\ c ∈ L s k).
        { intros Hod c. split.
          - intros (s & Hs & Hks & Hc'). rewrite (Fa keys) in Hs. apply Hk in Hs as [Hs _]. destruct (lookup_lt_is_Some_2 owns s Hs) as [os Hos]. exists s, os. split; [done|]. split; [|done]. by apply (rows_elem r o s os k Hr Hos) in Hks as [Hks _].
          - intros (s & os & Hos & Hks & Hc'). assert (Hin : k ∈ rows_of r s) by (by apply (rows_elem r o s os k Hr Hos)). exists s. split; [|done]. rewrite (Fa keys). apply Hk. split; [by eapply lookup_lt_Some|]. intros E'. rewrite E' in Hin. by apply elem_of_nil in Hin. }
        destruct (hm_find k data) as [l|].
        + destruct Hf as ((s & Hs & Hks) & Hst & Hel). assert (Hod : dof_owned o k). { rewrite (Fa keys) in Hs. apply Hk in Hs as [Hs _]. destruct (lookup_lt_is_Some_2 owns s Hs) as [os Hos]. by apply (rows_elem r o s os k Hr Hos) in Hks as [_ Hks]. }
          split; [done|]. split; [done|]. intros c. rewrite Hel. unfold extra. by rewrite (Hex Hod c).
        + intros Hod c [_ Hc']. apply (Hex Hod) in Hc' as (s & Hs & Hks & _). by apply (Hf s Hs).
    Qed.

    Context (data : list (nat * list nat)) (Hdata : data_ok data).
    Lemma cols_ok : exists cols, makeColumnOwnership o data = Ok cols /\ own_ok cols /\ (forall c, dof_owned cols c <-> dof_owned o c) /\ (so_end cols = so_begin cols + numOwned o /\ (numOwned o = 0 -> so_begin cols = 0)) /\
      forall c, c ∈ so_shared cols <-> ~ dof_owned o c /\ (c ∈ so_shared o \/ exists k, dof_owned o k /\ extra k c).
    Proof.
      destruct lg_facts as ((Hb & Hst & Hno) & _ & _). destruct Hdata as [Hn Hd]. unfold makeColumnOwnership. set (sh := unique (sort _)).
      assert (Hsh : forall c, c ∈ sh <-> ~ dof_owned o c /\ (c ∈ so_shared o \/ exists k, dof_owned o k /\ extra k c)).
      { intros c. unfold sh. rewrite unique_elem, sort_elem, elem_of_app.
        assert (Hfil : c ∈ List.filter (fun e => negb (isOwned o e)) (concat (map snd data)) <-> c ∈ concat (map snd data) /\ ~ dof_owned o c) by (rewrite elem_of_list_In, filter_In, <- elem_of_list_In, negb_true_iff, isOwned_false; done). rewrite Hfil.
        assert (Hcc : c ∈ concat (map snd data) <-> exists k, dof_owned o k /\ extra k c).
        { rewrite elem_of_concat. split.
          - intros (l & Hc' & Hl'). apply (elem_of_list_fmap snd) in Hl' as ([k l'] & -> & Hkl). apply (hm_find_elem data k l' Hn) in Hkl. specialize (Hd k). rewrite Hkl in Hd. destruct Hd as (Hod & _ & Hel). exists k. split; [done|]. by apply Hel.
          - intros (k & Hod & Hx). specialize (Hd k). destruct (hm_find k data) as [l|] eqn:E; [|by destruct (Hd Hod c)]. exists l. split; [by apply Hd|]. apply (elem_of_list_fmap snd). exists (k, l). split; [done|]. by apply (hm_find_elem data k l Hn). }
        rewrite Hcc. specialize (Hno c). tauto. }
      unfold numOwned in *. set (b := if so_end o - so_begin o =? 0 then 0 else so_begin o). assert (Hrange : forall c, b <= c < b + (so_end o - so_begin o) <-> dof_owned o c).
      { intros c. unfold dof_owned, b. destruct (Nat.eqb_spec (so_end o - so_begin o) 0) as [E|E]; lia. }
      rewrite make_ownership_ok by (intros x Hx; rewrite Hrange; by apply Hsh in Hx as [Hx _]). eexists. split; [reflexivity|]. unfold own_ok, dof_owned at 1 2. cbn [so_begin so_end so_shared].
      assert (Hss : sort sh = sh) by (apply sort_id, strict_sorted, unique_strict, sort_sorted). rewrite Hss. split; [|split; [done|split; [|done]]]. 2:{ split; [done|]. intros Hz. unfold b. unfold numOwned in Hz. by rewrite Hz. } split; [lia|]. split; [apply unique_strict, sort_sorted|]. intros k Hk. rewrite Hrange. by apply Hsh in Hk as [Hk _].
    Qed.
    Context (cols : ownership) (Hcols : own_ok cols) (Hco : forall c, dof_owned cols c <-> dof_owned o c)
      (Hcr : so_end cols = so_begin cols + numOwned o /\ (numOwned o = 0 -> so_begin cols = 0))
      (Hcs : forall c, c ∈ so_shared cols <-> ~ dof_owned o c /\ (c ∈ so_shared o \/ exists k, dof_owned o k /\ extra k c)).
    Lemma g2l_ok c : dof_local cols c -> col_g2l cols c = Ok (getLocalIndex cols c).
    Proof.
      destruct Hcols as (_ & Hst & Hno). intros Hc'. unfold col_g2l, getLocalIndex. destruct (isOwned cols c) eqn:E; [done|]. apply isOwned_false in E. destruct Hc' as [Hc'|Hc']; [done|].
      pose proof (lower_bound_found _ _ (strict_sorted _ Hst) Hc') as Hf. destruct (index_map_ok (so_shared cols) c) as [H1 _]. rewrite (proj2 (H1 (lower_bound (so_shared cols) c))); [cbn; f_equal; lia|]. split; [done|]. intros j Hj Hj'. pose proof (NoDup_lookup _ _ _ _ (strict_nodup _ Hst) Hf Hj'). lia.
    Qed.
    Lemma local_cols c : dof_local o c -> dof_local cols c.
    Proof. intros [Hc'|Hc']; [left; by apply Hco|right]. apply Hcs. split; [|by left]. apply (Hown r o Hr). done. Qed.
    Definition row_gids (k : nat) : list nat := L r k ++ default [] (hm_find k data).
    Lemma row_gids_ok k : dof_local o k -> NoDup (row_gids k) /\ (forall c, c ∈ row_gids k -> dof_local cols c) /\
      (dof_owned o k -> forall c, c ∈ row_gids k <-> c ∈ L r k \/ exists s os, owns !! s = Some os /\ k ∈ so_shared os /\ c ∈ L s k) /\ (~ dof_owned o k -> row_gids k = L r k).
    Proof.
      intros Hk. destruct lg_facts as (_ & _ & Hrow). destruct (Hrow k Hk) as (_ & Hst & Hin). destruct Hdata as [Hn Hd]. specialize (Hd k). unfold row_gids. destruct (hm_find k data) as [l|] eqn:E; cbn [default].
      - destruct Hd as (Hod & Hsl & Hel). split; [|split; [|split]].
        + apply NoDup_app. split; [by apply strict_nodup|]. split; [|by apply strict_nodup]. intros c Hc1 Hc2. by apply Hel in Hc2 as [Hc2 _].
        + intros c Hc'. apply elem_of_app in Hc' as [Hc'|Hc']; [by apply local_cols, Hin|]. destruct (decide (so_begin o <= c < so_end o)) as [Ho|Ho]; [left; by apply Hco|]. right. apply Hcs. split; [done|]. right. exists k. split; [done|]. by apply Hel.
        + intros _ c. rewrite elem_of_app, Hel. unfold extra. destruct (decide (c ∈ L r k)); tauto.
        + intros Hno. done.
      - rewrite app_nil_r. split; [by apply strict_nodup|]. split; [intros c Hc'; by apply local_cols, Hin|]. split; [|done]. intros Hod c. split; [by left|]. intros [Hc'|Hc']; [done|]. destruct (decide (c ∈ L r k)) as [Hi|Hi]; [done|]. destruct (Hd Hod c). by split.
    Qed.
    Lemma insert_ok k : dof_local o k -> insert_row lg data o cols (getLocalIndex o k) = Ok (sort (map (getLocalIndex cols) (row_gids k))).
    Proof.
      intros Hk. destruct lg_facts as (Ho & _ & Hrow). destruct (row_gids_ok k Hk) as (_ & Hloc & _). unfold insert_row. destruct (glid o Ho k Hk) as [_ ->]. rewrite bind_ok. destruct (Hrow k Hk) as (-> & _). rewrite bind_ok.
      unfold row_gids in Hloc. rewrite (map_res_ok _ (getLocalIndex cols)) by (intros c Hc'; apply g2l_ok, Hloc; set_solver). rewrite bind_ok. unfold row_gids. destruct (hm_find k data) as [l|] eqn:E; cbn [default] in *.
      - rewrite (map_res_ok _ (getLocalIndex cols)) by (intros c Hc'; apply g2l_ok, Hloc; set_solver). by rewrite bind_ok, map_app.
      - by rewrite bind_ok, !app_nil_r.
    Qed.
    Definition gid_at (l : nat) : nat := match getGlobalIndex o l with Ok k => k | _ => 0 end.
    Lemma gid_at_ok l : l < localSize o -> getGlobalIndex o l = Ok (gid_at l) /\ dof_local o (gid_at l) /\ getLocalIndex o (gid_at l) = l.
    Proof. intros H. destruct lg_facts as (Ho & _). destruct (glid_onto o Ho l H) as (k & E & Hk & Hl'). unfold gid_at. rewrite E. done. Qed.
    Lemma sizes_ok : makeRowSizes lg data o = Ok (map (fun l => length (row_gids (gid_at l))) (seq 0 (localSize o))).
    Proof.
      destruct lg_facts as (Ho & Hsz & Hrow). destruct Hdata as [Hn Hd]. unfold makeRowSizes. rewrite Hsz. rewrite (map_res_ok _ (fun l => length (L r (gid_at l)))).
      2:{ intros l Hl'. apply elem_of_seq in Hl'. destruct (gid_at_ok l) as (_ & Hk & El); [lia|]. destruct (Hrow _ Hk) as (E & _). rewrite El in E. by rewrite E. }
      rewrite bind_ok. set (val := fun (pre : list (nat * list nat)) l => length (L r (gid_at l)) + length (default [] (hm_find (gid_at l) pre))).
      destruct (for_each_inv (fun z : nat * list nat => fun v => let l := getLocalIndex o z.1 in s ← rd v l; wr v l (s + length z.2)) (fun pre v => v = map (val pre) (seq 0 (localSize o))) data [] (map (fun l => length (L r (gid_at l))) (seq 0 (localSize o)))) as (v & E & H).
      - apply map_ext. intros l. unfold val. cbn. lia.
      - intros pre [k es] v [post Hp] ->. cbn [app fst snd] in *. assert (Hin : (k, es) ∈ data) by (rewrite Hp; set_solver). apply (hm_find_elem data k es Hn) in Hin. specialize (Hd k). rewrite Hin in Hd. destruct Hd as (Hod & _ & _).
        assert (Hk : dof_local o k) by (by left). destruct (glid o Ho k Hk) as [Hl' _]. set (l := getLocalIndex o k) in *. cbv zeta. assert (Hgl : gid_at l = k). { destruct (gid_at_ok l Hl') as (_ & Hk' & El). by apply (glid_inj o Ho). }
        assert (Hnew : hm_find k pre = None). { apply hm_find_None. rewrite Hp, fmap_app in Hn. apply NoDup_app in Hn as (_ & Hn & _). intros Hi. apply (Hn k Hi). rewrite fmap_cons. left. }
        assert (Hat : map (val pre) (seq 0 (localSize o)) !! l = Some (val pre l)) by (rewrite (list_lookup_fmap (val pre)), lookup_seq_lt by done; done). rewrite (rd_ok _ _ _ Hat), bind_ok, wr_ok by (by rewrite map_length, seq_length). eexists. split; [reflexivity|].
        apply list_eq. intros i. rewrite (list_lookup_fmap (val (pre ++ [(k, es)]))). destruct (decide (i < localSize o)) as [Hi|Hi].
        + rewrite lookup_seq_lt by done. cbn [fmap option_fmap option_map]. rewrite Nat.add_0_l. destruct (decide (i = l)) as [-> |Hne].
          * rewrite list_lookup_insert by (by rewrite map_length, seq_length). f_equal. unfold val. rewrite Hgl, hm_find_snoc by done. rewrite decide_True by done. rewrite Hnew. cbn. lia.
          * rewrite list_lookup_insert_ne by done. rewrite (list_lookup_fmap (val pre)), lookup_seq_lt by done. cbn [fmap option_fmap option_map]. rewrite Nat.add_0_l. f_equal. unfold val. rewrite hm_find_snoc by done. rewrite decide_False; [done|]. intros E. apply Hne. unfold l. rewrite <- E. symmetry. by apply gid_at_ok.
        + rewrite lookup_ge_None_2 by (rewrite insert_length, map_length, seq_length; lia). rewrite lookup_ge_None_2 by (rewrite seq_length; lia). done.
      - cbn [app] in H. subst v. match type of E with ?x = _ => match goal with |- ?y = _ => change y with x end end. rewrite E. f_equal. apply map_ext. intros l. unfold val, row_gids. by rewrite app_length.
    Qed.
    Lemma pattern_rank : forall (here any : nat -> nat -> Prop),
      (forall k c, dof_local o k -> here k c <-> c ∈ L r k) -> (forall k c, dof_owned o k -> any k c <-> c ∈ L r k \/ exists s os, owns !! s = Some os /\ k ∈ so_shared os /\ c ∈ L s k) ->
      exists sizes rows, makeRowSizes lg data o = Ok sizes /\ map_res (insert_row lg data o cols) (seq 0 (length (lg_sizes lg))) = Ok rows /\ pattern_ok o here any {| sg_cols := cols; sg_sizes := sizes; sg_rows := rows |}.
    Proof.
      intros here any Hh Ha. destruct lg_facts as (Ho & Hsz & Hrow). exists (map (fun l => length (row_gids (gid_at l))) (seq 0 (localSize o))), (map (fun l => sort (map (getLocalIndex cols) (row_gids (gid_at l)))) (seq 0 (localSize o))).
      split; [apply sizes_ok|]. split.
      { rewrite Hsz. apply map_res_ok. intros l Hl'. apply elem_of_seq in Hl'. destruct (gid_at_ok l) as (_ & Hk & El); [lia|]. pose proof (insert_ok (gid_at l) Hk) as E. by rewrite El in E. }
      constructor; cbn [sg_cols sg_sizes sg_rows].
      - done.
      - done.
      - apply Hcols.
      - intros c. rewrite Hcs. split; intros [Hno Hx]; (split; [done|]); (destruct Hx as [Hx|(k & Hod & Hx)]; [by left|]).
        + right. exists k. split; [done|]. apply Ha; [done|]. right. apply Hx.
        + assert (Hmine : c ∈ L r k -> c ∈ so_shared o) by (intros Hi; destruct (Hrow k ltac:(by left)) as (_ & _ & Hin); by destruct (Hin c Hi)).
          destruct (decide (c ∈ L r k)) as [Hi|Hi]; [left; by apply Hmine|]. right. exists k. split; [done|]. split; [done|]. by apply Ha in Hx as [Hx|Hx].
      - rewrite map_length, seq_length. split; [done|]. rewrite map_map. apply map_ext. intros l. by rewrite sort_length, map_length.
      - intros l row Hl'. rewrite (list_lookup_fmap (fun l => sort (map (getLocalIndex cols) (row_gids (gid_at l))))) in Hl'. apply fmap_Some in Hl' as (l' & Hl' & ->). apply lookup_seq in Hl' as [-> Hl']. rewrite Nat.add_0_l. destruct (gid_at_ok l Hl') as (Eg & Hk & _). set (k := gid_at l) in *.
        destruct (row_gids_ok k Hk) as (R1 & R2 & R3 & R4).
        assert (Hel : forall c, (exists i, i ∈ sort (map (getLocalIndex cols) (row_gids k)) /\ col_at cols i c) <-> c ∈ row_gids k).
        { intros c. unfold col_at. split.
          - intros (i & Hi & Ei). rewrite sort_elem in Hi. apply (elem_of_list_fmap (getLocalIndex cols)) in Hi as (c' & -> & Hc'). destruct (glid cols Hcols c' (R2 c' Hc')) as [_ E']. congruence.
          - intros Hc'. exists (getLocalIndex cols c). split; [rewrite sort_elem; apply (elem_of_list_fmap (getLocalIndex cols)); by exists c|]. by apply (glid cols Hcols c (R2 c Hc')). }
        split; [|split].
        + apply sorted_nodup_strict; [apply sort_sorted|]. apply sort_nodup. change (map (getLocalIndex cols) (row_gids k)) with (getLocalIndex cols <$> row_gids k). apply NoDup_fmap_2_strong; [|done]. intros x y Hx Hy. by apply (glid_inj cols Hcols); apply R2.
        + apply Forall_forall. intros i Hi. rewrite sort_elem in Hi. apply (elem_of_list_fmap (getLocalIndex cols)) in Hi as (c & -> & Hc'). by apply (glid cols Hcols c (R2 c Hc')).
        + exists k. split; [done|]. split; intros Hod c; rewrite Hel; [rewrite (R3 Hod), (Ha k c Hod); done|]. rewrite (R4 Hod). by apply Hh.
    Qed.
  End rank.
End world.
