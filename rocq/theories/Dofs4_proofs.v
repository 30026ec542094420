From Verif Require Import Base StdAlgo Ownership_model Ownership_spec Ownership_proofs Elem_model Elem_spec Mesh_model Mesh_spec Mesh_proofs Helpers_model Partition_model Partition_spec Redist_spec Dofs_model Dofs_spec Dofs_proofs Dofs2_proofs Dofs3_proofs.
Local Arguments Nat.mul : simpl never.
Local Arguments Nat.add : simpl never.
Local Arguments Nat.sub : simpl never.

Lemma map_snd_filter {A B} (q : B -> bool) (l : list (A * B)) : map snd (List.filter (fun z => q z.2) l) = List.filter q (map snd l).
Proof. induction l as [|[a b] l IH]; [done|]. cbn. destruct (q b); cbn; by rewrite IH. Qed.
Lemma zip3 {A B C} (a : list A) (b : list B) (c : list C) r z : zip a (zip b c) !! r = Some z <-> exists x y w, z = (x, (y, w)) /\ a !! r = Some x /\ b !! r = Some y /\ c !! r = Some w.
Proof.
  rewrite lookup_zip_with_Some. split.
  - intros (x & yw & -> & Ha & H). apply lookup_zip_with_Some in H as (y & w & -> & Hb & Hc). by exists x, y, w.
  - intros (x & y & w & -> & Ha & Hb & Hc). exists x, (y, w). split; [done|]. split; [done|]. apply lookup_zip_with_Some. by exists y, w.
Qed.
Section world.
  Context {V : Type} (D : nat) (ranks : list (mesh V * pbc)) (pdef : list (list nat * list bool)) (N : nat) (HN : numberable D ranks pdef N).
  Notation rk := (mesh V * pbc)%type.
  Notation sos := (map nso ranks).
  Notation lid x n := (getLocalIndex (nso x) n).
  Notation isview := (isview D).
  Lemma init_ok x (v : list (list (option nat))) f base cnt : x ∈ ranks -> isview x (fun _ => True) v (fun n j a => a = f n j) ->
    exists g, initFromDofs (nso x) v x.2 base cnt (computeSharedDofs v base cnt) = Ok g /\
      so_begin (dm_own g) = base /\ so_end (dm_own g) = base + cnt /\ StronglySorted lt (so_shared (dm_own g)) /\
      (forall k, k ∈ so_shared (dm_own g) <-> ~ (base <= k < base + cnt) /\ exists n j, loc x n /\ j < D /\ f n j = Some k) /\
      NoDup (dm_map g).*1 /\ (forall n, n ∈ (dm_map g).*1 <-> owned x.1 n \/ n ∈ so_shared (m_own x.1)) /\
      forall n row, (n, row) ∈ dm_map g -> length row = D /\ forall j, j < D -> row !! j = Some (f n j).
  Proof.
    intros Hx (H1 & H2 & H3). unfold initFromDofs. set (rw := fun i => default [] (v !! i)).
    assert (Hrw : forall i, i < localSize (nso x) -> v !! i = Some (rw i)) by (intros i Hi; unfold rw; destruct (lookup_lt_is_Some_2 v i) as [row ->]; [lia|done]).
    rewrite (map_res_ok _ (fun i => (so_begin (nso x) + i, rw i))).
    2:{ intros i Hi. apply elem_of_seq in Hi. rewrite (rd_ok _ _ _ (Hrw i ltac:(unfold localSize; lia))). done. }
    rewrite bind_ok. set (keep := List.filter _ _). rewrite (map_res_ok _ (fun z : nat * nat => (z.2, rw (numOwned (nso x) + z.1)))).
    2:{ intros z Hz. unfold keep in Hz. rewrite elem_of_list_In, filter_In, <- elem_of_list_In in Hz. destruct Hz as [Hz _]. apply elem_of_list_lookup in Hz as [i Hz].
        apply lookup_zip_with_Some in Hz as (a & b & -> & Ha & Hb). apply lookup_seq in Ha as [-> Ha]. cbn [fst snd]. rewrite (rd_ok _ _ _ (Hrw (numOwned (nso x) + (0 + i)) ltac:(unfold localSize; lia))). done. }
    assert (Hsd : forall k, k ∈ computeSharedDofs v base cnt <-> ~ (base <= k < base + cnt) /\ exists n j, loc x n /\ j < D /\ f n j = Some k).
    { intros k. unfold computeSharedDofs. rewrite unique_elem, sort_elem, elem_of_list_In, filter_In, <- elem_of_list_In, negb_true_iff, andb_false_iff, Nat.leb_gt, Nat.ltb_ge, elem_of_list_omap.
      assert (Hin : (exists o : option nat, o ∈ concat v /\ id o = Some k) <-> exists n j, loc x n /\ j < D /\ f n j = Some k).
      { split.
        - intros (o & Ho & E). cbn in E. subst o. apply elem_of_concat in Ho as (row & Hk & Hr). apply elem_of_list_lookup in Hr as [l Hl]. apply elem_of_list_lookup in Hk as [j Hj].
          destruct (lid_onto D ranks pdef N HN x l Hx) as (n & Hn & <-); [rewrite <- H1; by eapply lookup_lt_Some|]. destruct (H3 n Hn I) as (row' & Hr' & Hf). assert (row' = row) as -> by congruence.
          assert (Hjd : j < D). { apply lookup_lt_Some in Hj. rewrite Forall_lookup in H2. by rewrite (H2 _ _ Hl) in Hj. } destruct (Hf j Hjd) as (a & Ha & ->). exists n, j. split; [done|]. split; [done|]. congruence.
        - intros (n & j & Hn & Hj & E). destruct (H3 n Hn I) as (row & Hr & Hf). destruct (Hf j Hj) as (a & Ha & ->). exists (Some k). split; [|done]. apply elem_of_concat. exists row. split; [|by eapply elem_of_list_lookup_2].
          rewrite E in Ha. by eapply elem_of_list_lookup_2. }
      rewrite Hin. split; [intros [Ha Hb]; split; [lia|exact Ha]|]. intros [Ha Hb]. split; [exact Hb|lia]. }
    rewrite bind_ok, make_ownership_ok. 2:{ intros k Hk. by apply Hsd in Hk as [Hk _]. }
    rewrite bind_ok. eexists. split; [reflexivity|]. cbn [dm_own dm_map so_begin so_end so_shared]. split; [done|]. split; [done|].
    assert (Hst : StronglySorted lt (computeSharedDofs v base cnt)) by (apply unique_strict, sort_sorted).
    split. { apply sorted_nodup_strict; [apply sort_sorted|]. apply sort_nodup. by apply strict_nodup. }
    split. { intros k. rewrite sort_elem. apply Hsd. }
    assert (Hkeys : (map (fun i => (so_begin (nso x) + i, rw i)) (seq 0 (numOwned (nso x))) ++ map (fun z : nat * nat => (z.2, rw (numOwned (nso x) + z.1))) keep).*1
      = map (fun i => so_begin (nso x) + i) (seq 0 (numOwned (nso x))) ++ List.filter (fun n => negb (binary_search (pb_ghosts x.2) n)) (so_shared (nso x))).
    { rewrite fmap_app. f_equal; [change (?l.*1) with (map fst l); by rewrite map_map|]. change (?l.*1) with (map fst l). rewrite map_map. unfold keep.
      change (map (fun z : nat * nat => (z.2, rw (numOwned (nso x) + z.1)).1)) with (map (snd : nat * nat -> nat)). rewrite (map_snd_filter (fun n => negb (binary_search (pb_ghosts x.2) n))). f_equal.
      change (map snd ?l) with (l.*2). apply snd_zip. by rewrite seq_length. }
    assert (Hgh : forall n, n ∈ List.filter (fun n => negb (binary_search (pb_ghosts x.2) n)) (so_shared (nso x)) <-> n ∈ so_shared (m_own x.1)).
    { intros n. rewrite elem_of_list_In, filter_In, <- elem_of_list_In, nso_shared, negb_true_iff. destruct x as [m b]. destruct (nb_ghosts _ _ _ _ HN m b Hx) as [Hs Hg]. cbn [fst snd] in *.
      destruct (binary_search (pb_ghosts b) n) eqn:E.
      - split; [by intros [_ ?]|]. intros Hn. apply binary_search_spec in E; [|by apply strict_sorted]. by apply Hg in E as (_ & _ & E).
      - split; [|intros Hn; split; [by left|done]]. intros [[Hn|Hn] _]; [done|]. apply (binary_search_spec (pb_ghosts b)) in Hn; [congruence|by apply strict_sorted]. }
    assert (Hbo : forall n, n ∈ map (fun i => so_begin (nso x) + i) (seq 0 (numOwned (nso x))) <-> owned x.1 n).
    { intros n. rewrite (elem_of_list_fmap (fun i => so_begin (nso x) + i)). rewrite <- nso_owned. unfold numOwned. split; [intros (i & -> & Hi); apply elem_of_seq in Hi; lia|].
      intros Hn. exists (n - so_begin (nso x)). split; [lia|]. apply elem_of_seq. lia. }
    rewrite Hkeys. split; [|split].
    - apply NoDup_app. split; [|split].
      + apply (NoDup_fmap_2_strong (fun i => so_begin (nso x) + i)); [intros; lia|apply NoDup_seq].
      + intros n Hn Hn'. apply Hbo in Hn. apply Hgh in Hn'. eapply not_owned; [exact HN|exact Hx| |exact Hn]. apply nso_shared. by left.
      + apply NoDup_ListNoDup, List.NoDup_filter, NoDup_ListNoDup. apply sort_nodup. by eapply nso_nodup.
    - intros n. by rewrite elem_of_app, Hbo, Hgh.
    - intros n row Hin. assert (Hlr : exists l, loc x n /\ l = lid x n /\ v !! l = Some row).
      { apply elem_of_app in Hin as [Hin|Hin].
        - apply (elem_of_list_fmap (fun i => (so_begin (nso x) + i, rw i))) in Hin as (i & [= -> ->] & Hi). apply elem_of_seq in Hi. exists i. assert (Ho : owned x.1 (so_begin (nso x) + i)) by (apply nso_owned; unfold numOwned in Hi; lia).
          split; [by left|]. destruct (lid_owned x _ Ho) as (_ & _ & E). split; [symmetry; by apply (Nat.add_cancel_l _ _ (so_begin (nso x)))|]. apply Hrw. unfold localSize. lia.
        - apply (elem_of_list_fmap (fun z : nat * nat => (z.2, rw (numOwned (nso x) + z.1)))) in Hin as ([i n'] & [= -> ->] & Hi). unfold keep in Hi. rewrite elem_of_list_In, filter_In, <- elem_of_list_In in Hi. destruct Hi as [Hi _].
          apply elem_of_list_lookup in Hi as [i' Hi]. apply lookup_zip_with_Some in Hi as (a & b & [= <- <-] & Ha & Hb). apply lookup_seq in Ha as [-> Ha]. cbn [fst snd]. rewrite Nat.add_0_l. exists (numOwned (nso x) + i').
          assert (Hs : n' ∈ so_shared (nso x)) by (by eapply elem_of_list_lookup_2). split; [apply loc_cases; by right|]. destruct (lid_shared D ranks pdef N HN x n' Hx Hs) as [Hl1 Hl2].
          assert (Hnd : NoDup (so_shared (nso x))) by (apply sort_nodup; by eapply nso_nodup). pose proof (NoDup_lookup _ _ _ _ Hnd Hb Hl2). split; [lia|]. apply Hrw. unfold localSize. lia. }
      destruct Hlr as (l & Hn & -> & Hl). split; [rewrite Forall_lookup in H2; by eapply H2|]. intros j Hj. destruct (H3 n Hn I) as (row' & Hr' & Hf). assert (row' = row) as -> by congruence.
      destruct (Hf j Hj) as (a & Ha & ->). done.
  Qed.

  Theorem dofs_numbered sched arr cond : (forall l, sched l ≡ₚ l) -> (forall l, arr l ≡ₚ l) ->
    exists maps num T, NodeToGlobalDofMap D sched arr cond ranks pdef = Ok maps /\
      numbering D N T (fun n j => (forall a, ~ identified ranks n j a) /\ wanted cond ranks pdef n j) num /\
      Forall2 (fun x g => dof_map_ok D ranks num x.1 x.2 g) ranks maps /\ consecutive (map dm_own maps) T.
  Proof.
    intros Hsched Harr. unfold NodeToGlobalDofMap.
    rewrite (map_res_ok _ nso) by (intros x Hx; eapply nso_ok; [exact HN|done]). rewrite bind_ok.
    destruct (stage (zip ranks sos) (fun z : rk * ownership => makeLocalDofBmp D sched cond z.1.1 pdef z.2 z.1.2) (fun r v => forall x, ranks !! r = Some x -> setview D x v (Mark pdef cond x))) as (bmps0 & E0 & L0 & H0).
    { intros r [x so] Hz. apply lookup_zip_with_Some in Hz as (x' & so' & [= <- <-] & Hx & Hso). apply sos_at in Hso as (x'' & Hx'' & ->). assert (x'' = x) as -> by congruence.
      destruct (local_bmp_ok D ranks pdef N HN sched cond x Hsched ltac:(by eapply elem_of_list_lookup_2)) as (v & E & Hv). exists v. split; [exact E|]. intros x' Hx'. by assert (x' = x) as -> by congruence. }
    rewrite zip_with_length, map_length, Nat.min_id in L0. rewrite E0, bind_ok.
    destruct (export_ok D ranks pdef N HN arr bmps0 (fun x => Mark pdef cond x) Harr L0 ltac:(intros r x v Hx Hv; by apply (H0 r))) as (bmps & E1 & L1 & H1). rewrite E1, bind_ok.
    set (fr := frs D ranks bmps). set (ns := nums D ranks bmps). set (nm := num D ranks bmps).
    assert (Hat := bmp_at D ranks pdef cond bmps L1 H1).
    assert (Hns : forall r x v, ranks !! r = Some x -> bmps !! r = Some v -> ns !! r = Some (count_true (concat (frows D x v)))).
    { intros r x v Hx Hv. unfold ns, nums. change (map ?f ?l) with (f <$> l). destruct (Hat r x Hx) as (v' & Hv' & Hfr & _). assert (v' = v) as -> by congruence. by rewrite list_lookup_fmap, Hfr. }
    assert (Lns : length ns = length ranks) by (unfold ns, nums; rewrite map_length; by apply frs_len).
    destruct (stage (zip ranks.*2 (zip sos bmps)) (fun z : pbc * (ownership * list (list bool)) => computeNumOwnedDofs D z.2.1 z.1 z.2.2) (fun r k => ns !! r = Some k)) as (ns' & E2 & L2 & H2).
    { intros r z Hz. apply zip3 in Hz as (b & so & v & -> & Hb & Hso & Hv). apply sos_at in Hso as (x & Hx & ->). rewrite list_lookup_fmap, Hx in Hb. injection Hb as <-. cbn [fst snd].
      destruct (Hat r x Hx) as (v' & Hv' & _ & Hl1 & Hl2). assert (v' = v) as -> by congruence. eexists. split; [eapply num_owned_ok; [exact HN|by eapply elem_of_list_lookup_2|done|done]|]. by apply (Hns r x v). }
    rewrite !zip_with_length, fmap_length, map_length, L1, !Nat.min_id in L2.
    assert (ns' = ns) as ->. { apply list_eq_same_length with (length ranks); [done|done|]. intros r a b _ Ha Hb. apply H2 in Ha. congruence. }
    rewrite E2, bind_ok. cbv zeta. set (bases := computeBaseDofs ns).
    assert (Hba : forall r, r < length ranks -> bases !! r = Some (sum (take r ns))). { intros r Hr. unfold bases, computeBaseDofs. rewrite exclusive_scan_lookup by lia. done. }
    assert (Lba : length bases = length ranks) by (unfold bases, computeBaseDofs; by rewrite exclusive_scan_length).
    destruct (stage (zip ranks.*2 (zip sos (zip bmps bases))) (fun z : pbc * (ownership * (list (list bool) * nat)) => computeOwnedDofs D z.2.1 z.1 z.2.2.1 z.2.2.2)
      (fun r w => forall x, ranks !! r = Some x -> isview x (owned x.1) w (fun n j a => a = nm n j))) as (dofs0 & E3 & L3 & H3).
    { intros r z Hz. apply zip3 in Hz as (b & so & vb & -> & Hb & Hso & Hv). apply lookup_zip_with_Some in Hv as (v & base & -> & Hv & Hbase). apply sos_at in Hso as (x & Hx & ->). rewrite list_lookup_fmap, Hx in Hb. injection Hb as <-. cbn [fst snd].
      rewrite Hba in Hbase by (by eapply lookup_lt_Some). injection Hbase as <-. destruct (Hat r x Hx) as (v' & Hv' & _ & Hl1 & Hl2). assert (v' = v) as -> by congruence.
      destruct (owned_dofs_ok D ranks pdef N HN x v (sum (take r ns)) ltac:(by eapply elem_of_list_lookup_2) Hl1 Hl2) as (w & E & Hw1 & Hw2 & Hw3). exists w. split; [exact E|]. intros x' Hx'. assert (x' = x) as -> by congruence.
      split; [done|]. split; [done|]. intros n Hn Ho. destruct (Hw3 n Hn Ho) as (row & Hr & Hj). exists row. split; [done|]. intros j Hjd. destruct (Hj j Hjd) as (a & Ha & ->). eexists. split; [exact Ha|].
      by apply (entry_at D ranks pdef N HN cond bmps L1 H1 r x v n j Hx Hv). }
    rewrite !zip_with_length, fmap_length, map_length, Lba, L1, !Nat.min_id in L3. rewrite E3, bind_ok.
    destruct (comm_ok D ranks pdef N HN dofs0 nm L3 ltac:(intros r x v Hx Hv; by apply (H3 r v Hv))) as (dofs1 & E4 & L4 & H4). rewrite E4, bind_ok.
    set (F := fun n j => match ranks !! node_owner sos n with Some x => subst D x.2 nm n j | None => None end).
    destruct (stage (zip ranks.*2 (zip sos dofs1)) (fun z : pbc * (ownership * list (list (option nat))) => fixPeriodicDofs D z.2.1 z.1 z.2.2)
      (fun r w => forall x, ranks !! r = Some x -> isview x (owned x.1) w (fun n j a => a = F n j))) as (dofs2 & E5 & L5 & H5).
    { intros r z Hz. apply zip3 in Hz as (b & so & v & -> & Hb & Hso & Hv). apply sos_at in Hso as (x & Hx & ->). rewrite list_lookup_fmap, Hx in Hb. injection Hb as <-. cbn [fst snd].
      destruct (fix_ok D ranks pdef N HN x nm v ltac:(by eapply elem_of_list_lookup_2) ltac:(by apply (H4 r))) as (w & E & Hw1 & Hw2 & Hw3). exists w. split; [exact E|]. intros x' Hx'. assert (x' = x) as -> by congruence.
      split; [done|]. split; [done|]. intros n Hn Ho. destruct (Hw3 n Hn I) as (row & Hr & Hj). exists row. split; [done|]. intros j Hjd. destruct (Hj j Hjd) as (a & Ha & ->). eexists. split; [exact Ha|].
      unfold F. destruct (owner_uniq D ranks pdef N HN r x n Hx Ho) as (_ & -> & _). by rewrite Hx. }
    rewrite !zip_with_length, fmap_length, map_length, L4, !Nat.min_id in L5. rewrite E5, bind_ok.
    destruct (comm_ok D ranks pdef N HN dofs2 F L5 ltac:(intros r x v Hx Hv; by apply (H5 r v Hv))) as (dofs3 & E6 & L6 & H6). rewrite E6, bind_ok.
    assert (HF : forall n j d, n < N -> j < D -> unknown_at ranks nm n j d <-> d = F n j).
    { intros n j d Hn Hj. unfold F. destruct (owner_ok D ranks pdef N HN n Hn) as (x & Hx & Ho). rewrite Hx. unfold subst, unknown_at. destruct x as [m b]. cbn [fst snd] in *.
      assert (Hid : forall a, identified ranks n j a <-> passive b n j a) by (intros a; by rewrite (identified_iff D ranks pdef N HN _ (m, b) n j a Hx Ho)).
      destruct (lookup_ok D ranks pdef N HN m b n ltac:(by eapply elem_of_list_lookup_2)) as [Hl Hp]. destruct (lookup_lt_is_Some_2 (pb_lookup D b n) j) as [p Ep]; [lia|]. rewrite Ep. destruct p as [a|].
      - assert (Ha : identified ranks n j a) by (apply Hid; by apply (Hp j (Some a) Ep a)). split; [intros [H _]; by apply H|]. intros ->. split; [|intros H; by destruct (H a)].
        intros a' Ha'. apply Hid in Ha'. apply (Hp j (Some a) Ep a') in Ha'. by injection Ha' as ->.
      - assert (Ha : forall a, ~ identified ranks n j a). { intros a Ha. apply Hid in Ha. by apply (Hp j None Ep a) in Ha. } split; [intros [_ H]; by apply H|]. intros ->. split; [|done]. intros a H. by destruct (Ha a). }
    destruct (stage (zip ranks.*2 (zip sos (zip dofs3 (zip bases ns)))) (fun z : pbc * (ownership * (list (list (option nat)) * (nat * nat))) =>
      let '(b, (so, (dofs, (base, cnt)))) := z in initFromDofs so dofs b base cnt (computeSharedDofs dofs base cnt))
      (fun r g => forall x v, ranks !! r = Some x -> bmps !! r = Some v -> dof_map_ok D ranks nm x.1 x.2 g /\ so_begin (dm_own g) = sum (take r ns) /\ ns !! r = Some (so_end (dm_own g) - so_begin (dm_own g)) /\ so_begin (dm_own g) <= so_end (dm_own g))) as (maps & E7 & L7 & H7).
    { intros r z Hz. apply zip3 in Hz as (b & so & w & -> & Hb & Hso & Hw). apply zip3 in Hw as (dofs & base & cnt & -> & Hd & Hbase & Hcnt). apply sos_at in Hso as (x & Hx & ->). rewrite list_lookup_fmap, Hx in Hb. injection Hb as <-.
      rewrite Hba in Hbase by (by eapply lookup_lt_Some). injection Hbase as <-. assert (Hxi : x ∈ ranks) by (by eapply elem_of_list_lookup_2).
      destruct (init_ok x dofs F (sum (take r ns)) cnt Hxi ltac:(by apply (H6 r))) as (g & E & Hg1 & Hg2 & Hg3 & Hg4 & Hg5 & Hg6 & Hg7). exists g. split; [exact E|]. intros x' v Hx' Hv. assert (x' = x) as -> by congruence.
      rewrite Hg1, Hg2. split; [|split; [done|split; [rewrite Hcnt; f_equal; lia|lia]]]. assert (Ecnt := Hns r x v Hx Hv). rewrite Hcnt in Ecnt. injection Ecnt as ->.
      assert (Hlt : forall n, loc x n -> n < N) by (intros n Hn; by apply (loc_lt D ranks pdef N HN r x n)). split.
      - done.
      - intros n row Hin. destruct (Hg7 n row Hin) as [Hl Hj]. split; [done|]. intros j Hjd. exists (F n j). split; [by apply Hj|]. apply HF; [|done|done]. apply Hlt.
        assert (Hk : n ∈ (dm_map g).*1) by (apply elem_of_list_fmap; by exists (n, row)). apply Hg6 in Hk as [Hk|Hk]; [by left|right; by left].
      - intros k. rewrite Hg1, Hg2. destruct (Hat r x Hx) as (v' & Hv' & Hfr & Hl1 & Hl2). assert (v' = v) as -> by congruence. destruct (frows_ok D ranks pdef N HN x v Hxi Hl1 Hl2) as (Hfl & Hff & _).
        rewrite (entry_onto D _ _ k Hff). split.
        + intros (i & j & Hi & Hj & En). rewrite Hfl in Hi. assert (Ho : owned x.1 (so_begin (nso x) + i)) by (apply nso_owned; unfold numOwned in Hi; lia). destruct (lid_owned x _ Ho) as (_ & _ & El). exists (so_begin (nso x) + i), j. split; [done|]. split; [done|].
          rewrite <- En. unfold nm. rewrite <- (entry_at D ranks pdef N HN cond bmps L1 H1 r x v _ j Hx Hv Ho). f_equal. lia.
        + intros (n & j & Ho & Hj & En). destruct (lid_owned x n Ho) as (_ & Hl & _). exists (lid x n), j. split; [by rewrite Hfl|]. split; [done|]. rewrite <- En. by apply (entry_at D ranks pdef N HN cond bmps L1 H1 r x v).
      - done.
      - intros k. rewrite Hg4, Hg1, Hg2. split; intros [Hk (n & j & Hn & Hj & E')]; (split; [done|]); exists n, j; (split; [done|]); (split; [done|]).
        + apply HF; [by apply Hlt|done|done].
        + symmetry. apply HF; [by apply Hlt|done|done]. }
    rewrite !zip_with_length, fmap_length, map_length, Lba, L6, Lns, !Nat.min_id in L7. exists maps, nm, (sum ns). split; [exact E7|]. split; [by apply num_numbering|]. split.
    - apply Forall2_same_length_lookup_2; [done|]. intros r x g Hx Hg. destruct (Hat r x Hx) as (v & Hv & _). by apply (H7 r g Hg x v Hx Hv).
    - assert (Hsz : map (fun o => so_end o - so_begin o) (map dm_own maps) = ns).
      { apply list_eq_same_length with (length ranks); [done|by rewrite !map_length|]. intros r a c Hr Ha Hc. rewrite map_map in Ha. change (map ?f maps) with (f <$> maps) in Ha. rewrite list_lookup_fmap in Ha.
        destruct (maps !! r) as [g|] eqn:Eg; [|done]. injection Ha as <-. destruct (lookup_lt_is_Some_2 ranks r Hr) as [x Hx]. destruct (Hat r x Hx) as (v & Hv & _). destruct (H7 r g Eg x v Hx Hv) as (_ & _ & E & _). congruence. }
      unfold consecutive. rewrite Hsz. split; [done|]. intros r o Ho. change (map dm_own maps) with (dm_own <$> maps) in Ho. rewrite list_lookup_fmap in Ho. destruct (maps !! r) as [g|] eqn:Eg; [|done]. injection Ho as <-.
      destruct (lookup_lt_is_Some_2 ranks r) as [x Hx]; [rewrite <- L7; by eapply lookup_lt_Some|]. destruct (Hat r x Hx) as (v & Hv & _). destruct (H7 r g Eg x v Hx Hv) as (_ & Eb & _ & Hle). done.
  Qed.
End world.
