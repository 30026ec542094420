(** C39: numbering of the unknowns, and the process-local map. *)
From Verif Require Import Base StdAlgo Ownership_model Ownership_spec Ownership_proofs Elem_model Elem_spec Mesh_model Mesh_spec Mesh_proofs Helpers_model Partition_model Partition_spec Redist_spec Redist_props Dofs_model Dofs_spec Dofs_proofs Dofs2_proofs Dofs3_proofs Dofs4_proofs.
Local Arguments Nat.mul : simpl never.
Local Arguments Nat.add : simpl never.
Local Arguments Nat.sub : simpl never.

(** C39 and C40.  For any periodic condition that the ranks agree on (see
    [numberable]): unknowns exist at exactly the wanted (node, component) pairs that
    are not identified with another node; they are numbered from 0 without gaps or
    clashes, in order of the nodes and components, in consecutive ranges of the
    ranks; all ranks have the same number at each of their nodes, and at identified
    nodes that of the partner.  [sched]: any order of visiting the elements; [arr]:
    any order of arrival of the messages. *)
Theorem periodic_dofs_numbered {V} D (ranks : list (mesh V * pbc)) pdef N sched arr cond :
  numberable D ranks pdef N -> (forall l, sched l ≡ₚ l) -> (forall l, arr l ≡ₚ l) ->
  exists maps num T, NodeToGlobalDofMap D sched arr cond ranks pdef = Ok maps /\
    numbering D N T (fun n j => (forall a, ~ identified ranks n j a) /\ wanted cond ranks pdef n j) num /\
    Forall2 (fun x g => dof_map_ok D ranks num x.1 x.2 g) ranks maps /\ consecutive (map dm_own maps) T.
Proof. intros HN. by apply dofs_numbered. Qed.
Print Assumptions periodic_dofs_numbered.

(** C39.  Without a periodic condition. *)
Theorem dofs_numbered_without_gaps {V} D (parts : list (mesh V)) pdef N sched arr cond :
  distributed parts N -> (forall m e, m ∈ parts -> is_elem (m_domains m) e -> typed_el e) -> (forall ids bits, (ids, bits) ∈ pdef -> length bits = D) ->
  (forall l, sched l ≡ₚ l) -> (forall l, arr l ≡ₚ l) ->
  exists maps num T, NodeToGlobalDofMap D sched arr cond (map (fun m => (m, no_pbc)) parts) pdef = Ok maps /\
    numbering D N T (fun n j => exists m, m ∈ parts /\ active_in cond pdef m n j) num /\ consecutive (map dm_own maps) T /\
    Forall2 (fun m g =>
      (NoDup (dm_map g).*1 /\ forall n, n ∈ (dm_map g).*1 <-> owned m n \/ n ∈ so_shared (m_own m)) /\
      (forall n row, (n, row) ∈ dm_map g -> length row = D /\ forall j, j < D -> row !! j = Some (num n j)) /\
      (forall k, so_begin (dm_own g) <= k < so_end (dm_own g) <-> exists n j, owned m n /\ j < D /\ num n j = Some k) /\
      StronglySorted lt (so_shared (dm_own g)) /\
      (forall k, k ∈ so_shared (dm_own g) <-> exists n j, n ∈ so_shared (m_own m) /\ j < D /\ num n j = Some k)) parts maps.
Proof.
  intros Hd Ht Hbits Hs Ha. set (ranks := map (fun m => (m, no_pbc)) parts).
  assert (Hin : forall m b, (m, b) ∈ ranks <-> m ∈ parts /\ b = no_pbc).
  { intros m b. unfold ranks. rewrite (elem_of_list_fmap (fun m : mesh V => (m, no_pbc))). split; [intros (y & [= -> ->] & Hy); done|]. intros [Hm ->]. by exists m. }
  assert (Hfst : ranks.*1 = parts). { unfold ranks. change (?l.*1) with (map fst l). rewrite map_map. cbn [fst]. apply map_id. }
  assert (Hnp : forall n j a, ~ passive no_pbc n j a) by (intros n j a (row & Hr & _); by apply elem_of_nil in Hr).
  assert (Hni : forall n j a, ~ identified ranks n j a) by (intros n j a (m & b & Hm & Hp); apply Hin in Hm as [_ ->]; by apply Hnp in Hp).
  assert (HN : numberable D ranks pdef N).
  { constructor.
    - by rewrite Hfst.
    - intros m b e Hm. apply Hin in Hm as [Hm ->]. by apply Ht.
    - done.
    - intros m b Hm. apply Hin in Hm as [Hm ->]. split; [constructor|]. intros n row Hr. by apply elem_of_nil in Hr.
    - intros m b n j a Hm Hp. apply Hin in Hm as [Hm ->]. by apply Hnp in Hp.
    - intros m b Hm. apply Hin in Hm as [Hm ->]. split; [constructor|]. intros n Hr. by apply elem_of_nil in Hr. }
  destruct (dofs_numbered D ranks pdef N HN sched arr cond Hs Ha) as (maps & num & T & E & Hnu & Hmaps & Hc). exists maps, num, T. split; [exact E|].
  assert (Hw : forall n j, wanted cond ranks pdef n j <-> exists m, m ∈ parts /\ active_in cond pdef m n j).
  { intros n j. split.
    - intros (m & b & t & Hm & Hact & Hp). apply Hin in Hm as [Hm ->]. destruct Hp as [Hp|[_ ->]]; [by apply Hnp in Hp|]. by exists m.
    - intros (m & Hm & Hact). exists m, no_pbc, n. split; [by apply Hin|]. split; [done|]. right. split; [apply Hnp|done]. }
  split; [|split; [done|]].
  - destruct Hnu as [H1 H2 H3]. split; [|done|done]. intros n j Hn Hj. rewrite (H1 n j Hn Hj), Hw. naive_solver.
  - assert (Hu : forall n j d, unknown_at ranks num n j d <-> d = num n j). { intros n j d. split; [intros [_ H]; apply H, Hni|]. intros ->. split; [|done]. intros a Hc'. by apply Hni in Hc'. }
    unfold ranks in Hmaps. change (map (fun m => (m, no_pbc)) parts) with ((fun m : mesh V => (m, no_pbc)) <$> parts) in Hmaps. rewrite Forall2_fmap_l in Hmaps.
    assert (Hinj : forall n j n' j' k, j < D -> j' < D -> num n j = Some k -> num n' j' = Some k -> n = n').
    { intros n j n' j' k Hj Hj' E1 E2. destruct (lt_eq_lt_dec n n') as [[Hlt| ->]|Hlt]; [|done|].
      - pose proof (nu_order _ _ _ _ _ Hnu n j k n' j' k Hj Hj' E1 E2). lia.
      - pose proof (nu_order _ _ _ _ _ Hnu n' j' k n j k Hj' Hj E2 E1). lia. }
    apply Forall2_same_length_lookup_2; [by eapply Forall2_length|]. intros r m g Hm Hg. pose proof (Forall2_lookup_lr _ _ _ _ _ _ Hmaps Hm Hg) as [K1 K2 K3 K4 K5]. cbn [fst snd] in *. fold ranks in K2, K5.
    change (@fmap list _ _ _ (fun m : mesh V => (m, no_pbc)) parts) with ranks in K2, K5. split; [done|]. split.
    { intros n row Hr. destruct (K2 n row Hr) as [Hl Hj]. split; [done|]. intros j Hjd. destruct (Hj j Hjd) as (d & Hdj & Hd'). apply Hu in Hd'. by subst d. }
    split; [done|]. split; [done|]. intros k. rewrite K5. destruct (di_shared _ _ Hd m ltac:(by eapply elem_of_list_lookup_2)) as [_ Hno]. split.
    + intros [Hk (n & j & Hn & Hj & Hd')]. apply Hu in Hd'. destruct Hn as [Hn|[Hn|Hn]]; [|by exists n, j|by apply elem_of_nil in Hn]. destruct Hk. apply K3. by exists n, j.
    + intros (n & j & Hn & Hj & Ek). split; [|exists n, j; split; [by right; left|]; split; [done|by apply Hu]]. intros Hk. apply K3 in Hk as (n' & j' & Ho & Hj' & Ek').
      assert (n = n') as -> by (by apply (Hinj n j n' j' k)). by apply Hno in Hn as [_ Hn].
Qed.
Print Assumptions dofs_numbered_without_gaps.

Definition dof_example : list (list nat * list bool) := [([1], [true; false]); ([2], [false; true])].
(** The chain of C38 with one component everywhere in domain 1. *)
Example dofs_example_hyps : distributed chain 5 /\ (forall m e, m ∈ chain -> is_elem (m_domains m) e -> typed_el e) /\ (forall ids bits, (ids, bits) ∈ dof_example -> length bits = 2).
Proof.
  split; [exact chain_distributed|]. split.
  - intros m e Hm He. unfold chain in Hm. rewrite !elem_of_cons, elem_of_nil in Hm. destruct Hm as [-> |[-> |[-> |[]]]]; apply chain_elem in He; rewrite !elem_of_cons, elem_of_nil in He;
      repeat destruct He as [-> |He]; try done; apply (bool_decide_unpack _); by vm_compute.
  - intros ids bits H. unfold dof_example in H. rewrite !elem_of_cons, elem_of_nil in H. by destruct H as [[= -> ->]|[[= -> ->]|[]]].
Qed.
Example dofs_example : NodeToGlobalDofMap 2 (@rev _) (@rev _) false (map (fun m => (m, no_pbc)) chain) dof_example =
  Ok [{| dm_map := [(0, [Some 0; None]); (1, [Some 1; None])]; dm_own := {| so_begin := 0; so_end := 2; so_shared := [] |} |};
      {| dm_map := [(2, [Some 2; None]); (3, [Some 3; None])]; dm_own := {| so_begin := 2; so_end := 4; so_shared := [] |} |};
      {| dm_map := [(4, [Some 4; None]); (1, [Some 1; None]); (2, [Some 2; None])]; dm_own := {| so_begin := 4; so_end := 5; so_shared := [1; 2] |} |}].
Proof. vm_compute. reflexivity. Qed.

(** ** The process-local map *)
(** Ids on a rank in local order: the owned range, then the shared ones. *)
Definition local_ids (o : ownership) : list nat := seq (so_begin o) (so_end o - so_begin o) ++ so_shared o.
Lemma local_ids_at o k : StronglySorted lt (so_shared o) -> (k ∈ so_shared o -> ~ (so_begin o <= k < so_end o)) ->
  k ∈ local_ids o -> local_ids o !! getLocalIndex o k = Some k /\ getLocalIndex o k < localSize o.
Proof.
  intros Hs Hd Hk. unfold local_ids in *. unfold getLocalIndex. apply elem_of_app in Hk. rewrite elem_of_seq in Hk. destruct (isOwned o k) eqn:E.
  - apply isOwned_spec in E. split; [|unfold localSize, numOwned; lia]. rewrite lookup_app_l by (rewrite seq_length; lia). apply lookup_seq. lia.
  - assert (Hn : ~ (so_begin o <= k < so_end o)) by (rewrite <- isOwned_spec; congruence). destruct Hk as [Hk|Hk]; [lia|].
    pose proof (lower_bound_found _ _ (strict_sorted _ Hs) Hk) as H. split; [|unfold localSize; apply lookup_lt_Some in H; lia]. unfold numOwned. rewrite lookup_app_r by (rewrite seq_length; lia).
    rewrite seq_length. rewrite <- H. f_equal. lia.
Qed.
Lemma local_ids_nodup o : StronglySorted lt (so_shared o) -> (forall k, k ∈ so_shared o -> ~ (so_begin o <= k < so_end o)) -> NoDup (local_ids o).
Proof. intros Hs Hd. apply NoDup_app. split; [apply NoDup_seq|]. split; [|by apply strict_nodup]. intros k Hk Hk'. apply elem_of_seq in Hk. apply Hd in Hk'. lia. Qed.

(** C39.  The map used on a process: the nodes in their local order, with the local
    ids of the unknowns; owned unknowns come first. *)
Theorem local_dof_map_correct {V} D (ranks : list (mesh V * pbc)) num (m : mesh V) b g junk N :
  distributed ranks.*1 N -> (m, b) ∈ ranks -> dof_map_ok D ranks num m b g ->
  exists l, make_LocalDofMap junk g m = Ok l /\
    ld_owned l = so_end (dm_own g) - so_begin (dm_own g) /\ ld_total l = length (local_ids (dm_own g)) /\ length (ld_map l) = length (local_ids (m_own m)) /\
    forall i n, local_ids (m_own m) !! i = Some n -> exists row, ld_map l !! i = Some row /\ length row = D /\
      forall j, j < D -> exists d, unknown_at ranks num n j d /\
        match d with None => row !! j = Some None | Some k => exists k', row !! j = Some (Some k') /\ local_ids (dm_own g) !! k' = Some k end.
Proof.
  intros Hd Hin [[K1 K1'] K2 K3 K4 K5]. assert (Hm : m ∈ ranks.*1) by (apply elem_of_list_fmap; by exists (m, b)). destruct (di_shared _ _ Hd m Hm) as [Hs Hno].
  assert (Hno' : forall n, n ∈ so_shared (m_own m) -> ~ (so_begin (m_own m) <= n < so_end (m_own m))) by (intros n Hn; apply Hno in Hn as [_ Hn]; exact Hn).
  assert (Hmem : forall n, n ∈ local_ids (m_own m) <-> n ∈ (dm_map g).*1). { intros n. rewrite K1'. unfold local_ids. rewrite elem_of_app, elem_of_seq. unfold owned. split; intros [H|H]; [left; lia|by right|left; lia|by right]. }
  assert (Hlen : length (dm_map g) = length (local_ids (m_own m))).
  { rewrite <- (fmap_length fst (dm_map g)). apply Permutation_length, NoDup_Permutation; [done|by apply local_ids_nodup|]. intros n. symmetry. apply Hmem. }
  assert (Hsz : length (local_ids (m_own m)) = localSize (m_own m)) by (unfold local_ids; by rewrite app_length, seq_length).
  unfold make_LocalDofMap.
  set (lids := fun row : list (option nat) => map (fun gid => match gid with Some gid => Some (getLocalIndex (dm_own g) gid) | None => None end) row).
  assert (H : forall l v, (forall p, p ∈ l -> p ∈ dm_map g) -> length v = length (dm_map g) ->
    exists v', for_each (fun (p : nat * list (option nat)) v => let lids := map (fun gid => match gid with Some gid => Some (getLocalIndex (dm_own g) gid) | None => None end) p.2 in
           let l := getLocalIndex (m_own m) p.1 in if l <? length v then wr v l lids else Throw) l v = Ok v' /\ length v' = length (dm_map g) /\
      (forall n row, (n, row) ∈ l -> v' !! getLocalIndex (m_own m) n = Some (lids row)) /\
      forall i, (forall n, n ∈ l.*1 -> getLocalIndex (m_own m) n <> i) -> v' !! i = v !! i).
  { assert (Hinj : forall n n', n ∈ (dm_map g).*1 -> n' ∈ (dm_map g).*1 -> getLocalIndex (m_own m) n = getLocalIndex (m_own m) n' -> n = n').
    { intros n n' Hn Hn' E. apply Hmem in Hn, Hn'. destruct (local_ids_at (m_own m) n Hs (Hno' n) Hn) as [H _]. destruct (local_ids_at (m_own m) n' Hs (Hno' n') Hn') as [H' _]. rewrite E in H. congruence. }
    induction l as [|[n row] l IH]; intros v Hl Hv.
    - exists v. split; [done|]. split; [done|]. split; [|done]. intros n row Hr. by apply elem_of_nil in Hr.
    - cbn [for_each fst snd]. cbv zeta. assert (Hn : n ∈ (dm_map g).*1) by (apply elem_of_list_fmap; exists (n, row); split; [done|]; apply Hl; left).
      destruct (local_ids_at (m_own m) n Hs (Hno' n) ltac:(by apply Hmem)) as [Hat Hlt]. rewrite (proj2 (Nat.ltb_lt _ _)) by lia. rewrite wr_ok by lia. rewrite bind_ok. fold (lids row).
      destruct (IH (<[getLocalIndex (m_own m) n := lids row]> v)) as (v' & E & Hl' & Hr & Hu); [intros p Hp; apply Hl; by right|by rewrite insert_length|]. exists v'. split; [exact E|]. split; [done|]. split.
      + intros n' row' Hin'. destruct (decide (n' ∈ l.*1)) as [Hin''|Hnot].
        * apply elem_of_list_fmap in Hin'' as ([n'' row''] & E' & Hin''). cbn in E'. subst n''. assert (row' = row'') as -> by (apply (nodup_fst (dm_map g) n'); [done|by apply Hl|apply Hl; by right]). by apply Hr.
        * apply elem_of_cons in Hin' as [[= -> ->]|Hin']; [|destruct Hnot; apply elem_of_list_fmap; by exists (n', row')].
          rewrite Hu. { rewrite list_lookup_insert by lia. done. } intros n'' Hn'' E'. apply Hnot. assert (n'' = n) as <-; [|done]. apply Hinj; [|done|done].
          apply elem_of_list_fmap in Hn'' as (p & -> & Hp). apply elem_of_list_fmap. exists p. split; [done|]. apply Hl. by right.
      + intros i Hi. rewrite Hu. { apply list_lookup_insert_ne. apply Hi. cbn. left. } intros n' Hn'. apply Hi. cbn. by right. }
  destruct (H (dm_map g) (replicate (length (dm_map g)) junk) ltac:(done) ltac:(apply replicate_length)) as (v & E & Hv & Hr & _).
  match type of E with ?x = _ => match goal with |- context [for_each ?a ?b ?c] => change (for_each a b c) with x end end. rewrite E, bind_ok. eexists. split; [reflexivity|]. cbn [ld_owned ld_total ld_map].
  split; [done|]. split; [unfold local_ids; by rewrite app_length, seq_length|]. split; [by rewrite Hv|]. intros i n Hi.
  assert (Hn : n ∈ (dm_map g).*1) by (apply Hmem; by eapply elem_of_list_lookup_2). apply elem_of_list_fmap in Hn as ([n' row] & E' & Hrow). cbn in E'. subst n'.
  assert (Hgi : getLocalIndex (m_own m) n = i). { destruct (local_ids_at (m_own m) n Hs (Hno' n) ltac:(by eapply elem_of_list_lookup_2)) as [Hat _]. eapply NoDup_lookup; [by apply (local_ids_nodup (m_own m))|exact Hat|exact Hi]. }
  exists (lids row). split; [rewrite <- Hgi; by apply Hr|]. destruct (K2 n row Hrow) as [Hlr Hj]. split; [unfold lids; by rewrite map_length|]. intros j Hjd. destruct (Hj j Hjd) as (d & Hdj & Hu). exists d. split; [done|].
  assert (El : lids row !! j = Some match d with Some gid => Some (getLocalIndex (dm_own g) gid) | None => None end).
  { unfold lids. change (map ?f row) with (f <$> row). by rewrite list_lookup_fmap, Hdj. }
  destruct d as [k|]; [|done]. eexists. split; [exact El|]. apply local_ids_at; [done|intros Hk; by apply K5 in Hk as [Hk _]|]. unfold local_ids. rewrite elem_of_app, elem_of_seq.
  destruct (decide (so_begin (dm_own g) <= k < so_end (dm_own g))) as [Hk|Hk]; [left; lia|]. right. apply K5. split; [done|]. exists n, j. split; [|done].
  assert (Hn : n ∈ (dm_map g).*1) by (apply elem_of_list_fmap; by exists (n, row)). apply K1' in Hn as [Hn|Hn]; [by left|by right; left].
Qed.
Print Assumptions local_dof_map_correct.

Example local_dof_map_example :
  make_LocalDofMap [] {| dm_map := [(4, [Some 4; None]); (1, [Some 1; None]); (2, [Some 2; None])]; dm_own := {| so_begin := 4; so_end := 5; so_shared := [1; 2] |} |}
    (ch_part [ch_l 1 4 2; ch_l 4 2 3] 4 5 [1; 2]) = Ok {| ld_map := [[Some 0; None]; [Some 1; None]; [Some 2; None]]; ld_owned := 1; ld_total := 3 |}.
Proof. vm_compute. reflexivity. Qed.
