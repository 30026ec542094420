(** C41: the sparsity pattern. *)
From Verif Require Import Base StdAlgo Ownership_model Ownership_spec Ownership_proofs Elem_model Elem_spec Mesh_model Mesh_spec Mesh_proofs Helpers_model Helpers_proofs Graph_model Graph_spec Graph_proofs Merge_model Merge_proofs Partition_model Partition_spec Redist_spec Redist_props Dofs_model Dofs_spec Dofs_proofs Dofs2_proofs Dofs4_proofs Dofs_props Periodic_proofs Sparsity_model Sparsity_spec Sparsity_proofs Sparsity2_proofs Sparsity3_proofs Sparsity4_proofs.
Local Arguments Nat.mul : simpl never.
Local Arguments Nat.add : simpl never.
Local Arguments Nat.sub : simpl never.

Section props.
  Context {V : Type}.
  Notation owns_of ranks := (map (fun x : mesh V * dof_map => dm_own x.2) ranks).
  Lemma owns_at (ranks : list (mesh V * dof_map)) r o : owns_of ranks !! r = Some o <-> exists m g, ranks !! r = Some (m, g) /\ o = dm_own g.
  Proof.
    change (owns_of ranks) with ((fun x : mesh V * dof_map => dm_own x.2) <$> ranks). rewrite list_lookup_fmap, fmap_Some. split.
    - intros ([m g] & H & ->). by exists m, g.
    - intros (m & g & H & ->). by exists (m, g).
  Qed.
  Lemma usable_own D (ranks : list (mesh V * dof_map)) pdef T r m g : usable D ranks pdef T -> ranks !! r = Some (m, g) -> own_ok (dm_own g).
  Proof.
    intros U Hr. assert (Hm : (m, g) ∈ ranks) by (by eapply elem_of_list_lookup_2). destruct (us_shared _ _ _ _ U m g Hm) as [Hs Hno]. destruct (us_cons _ _ _ _ U) as [_ H].
    split; [|split; [done|]]. - apply (H r). apply owns_at. by exists m, g. - intros k Hk. by apply Hno.
  Qed.
  Lemma coupled_local D (ranks : list (mesh V * dof_map)) pdef T cond m g k c : usable D ranks pdef T -> (m, g) ∈ ranks -> coupled cond pdef m g k c -> dof_local (dm_own g) k /\ dof_local (dm_own g) c.
  Proof.
    intros U Hm (ids & bits & id & e & _ & _ & _ & (n & row & j & _ & Hr & _ & Hk) & (n' & row' & j' & _ & Hr' & _ & Hc)). split.
    - by apply (us_rows _ _ _ _ U m g n row Hm Hr) in Hk.
    - by apply (us_rows _ _ _ _ U m g n' row' Hm Hr') in Hc.
  Qed.
  (** Some rank has an element that couples the two unknowns. *)
  Definition coupled_any (cond : bool) (ranks : list (mesh V * dof_map)) (pdef : list (list nat * list bool)) (k c : nat) : Prop :=
    exists m g, (m, g) ∈ ranks /\ coupled cond pdef m g k c.

  (** C41.  For every order of the threads' atomic operations, of the messages, and
      every content of uninitialised memory, the construction succeeds, and every row
      has exactly the columns coupled to it: an owned row by elements of any rank, a
      shared row by elements of its own rank.  Rows are sorted and without duplicates,
      and the sizes passed to the graph are the lengths of the rows. *)
  Theorem sparsity_exact D (ranks : list (mesh V * dof_map)) pdef T sc cond : usable D ranks pdef T -> (forall r, fair (sc r)) ->
    exists ss, makeSparsityGraph sc cond ranks pdef = Ok ss /\ Forall2 (fun x s => pattern_ok (dm_own x.2) (coupled cond pdef x.1 x.2) (coupled_any cond ranks pdef) s) ranks ss.
  Proof.
    intros U Hf. unfold makeSparsityGraph. cbv zeta. set (owns := owns_of ranks).
    assert (Hlg : forall r m g, ranks !! r = Some (m, g) -> exists lg, computeLocalGraph (sc r) cond m g pdef = Ok lg /\ length (lg_sizes lg) = localSize (dm_own g) /\
      forall k, dof_local (dm_own g) k -> exists l, lg_row lg (getLocalIndex (dm_own g) k) = Ok l /\ StronglySorted lt l /\ forall c, c ∈ l <-> coupled cond pdef m g k c).
    { intros r m g Hr. destruct (element_dofs_ok D ranks T cond m g pdef U) as (ds & Eds & Hloc & Hds); [by eapply elem_of_list_lookup_2|].
      destruct (local_graph_ok (sc r) cond m g pdef ds (Hf r) (usable_own _ _ _ _ _ _ _ U Hr) Eds Hloc) as (lg & E & Hl & Hrow). exists lg. split; [done|]. split; [done|]. intros k Hk. destruct (Hrow k Hk) as (l & E1 & E2 & E3). exists l. split; [done|]. split; [done|]. intros c. by rewrite E3, Hds. }
    destruct (map_res_ex (fun z : nat * (mesh V * dof_map) => computeLocalGraph (sc z.1) cond z.2.1 z.2.2 pdef) (zip (seq 0 (length ranks)) ranks)) as (lgs & El & Flg).
    { intros [r [m g]] Hz. apply zip_lookup_in in Hz as (i & Hi & Hr). apply lookup_seq in Hi as [-> _]. rewrite Nat.add_0_l in *. cbn [fst snd]. destruct (Hlg i m g Hr) as (lg & E & _). by exists lg. }
    rewrite El, bind_ok.
    assert (Hlen : length lgs = length ranks) by (apply Forall2_length in Flg; rewrite zip_with_length, seq_length in Flg; lia).
    assert (Hat : forall r m g, ranks !! r = Some (m, g) -> exists lg, lgs !! r = Some lg /\ computeLocalGraph (sc r) cond m g pdef = Ok lg).
    { intros r m g Hr. assert (Hl : r < length ranks) by (by eapply lookup_lt_Some). destruct (lookup_lt_is_Some_2 lgs r ltac:(lia)) as [lg Hlg']. exists lg. split; [done|].
      assert (Hz : zip (seq 0 (length ranks)) ranks !! r = Some (r, (m, g))) by (apply lookup_zip_with_Some; exists r, (m, g); split; [done|]; split; [apply lookup_seq; lia|done]). by apply (Forall2_lookup_lr _ _ _ _ _ _ Flg Hz Hlg'). }
    set (L := fun r k => match owns !! r, lgs !! r with Some o, Some lg => match lg_row lg (getLocalIndex o k) with Ok l => l | _ => [] end | _, _ => [] end).
    assert (HL : forall r m g, ranks !! r = Some (m, g) -> exists lg, lgs !! r = Some lg /\ length (lg_sizes lg) = localSize (dm_own g) /\
      forall k, dof_local (dm_own g) k -> lg_row lg (getLocalIndex (dm_own g) k) = Ok (L r k) /\ StronglySorted lt (L r k) /\ forall c, c ∈ L r k <-> coupled cond pdef m g k c).
    { intros r m g Hr. destruct (Hat r m g Hr) as (lg & Hl & E). destruct (Hlg r m g Hr) as (lg' & E' & Hsz & Hrow). assert (lg' = lg) as -> by congruence. exists lg. split; [done|]. split; [done|].
      intros k Hk. destruct (Hrow k Hk) as (l & E1 & E2 & E3). assert (L r k = l) as ->; [|done]. unfold L. rewrite Hl. assert (Ho : owns !! r = Some (dm_own g)) by (apply owns_at; by exists m, g). by rewrite Ho, E1. }
    assert (Hown : forall r o, owns !! r = Some o -> own_ok o /\ forall k, k ∈ so_shared o -> k < T).
    { intros r o Ho. apply owns_at in Ho as (m & g & Hr & ->). split; [by eapply usable_own|]. intros k Hk. apply (us_shared _ _ _ _ U m g); [by eapply elem_of_list_lookup_2|done]. }
    assert (HLG : forall r o, owns !! r = Some o -> exists lg, lgs !! r = Some lg /\ length (lg_sizes lg) = localSize o /\ forall k, dof_local o k -> lg_row lg (getLocalIndex o k) = Ok (L r k) /\ StronglySorted lt (L r k) /\ forall c, c ∈ L r k -> dof_local o c).
    { intros r o Ho. apply owns_at in Ho as (m & g & Hr & ->). destruct (HL r m g Hr) as (lg & H1 & H2 & H3). exists lg. split; [done|]. split; [done|]. intros k Hk. destruct (H3 k Hk) as (E1 & E2 & E3). split; [done|]. split; [done|].
      intros c Hc. apply E3 in Hc. eapply (coupled_local D ranks pdef T); [done|by eapply elem_of_list_lookup_2|done]. }
    pose proof (us_cons _ _ _ _ U) as Hc. fold owns in Hc.
    assert (Hmarks : marks_in_range (all_outs owns) = true).
    { unfold marks_in_range. apply forallb_forall. intros x Hx%elem_of_list_In. apply elem_of_list_lookup_1 in Hx as [s Hx]. assert (Hs : s < length owns) by (apply lookup_lt_Some in Hx; unfold all_outs in Hx; by rewrite map_length in Hx).
      destruct (lookup_lt_is_Some_2 owns s Hs) as [o Ho]. rewrite (outs_at owns T Hc Hown s o Ho) in Hx. injection Hx as <-. apply forallb_forall. intros k Hk%elem_of_list_In. apply elem_of_list_fmap in Hk as (z & -> & Hz). apply info_keys in Hz as [Hz _]. rewrite map_length in Hz. unfold all_outs. rewrite map_length. apply Nat.ltb_lt. lia. }
    rewrite Hmarks. change (throwing_assert true) with (Ok tt). rewrite bind_ok.
    set (step := fun z : nat * (ownership * local_graph) => _ : res sparsity).
    assert (Hstep : forall r m g lg, ranks !! r = Some (m, g) -> lgs !! r = Some lg -> exists s, step (r, (dm_own g, lg)) = Ok s /\ pattern_ok (dm_own g) (coupled cond pdef m g) (coupled_any cond ranks pdef) s).
    { intros r m g lg Hr Hl. assert (Ho : owns !! r = Some (dm_own g)) by (apply owns_at; by exists m, g). unfold step.
      destruct (in_data_ok owns T lgs L Hc Hown HLG r (dm_own g) lg Ho Hl (sc r) (Hf r)) as (data & Ed & Hd). rewrite Ed, bind_ok.
      destruct (cols_ok owns T lgs L Hown HLG r (dm_own g) lg Ho Hl data Hd) as (cols & Ec & C1 & C2 & C3 & C4). rewrite Ec, bind_ok.
      destruct (pattern_rank owns T lgs L Hc Hown HLG r (dm_own g) lg Ho Hl data Hd cols C1 C2 C3 C4 (coupled cond pdef m g) (coupled_any cond ranks pdef)) as (sizes & rows & Es & Er & Hp).
      - intros k c Hk. destruct (HL r m g Hr) as (lg0 & _ & _ & H). by destruct (H k Hk) as (_ & _ & ->).
      - intros k c Hk. split.
        + intros (m' & g' & Hm & Hcp). pose proof (elem_of_list_lookup_1 _ _ Hm) as [s Hs]. destruct (coupled_local D ranks pdef T cond m' g' k c U Hm Hcp) as [Hk' _]. destruct (HL s m' g' Hs) as (lg0 & _ & _ & H). destruct (H k Hk') as (_ & _ & H').
          assert (Hos : owns !! s = Some (dm_own g')) by (apply owns_at; by exists m', g'). destruct Hk' as [Hk'|Hk'].
          * left. apply (owned_iff owns T Hc _ _ _ Ho) in Hk. apply (owned_iff owns T Hc _ _ _ Hos) in Hk'. assert (s = r) as -> by (by eapply owns_unique). by apply H'.
          * right. exists s, (dm_own g'). split; [done|]. split; [done|]. by apply H'.
        + intros [Hi|(s & os & Hos & Hks & Hi)].
          * exists m, g. split; [by eapply elem_of_list_lookup_2|]. destruct (HL r m g Hr) as (lg0 & _ & _ & H). by apply (H k ltac:(by left)).
          * apply owns_at in Hos as (m' & g' & Hs & ->). exists m', g'. split; [by eapply elem_of_list_lookup_2|]. destruct (HL s m' g' Hs) as (lg0 & _ & _ & H). by apply (H k ltac:(by right)).
      - rewrite Es, bind_ok, Er, bind_ok. eexists. split; [reflexivity|done]. }
    destruct (map_res_ex step (zip (seq 0 (length ranks)) (zip owns lgs))) as (ss & Ess & Fss).
    { intros [r [o lg]] Hz. apply zip_lookup_in in Hz as (i & Hi & Hz). apply lookup_seq in Hi as [-> _]. rewrite Nat.add_0_l in *. apply lookup_zip_with_Some in Hz as (o' & lg' & [= <- <-] & Ho & Hl). apply owns_at in Ho as (m & g & Hr & ->). destruct (Hstep i m g lg Hr Hl) as (s & E & _). by exists s. }
    exists ss. split; [exact Ess|]. assert (Hol : length owns = length ranks) by (unfold owns; by rewrite map_length).
    assert (Hsl : length ss = length ranks) by (apply Forall2_length in Fss; rewrite !zip_with_length, seq_length in Fss; lia).
    apply Forall2_same_length_lookup_2; [done|]. intros r [m g] s Hr Hs. cbn [fst snd]. destruct (Hat r m g Hr) as (lg & Hl & _). destruct (Hstep r m g lg Hr Hl) as (s' & E & Hp).
    assert (Hz : zip (seq 0 (length ranks)) (zip owns lgs) !! r = Some (r, (dm_own g, lg))).
    { apply lookup_zip_with_Some. exists r, (dm_own g, lg). split; [done|]. split; [apply lookup_seq; apply lookup_lt_Some in Hr; lia|]. apply lookup_zip_with_Some. exists (dm_own g), lg. split; [done|]. split; [|done]. apply owns_at. by exists m, g. }
    pose proof (Forall2_lookup_lr _ _ _ _ _ _ Fss Hz Hs) as E'. change (step (r, (dm_own g, lg)) = Ok s) in E'. assert (s' = s) as -> by congruence. done.
  Qed.

  (** A pattern is determined by what is coupled. *)
  Lemma pattern_unique o here any s s' : pattern_ok o here any s -> pattern_ok o here any s' -> s = s'.
  Proof.
    assert (Hok : forall s, pattern_ok o here any s -> own_ok (sg_cols s)).
    { intros x [P1 P2 P3 P4 P5 P6]. destruct P2 as [Pe Pb]. split; [lia|]. split; [done|]. intros k Hk. rewrite P1. by apply P4 in Hk as [Hk _]. }
    intros P P'. pose proof (Hok s P) as O. pose proof (Hok s' P') as O'. destruct P as [P1 [P2 P2'] P3 P4 [P5 P5'] P6], P' as [Q1 [Q2 Q2'] Q3 Q4 [Q5 Q5'] Q6]. destruct s as [cols sizes rows], s' as [cols' sizes' rows']. cbn [sg_cols sg_sizes sg_rows] in *.
    assert (cols' = cols) as ->.
    { destruct cols as [b e sh], cols' as [b' e' sh']. cbn [so_begin so_end so_shared] in *. assert (sh' = sh) as -> by (apply strict_ext; [done|done|]; intros x; by rewrite P4, Q4).
      destruct (decide (numOwned o = 0)) as [Z|Z]; [rewrite (P2' Z), (Q2' Z), Z in *; f_equal; lia|]. unfold dof_owned in P1, Q1. cbn [so_begin so_end] in P1, Q1.
      assert (Hbb : forall c, b <= c < e <-> b' <= c < e') by (intros c; by rewrite P1, Q1). pose proof (proj1 (Hbb b)). pose proof (proj2 (Hbb b')). f_equal; lia. }
    assert (rows' = rows) as ->.
    { apply list_eq. intros l. destruct (decide (l < localSize o)) as [Hl|Hl]; [|by rewrite !lookup_ge_None_2 by lia]. destruct (lookup_lt_is_Some_2 rows l ltac:(lia)) as [x Hx]. destruct (lookup_lt_is_Some_2 rows' l ltac:(lia)) as [x' Hx']. rewrite Hx, Hx'. f_equal.
      destruct (P6 l x Hx) as (S1 & F1 & k & E1 & A1 & B1). destruct (Q6 l x' Hx') as (S2 & F2 & k' & E2 & A2 & B2). assert (k' = k) as -> by congruence.
      assert (Hc : forall c, (exists i, i ∈ x' /\ col_at cols i c) <-> exists i, i ∈ x /\ col_at cols i c).
      { intros c. destruct (decide (so_begin o <= k < so_end o)) as [Hk|Hk]; [rewrite <- A1, <- A2 by done; done|rewrite <- B1, <- B2 by done; done]. }
      rewrite Forall_forall in F1, F2. unfold col_at in Hc.
      assert (Hinj : forall i i' c, i < localSize cols -> i' < localSize cols -> getGlobalIndex cols i = Ok c -> getGlobalIndex cols i' = Ok c -> i = i').
      { intros i i' c Hi Hi' Ei Ei'. destruct (glid_onto cols O i Hi) as (c1 & G1 & _ & L1). destruct (glid_onto cols O i' Hi') as (c2 & G2 & _ & L2). assert (c1 = c2) as -> by congruence. congruence. }
      apply strict_ext; [done|done|]. intros i. split; intros Hi.
      - destruct (glid_onto cols O i (F2 i Hi)) as (c & G & _). destruct (proj1 (Hc c)) as (i' & Hi' & G'); [by exists i|]. rewrite (Hinj i i' c (F2 i Hi) (F1 i' Hi') G G'). done.
      - destruct (glid_onto cols O i (F1 i Hi)) as (c & G & _). destruct (proj2 (Hc c)) as (i' & Hi' & G'); [by exists i|]. rewrite (Hinj i i' c (F1 i Hi) (F2 i' Hi') G G'). done. }
    by rewrite P5', Q5'.
  Qed.
  (** C41.  The result does not depend on the schedule. *)
  Theorem sparsity_schedule_independent D (ranks : list (mesh V * dof_map)) pdef T sc sc' cond : usable D ranks pdef T -> (forall r, fair (sc r)) -> (forall r, fair (sc' r)) ->
    makeSparsityGraph sc cond ranks pdef = makeSparsityGraph sc' cond ranks pdef.
  Proof.
    intros U Hf Hf'. destruct (sparsity_exact D ranks pdef T sc cond U Hf) as (ss & -> & F). destruct (sparsity_exact D ranks pdef T sc' cond U Hf') as (ss' & -> & F'). f_equal.
    apply list_eq. intros r. destruct (decide (r < length ranks)) as [Hr|Hr].
    - apply Forall2_length in F as Hl. apply Forall2_length in F' as Hl'. destruct (lookup_lt_is_Some_2 ranks r Hr) as [x Hx]. destruct (lookup_lt_is_Some_2 ss r ltac:(lia)) as [s Hs]. destruct (lookup_lt_is_Some_2 ss' r ltac:(lia)) as [s' Hs']. rewrite Hs, Hs'. f_equal. eapply pattern_unique; [by apply (Forall2_lookup_lr _ _ _ _ _ _ F Hx Hs)|by apply (Forall2_lookup_lr _ _ _ _ _ _ F' Hx Hs')].
    - apply Forall2_length in F as Hl. apply Forall2_length in F' as Hl'. by rewrite !lookup_ge_None_2 by lia.
  Qed.

  (** The maps of C39 can be used. *)
  Lemma numbered_usable D (ranks : list (mesh V * pbc)) pdef N T wants num maps : numberable D ranks pdef N -> numbering D N T wants num ->
    Forall2 (fun x g => dof_map_ok D ranks num x.1 x.2 g) ranks maps -> consecutive (map dm_own maps) T -> usable D (zip ranks.*1 maps) pdef T.
  Proof.
    intros HN Hnu F Hc. pose proof (Forall2_length _ _ _ F) as Hl. pose proof (nb_dist _ _ _ _ HN) as Hd.
    assert (Hz : forall m g, (m, g) ∈ zip ranks.*1 maps -> exists b, (m, b) ∈ ranks /\ m ∈ ranks.*1 /\ dof_map_ok D ranks num m b g).
    { intros m g Hm. apply zip_lookup_in in Hm as (i & Hi & Hg). apply list_lookup_fmap_Some in Hi as ([m' b] & Hb & ->). exists b. split; [by eapply elem_of_list_lookup_2|]. split; [apply elem_of_list_fmap; exists (m', b); split; [done|by eapply elem_of_list_lookup_2]|]. by apply (Forall2_lookup_lr _ _ _ _ _ _ F Hb Hg). }
    assert (Hno : forall m g, (m, g) ∈ zip ranks.*1 maps -> forall k, k ∈ so_shared (dm_own g) -> k < T).
    { intros m g Hm k Hk. destruct (Hz m g Hm) as (b & Hb & Hm1 & K). destruct (proj1 (dk_shared _ _ _ _ _ _ K k) Hk) as [_ (n & j & Hn & Hj & Hu)]. destruct (decide (k < T)) as [|Hge]; [done|]. exfalso.
      assert (HT : forall n j, n < N -> j < D -> Some k <> num n j) by (intros n' j' Hn' Hj' E; apply Hge; apply (nu_onto _ _ _ _ _ Hnu); by exists n', j').
      assert (HnN : forall m b n, (m, b) ∈ ranks -> owned m n \/ n ∈ so_shared (m_own m) \/ n ∈ pb_ghosts b -> n < N).
      { intros m' b' n' Hb' Hn'. assert (Hm' : m' ∈ ranks.*1) by (apply elem_of_list_fmap; by exists (m', b')). destruct Hn' as [Hn'|[Hn'|Hn']].
        - pose proof (elem_of_list_lookup_1 _ _ Hm') as [r Hr]. destruct (di_begin _ _ Hd r m' Hr) as [_ Hbg]. unfold owned in Hn'. specialize (Hbg ltac:(lia)). rewrite <- (di_total _ _ Hd).
          assert (Hcr : counts ranks.*1 !! r = Some (so_end (m_own m') - so_begin (m_own m'))) by (unfold counts; by rewrite (list_lookup_fmap (fun y : mesh V => so_end (m_own y) - so_begin (m_own y))), Hr).
          rewrite <- (take_drop_middle _ _ _ Hcr) at 1. rewrite sum_app, sum_cons. lia.
        - by apply (di_shared _ _ Hd m' Hm') in Hn' as [Hn' _].
        - by apply (nb_ghosts _ _ _ _ HN m' b' Hb') in Hn' as [Hn' _]. }
      destruct Hu as [Hu1 Hu2]. apply (HT n j (HnN m b n Hb Hn) Hj). apply Hu2. intros a Ha. apply (HT a j); [|done|by apply Hu1]. destruct Ha as (m' & b' & Hb' & Hp). destruct (nb_target _ _ _ _ HN m' b' n j a Hb' Hp) as [Ht _]. by apply (HnN m' b'). }
    constructor.
    - assert (map (fun x : mesh V * dof_map => dm_own x.2) (zip ranks.*1 maps) = map dm_own maps) as ->; [|done]. rewrite <- (map_map snd dm_own). f_equal. change (map snd ?l) with (l.*2). apply snd_zip. rewrite fmap_length. lia.
    - apply (nb_bits _ _ _ _ HN).
    - intros m g e Hm. destruct (Hz m g Hm) as (b & Hb & _). by apply (nb_typed _ _ _ _ HN m b).
    - intros m g Hm. destruct (Hz m g Hm) as (b & _ & Hb & _). by apply (di_keys _ _ Hd).
    - intros m g Hm. destruct (Hz m g Hm) as (b & _ & _ & K). split; [apply (dk_sorted _ _ _ _ _ _ K)|]. intros k Hk. split; [by apply (Hno m g Hm)|]. by apply (dk_shared _ _ _ _ _ _ K) in Hk as [Hk _].
    - intros m g Hm. destruct (Hz m g Hm) as (b & _ & Hb & K). destruct (dk_keys _ _ _ _ _ _ K) as [K1 K2]. split; [done|]. intros e n He Hn. apply K2. apply (di_nodes _ _ Hd); [done|]. by exists e.
    - intros m g n row Hm Hr. destruct (Hz m g Hm) as (b & _ & Hb & K). destruct (dk_rows _ _ _ _ _ _ K n row Hr) as [Hlr Hj]. split; [done|]. intros j k Hk. assert (Hjd : j < D) by (rewrite <- Hlr; by eapply lookup_lt_Some). destruct (Hj j Hjd) as (d & Hdj & Hu). assert (d = Some k) as -> by congruence.
      destruct (decide (so_begin (dm_own g) <= k < so_end (dm_own g))) as [Ho|Ho]; [by left|]. right. apply (dk_shared _ _ _ _ _ _ K). split; [done|]. exists n, j. split; [|done]. destruct (dk_keys _ _ _ _ _ _ K) as [_ K2]. assert (Hn : n ∈ (dm_map g).*1) by (apply elem_of_list_fmap; by exists (n, row)). apply K2 in Hn as [Hn|Hn]; [by left|by right; left].
  Qed.
  (** C41, from the mesh parts: numbering the unknowns and building the pattern. *)
  Theorem sparsity_of_mesh D (ranks : list (mesh V * pbc)) pdef N sched arr sc cond : numberable D ranks pdef N -> (forall l, sched l ≡ₚ l) -> (forall l, arr l ≡ₚ l) -> (forall r, fair (sc r)) ->
    exists maps ss, NodeToGlobalDofMap D sched arr cond ranks pdef = Ok maps /\ makeSparsityGraph sc cond (zip ranks.*1 maps) pdef = Ok ss /\
      Forall2 (fun x s => pattern_ok (dm_own x.2) (coupled cond pdef x.1 x.2) (coupled_any cond (zip ranks.*1 maps) pdef) s) (zip ranks.*1 maps) ss.
  Proof.
    intros HN Hs Ha Hf. destruct (periodic_dofs_numbered D ranks pdef N sched arr cond HN Hs Ha) as (maps & num & T & E & Hnu & F & Hc). pose proof (numbered_usable D ranks pdef N T _ num maps HN Hnu F Hc) as U.
    destruct (sparsity_exact D _ pdef T sc cond U Hf) as (ss & Ess & Fss). by exists maps, ss.
  Qed.
End props.
Print Assumptions sparsity_exact.
Print Assumptions sparsity_schedule_independent.
Print Assumptions sparsity_of_mesh.

(** The chain of C38: rank 2 has the elements (1,4) and (4,2), and owns only 4. *)
Definition sp_fwd : schedule := {| s_count := id; s_reserve := id; s_copy := id; s_rows := id; s_arrive := id; s_append := id; s_fill := fun i => i |}.
Definition sp_bwd : schedule := {| s_count := @rev _; s_reserve := @rev _; s_copy := @rev _; s_rows := @rev _; s_arrive := @rev _; s_append := @rev _; s_fill := fun i => 7 + i |}.
Definition sp_maps : list dof_map :=
  [{| dm_map := [(0, [Some 0; None]); (1, [Some 1; None])]; dm_own := {| so_begin := 0; so_end := 2; so_shared := [] |} |};
   {| dm_map := [(2, [Some 2; None]); (3, [Some 3; None])]; dm_own := {| so_begin := 2; so_end := 4; so_shared := [] |} |};
   {| dm_map := [(4, [Some 4; None]); (1, [Some 1; None]); (2, [Some 2; None])]; dm_own := {| so_begin := 4; so_end := 5; so_shared := [1; 2] |} |}].
Example sparsity_example_hyps : fair sp_fwd /\ fair sp_bwd /\ usable 2 (zip chain sp_maps) dof_example 5.
Proof.
  split; [by repeat split|]. split; [unfold fair, sp_bwd; cbn; split_and!; intros l; symmetry; apply Permutation_rev|].
  destruct dofs_example_hyps as (H1 & H2 & H3).
  destruct (dofs_numbered_without_gaps 2 chain dof_example 5 (@rev _) (@rev _) false H1 H2 H3) as (maps & num & T & E & Hnu & Hc & F); [intros l; symmetry; apply Permutation_rev..|]. rewrite dofs_example in E. fold sp_maps in E. assert (maps = sp_maps) as -> by congruence. clear E.
  assert (T = 5) as -> by (destruct Hc as [Hc _]; by vm_compute in Hc).
  constructor.
  - done.
  - done.
  - intros m g e Hm. apply H2. by apply elem_of_zip_l in Hm.
  - intros m g Hm. apply (di_keys _ _ H1). by apply elem_of_zip_l in Hm.
  - intros m g Hm. cbn in Hm. rewrite !elem_of_cons, elem_of_nil in Hm. destruct Hm as [[= -> ->]|[[= -> ->]|[[= -> ->]|[]]]]; cbn [dm_own so_shared]; (split; [repeat constructor|]); intros k Hk; rewrite ?elem_of_cons, elem_of_nil in Hk; unfold dof_owned; cbn [so_begin so_end]; lia.
  - intros m g Hm. apply zip_lookup_in in Hm as (i & Hi & Hg). pose proof (Forall2_lookup_lr _ _ _ _ _ _ F Hi Hg) as ([K1 K2] & _). split; [done|]. intros e n He Hn. apply K2. apply (di_nodes _ _ H1); [by eapply elem_of_list_lookup_2|]. by exists e.
  - intros m g n row Hm Hr. cbn in Hm. rewrite !elem_of_cons, elem_of_nil in Hm. destruct Hm as [[= -> ->]|[[= -> ->]|[[= -> ->]|[]]]]; cbn [dm_map dm_own] in *; rewrite !elem_of_cons, elem_of_nil in Hr; repeat (destruct Hr as [[= -> ->]|Hr]); try done; (split; [done|]);
      intros [|[|j]] k Hk; cbn in Hk; try done; injection Hk as <-; unfold dof_local, dof_owned; cbn [so_begin so_end so_shared]; rewrite ?elem_of_cons; lia.
Qed.
(** Row 1 of rank 0 gets column 4 from rank 2, where 1 is shared. *)
Example sparsity_example :
  let r := Ok [{| sg_cols := {| so_begin := 0; so_end := 2; so_shared := [4] |}; sg_sizes := [2; 3]; sg_rows := [[0; 1]; [0; 1; 2]] |};
               {| sg_cols := {| so_begin := 2; so_end := 4; so_shared := [4] |}; sg_sizes := [3; 2]; sg_rows := [[0; 1; 2]; [0; 1]] |};
               {| sg_cols := {| so_begin := 4; so_end := 5; so_shared := [1; 2] |}; sg_sizes := [3; 2; 2]; sg_rows := [[0; 1; 2]; [0; 1]; [0; 2]] |}] in
  makeSparsityGraph (fun _ => sp_fwd) false (zip chain sp_maps) dof_example = r /\ makeSparsityGraph (fun _ => sp_bwd) false (zip chain sp_maps) dof_example = r.
Proof. vm_compute. split; reflexivity. Qed.
