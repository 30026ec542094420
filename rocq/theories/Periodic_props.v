(** C40: periodic boundary conditions. *)
From Verif Require Import Base StdAlgo Ownership_model Ownership_spec Ownership_proofs Elem_model Elem_spec Mesh_model Mesh_spec Mesh_proofs Helpers_model Helpers_proofs Partition_model Partition_spec Redist_spec Redist_props Graph_model Graph_spec Graph_proofs Dofs_model Dofs_spec Dofs_proofs Dofs2_proofs Dofs4_proofs Periodic_model Periodic_spec Periodic_proofs Periodic2_proofs Periodic3_proofs.
Local Arguments Nat.mul : simpl never.
Local Arguments Nat.add : simpl never.
Local Arguments Nat.sub : simpl never.

(** C40.  Every rank gets, for its own nodes, the least node of the chain of matched
    pairs; the ghosts are the nodes named this way that it does not have. *)
Theorem periodic_info_correct {V G} `{EqDecision G} D N (parts : list (mesh V)) fill shuffle shuffle_row (srt : list G -> list G) ord defs matched :
  distributed parts N -> (forall x, shuffle x ≡ₚ x) -> (forall x, shuffle_row x ≡ₚ x) -> (forall x, ord x ≡ₚ x) ->
  (forall j, j < D -> matchable N matched (srt (concerned defs j))) ->
  exists pbs, PeriodicBC D fill shuffle shuffle_row srt ord defs matched (map (@m_own V) parts) = Ok pbs /\ length pbs = length parts /\
    forall r m b, parts !! r = Some m -> pbs !! r = Some b ->
      NoDup (pb_info b).*1 /\ (forall n row, (n, row) ∈ pb_info b -> owned m n /\ length row = D) /\
      (forall n j a, passive b n j a <-> owned m n /\ j < D /\ a <> n /\ least matched (srt (concerned defs j)) n a) /\
      StronglySorted lt (pb_ghosts b) /\
      (forall g, g ∈ pb_ghosts b <-> ~ owned m g /\ g ∉ so_shared (m_own m) /\ exists n j, passive b n j g).
Proof. intros Hd Hsh Hsr Hord Hm. by apply (periodic_ctor D N parts Hd). Qed.
Print Assumptions periodic_info_correct.

Section world.
  Context {V G : Type} `{EqDecision G} (D N : nat) (parts : list (mesh V)) (pdef : list (list nat * list bool)).
  Context (fill : nat -> nat) (shuffle : list (nat * list nat) -> list (nat * list nat)) (shuffle_row : list nat -> list nat).
  Context (srt : list G -> list G) (ord : list (list G * list bool) -> list (list G * list bool)) (defs : list (G * list bool)) (matched : list G -> list (list nat * list nat)).
  Context (Hd : distributed parts N) (Ht : forall m e, m ∈ parts -> is_elem (m_domains m) e -> typed_el e) (Hbits : forall ids bits, (ids, bits) ∈ pdef -> length bits = D).
  Context (Hsh : forall x, shuffle x ≡ₚ x) (Hsr : forall x, shuffle_row x ≡ₚ x) (Hord : forall x, ord x ≡ₚ x) (Hm : forall j, j < D -> matchable N matched (srt (concerned defs j))).
  Notation grp j := (srt (concerned defs j)).
  Lemma joined_trans gs u v w : joined matched gs u v -> joined matched gs v w -> joined matched gs u w.
  Proof. apply rtc_transitive. Qed.
  Lemma least_ex gs n : matchable N matched gs -> exists a, least matched gs n a.
  Proof.
    intros [Ha Hb Hc]. destruct (components_classes fill shuffle shuffle_row _ _ Hsh Hsr (concat_lengths _ Ha)) as (comps & E & C1 & C2 & C3 & C4).
    change (concat (map fst (matched gs))) with (pairs matched gs).1 in *. change (concat (map snd (matched gs))) with (pairs matched gs).2 in *.
    destruct (decide (n ∈ concat comps)) as [Hn|Hn].
    - apply elem_of_concat in Hn as (c & Hn & Hcc). destruct (C3 c Hcc) as [_ Hst]. destruct c as [|a ps]; [by apply elem_of_nil in Hn|]. exists a. split; [apply (C4 _ n a Hcc Hn); left|].
      intros x Hx. apply (C4 _ n x Hcc Hn) in Hx. inversion Hst as [|? ? _ Hfa]; subst. rewrite Forall_forall in Hfa. apply elem_of_cons in Hx as [-> |Hx]; [done|]. specialize (Hfa x Hx). lia.
    - exists n. split; [constructor|]. intros c Hj. destruct (decide (n = c)) as [-> |Hne]; [done|]. destruct Hn. apply C2. by eapply joined_in.
  Qed.
  Lemma least_uniq gs n a n' a' : least matched gs n a -> least matched gs n' a' -> joined matched gs n n' -> a = a'.
  Proof.
    intros [H1 H2] [H1' H2'] Hj. assert (a <= a') by (apply H2; by eapply joined_trans). assert (a' <= a) by (apply H2'; eapply joined_trans; [by apply joined_sym|done]). lia.
  Qed.
  Lemma least_lt gs n a : matchable N matched gs -> least matched gs n a -> n < N -> a < N.
  Proof. intros Hg [Hj Hle] Hn. specialize (Hle n ltac:(constructor)). lia. Qed.
  Lemma least_self gs n a : least matched gs n a -> least matched gs a a.
  Proof. intros [Hj Hle]. split; [constructor|]. intros c Hc. apply Hle. by eapply joined_trans. Qed.

  Lemma periodic_all sched arr cond : (forall l, sched l ≡ₚ l) -> (forall l, arr l ≡ₚ l) ->
    exists pbs maps num T, PeriodicBC D fill shuffle shuffle_row srt ord defs matched (map (@m_own V) parts) = Ok pbs /\
      NodeToGlobalDofMap D sched arr cond (zip parts pbs) pdef = Ok maps /\
      numbering D N T (fun n j => least matched (grp j) n n /\ wanted cond (zip parts pbs) pdef n j) num /\
      (forall g n row j a, g ∈ maps -> (n, row) ∈ dm_map g -> j < D -> least matched (grp j) n a -> n < N /\ row !! j = Some (num a j)) /\
      (forall m, m ∈ parts -> exists b, (m, b) ∈ zip parts pbs) /\
      forall m b n j a, (m, b) ∈ zip parts pbs -> m ∈ parts /\ (passive b n j a <-> owned m n /\ j < D /\ a <> n /\ least matched (grp j) n a).
  Proof.
    intros Hs Ha. destruct (periodic_ctor D N parts Hd fill shuffle shuffle_row Hsh Hsr srt ord Hord defs matched Hm) as (pbs & E & Hl & Hp).
    set (ranks := zip parts pbs). assert (Hin : forall m b, (m, b) ∈ ranks <-> exists r, parts !! r = Some m /\ pbs !! r = Some b) by (intros m b; apply zip_lookup_in).
    assert (Hfst : ranks.*1 = parts) by (apply fst_zip; lia).
    assert (Hpas : forall m b n j a, (m, b) ∈ ranks -> m ∈ parts /\ (passive b n j a <-> owned m n /\ j < D /\ a <> n /\ least matched (grp j) n a)).
    { intros m b n j a Hmb. apply Hin in Hmb as (r & Hr & Hb). split; [by eapply elem_of_list_lookup_2|]. by apply (Hp r m b Hr Hb). }
    assert (Hid : forall n j a, identified ranks n j a -> j < D /\ a <> n /\ least matched (grp j) n a).
    { intros n j a (m & b & Hmb & Hpa). apply (Hpas m b n j a Hmb) in Hpa. tauto. }
    assert (HN : numberable D ranks pdef N).
    { constructor.
      - by rewrite Hfst.
      - intros m b e Hmb. apply (Hpas m b 0 0 0) in Hmb as [Hmp _]. by apply Ht.
      - done.
      - intros m b Hmb. apply Hin in Hmb as (r & Hr & Hb). destruct (Hp r m b Hr Hb) as (H1 & H2 & _). done.
      - intros m b n j a Hmb Hpa. split.
        + apply Hin in Hmb as (r & Hr & Hb). destruct (Hp r m b Hr Hb) as (_ & _ & _ & _ & H5). destruct (decide (owned m a)) as [Ho|Ho]; [by left|]. right. destruct (decide (a ∈ so_shared (m_own m))) as [Hsd|Hsd]; [by left|]. right.
          apply H5. split; [done|]. split; [done|]. by exists n, j.
        + intros a' Hc. apply Hid in Hc as (_ & Hne & Hle). apply (Hpas m b n j a Hmb) in Hpa as (_ & _ & _ & Hla). apply Hne. symmetry. eapply (least_uniq (grp j) n a a a'); [done|done|apply Hla].
      - intros m b Hmb. pose proof Hmb as Hmb'. apply Hin in Hmb as (r & Hr & Hb). destruct (Hp r m b Hr Hb) as (_ & _ & _ & H4 & H5). split; [done|]. intros n Hn. apply H5 in Hn as (H6 & H7 & p & j & Hpa). split; [|done].
        apply (Hpas m b p j n Hmb') in Hpa as (Ho & HjD & Hne & Hle). apply (least_lt (grp j) p); [by apply Hm|done|]. apply (ma_lt N matched (grp j) (Hm j HjD)). eapply joined_in; [apply Hle|done]. }
    destruct (dofs_numbered D ranks pdef N HN sched arr cond Hs Ha) as (maps & num & T & Ed & Hnu & Hmaps & _). exists pbs, maps, num, T. split; [done|]. split; [done|].
    assert (Hnid : forall n j, n < N -> j < D -> (forall a, ~ identified ranks n j a) <-> least matched (grp j) n n).
    { intros n j Hn Hj. destruct (least_ex (grp j) n (Hm j Hj)) as [a Hle]. split.
      - intros Hno. destruct (decide (a = n)) as [-> |Hne]; [done|]. destruct (owner_ok D ranks pdef N HN n Hn) as ([m b] & Hmb & Ho). apply elem_of_list_lookup_2 in Hmb. destruct (Hno a). exists m, b. split; [done|]. apply (Hpas m b n j a Hmb). done.
      - intros Hnn a' Hc. apply Hid in Hc as (_ & Hne & Hle'). apply Hne. symmetry. eapply (least_uniq (grp j) n n n a'); [done|done|constructor]. }
    split; [|split; [|split; [|done]]].
    - destruct Hnu as [H1 H2 H3]. split; [|done|done]. intros n j Hn Hj. by rewrite (H1 n j Hn Hj), (Hnid n j Hn Hj).
    - intros g n row j a Hg Hrow Hj Hle. apply elem_of_list_lookup in Hg as [r Hg]. destruct (Forall2_lookup_r _ _ _ _ _ Hmaps Hg) as ([m b] & Hmb & [K1 K2 _ _ _]). cbn [fst snd] in *. assert (Hmi : (m, b) ∈ ranks) by (by eapply elem_of_list_lookup_2).
      assert (HnN : n < N). { assert (Hk : n ∈ (dm_map g).*1) by (apply elem_of_list_fmap; by exists (n, row)). apply K1 in Hk. eapply (loc_lt D ranks pdef N HN r (m, b)); [done|]. unfold loc. cbn. tauto. }
      split; [done|]. destruct (K2 n row Hrow) as [_ Hr]. destruct (Hr j Hj) as (d & Hdj & Hu1 & Hu2). rewrite Hdj. f_equal. destruct (decide (a = n)) as [-> |Hne].
      + apply Hu2. by apply Hnid.
      + apply Hu1. destruct (owner_ok D ranks pdef N HN n HnN) as ([m' b'] & Hmb' & Ho). apply elem_of_list_lookup_2 in Hmb'. exists m', b'. split; [done|]. by apply (Hpas m' b' n j a Hmb').
    - intros m Hmp. apply elem_of_list_lookup in Hmp as [r Hr]. destruct (lookup_lt_is_Some_2 pbs r) as [b Hb]; [rewrite Hl; by eapply lookup_lt_Some|]. exists b. apply Hin. by exists r.
  Qed.
End world.

(** C40.  Two nodes have the same unknown of component [j], on any ranks, iff they
    are joined by a chain of pairs matched for the conditions that concern [j]; if
    only one definition concerns a component, only its pairs matter. *)
Theorem periodic_nodes_share {V G} `{EqDecision G} D N (parts : list (mesh V)) pdef fill shuffle shuffle_row (srt : list G -> list G) ord defs matched sched arr cond :
  distributed parts N -> (forall m e, m ∈ parts -> is_elem (m_domains m) e -> typed_el e) -> (forall ids bits, (ids, bits) ∈ pdef -> length bits = D) ->
  (forall x, shuffle x ≡ₚ x) -> (forall x, shuffle_row x ≡ₚ x) -> (forall x, ord x ≡ₚ x) -> (forall l, sched l ≡ₚ l) -> (forall l, arr l ≡ₚ l) ->
  (forall j, j < D -> matchable N matched (srt (concerned defs j))) ->
  exists pbs maps, PeriodicBC D fill shuffle shuffle_row srt ord defs matched (map (@m_own V) parts) = Ok pbs /\
    NodeToGlobalDofMap D sched arr cond (zip parts pbs) pdef = Ok maps /\
    forall g g' n n' row row' j j', g ∈ maps -> g' ∈ maps -> (n, row) ∈ dm_map g -> (n', row') ∈ dm_map g' -> j < D -> j' < D ->
      (joined matched (srt (concerned defs j)) n n' -> row !! j = row' !! j) /\
      (forall k, row !! j = Some (Some k) -> row' !! j' = Some (Some k) -> j = j' /\ joined matched (srt (concerned defs j)) n n') /\
      (forall k, row !! j = Some (Some k) -> exists m t, m ∈ parts /\ active_in cond pdef m t j /\ joined matched (srt (concerned defs j)) n t).
Proof.
  intros Hd Ht Hb Hsh Hsr Hord Hs Ha Hm. destruct (periodic_all D N parts pdef fill shuffle shuffle_row srt ord defs matched Hd Ht Hb Hsh Hsr Hord Hm sched arr cond Hs Ha) as (pbs & maps & num & T & E1 & E2 & Hnu & Hrow & _ & Hpas).
  exists pbs, maps. split; [done|]. split; [done|]. intros g g' n n' row row' j j' Hg Hg' Hr Hr' Hj Hj'.
  destruct (least_ex N fill shuffle shuffle_row matched Hsh Hsr _ n (Hm j Hj)) as [a Hla]. destruct (Hrow g n row j a Hg Hr Hj Hla) as [HnN Ea]. split; [|split].
  - intros Hjn. destruct (least_ex N fill shuffle shuffle_row matched Hsh Hsr _ n' (Hm j Hj)) as [a' Hla']. destruct (Hrow g' n' row' j a' Hg' Hr' Hj Hla') as [_ Ea']. rewrite Ea, Ea'. by rewrite (least_uniq matched _ n a n' a' Hla Hla' Hjn).
  - intros k Hk Hk'. destruct (least_ex N fill shuffle shuffle_row matched Hsh Hsr _ n' (Hm j' Hj')) as [a' Hla']. destruct (Hrow g' n' row' j' a' Hg' Hr' Hj' Hla') as [_ Ea']. rewrite Ea in Hk. rewrite Ea' in Hk'. injection Hk as Hk. injection Hk' as Hk'.
    assert (a = a' /\ j = j') as [-> ->].
    { destruct Hnu as [_ Ho _]. destruct (lt_eq_lt_dec a a') as [[Hlt| ->]|Hlt]; [pose proof (Ho a j k a' j' k Hj Hj' Hk Hk'); lia| |pose proof (Ho a' j' k a j k Hj' Hj Hk' Hk); lia].
      destruct (lt_eq_lt_dec j j') as [[Hlt| ->]|Hlt]; [pose proof (Ho a' j k a' j' k Hj Hj' Hk Hk'); lia|done|pose proof (Ho a' j' k a' j k Hj' Hj Hk' Hk); lia]. }
    split; [done|]. destruct Hla as [H1 _]. destruct Hla' as [H1' _]. eapply joined_trans; [exact H1|by apply joined_sym].
  - intros k Hk. rewrite Ea in Hk. injection Hk as Hk. assert (HaN : a < N) by (apply (least_lt N matched _ n a (Hm j Hj)); done). destruct (nu_def _ _ _ _ _ Hnu a j HaN Hj) as [Hw _]. destruct Hw as [_ (m & b & t & Hmb & Hact & Hp)]; [by eexists|].
    destruct (Hpas m b t j a Hmb) as [Hmp Hpa]. exists m, t. split; [done|]. split; [done|]. destruct Hp as [Hp|[_ ->]]; [|apply Hla]. apply Hpa in Hp as (_ & _ & _ & Hp). eapply joined_trans; [apply Hla|]. apply joined_sym. apply Hp.
Qed.
Print Assumptions periodic_nodes_share.

(** C40.  A component that is active at a node has an unknown there, if the node is
    owned by the rank whose element activates it, or if the component is active at
    the least node of the chain.  Missing: activity at a node that is owned by
    another rank, see [periodic_activity_refuted]. *)
Theorem periodic_activity_partial {V G} `{EqDecision G} D N (parts : list (mesh V)) pdef fill shuffle shuffle_row (srt : list G -> list G) ord defs matched sched arr cond :
  distributed parts N -> (forall m e, m ∈ parts -> is_elem (m_domains m) e -> typed_el e) -> (forall ids bits, (ids, bits) ∈ pdef -> length bits = D) ->
  (forall x, shuffle x ≡ₚ x) -> (forall x, shuffle_row x ≡ₚ x) -> (forall x, ord x ≡ₚ x) -> (forall l, sched l ≡ₚ l) -> (forall l, arr l ≡ₚ l) ->
  (forall j, j < D -> matchable N matched (srt (concerned defs j))) ->
  exists pbs maps, PeriodicBC D fill shuffle shuffle_row srt ord defs matched (map (@m_own V) parts) = Ok pbs /\
    NodeToGlobalDofMap D sched arr cond (zip parts pbs) pdef = Ok maps /\
    forall g n row j m t, g ∈ maps -> (n, row) ∈ dm_map g -> j < D -> m ∈ parts -> joined matched (srt (concerned defs j)) n t -> active_in cond pdef m t j ->
      owned m t \/ least matched (srt (concerned defs j)) n t -> exists k, row !! j = Some (Some k).
Proof.
  intros Hd Ht Hb Hsh Hsr Hord Hs Ha Hm. destruct (periodic_all D N parts pdef fill shuffle shuffle_row srt ord defs matched Hd Ht Hb Hsh Hsr Hord Hm sched arr cond Hs Ha) as (pbs & maps & num & T & E1 & E2 & Hnu & Hrow & Hex & Hpas).
  exists pbs, maps. split; [done|]. split; [done|]. intros g n row j m t Hg Hr Hj Hmp Hjn Hact Hc.
  destruct (least_ex N fill shuffle shuffle_row matched Hsh Hsr _ n (Hm j Hj)) as [a Hla]. destruct (Hrow g n row j a Hg Hr Hj Hla) as [HnN Ea]. assert (HaN : a < N) by (apply (least_lt N matched _ n a (Hm j Hj)); done).
  destruct (nu_def _ _ _ _ _ Hnu a j HaN Hj) as [_ Hw]. destruct Hw as [k Hk]; [|exists k; by rewrite Ea, Hk]. split; [by eapply least_self|]. destruct (Hex m Hmp) as [b Hmb]. exists m, b, t. split; [done|]. split; [done|].
  assert (Hlt : least matched (srt (concerned defs j)) t a). { split; [eapply joined_trans; [by apply joined_sym|apply Hla]|]. intros c Hc'. apply Hla. by eapply joined_trans. }
  destruct (decide (a = t)) as [-> |Hne].
  - right. split; [|done]. intros a' Hp. apply (Hpas m b t j a' Hmb) in Hp as (_ & _ & Hne & Hle). apply Hne. symmetry. eapply (least_uniq matched _ t t t a'); [done|done|constructor].
  - destruct Hc as [Ho|Hlt']; [|destruct Hne; eapply (least_uniq matched _ n a n t); [done|done|constructor]]. left. by apply (Hpas m b t j a Hmb).
Qed.
Print Assumptions periodic_activity_partial.

(** The chain of C38 with nodes 3 and 0, and 2 and 3, matched in component 0. *)
Definition pe_defs : list (nat * list bool) := [(7, [true; false])].
Definition pe_matched (gs : list nat) : list (list nat * list nat) := match gs with [] => [] | _ => [([3], [0]); ([2], [3]); ([], [])] end.
Definition pe_pdef : list (list nat * list bool) := [([1], [true; true])].
Example periodic_example_hyps : distributed chain 5 /\ (forall m e, m ∈ chain -> is_elem (m_domains m) e -> typed_el e) /\ (forall ids bits, (ids, bits) ∈ pe_pdef -> length bits = 2) /\
  forall j, j < 2 -> matchable 5 pe_matched (id (concerned pe_defs j)).
Proof.
  split; [exact chain_distributed|]. split; [|split].
  - intros m e Hm He. unfold chain in Hm. rewrite !elem_of_cons, elem_of_nil in Hm. destruct Hm as [-> |[-> |[-> |[]]]]; apply chain_elem in He; rewrite !elem_of_cons, elem_of_nil in He;
      repeat destruct He as [-> |He]; try done; apply (bool_decide_unpack _); by vm_compute.
  - intros ids bits H. unfold pe_pdef in H. apply elem_of_list_singleton in H. by injection H as -> ->.
  - intros [|[|j]] Hj; [| |lia]; constructor; cbn.
    + intros z Hz. rewrite !elem_of_cons, elem_of_nil in Hz. by destruct Hz as [-> |[-> |[-> |[]]]].
    + intros n. rewrite !elem_of_cons, !elem_of_nil. lia.
    + intros n Hn. rewrite !elem_of_cons, !elem_of_nil in Hn. unfold joined. cbn. assert (n = 0 \/ n = 2 \/ n = 3) as [-> |[-> | ->]] by lia.
      * exists 3. split; [|done]. apply rtc_once. right. split; [done|]. cbn. left.
      * exists 3. split; [|done]. apply rtc_once. left. cbn. right. left.
      * exists 0. split; [|done]. apply rtc_once. left. cbn. left.
    + intros z Hz. by apply elem_of_nil in Hz.
    + intros n [Hn|Hn]; by apply elem_of_nil in Hn.
    + intros n [Hn|Hn]; by apply elem_of_nil in Hn.
Qed.
Definition pe_info : list pbc :=
  [{| pb_info := []; pb_ghosts := [] |}; {| pb_info := [(2, [Some 0; None]); (3, [Some 0; None])]; pb_ghosts := [0] |}; {| pb_info := []; pb_ghosts := [] |}].
Example periodic_example : PeriodicBC 2 (fun k => 70 + k) (@rev _) (@rev _) id (@rev _) pe_defs pe_matched (map (@m_own nat) chain) = Ok pe_info.
Proof. vm_compute. reflexivity. Qed.
Example periodic_example_dofs : exists maps, NodeToGlobalDofMap 2 (@rev _) (@rev _) false (zip chain pe_info) pe_pdef = Ok maps /\
  map dm_map maps = [[(0, [Some 0; Some 1]); (1, [Some 2; Some 3])]; [(2, [Some 0; Some 4]); (3, [Some 0; Some 5])]; [(4, [Some 6; Some 7]); (1, [Some 2; Some 3]); (2, [Some 0; Some 4])]].
Proof. eexists. split; vm_compute; reflexivity. Qed.

(** C40.  Nodes 0 and 1 are periodic partners; component 0 is active in the element
    of rank 1 only, whose node 1 is owned by rank 0.  Rank 1 does not know that node
    1 is passive, so nothing is marked at node 0, and the element has no unknown at
    node 1. *)
Definition lost_parts : list (mesh nat) :=
  [ch_part [ch_l 0 1 0] 0 2 []; mk_mesh [(2, mk_dom [[]; []; [ch_l 1 2 1]] (Some 1))] {| so_begin := 2; so_end := 3; so_shared := [1] |} []].
Theorem periodic_activity_refuted : exists pbs maps (g0 g1 : dof_map),
  distributed lost_parts 3 /\ (forall j, j < 1 -> matchable 3 (fun gs => match gs with [] => [] | _ => [([1], [0])] end) (id (concerned [(7, [true])] j))) /\
  PeriodicBC 1 (fun _ => 0) id id id id [(7, [true])] (fun gs => match gs with [] => [] | _ => [([1], [0])] end) (map (@m_own nat) lost_parts) = Ok pbs /\
  NodeToGlobalDofMap 1 id id false (zip lost_parts pbs) [([2], [true])] = Ok maps /\ maps = [g0; g1] /\
  (exists m, lost_parts !! 1 = Some m /\ active_in false [([2], [true])] m 1 0) /\ (1, [None]) ∈ dm_map g1.
Proof.
  eexists _, _, _, _. split; [|split; [|split; [vm_compute; reflexivity|split; [vm_compute; reflexivity|split; [reflexivity|split]]]]].
  - constructor.
    + intros [|[|r]] y [= <-]; cbn; lia.
    + done.
    + intros y Hy. unfold lost_parts in Hy. rewrite !elem_of_cons, elem_of_nil in Hy. destruct Hy as [-> |[-> |[]]]; cbn [m_own so_shared ch_part]; (split; [repeat constructor|]);
        intros n Hn; rewrite ?elem_of_cons, elem_of_nil in Hn; [done|]. unfold owned. cbn. lia.
    + intros y Hy. unfold lost_parts in Hy. rewrite !elem_of_cons, elem_of_nil in Hy. destruct Hy as [-> |[-> |[]]]; cbn; apply NoDup_singleton.
    + intros y n Hy (e & (id_ & d & v & Hd & Hv & Hx) & Hn). unfold lost_parts in Hy. rewrite !elem_of_cons, elem_of_nil in Hy. destruct Hy as [-> |[-> |[]]]; cbn in Hd; apply elem_of_list_singleton in Hd; injection Hd as -> ->;
        cbn in Hv; rewrite !elem_of_cons, elem_of_nil in Hv; (destruct Hv as [-> |[-> |[-> |[]]]]; [by apply elem_of_nil in Hx..|]); apply elem_of_list_singleton in Hx as ->; cbn [ch_l el_nodes] in Hn; rewrite !elem_of_cons, elem_of_nil in Hn;
        unfold owned; cbn [m_own ch_part so_begin so_end so_shared]; rewrite ?elem_of_cons; lia.
    + intros y id_ vs e s Hy. unfold lost_parts in Hy. rewrite !elem_of_cons, elem_of_nil in Hy. destruct Hy as [-> |[-> |[]]]; cbn; intros Hv; by apply elem_of_nil in Hv.
  - intros [|j] Hj; [|lia]. constructor; cbn.
    + intros z Hz. apply elem_of_list_singleton in Hz as ->. done.
    + intros n. rewrite !elem_of_cons, !elem_of_nil. lia.
    + intros n Hn. rewrite !elem_of_cons, !elem_of_nil in Hn. unfold joined. cbn. assert (n = 0 \/ n = 1) as [-> | ->] by lia.
      * exists 1. split; [|done]. apply rtc_once. right. split; [done|]. cbn. left.
      * exists 0. split; [|done]. apply rtc_once. left. cbn. left.
  - eexists. split; [reflexivity|]. exists [2], [true], 2, (ch_l 1 2 1). split; [left|]. split; [done|]. split; [left|]. split; [|cbn; left].
    exists (mk_dom [[]; []; [ch_l 1 2 1]] (Some 1)), [ch_l 1 2 1]. split; [left|]. split; [cbn; right; right; left|left].
  - cbn [dm_map]. right. left.
Qed.
Print Assumptions periodic_activity_refuted.
