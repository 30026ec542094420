(** C38: redistribution of mesh parts over ranks. *)
From Verif Require Square_proofs.
From Verif Require Import Base StdAlgo Ownership_model Ownership_spec Ownership_proofs Elem_model Elem_spec Mesh_model Mesh_spec Mesh_proofs Helpers_model Helpers_proofs Partition_model Partition_spec Redist_model Redist_spec Redist_proofs.

Lemma range_size b e s c : (forall k, b <= k < e <-> s <= k < s + c) -> e - b = c.
Proof.
  intros H. destruct (decide (b < e)) as [Hb|Hb], (decide (0 < c)) as [Hc|Hc].
  - pose proof (H b). pose proof (H s). pose proof (H (e - 1)). pose proof (H (s + c - 1)). lia.
  - pose proof (H b). lia.
  - pose proof (H s). lia.
  - lia.
Qed.
(** C38.  When every rank says which rank its new part comes from, each rank is
    sent one message, from the rank to which its own part must go. *)
Theorem invert_permutation P srcs dests r s : rank_permutation P srcs dests -> srcs !! r = Some s -> pings srcs s = [r] /\ dests !! s = Some r.
Proof.
  intros HP Hr. pose proof HP as (H1 & H2 & H). split; [|by apply H].
  assert (HP' : rank_permutation P dests srcs). { split; [done|]. split; [done|]. intros a b. by rewrite H. }
  assert (Hs : s < P). { apply H, lookup_lt_Some in Hr. lia. } destruct (pings_one P dests srcs s HP' Hs) as (r' & Hp & Hr'). rewrite Hp. apply H in Hr. congruence.
Qed.
Print Assumptions invert_permutation.

(** C38.  Parts of a mesh, moved by a permutation of the ranks which keeps, in
    each part, the order of the shared nodes.  Then there is a renumbering of the
    nodes of the whole mesh, one to one on the same range, such that each rank has
    the part it was to get, renumbered, with the same domains, element order and
    boundaries; it owns the next contiguous range in rank order; the i-th local
    node is still the i-th local node, so an array over local nodes that moves
    with the part stays valid.
    Partial: permutations that change the order of shared nodes, see
    [redistribute_refuted]. *)
Theorem redistribute_keeps_mesh_partial {V} (parts : list (mesh V)) N srcs dests :
  distributed parts N -> rank_permutation (length parts) srcs dests ->
  (forall y n n' k k', y ∈ parts -> n ∈ so_shared (m_own y) -> n' ∈ so_shared (m_own y) -> n < n' ->
     new_number parts srcs n k -> new_number parts srcs n' k' -> k < k') ->
  exists ys f, permuteMesh parts srcs dests = Ok ys /\ length ys = length parts /\
    (forall n, n < N -> f n < N /\ new_number parts srcs n (f n)) /\ (forall n n', n < N -> n' < N -> f n = f n' -> n = n') /\
    forall r q y, srcs !! r = Some q -> parts !! q = Some y -> exists y', ys !! r = Some y' /\ same_mesh f y y' /\
      (forall k, owned y' k <-> exists n, owned y n /\ f n = k) /\
      (forall n, owned y n -> f n = sum (take r (counts ys)) + (n - so_begin (m_own y))) /\
      so_shared (m_own y') = map f (so_shared (m_own y)).
Proof.
  intros HD HP Ho. destruct (recv_ex parts srcs dests HP) as (recv & Hm & Hr). pose proof (F_number parts N HD srcs dests HP recv Hr) as HF.
  assert (Hk : forall y, y ∈ parts -> kept parts dests recv y).
  { intros y Hy n n' Hn Hn' Hlt. apply (Ho y n n'); try done; apply HF; by apply (di_shared _ _ HD y Hy). }
  destruct (permute_ok parts N HD srcs dests HP recv Hr Hk Hm) as (ys & Hys & Hl & Hp). exists ys, (F parts dests recv). split; [done|]. split; [done|].
  assert (Hc : counts ys = counts recv).
  { apply list_eq. intros r. destruct (decide (r < length parts)) as [Hrl|Hrl].
    - destruct (lookup_lt_is_Some_2 srcs r) as [q Hq]; [destruct HP as (-> & _); lia|]. destruct (src_lt parts srcs dests HP r q Hq) as [_ Hql]. destruct (lookup_lt_is_Some_2 parts q Hql) as [y Hy].
      destruct (Hp r q y Hq Hy) as (y' & Hy' & _ & _ & How). rewrite (counts_at _ _ _ Hy'). rewrite (counts_at recv r y) by (apply (recv_at parts srcs recv Hr); eauto). f_equal.
      by eapply range_size.
    - rewrite !lookup_ge_None_2; [done|unfold counts; rewrite map_length..]; [|lia]. rewrite (recv_len parts srcs dests HP recv Hr). lia. }
  assert (HN : sum (counts recv) = N).
  { rewrite <- (di_total _ _ HD). apply Square_proofs.sum_perm. unfold counts. apply Permutation_map. apply Permutation_inj. rewrite (recv_len parts srcs dests HP recv Hr). split; [done|].
    exists (fun r => default r (srcs !! r)). split.
    - intros r r'. destruct (srcs !! r) as [s|] eqn:E, (srcs !! r') as [s'|] eqn:E'; cbn.
      + intros ->. apply (src_dest parts srcs dests HP) in E, E'. congruence.
      + intros ->. apply (src_lt parts srcs dests HP) in E. apply lookup_ge_None in E'. destruct HP as (Hs & _). lia.
      + intros ->. apply (src_lt parts srcs dests HP) in E'. apply lookup_ge_None in E. destruct HP as (Hs & _). lia.
      + done.
    - intros r. destruct (srcs !! r) as [s|] eqn:E; cbn.
      + destruct (src_lt parts srcs dests HP r s E) as [_ Hs]. destruct (lookup_lt_is_Some_2 parts s Hs) as [y Hy]. rewrite Hy. apply (recv_at parts srcs recv Hr). eauto.
      + apply lookup_ge_None in E. pose proof HP as (Hs & _). rewrite !lookup_ge_None_2; [done|lia|]. rewrite (recv_len parts srcs dests HP recv Hr). lia. }
  split.
  { intros n Hn. split; [|by apply HF]. destruct (F_owns parts N HD srcs dests HP recv Hr n Hn) as (y & r & _ & _ & How). apply owns_total in How. unfold total in How. fold (sum (counts recv)) in How. lia. }
  split; [exact (F_inj parts N HD srcs dests HP recv Hr)|]. intros r q y Hq Hy. destruct (Hp r q y Hq Hy) as (y' & Hy' & Hsm & Hsh & How). exists y'. split; [done|]. split; [done|].
  assert (Hfo : forall n, owned y n -> F parts dests recv n = start recv r + (n - so_begin (m_own y))) by (intros n; apply (F_owned parts N HD srcs dests HP recv r q y n Hq Hy)).
  split; [|split; [|done]].
  - intros k. rewrite How. split.
    + intros Hkr. exists (so_begin (m_own y) + (k - start recv r)). assert (Hon : owned y (so_begin (m_own y) + (k - start recv r))) by (unfold owned, numOwned in *; lia). split; [done|]. rewrite Hfo by done. lia.
    + intros (n & Hn & <-). rewrite Hfo by done. unfold owned, numOwned in *. lia.
  - intros n Hn. rewrite Hc. by apply Hfo.
Qed.
Print Assumptions redistribute_keeps_mesh_partial.

(** Three parts of a chain of lines; the part of rank 2 has shared nodes of ranks
    0 and 1. *)
Definition ch_l (a b k : nat) : element nat := mk_el Line 1 [a; b] [0; 0] k.
Definition ch_part (ls : list (element nat)) (b e : nat) (sh : list nat) : mesh nat :=
  mk_mesh [(1, mk_dom [[]; []; ls] (Some 1))] {| so_begin := b; so_end := e; so_shared := sh |} [].
Definition chain : list (mesh nat) :=
  [ch_part [ch_l 0 1 0] 0 2 []; ch_part [ch_l 2 3 1] 2 4 []; ch_part [ch_l 1 4 2; ch_l 4 2 3] 4 5 [1; 2]].
Lemma chain_elem ls b e sh x : is_elem (m_domains (ch_part ls b e sh)) x -> x ∈ ls.
Proof.
  intros (id & d & v & Hd & Hv & Hx). cbn in Hd. apply elem_of_list_singleton in Hd. injection Hd as -> ->. cbn in Hv. rewrite !elem_of_cons, elem_of_nil in Hv.
  destruct Hv as [-> |[-> |[-> |[]]]]; [by apply elem_of_nil in Hx..|done].
Qed.
Example chain_distributed : distributed chain 5.
Proof.
  constructor.
  - intros [|[|[|r]]] y [= <-]; cbn; lia.
  - done.
  - intros y Hy. unfold chain in Hy. rewrite !elem_of_cons, elem_of_nil in Hy. destruct Hy as [-> |[-> |[-> |[]]]]; cbn [m_own so_shared ch_part]; (split; [repeat constructor|]);
      intros n Hn; rewrite ?elem_of_cons, elem_of_nil in Hn; [done..|]. unfold owned. cbn. lia.
  - intros y Hy. unfold chain in Hy. rewrite !elem_of_cons, elem_of_nil in Hy. destruct Hy as [-> |[-> |[-> |[]]]]; cbn; apply NoDup_singleton.
  - intros y n Hy (e & He & Hn). unfold chain in Hy. rewrite !elem_of_cons, elem_of_nil in Hy. destruct Hy as [-> |[-> |[-> |[]]]]; apply chain_elem in He;
      rewrite !elem_of_cons, elem_of_nil in He; destruct He as [-> |He]; [|by destruct He| |by destruct He| |destruct He as [-> |[]]]; cbn [ch_l el_nodes] in Hn; rewrite !elem_of_cons, elem_of_nil in Hn;
      unfold owned, ch_part; cbn [m_own so_begin so_end so_shared]; rewrite ?elem_of_cons; lia.
  - intros y id vs e s Hy. unfold chain in Hy. rewrite !elem_of_cons, elem_of_nil in Hy. destruct Hy as [-> |[-> |[-> |[]]]]; cbn; intros Hv; by apply elem_of_nil in Hv.
Qed.
Lemma perm3 (s : list nat) : s = [1; 0; 2] \/ s = [0; 2; 1] -> rank_permutation 3 s s.
Proof.
  intros [-> | ->]; (split; [done|]); (split; [done|]); intros [|[|[|r]]] [|[|[|q]]]; cbn; rewrite ?lookup_nil; split; intros H; try done.
Qed.
(** Ranks 1 and 2 exchanged: the order of the shared nodes is kept. *)
Example chain_kept : rank_permutation (length chain) [0; 2; 1] [0; 2; 1] /\
  (forall y n n' k k', y ∈ chain -> n ∈ so_shared (m_own y) -> n' ∈ so_shared (m_own y) -> n < n' ->
     new_number chain [0; 2; 1] n k -> new_number chain [0; 2; 1] n' k' -> k < k') /\
  exists ys, permuteMesh chain [0; 2; 1] [0; 2; 1] = Ok ys /\
    ys = [ch_part [ch_l 0 1 0] 0 2 []; ch_part [ch_l 1 2 2; ch_l 2 3 3] 2 3 [1; 3]; ch_part [ch_l 3 4 1] 3 5 []].
Proof.
  split; [apply perm3; by right|]. split; [|eexists; split; [vm_compute; reflexivity|reflexivity]].
  intros y n n' k k' Hy Hn Hn' Hlt. unfold chain in Hy. rewrite !elem_of_cons, elem_of_nil in Hy. destruct Hy as [-> |[-> |[-> |[]]]]; [by apply elem_of_nil in Hn..|].
  cbn [m_own so_shared ch_part] in Hn, Hn'. rewrite !elem_of_cons, elem_of_nil in Hn, Hn'. assert (n = 1 /\ n' = 2) as [-> ->] by lia. clear Hn Hn' Hlt.
  intros (q & r & y & bf & Hq & Ho & Hr & Hb & ->) (q' & r' & y' & bf' & Hq' & Ho' & Hr' & Hb' & ->).
  destruct q as [|[|[|q]]]; try discriminate Hq; injection Hq as <-; unfold owned in Ho; cbn in Ho; try lia. destruct q' as [|[|[|q']]]; try discriminate Hq'; injection Hq' as <-; unfold owned in Ho'; cbn in Ho'; try lia.
  destruct r as [|[|[|r]]]; try discriminate Hr. destruct r' as [|[|[|r']]]; try discriminate Hr'.
  cbn in Hb, Hb'. inversion Hb; subst. inversion Hb' as [|? a ? l Ha Hl]; subst. inversion Hl as [|? a' ? l' Ha' Hl']; subst. inversion Hl'; subst. injection Ha as <-. injection Ha' as <-. cbn. lia.
Qed.

(** C38.  Ranks 0 and 1 exchanged.  Node 1 is now node 3 on the rank that owns it,
    and node 2 is node 0; the part of rank 2 has them the other way round: its
    elements are joined to the wrong nodes. *)
Theorem redistribute_refuted : exists ys (y0 y1 y2 : mesh nat),
  distributed chain 5 /\ rank_permutation (length chain) [1; 0; 2] [1; 0; 2] /\ permuteMesh chain [1; 0; 2] [1; 0; 2] = Ok ys /\ ys = [y0; y1; y2] /\
  map el_nodes (all_elems (m_domains y0)) = [[0; 1]] /\ map el_nodes (all_elems (m_domains y1)) = [[2; 3]] /\
  new_number chain [1; 0; 2] 1 3 /\ new_number chain [1; 0; 2] 2 0 /\
  map el_nodes (all_elems (m_domains y2)) = [[0; 4]; [4; 3]].
Proof.
  eexists _, _, _, _. split; [exact chain_distributed|]. split; [apply perm3; by left|]. split; [vm_compute; reflexivity|]. split; [reflexivity|]. split; [done|]. split; [done|].
  split; [|split; [|done]].
  - exists 0, 1. eexists _, [_]. split; [reflexivity|]. split; [unfold owned; cbn; lia|]. split; [done|]. split; [constructor; [reflexivity|constructor]|done].
  - exists 1, 0. eexists _, []. split; [reflexivity|]. split; [unfold owned; cbn; lia|]. split; [done|]. split; [constructor|done].
Qed.
Print Assumptions redistribute_refuted.

(** C38.  The original ids of the local nodes of a part, from the inverse of the
    map original -> number in the partitioned mesh. *)
Theorem old_node_ids {V} (y : mesh V) (old_to_new : list (nat * nat)) :
  NoDup old_to_new.*1 -> NoDup old_to_new.*2 ->
  (forall n, owned y n \/ n ∈ so_shared (m_own y) -> n ∈ old_to_new.*2) ->
  exists l, getOldNodeIds y (invertMap old_to_new) = Ok l /\ length l = so_end (m_own y) - so_begin (m_own y) + length (so_shared (m_own y)) /\
    (forall i, i < so_end (m_own y) - so_begin (m_own y) -> exists o, l !! i = Some o /\ (o, so_begin (m_own y) + i) ∈ old_to_new) /\
    (forall i n, so_shared (m_own y) !! i = Some n -> exists o, l !! (so_end (m_own y) - so_begin (m_own y) + i) = Some o /\ (o, n) ∈ old_to_new).
Proof.
  intros H1 H2 Hin. unfold getOldNodeIds.
  assert (Hf : forall k v, hm_find k old_to_new = Some v -> (k, v) ∈ old_to_new).
  { clear. intros k v. induction old_to_new as [|[k' v'] m IH]; [done|]. cbn. case_decide; [|right; auto]. intros [= ->]. subst. left. }
  assert (Hg : forall k v, (k, v) ∈ old_to_new -> hm_find k old_to_new = Some v).
  { clear -H1. intros k v. induction old_to_new as [|[k' v'] m IH]; [by rewrite elem_of_nil|]. rewrite elem_of_cons. cbn in H1. apply NoDup_cons in H1 as [Hn H1]. cbn. intros [[= -> ->]|H].
    - by rewrite decide_True.
    - case_decide as E; [|auto]. subst. destruct Hn. apply elem_of_list_fmap. by exists (k', v). }
  destruct (map_res_total (at_map (invertMap old_to_new)) (seq (so_begin (m_own y)) (numOwned (m_own y)) ++ so_shared (m_own y))) as [l Hl].
  { intros n Hn. rewrite elem_of_app, elem_of_seq in Hn. assert (Hn' : n ∈ old_to_new.*2) by (apply Hin; unfold owned, numOwned in *; destruct Hn; [left; lia|by right]).
    apply elem_of_list_fmap in Hn' as ([o n'] & -> & Ho). exists o. unfold at_map. cbn [snd]. by rewrite (proj2 (invert_ok _ H1 H2 o n') (Hg _ _ Ho)). }
  exists l. split; [done|]. apply map_res_inv in Hl. split; [|split].
  - rewrite <- (Forall2_length _ _ _ Hl), app_length, seq_length. done.
  - intros i Hi. destruct (Forall2_lookup_l _ _ _ i (so_begin (m_own y) + i) Hl) as (o & Ho & Ha). { rewrite lookup_app_l by (rewrite seq_length; done). by apply lookup_seq. }
    exists o. split; [done|]. apply Hf, (invert_ok _ H1 H2). unfold at_map in Ha. destruct (hm_find _ _); congruence.
  - intros i n Hi. destruct (Forall2_lookup_l _ _ _ (so_end (m_own y) - so_begin (m_own y) + i) n Hl) as (o & Ho & Ha).
    { rewrite lookup_app_r by (rewrite seq_length; unfold numOwned; lia). rewrite seq_length. unfold numOwned. replace (_ + i - _) with i by lia. done. }
    exists o. split; [done|]. apply Hf, (invert_ok _ H1 H2). unfold at_map in Ha. destruct (hm_find _ _); congruence.
Qed.
Print Assumptions old_node_ids.
Example old_node_ids_example : getOldNodeIds (ch_part [ch_l 1 4 2; ch_l 4 2 3] 4 5 [1; 2]) (invertMap [(9, 0); (7, 1); (5, 2); (6, 3); (8, 4)]) = Ok [8; 7; 5].
Proof. reflexivity. Qed.
