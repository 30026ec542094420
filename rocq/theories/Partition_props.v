(** Properties C18-C21: partitioning a mesh. *)
From Verif Require Import Base StdAlgo Ownership_model Elem_model Elem_spec Elem_proofs Mesh_model Mesh_spec Mesh_proofs Mesh_props Helpers_model Helpers_spec Helpers_props Partition_model Partition_spec Partition1_proofs Partition2_proofs Partition6_proofs.

(** C18, C19, C21.  Whatever METIS answers (in range) and in whatever order the
    parallel loops run, partitioning a mesh whose boundary elements are each the
    side of an element of exactly one domain succeeds, and the parts form a
    partition in the sense of [partition_of]: every element of every domain,
    boundaries included, is in exactly one part with its nodes renumbered by one
    bijection; boundary elements are with an element they are a side of. *)
Theorem partition_is_partition {V} (orders : list nat) (x : mesh V) (N n_parts : nat) (w : list nat) (E : env (V := V)) :
  unpartitioned orders x N -> one_parent x -> env_ok E -> 1 <= n_parts -> w = [] \/ length w = N ->
  exists parts f, partitionMesh orders E x n_parts w = Ok parts /\ partition_of orders x N n_parts parts f.
Proof. intros Hun Hone HE Hnp Hw. exact (front_ok orders x N n_parts w E Hun HE Hnp Hw Hone). Qed.
Print Assumptions partition_is_partition.
(** C18.  The implementation also reports the renumbering, and domain elements
    are in the part METIS chose for them. *)
Theorem partition_obeys_metis {V} (orders : list nat) (x : mesh V) (N n_parts : nat) (w : list nat) (E : env (V := V)) :
  unpartitioned orders x N -> one_parent x -> env_ok E -> 1 <= n_parts -> w = [] \/ length w = N ->
  exists parts nm f a1 a2 a3 a4 a5 ep np, partitionMeshImpl orders E x n_parts (m_bnds x).*1 w = Ok (parts, nm) /\
    partition_of orders x N n_parts parts f /\ (forall n, n < N -> (n, f n) ∈ nm) /\
    e_metis E a1 a2 a3 a4 a5 n_parts = Ok (ep, np) /\
    forall k e p, visit_elems (m_domains x) (getDomainIds (m_domains x) (m_bnds x).*1) !! k = Some e -> ep !! k = Some p ->
      exists y id, parts !! p = Some y /\ id ∉ (m_bnds x).*1 /\ in_domain (m_domains y) id (reindex_el f e).
Proof. intros Hun Hone HE Hnp Hw. exact (partition_impl_ok orders x N n_parts w E Hun HE Hnp Hw Hone). Qed.
Print Assumptions partition_obeys_metis.
(** C19.  In such a partition every node is owned by exactly one part. *)
Lemma sum_take_S (l : list nat) p s : l !! p = Some s -> sum (take (S p) l) = sum (take p l) + s.
Proof. intros H. rewrite (take_S_r _ _ _ H), sum_app. cbn. lia. Qed.
Lemma sum_take_mono (l : list nat) p q : p <= q -> sum (take p l) <= sum (take q l).
Proof. intros H. replace q with (p + (q - p)) by lia. rewrite <- (take_take_drop l p (q - p)), sum_app. lia. Qed.
Lemma range_pick (l : list nat) n : n < sum l -> exists p s, l !! p = Some s /\ sum (take p l) <= n < sum (take p l) + s.
Proof.
  induction l as [|a l IH] using rev_ind; intros H; [cbn in H; lia|]. rewrite sum_app in H. destruct (decide (n < sum l)) as [Hn|Hn].
  - destruct (IH Hn) as (p & s & Hp & Hr). exists p, s. rewrite take_app_le by (apply lookup_lt_Some in Hp; lia). split; [by apply lookup_app_l_Some|done].
  - exists (length l), a. split; [by apply list_lookup_middle|]. rewrite take_app. cbn in H. lia.
Qed.
Theorem partition_single_owner {V} (orders : list nat) (x : mesh V) (N n_parts : nat) (parts : list (mesh V)) (f : nat -> nat) (n : nat) :
  partition_of orders x N n_parts parts f -> n < N ->
  exists p y, parts !! p = Some y /\ owned y n /\ is_node (m_domains y) n /\ forall p' y', parts !! p' = Some y' -> owned y' n -> p' = p.
Proof.
  intros HP Hn. set (sz := fun y : mesh V => so_end (m_own y) - so_begin (m_own y)).
  assert (Hown : forall p y, parts !! p = Some y -> owned y n <-> sum (take p (map sz parts)) <= n < sum (take p (map sz parts)) + sz y).
  { intros p y Hy. destruct (po_begin _ _ _ _ _ _ HP p y Hy) as [H1 H2]. rewrite firstn_map. change (sum (map (fun y => so_end (m_own y) - so_begin (m_own y)) (take p parts))) with (sum (map sz (take p parts))) in H2. assert (Hs : sz y = so_end (m_own y) - so_begin (m_own y)) by done. unfold owned.
    generalize dependent (sum (map sz (take p parts))). intros k H2. rewrite Hs. split; intros H; (rewrite <- H2 in *; lia) || (rewrite <- H2; lia). }
  assert (Hz : forall p y, parts !! p = Some y -> map sz parts !! p = Some (sz y)). { intros p y Hy. change (map sz parts) with (sz <$> parts). by rewrite list_lookup_fmap, Hy. }
  pose proof (po_total _ _ _ _ _ _ HP) as Ht. fold sz in Ht. destruct (range_pick (map sz parts) n) as (p & s & Hp & Hr); [lia|].
  destruct (lookup_lt_is_Some_2 parts p) as [y Hy]. { apply lookup_lt_Some in Hp. by rewrite map_length in Hp. }
  rewrite (Hz p y Hy) in Hp. injection Hp as <-. exists p, y. split; [done|]. assert (Ho : owned y n) by (by apply (Hown p)). split; [done|]. split.
  - eapply po_uses; [exact HP|by eapply elem_of_list_lookup_2|done].
  - intros p' y' Hy' Ho'. apply (Hown p' y' Hy') in Ho'. pose proof (Hz p' y' Hy') as Hz'. pose proof (Hz p y Hy) as Hz0. destruct (lt_eq_lt_dec p' p) as [[Hlt|Heq]|Hlt]; [|done|].
    + pose proof (sum_take_mono (map sz parts) (S p') p Hlt) as Hm. rewrite (sum_take_S _ _ _ Hz') in Hm. lia.
    + pose proof (sum_take_mono (map sz parts) (S p) p' Hlt) as Hm. rewrite (sum_take_S _ _ _ Hz0) in Hm. lia.
Qed.
Print Assumptions partition_single_owner.

(** C21.  Partitioning throws if a boundary element is a side of elements of two
    domains while every other is a side of some element (the mesh constructor
    guarantees the latter), and if a boundary element is the side of no element
    while none is a side of elements of two domains. *)
Theorem partition_rejects_interface_partial {V} (orders : list nat) (x : mesh V) (N n_parts : nat) (w : list nat) (E : env (V := V)) (b : nat) (e e1 e2 : element V) (id1 id2 s1 s2 : nat) :
  unpartitioned orders x N -> env_ok E -> 1 <= n_parts -> w = [] \/ length w = N ->
  (forall b e, b ∈ (m_bnds x).*1 -> in_domain (m_domains x) b e -> exists id e' s, side_in (m_domains x) id e e' s) ->
  b ∈ (m_bnds x).*1 -> in_domain (m_domains x) b e -> side_in (m_domains x) id1 e e1 s1 -> side_in (m_domains x) id2 e e2 s2 -> id1 <> id2 ->
  partitionMeshImpl orders E x n_parts (m_bnds x).*1 w = Throw.
Proof. intros Hun HE Hnp Hw. exact (throw_interface orders x N n_parts w E Hun HE Hnp Hw b e id1 id2 e1 e2 s1 s2). Qed.
Print Assumptions partition_rejects_interface_partial.
Theorem partition_rejects_orphan_partial {V} (orders : list nat) (x : mesh V) (N n_parts : nat) (w : list nat) (E : env (V := V)) (b : nat) (e : element V) :
  unpartitioned orders x N -> env_ok E -> 1 <= n_parts -> w = [] \/ length w = N ->
  (forall b e id1 id2 e1 e2 s1 s2, b ∈ (m_bnds x).*1 -> in_domain (m_domains x) b e -> side_in (m_domains x) id1 e e1 s1 -> side_in (m_domains x) id2 e e2 s2 -> id1 = id2) ->
  b ∈ (m_bnds x).*1 -> in_domain (m_domains x) b e -> (forall id e' s, ~ side_in (m_domains x) id e e' s) ->
  partitionMeshImpl orders E x n_parts (m_bnds x).*1 w = Throw.
Proof. intros Hun HE Hnp Hw. exact (throw_orphan orders x N n_parts w E Hun HE Hnp Hw b e). Qed.
Print Assumptions partition_rejects_orphan_partial.

(** C20.  The condensation keeps the nodes on element boundaries: [rev] lists
    them in ascending order, [fwd] inverts it, other nodes have 0. *)
Theorem condensation_lossless {V} (N : nat) (order : list (element V)) :
  (forall e, e ∈ order -> typed_el e /\ forall n, n ∈ el_nodes e -> n < N) ->
  exists fwd rev, makeNodeCondensationMaps N order = Ok (fwd, rev) /\ length fwd = N /\ StronglySorted lt rev /\
    (forall n, n ∈ rev <-> exists e, e ∈ order /\ bnd_node e n) /\
    (forall c n, rev !! c = Some n -> fwd !! n = Some c) /\ (forall n, n < N -> n ∉ rev -> fwd !! n = Some 0).
Proof. exact (condensation_ok N order). Qed.
Print Assumptions condensation_lossless.
(** C20.  Compacting the weights in place gives condensed node c the weight of
    the node it stands for. *)
Theorem weights_compacted (w rev : list nat) : StronglySorted lt rev -> (forall n, n ∈ rev -> n < length w) ->
  exists w', condenseNodeWeights w rev = Ok w' /\ length w' = length w /\ forall c n, rev !! c = Some n -> w' !! c = w !! n.
Proof.
  intros Hs Hlt. unfold condenseNodeWeights. destruct (Nat.eqb_spec (length w) 0) as [H0|]; [|exact (weights_ok w rev Hs Hlt)].
  exists w. split; [done|]. split; [done|]. intros c n Hc. apply elem_of_list_lookup_2, Hlt in Hc. lia.
Qed.
Print Assumptions weights_compacted.
(** C20.  The element-to-node table given to METIS lists, for each element in
    visiting order, the condensed ids of its boundary nodes, each once. *)
Theorem metis_table {V} (m : dmap (domain V)) (fwd rev ids : list nat) :
  (forall e, e ∈ visit_elems m ids -> typed_el e /\ forall n, bnd_node e n -> exists c, fwd !! n = Some c /\ rev !! c = Some n) ->
  exists segs e_ptr, prepMetisInput m fwd ids = Ok (concat segs, e_ptr) /\
    Forall2 (fun e seg => exists inds ns, NoDup inds /\ (forall i, i ∈ inds <-> exists s, on_side (el_type e) (el_order e) s i) /\
      Forall2 (fun i n => el_nodes e !! i = Some n) inds ns /\ Forall2 (fun c n => rev !! c = Some n) seg ns) (visit_elems m ids) segs /\
    length e_ptr = S (length segs) /\ forall k, k <= length segs -> e_ptr !! k = Some (length (concat (take k segs))).
Proof. exact (prep_ok m fwd rev ids). Qed.
Print Assumptions metis_table.
(** C20.  Un-condensing: a node inside an element goes to the element's part, a
    boundary node to the part of its condensed id. *)
Theorem uncondensing {V} (N : nat) (epart npart rev : list nat) (m : dmap (domain V)) (ids : list nat) :
  NoDup rev -> length npart = length rev -> length epart = length (visit_elems m ids) -> (forall n, n ∈ rev -> n < N) ->
  (forall e, e ∈ visit_elems m ids -> typed_el e /\ forall n, n ∈ el_nodes e -> n < N) ->
  exists q, uncondenseNodes N epart npart rev m ids = Ok q /\ length q = N /\
    forall n, n < N ->
      (exists k e p, visit_elems m ids !! k = Some e /\ int_node e n /\ epart !! k = Some p /\ q !! n = Some (Some p)) \/
      (forall e, e ∈ visit_elems m ids -> ~ int_node e n) /\
        ((exists c p, rev !! c = Some n /\ npart !! c = Some p /\ q !! n = Some (Some p)) \/ n ∉ rev /\ q !! n = Some None).
Proof. exact (uncondense_ok N epart npart rev m ids). Qed.
Print Assumptions uncondensing.

(** ** Examples *)
Definition ex_env (assign : list (nat * nat * element nat) -> list (nat * nat * element nat)) (ep np : nat -> nat) : env (V := nat) :=
  {| e_metis n_els n_nodes _ _ _ n := Ok (map (fun i => ep i `mod` n) (seq 0 n_els), map (fun i => np i `mod` n) (seq 0 n_nodes));
     e_sort := isort; e_visit l := reverse l; e_assign := assign; e_views l := l; e_hash l := reverse l |}.
Lemma ex_env_ok assign ep np : (forall l, assign l ≡ₚ l) -> env_ok (ex_env assign ep np).
Proof.
  intros Ha. split; [|exact isort_sorts|intros l; apply reverse_Permutation|done|done|intros l; apply reverse_Permutation].
  intros n_els n_nodes e_ptr e_ind w n Hn. do 2 eexists. split; [done|]. rewrite !map_length, !seq_length. split; [done|]. split; [done|].
  split; apply Forall_forall; intros p Hp; change (map ?g ?l) with (g <$> l) in Hp; apply elem_of_list_fmap in Hp as (i & -> & _); by apply Nat.mod_upper_bound; lia.
Qed.
(** The two quadrilaterals of [mesh_example]. *)
Definition ex_mesh (m : dmap (domain nat)) : mesh nat :=
  mk_mesh m {| so_begin := 0; so_end := 6; so_shared := [] |} [(1, match makeBoundaryElementViews (fun l => l) m [1] with Ok v => v | _ => [] end)].
Lemma ex_unpartitioned (m : dmap (domain nat)) : valid_doms [1] m -> m = ex_doms -> unpartitioned [1] (ex_mesh m) 6.
Proof.
  intros Hv Hm. pose proof mesh_example as (_ & _ & Hn & _). rewrite Hm in *. clear m Hm.
  assert (Hcase : forall p : nat * domain nat, p ∈ ex_doms -> p = (0, mk_dom [[]; [ex_q [0; 1; 3; 4] 0; ex_q [1; 2; 4; 5] 1]; []] (Some 2)) \/
    p = (1, mk_dom [[]; []; [ex_l [1; 0] 2; ex_l [1; 2] 3]] (Some 1))).
  { intros p Hp. unfold ex_doms in Hp. rewrite !elem_of_cons, elem_of_nil in Hp. tauto. }
  assert (H0 : (0, mk_dom [[]; [ex_q [0; 1; 3; 4] 0; ex_q [1; 2; 4; 5] 1]; []] (Some 2)) ∈ ex_doms) by left.
  split.
  - apply NoDup_singleton.
  - exact Hv.
  - apply (bool_decide_unpack _). by vm_compute.
  - done.
  - lia.
  - intros n H. apply Hn in H. lia.
  - intros n H. exists 0. change ((m_bnds (ex_mesh ex_doms)).*1) with [1]. destruct (decide (n ∈ [0; 1; 3; 4])) as [Hi|Hi].
    + exists (ex_q [0; 1; 3; 4] 0). split; [by apply (bool_decide_unpack _)|]. split; [|done]. do 2 eexists. split; [exact H0|]. split; [right; left|left].
    + exists (ex_q [1; 2; 4; 5] 1). split; [by apply (bool_decide_unpack _)|]. split; [do 2 eexists; split; [exact H0|]; split; [right; left|right; left]|].
      cbn [ex_q el_nodes]. rewrite !elem_of_cons, elem_of_nil in *. lia.
  - split; [apply NoDup_singleton|]. intros b Hb. change ((m_bnds (ex_mesh ex_doms)).*1) with [1] in Hb. apply elem_of_list_singleton in Hb as ->. right. left.
  - change ((m_bnds (ex_mesh ex_doms)).*1) with [1]. change (m_domains (ex_mesh ex_doms)) with ex_doms. split.
    + intros id d Hid Hd. apply elem_of_list_singleton in Hid as ->. apply Hcase in Hd as [[=]|[= ->]]. exists 1. split; [done|]. do 2 eexists. split; [exact H0|done].
    + intros b d id d' dim Hb Hd Hdim Hd' Hdim' Hid. apply elem_of_list_singleton in Hb as ->. apply elem_of_list_singleton in Hid as ->.
      apply Hcase in Hd as [[=]|[= ->]]. apply Hcase in Hd' as [[=]|[= ->]]. injection Hdim as <-. done.
Qed.
Lemma ex_one_parent : one_parent (ex_mesh ex_doms).
Proof.
  pose proof mesh_example as (_ & Hv & _). intros b e Hb He. change ((m_bnds (ex_mesh ex_doms)).*1) with [1] in Hb. change (m_domains (ex_mesh ex_doms)) with ex_doms in *.
  apply elem_of_list_singleton in Hb as ->.
  assert (He' : e ∈ [ex_l [1; 0] 2; ex_l [1; 2] 3]).
  { destruct He as (d & v & Hd & Hvv & He). unfold ex_doms in Hd. rewrite !elem_of_cons, elem_of_nil in Hd. destruct Hd as [[=]|[[= ->]|[]]]. cbn in Hvv. rewrite !elem_of_cons, elem_of_nil in Hvv.
    destruct Hvv as [->|[->|[->|[]]]]; [by apply elem_of_nil in He|by apply elem_of_nil in He|done]. }
  exists 0. split.
  - destruct (find_dom_ok [1] ex_doms Hv e 0) as [[Hf _]|(e' & s & _ & Ha)]; [|by exists e', s].
    rewrite !elem_of_cons, elem_of_nil in He'. destruct He' as [->|[->|[]]]; vm_compute in Hf; done.
  - intros id' (e' & s & Hin & Hdim & _). destruct Hin as (d & v & Hd & Hvv & Hin). unfold ex_doms in Hd. rewrite !elem_of_cons, elem_of_nil in Hd. destruct Hd as [[= -> _]|[[= -> ->]|[]]]; [done|].
    cbn in Hvv. rewrite !elem_of_cons, elem_of_nil in Hvv. destruct Hvv as [->|[->|[->|[]]]]; [by apply elem_of_nil in Hin|by apply elem_of_nil in Hin|].
    exfalso. assert (Hne : native_dim (el_type e) = 1) by (rewrite !elem_of_cons, elem_of_nil in He'; by destruct He' as [->|[->|[]]]).
    rewrite !elem_of_cons, elem_of_nil in Hin. destruct Hin as [->|[->|[]]]; cbn in Hdim; lia.
Qed.
(** One element per part; METIS puts the shared nodes in either part and node 0
    in a part that has no element with it. *)
Example partition_example :
  let E := ex_env reverse (fun i => i) (fun i => i + 1) in
  unpartitioned [1] (ex_mesh ex_doms) 6 /\ one_parent (ex_mesh ex_doms) /\ env_ok E /\
  exists y0 y1, partitionMesh [1] E (ex_mesh ex_doms) 2 [] = Ok [y0; y1] /\
    m_domains y0 = [(0, mk_dom [[]; [ex_q [0; 1; 2; 4] 0]; []] (Some 2)); (1, mk_dom [[]; []; [ex_l [1; 0] 2]] (Some 1))].
Proof.
  cbv zeta. split; [apply ex_unpartitioned; [|done]; apply mesh_example|]. split; [exact ex_one_parent|]. split; [apply ex_env_ok; intros l; apply reverse_Permutation|].
  do 2 eexists. split; vm_compute; reflexivity.
Qed.
(** C21.  A boundary element inside a domain, a side of two of its elements, is
    accepted, although it is not the side of exactly one domain element. *)
Definition ex_doms_inner : dmap (domain nat) :=
  [(0, mk_dom [[]; [ex_q [0; 1; 3; 4] 0; ex_q [1; 2; 4; 5] 1]; []] (Some 2)); (1, mk_dom [[]; []; [ex_l [1; 4] 2]] (Some 1))].
Theorem partition_inner_boundary_refuted :
  let E := ex_env (fun l => l) (fun i => i) (fun i => i) in let b := ex_l [1; 4] 2 in
  env_ok E /\ exists x parts, make_mesh1 (fun l => l) ex_doms_inner [1] = Ok x /\ partitionMesh [1] E x 2 [] = Ok parts /\
    in_domain ex_doms_inner 1 b /\ side_in ex_doms_inner 0 b (ex_q [0; 1; 3; 4] 0) 3 /\ side_in ex_doms_inner 0 b (ex_q [1; 2; 4; 5] 1) 2 /\
    length (concat (map (fun y => dom_elems (m_domains y) 1) parts)) = 1.
Proof.
  cbv zeta. split; [by apply ex_env_ok|]. do 2 eexists. split; [vm_compute; reflexivity|]. split; [vm_compute; reflexivity|].
  assert (H0 : forall e, e ∈ [ex_q [0; 1; 3; 4] 0; ex_q [1; 2; 4; 5] 1] -> in_domain ex_doms_inner 0 e). { intros e He. do 2 eexists. split; [left|]. split; [right; left|done]. }
  split; [do 2 eexists; split; [right; left|split; [right; right; left|left]]|]. split; [|split; [|vm_compute; reflexivity]].
  - split; [apply H0; left|]. split; [done|]. exists [1; 3], [1; 4]. split; [apply (bool_decide_unpack _); by vm_compute|]. split; [|split; [by repeat constructor|split; [done|cbn; lia]]].
    intros i. rewrite !elem_of_cons, elem_of_nil. split; [intros [->|[->|[]]]; (split; [cbn; lia|done])|].
    intros [Hi H]. do 4 (destruct i as [|i]; [vm_compute in H; first [done|lia]|]). cbn in Hi. lia.
  - split; [apply H0; right; left|]. split; [done|]. exists [0; 2], [1; 4]. split; [apply (bool_decide_unpack _); by vm_compute|]. split; [|split; [by repeat constructor|split; [done|cbn; lia]]].
    intros i. rewrite !elem_of_cons, elem_of_nil. split; [intros [->|[->|[]]]; (split; [cbn; lia|done])|].
    intros [Hi H]. do 4 (destruct i as [|i]; [vm_compute in H; first [done|lia]|]). cbn in Hi. lia.
Qed.
Print Assumptions partition_inner_boundary_refuted.
(** C21.  A boundary whose elements are sides of elements of another boundary (an
    edge with a boundary condition in a 3D mesh) makes partitioning fail although
    the mesh itself is accepted. *)
Theorem partition_edge_boundary_refuted :
  let m : dmap (domain nat) := [(0, mk_dom [[mk_el Hex 1 [0; 1; 2; 3; 4; 5; 6; 7] [0; 0; 0; 0; 0; 0; 0; 0] 0]; []; []] (Some 3));
    (1, mk_dom [[]; [ex_q [0; 1; 2; 3] 1]; []] (Some 2)); (2, mk_dom [[]; []; [ex_l [0; 1] 2]] (Some 1))] in
  let E := ex_env (fun l => l) (fun i => i) (fun i => i) in
  env_ok E /\ exists x, make_mesh1 (fun l => l) m [1; 2] = Ok x /\ partitionMesh [1] E x 2 [] = Throw /\
    forall b e, b ∈ [1; 2] -> in_domain m b e -> exists e' s, attached m e e' s.
Proof.
  cbv zeta. set (m := [(0, _); _; _] : dmap (domain nat)). split; [by apply ex_env_ok|].
  assert (Hv : valid_doms [1] m).
  { split; [repeat constructor|]. constructor; [|constructor; [|constructor; [|constructor]]]; (split; [repeat constructor|]); cbn [snd]; intros v e Hv He;
      cbn [d_els] in Hv; rewrite !elem_of_cons, elem_of_nil in Hv; destruct Hv as [->|[->|[->|[]]]]; try (by apply elem_of_nil in He); apply elem_of_list_singleton in He as ->; done. }
  eexists. split; [vm_compute; reflexivity|]. split; [vm_compute; reflexivity|].
  assert (H : exists views, makeBoundaryElementViews (fun l => l) m [1; 2] = Ok views) by (eexists; vm_compute; reflexivity).
  apply (views_ok_iff [1]) in H as [_ H]; [|done|done]. intros b e Hb He. apply H, visit_elem; [by apply strict_nodup, Hv|eauto].
Qed.
Print Assumptions partition_edge_boundary_refuted.
(** The order of the elements of a boundary in a part is up to the parallel loop,
    so that their ids need not ascend and find(id) misses elements. *)
Theorem partition_boundary_order_refuted :
  let E := ex_env reverse (fun _ => 0) (fun i => i) in
  env_ok E /\ exists y0 y1, partitionMesh [1] E (ex_mesh ex_doms) 2 [] = Ok [y0; y1] /\ ascending ex_doms /\ ~ ascending (m_domains y0) /\
    exists e, is_elem (m_domains y0) e /\ find_id (el_id e) (m_domains y0) = Ok None.
Proof.
  cbv zeta. split; [apply ex_env_ok; intros l; apply reverse_Permutation|]. do 2 eexists. split; [vm_compute; reflexivity|]. split; [apply mesh_example|]. split.
  - intros H. specialize (H 1). cbn [m_domains] in H. assert (Hc := H _ [ex_l [1; 2] 3; ex_l [1; 0] 2] ltac:(right; left) ltac:(right; right; left)).
    inversion Hc as [|? ? _ Hf]. cbn in Hf. apply Forall_inv in Hf. lia.
  - exists (ex_l [1; 0] 2). split; [|vm_compute; reflexivity]. exists 1. do 2 eexists. split; [right; left|]. split; [right; right; left|right; left].
Qed.
Print Assumptions partition_boundary_order_refuted.
(** Two quadrilaterals in two domains and one boundary element: the edge between
    them is rejected, and so is a line that is an edge of neither. *)
Definition ex_two (a b : nat) : dmap (domain nat) :=
  [(0, mk_dom [[]; [ex_q [0; 1; 3; 4] 0]; []] (Some 2)); (1, mk_dom [[]; []; [ex_l [a; b] 2]] (Some 1)); (2, mk_dom [[]; [ex_q [1; 2; 4; 5] 1]; []] (Some 2))].
Definition ex_two_mesh (a b : nat) : mesh nat := mk_mesh (ex_two a b) {| so_begin := 0; so_end := 6; so_shared := [] |} [(1, [])].
Lemma ex_two_in a b id e : in_domain (ex_two a b) id e <-> id = 0 /\ e = ex_q [0; 1; 3; 4] 0 \/ id = 1 /\ e = ex_l [a; b] 2 \/ id = 2 /\ e = ex_q [1; 2; 4; 5] 1.
Proof.
  split.
  - intros (d & v & Hd & Hv & He). unfold ex_two in Hd. rewrite !elem_of_cons, elem_of_nil in Hd. destruct Hd as [[= -> ->]|[[= -> ->]|[[= -> ->]|[]]]]; cbn [d_els] in Hv; rewrite !elem_of_cons, elem_of_nil in Hv;
      destruct Hv as [->|[->|[->|[]]]]; try (by apply elem_of_nil in He); apply elem_of_list_singleton in He as ->; eauto.
  - intros [[-> ->]|[[-> ->]|[-> ->]]]; do 2 eexists; (split; [|split; [|left]]).
    + left. + right; left. + right; left. + right; right; left. + right; right; left. + right; left.
Qed.
Lemma ex_two_unpartitioned a b : a < 6 -> b < 6 -> unpartitioned [1] (ex_two_mesh a b) 6.
Proof.
  intros Ha Hb. split; unfold ex_two_mesh; cbn [m_domains m_own m_bnds]; change ([(1, [])] : dmap (list (element nat * nat))).*1 with [1] in *.
  - apply NoDup_singleton.
  - split; [repeat constructor|]. constructor; [|constructor; [|constructor; [|constructor]]]; (split; [repeat constructor|]); cbn [snd]; intros v e Hv He;
      cbn [d_els] in Hv; rewrite !elem_of_cons, elem_of_nil in Hv; destruct Hv as [->|[->|[->|[]]]]; try (by apply elem_of_nil in He); apply elem_of_list_singleton in He as ->; done.
  - change (NoDup [0; 2; 1]). apply (bool_decide_unpack _). by vm_compute.
  - done.
  - lia.
  - intros n (e & (id & He) & Hn). apply ex_two_in in He as [[_ ->]|[[_ ->]|[_ ->]]]; cbn [ex_q ex_l el_nodes] in Hn; rewrite !elem_of_cons, elem_of_nil in Hn; lia.
  - intros n H. destruct (decide (n ∈ [0; 1; 3; 4])) as [Hi|Hi].
    + exists 0, (ex_q [0; 1; 3; 4] 0). split; [by apply (bool_decide_unpack _)|]. split; [|done]. apply ex_two_in. auto.
    + exists 2, (ex_q [1; 2; 4; 5] 1). split; [by apply (bool_decide_unpack _)|]. split; [apply ex_two_in; auto|]. cbn [ex_q el_nodes]. rewrite !elem_of_cons, elem_of_nil in *. lia.
  - split; [apply NoDup_singleton|]. intros i Hi. apply elem_of_list_singleton in Hi as ->. right. left.
  - split.
    + intros id d Hid Hd. apply elem_of_list_singleton in Hid as ->. unfold ex_two in Hd. rewrite !elem_of_cons, elem_of_nil in Hd. destruct Hd as [[=]|[[= ->]|[[=]|[]]]]. exists 1. split; [done|]. do 2 eexists. split; [left|done].
    + intros i d id d' dim Hi Hd Hdim Hd' Hdim' Hid. apply elem_of_list_singleton in Hi as ->. apply elem_of_list_singleton in Hid as ->.
      unfold ex_two in Hd, Hd'. rewrite !elem_of_cons, elem_of_nil in Hd, Hd'. destruct Hd as [[=]|[[= ->]|[[=]|[]]]]. destruct Hd' as [[=]|[[= ->]|[[=]|[]]]]. injection Hdim as <-. done.
Qed.
Lemma ex_two_valid a b : a < 6 -> b < 6 -> valid_doms [1] (ex_two a b).
Proof. intros Ha Hb. apply (un_valid _ _ _ (ex_two_unpartitioned a b Ha Hb)). Qed.
Example partition_interface_example :
  let x := ex_two_mesh 1 4 in let m := m_domains x in let e := ex_l [1; 4] 2 in
  unpartitioned [1] x 6 /\ (forall b e, b ∈ (m_bnds x).*1 -> in_domain m b e -> exists id e' s, side_in m id e e' s) /\
  in_domain m 1 e /\ (exists e1 s1 e2 s2, side_in m 0 e e1 s1 /\ side_in m 2 e e2 s2) /\
  partitionMeshImpl [1] (ex_env reverse (fun i => i) (fun i => i)) x 2 [1] [] = Throw.
Proof.
  cbv zeta. cbn [ex_two_mesh m_domains m_bnds]. assert (Hv : valid_doms [1] (ex_two 1 4)) by (apply ex_two_valid; lia).
  destruct (find_dom_ok [1] _ Hv (ex_l [1; 4] 2) 0) as [[Hf _]|(e1 & s1 & _ & H1)]; [vm_compute in Hf; done|].
  destruct (find_dom_ok [1] _ Hv (ex_l [1; 4] 2) 2) as [[Hf _]|(e2 & s2 & _ & H2)]; [vm_compute in Hf; done|].
  split; [apply ex_two_unpartitioned; lia|]. split; [|split; [|split; [|vm_compute; reflexivity]]].
  - intros b e Hb He. apply elem_of_list_singleton in Hb as ->. apply ex_two_in in He as [[? _]|[[_ ->]|[? _]]]; [done| |done]. by exists 0, e1, s1.
  - apply ex_two_in. auto.
  - by exists e1, s1, e2, s2.
Qed.
Example partition_orphan_example :
  let x := ex_two_mesh 0 5 in let m := m_domains x in let e := ex_l [0; 5] 2 in
  unpartitioned [1] x 6 /\ in_domain m 1 e /\ (forall id e' s, ~ side_in m id e e' s) /\
  (forall b e id1 id2 e1 e2 s1 s2, b ∈ (m_bnds x).*1 -> in_domain m b e -> side_in m id1 e e1 s1 -> side_in m id2 e e2 s2 -> id1 = id2) /\
  partitionMeshImpl [1] (ex_env reverse (fun i => i) (fun i => i)) x 2 [1] [] = Throw.
Proof.
  cbv zeta. cbn [ex_two_mesh m_domains m_bnds]. assert (Hv : valid_doms [1] (ex_two 0 5)) by (apply ex_two_valid; lia).
  assert (Hno : forall id e' s, ~ side_in (ex_two 0 5) id (ex_l [0; 5] 2) e' s).
  { intros id e' s Hs. pose proof Hs as (Hin & _). apply ex_two_in in Hin as [[-> _]|[[-> _]|[-> _]]].
    - destruct (find_dom_ok [1] _ Hv (ex_l [0; 5] 2) 0) as [[_ Hn]|(e1 & s1 & Hf & _)]; [exact (Hn _ _ Hs)|vm_compute in Hf; done].
    - destruct (find_dom_ok [1] _ Hv (ex_l [0; 5] 2) 1) as [[_ Hn]|(e1 & s1 & Hf & _)]; [exact (Hn _ _ Hs)|vm_compute in Hf; done].
    - destruct (find_dom_ok [1] _ Hv (ex_l [0; 5] 2) 2) as [[_ Hn]|(e1 & s1 & Hf & _)]; [exact (Hn _ _ Hs)|vm_compute in Hf; done]. }
  split; [apply ex_two_unpartitioned; lia|]. split; [apply ex_two_in; auto|]. split; [done|]. split; [|vm_compute; reflexivity].
  intros b e id1 id2 e1 e2 s1 s2 Hb He H1. apply elem_of_list_singleton in Hb as ->. apply ex_two_in in He as [[? _]|[[_ ->]|[? _]]]; [done| |done]. by destruct (Hno id1 e1 s1).
Qed.
(** Condensation of the order 2 quadrilateral 0..8 with node 4 inside. *)
Example condensation_example : let e := mk_el Quad 2 [0; 1; 2; 3; 4; 5; 6; 7; 8] [0; 0; 0; 0] 0 in
  typed_el e /\ makeNodeCondensationMaps 9 [e] = Ok ([0; 1; 2; 3; 0; 4; 5; 6; 7], [0; 1; 2; 3; 5; 6; 7; 8]) /\
  condenseNodeWeights [10; 11; 12; 13; 14; 15; 16; 17; 18] [0; 1; 2; 3; 5; 6; 7; 8] = Ok [10; 11; 12; 13; 15; 16; 17; 18; 18] /\
  uncondenseNodes 9 [7] [0; 1; 2; 3; 4; 5; 6; 0] [0; 1; 2; 3; 5; 6; 7; 8] [(0, mk_dom [[e]] (Some 2))] [0] = Ok (map Some [0; 1; 2; 3; 7; 4; 5; 6; 0]).
Proof. split; [done|]. vm_compute. done. Qed.
