(** C80: merge identifies nodes by position. *)
From Coq Require Import QArith Qabs.
From Verif Require Import Base StdAlgo Ownership_model Elem_model Elem_spec Mesh_model Mesh_spec Mesh_proofs Prim_model Prim_spec Merge_model Merge_spec Spatial_model Match_model Match_spec Match_proofs Match2_proofs Match3_proofs Match4_proofs Match5_proofs.
Local Open Scope nat_scope.

(** C80.  Provided lround gives some number that is not extreme for NaN, the search for
    common nodes finds only boundary nodes nearer than the tolerance, and finds a partner
    for each boundary node of the second mesh that is exactly where one of the first is. *)
Theorem match_existing_partial odd root sched order (x1 x2 : mesh pt) n1 k1 n2 k2 loc1 loc2 :
  (min64 < odd None < max64)%Z -> (forall l, sched l ≡ₚ l) -> (forall l, order l ≡ₚ l) ->
  whole_mesh x1 n1 k1 -> whole_mesh x2 n2 k2 -> located x1 loc1 -> located x2 loc2 ->
  (forall b, boundary_node x1 b -> moderate (loc1 b)) -> (forall a, boundary_node x2 a -> moderate (loc2 a)) ->
  exists mm, match_map odd root sched order x1 x2 = Ok mm /\ matching mm n1 n2 /\
    (forall a b, (a, b) ∈ mm -> boundary_node x2 a /\ boundary_node x1 b /\ near (loc2 a) (loc1 b)) /\
    (forall a b, boundary_node x2 a -> boundary_node x1 b -> same_point (loc2 a) (loc1 b) -> exists b', (a, b') ∈ mm).
Proof. intros. by eapply match_any. Qed.
Print Assumptions match_existing_partial.

(** C80.  With meshes that fit, the merged mesh has the elements of both where they were,
    a node for each place, and no boundary elements between the two. *)
Theorem merge_by_position_partial odd root sched order msched shuffle (x1 x2 : mesh pt) n1 k1 n2 k2 loc1 loc2 :
  (min64 < odd None < max64)%Z -> (forall l, sched l ≡ₚ l) -> (forall l, order l ≡ₚ l) -> (forall l, msched l ≡ₚ l) -> (forall l, shuffle l ≡ₚ l) ->
  whole_mesh x1 n1 k1 -> whole_mesh x2 n2 k2 -> located x1 loc1 -> located x2 loc2 ->
  (forall b, boundary_node x1 b -> moderate (loc1 b)) -> (forall a, boundary_node x2 a -> moderate (loc2 a)) ->
  fitting x1 x2 loc1 loc2 -> compatible x1 x2 ->
  exists y f g1 g2 N loc, merge_meshes odd root sched order msched shuffle x1 x2 = Ok y /\
    whole_mesh y N (length (all_elems (m_domains y))) /\ located y loc /\
    (forall i, i < n1 -> loc i = loc1 i) /\ (forall a, a < n2 -> same_point (loc (f a)) (loc2 a)) /\
    (forall i, i < N <-> i < n1 \/ exists a, a < n2 /\ f a = i) /\
    (forall a b, a < n2 -> b < n1 -> f a = b <-> boundary_node x2 a /\ boundary_node x1 b /\ same_point (loc2 a) (loc1 b)) /\
    (forall a a', a < n2 -> a' < n2 -> n1 <= f a -> f a = f a' -> a = a') /\
    (forall id e', in_domain (m_domains y) id e' <->
       (exists e, in_domain (m_domains x1) id e /\ ~ (boundary_el x1 e /\ exists b, boundary_el x2 b /\ same_place e b) /\ moved (fun i => i) g1 e e') \/
       (exists e, in_domain (m_domains x2) id e /\ ~ (boundary_el x2 e /\ exists b, boundary_el x1 b /\ same_place b e) /\ moved f g2 e e')) /\
    forall id, id ∈ (m_bnds y).*1 <-> (id ∈ (m_bnds x1).*1 \/ id ∈ (m_bnds x2).*1) /\ exists e, in_domain (m_domains y) id e.
Proof. intros. by eapply merged_ok. Qed.
Print Assumptions merge_by_position_partial.

(** C80.  When all nodes are on the boundary, what lround does with NaN does not matter. *)
Theorem match_without_interior odd root sched order (x1 x2 : mesh pt) n1 k1 n2 k2 loc1 loc2 : (forall l, sched l ≡ₚ l) -> (forall l, order l ≡ₚ l) ->
  whole_mesh x1 n1 k1 -> whole_mesh x2 n2 k2 -> located x1 loc1 -> located x2 loc2 -> 0 < n1 ->
  (forall b, b < n1 -> boundary_node x1 b /\ moderate (loc1 b)) -> (forall a, a < n2 -> boundary_node x2 a /\ moderate (loc2 a)) -> fitting x1 x2 loc1 loc2 ->
  exists mm, match_map odd root sched order x1 x2 = Ok mm /\ matching mm n1 n2 /\ forall a b, (a, b) ∈ mm <-> a < n2 /\ b < n1 /\ same_point (loc2 a) (loc1 b).
Proof.
  intros Hs Ho W1 W2 L1 L2 Hn B1 B2 HF. rewrite (match_any_odd odd (fun _ => 0%Z) root sched order x1 x2 n1 k1 n2 k2 loc1 loc2) by done.
  destruct (match_exact (fun _ => 0%Z) root ltac:(done) sched order Hs Ho x1 x2 n1 k1 n2 k2 loc1 loc2 W1 W2 L1 L2) as (mm & Hmm & Hma & Hiff); [intros b Hb; apply B1; by eapply bnode_lt|intros a Ha; apply B2; by eapply bnode_lt|done|].
  exists mm. split; [done|]. split; [done|]. intros a b. rewrite Hiff. split; intros (Ha & Hb & H); (split; [|split; [|done]]); first [by eapply bnode_lt|by apply B1|by apply B2].
Qed.
Print Assumptions match_without_interior.

(** C80.  On a machine where lround gives the least integer for NaN, as x86-64 does, a single
    node of the second mesh that is not on its boundary makes merge overflow: such nodes are
    in the map with NaN coordinates, since the comparison with NaN that should drop them never
    does. *)
Theorem interior_undefined_refuted odd root sched order msched shuffle (x1 x2 : mesh pt) n1 k1 n2 k2 loc1 loc2 a : odd None = min64 -> (forall l, sched l ≡ₚ l) -> (forall l, order l ≡ₚ l) ->
  whole_mesh x1 n1 k1 -> whole_mesh x2 n2 k2 -> located x1 loc1 -> located x2 loc2 -> (forall b, boundary_node x1 b -> moderate (loc1 b)) ->
  a < n2 -> ~ boundary_node x2 a -> merge_meshes odd root sched order msched shuffle x1 x2 = UB.
Proof. intros. unfold merge_meshes. by erewrite interior_ub. Qed.
Print Assumptions interior_undefined_refuted.

(** C80.  Square meshes are such meshes, and stay so when moved. *)
Theorem square_mesh_whole sched shuffle (xs ys : list Q) ids : 2 <= length xs -> 2 <= length ys ->
  NoDup [sq_domain ids; sq_bottom ids; sq_top ids; sq_left ids; sq_right ids] -> (forall l, sched l ≡ₚ l) -> (forall l, shuffle l ≡ₚ l) ->
  exists x k, makeSquareMesh 0%Q sched shuffle xs ys ids = Ok x /\ whole_mesh x (length xs * length ys) k /\
    located x (fun i => (nth (i `mod` length xs) xs 0%Q, nth (i / length xs) ys 0%Q, 0%Q)).
Proof. apply square_whole. Qed.
Print Assumptions square_mesh_whole.
Theorem deform_keeps f (x : mesh pt) n k loc : (forall p q, same_point p q -> same_point (f p) (f q)) -> whole_mesh x n k -> located x loc ->
  whole_mesh (deform f x) n k /\ located (deform f x) (fun n => f (loc n)) /\ (forall n, boundary_node (deform f x) n <-> boundary_node x n) /\
  (forall id e', in_domain (m_domains (deform f x)) id e' <-> exists e, in_domain (m_domains x) id e /\
     el_type e' = el_type e /\ el_order e' = el_order e /\ el_nodes e' = el_nodes e /\ el_verts e' = map f (el_verts e) /\ el_id e' = el_id e).
Proof.
  intros Hf W L. split; [by apply deform_whole|]. split; [by apply deform_located|]. split; [apply deform_boundary|]. intros d e'. rewrite deform_in. split.
  - intros (e & He & ->). by exists e.
  - intros (e & He & H1 & H2 & H3 & H4 & H5). exists e. split; [done|]. destruct e'. cbn in *. by subst.
Qed.
Print Assumptions deform_keeps.
Lemma compatible_deform f (x : mesh pt) n k : whole_mesh x n k -> compatible x (deform f x).
Proof.
  intros W. split; [|split].
  - intros d e1 e2 H1 H2. apply deform_in in H2 as (e & H2 & ->). cbn [deform_el el_type]. destruct (wm_valid _ _ _ W) as [Hs HF]. destruct H1 as (d1 & v1 & Hd1 & Hv1 & He1). destruct H2 as (d2 & v2 & Hd2 & Hv2 & He2).
    assert (d1 = d2) as <-. { apply strict_nodup in Hs. apply elem_of_list_lookup in Hd1 as [i Hi]. apply elem_of_list_lookup in Hd2 as [j Hj]. assert (i = j) as <-; [|congruence]. eapply NoDup_lookup; [exact Hs| |]; rewrite list_lookup_fmap; [by rewrite Hi|by rewrite Hj]. }
    rewrite Forall_forall in HF. destruct (HF _ Hd1) as [_ Hdd]. cbn [snd] in Hdd. pose proof (Hdd _ _ Hv1 He1) as E1. pose proof (Hdd _ _ Hv2 He2) as E2. rewrite E1 in E2. by injection E2.
  - intros d Hd _. by rewrite deform_keys.
  - intros d Hd _. by rewrite deform_keys in Hd.
Qed.

(** Squares of 3 x 3 nodes side by side, the second made by moving the first. *)
Definition nine : list (nat * nat) := list_prod (seq 0 9) (seq 0 9).
Definition unit3 : list Q := [0; 1; 2]%Q.
Definition ex_ids := mk_sq 0 1 2 3 4.
Definition ex_square : res (mesh pt) := makeSquareMesh 0%Q (fun l => l) (fun l => l) unit3 unit3 ex_ids.
Definition right2 (p : pt) : pt := (p.1.1 + 2, p.1.2, p.2)%Q.
Lemma right2_same p q : same_point p q -> same_point (right2 p) (right2 q).
Proof. intros (H1 & H2 & H3). unfold right2, same_point. cbn [fst snd]. by rewrite H1, H2, H3. Qed.
Definition nearb (p q : pt) : bool :=
  negb (Qle_bool ((1 # 1000000000000) * (1 # 1000000000000)) ((p.1.1 - q.1.1) * (p.1.1 - q.1.1) + (p.1.2 - q.1.2) * (p.1.2 - q.1.2) + (p.2 - q.2) * (p.2 - q.2)))%Q.
Definition sameb (p q : pt) : bool := Qeq_bool p.1.1 q.1.1 && Qeq_bool p.1.2 q.1.2 && Qeq_bool p.2 q.2.
Lemma nearb_ok p q : near p q -> nearb p q = true.
Proof. intros H. unfold nearb. apply negb_true_iff, not_true_iff_false. intros E%Qle_bool_iff. by apply (Qlt_not_le _ _ H). Qed.
Lemma sameb_ok p q : sameb p q = true -> same_point p q.
Proof. unfold sameb. rewrite !andb_true_iff. intros [[H1 H2] H3]. repeat split; by apply Qeq_bool_iff. Qed.
Definition modb (p : pt) : bool := Qle_bool (Qabs p.1.1) 100000 && Qle_bool (Qabs p.1.2) 100000 && Qle_bool (Qabs p.2) 100000.
Lemma modb_ok p : modb p = true -> moderate p.
Proof. unfold modb. rewrite !andb_true_iff. intros [[H1 H2] H3]. repeat split; by apply Qle_bool_iff. Qed.
Lemma forall_lt n (f : nat -> bool) : forallb f (seq 0 n) = true -> forall i, i < n -> f i = true.
Proof. intros H i Hi. rewrite forallb_forall in H. apply H, List.in_seq. lia. Qed.
Lemma forall_lt2 n m (f : nat -> nat -> bool) : forallb (fun i => forallb (f i) (seq 0 m)) (seq 0 n) = true -> forall i j, i < n -> j < m -> f i j = true.
Proof. intros H i j Hi Hj. pose proof (forall_lt n (fun i => forallb (f i) (seq 0 m)) H i Hi) as H1. by apply (forall_lt m (f i)). Qed.

Definition bnodes (x : mesh pt) : list nat :=
  concat (map (fun p => if existsb (Nat.eqb p.1) (m_bnds x).*1 then concat (map el_nodes (concat (d_els p.2))) else []) (m_domains x)).
Lemma bnodes_ok x n : n ∈ bnodes x <-> boundary_node x n.
Proof.
  unfold bnodes, boundary_node, boundary_el, in_domain. rewrite concat_elem. split.
  - intros (l & Hl & Hn). apply elem_of_list_fmap in Hl as ([d dm] & -> & Hd). cbn [fst snd] in Hn. destruct (existsb (Nat.eqb d) (m_bnds x).*1) eqn:Ee; [|by apply elem_of_nil in Hn]. apply existsb_exists in Ee as (d' & Hd' & <-%Nat.eqb_eq).
    apply concat_elem in Hn as (ns & Hns & Hn). apply elem_of_list_fmap in Hns as (b & -> & Hb). apply concat_elem in Hb as (v & Hv & Hb). exists b. split; [|done]. exists d. split; [by apply elem_of_list_In|]. by exists dm, v.
  - intros (b & (d & Hd & dm & v & Hdm & Hv & Hb) & Hn). eexists. split; [apply elem_of_list_fmap; exists (d, dm); split; [reflexivity|done]|]. cbn [fst snd]. assert (existsb (Nat.eqb d) (m_bnds x).*1 = true) as ->. { apply existsb_exists. exists d. split; [by apply elem_of_list_In|apply Nat.eqb_refl]. }
    apply concat_elem. exists (el_nodes b). split; [|done]. apply elem_of_list_fmap. exists b. split; [done|]. apply concat_elem. by exists v.
Qed.
Lemma ex_bnodes : match ex_square with Ok x => bnodes x | _ => [] end = [0; 1; 1; 2; 6; 7; 7; 8; 0; 3; 3; 6; 2; 5; 5; 8].
Proof. vm_compute. reflexivity. Qed.

Example fitting_example : exists x k loc1 loc2, ex_square = Ok x /\ whole_mesh x 9 k /\ whole_mesh (deform right2 x) 9 k /\ located x loc1 /\ located (deform right2 x) loc2 /\
  (forall b, boundary_node x b -> moderate (loc1 b)) /\ (forall a, boundary_node (deform right2 x) a -> moderate (loc2 a)) /\
  fitting x (deform right2 x) loc1 loc2 /\ compatible x (deform right2 x) /\ (exists a b, boundary_node (deform right2 x) a /\ boundary_node x b /\ same_point (loc2 a) (loc1 b)) /\ exists a, a < 9 /\ ~ boundary_node (deform right2 x) a.
Proof.
  destruct (square_mesh_whole (fun l => l) (fun l => l) unit3 unit3 ex_ids) as (x & k & E & W & L); [cbn; lia|cbn; lia|by apply (bool_decide_unpack _); vm_compute|done|done|].
  destruct (deform_keeps right2 x _ k _ right2_same W L) as (W' & L' & B' & _). eexists x, k, _, _. split; [exact E|]. split; [exact W|]. split; [exact W'|]. split; [exact L|]. split; [exact L'|].
  assert (Hb : forall b, boundary_node x b -> b < 9) by (intros b Hb; exact (bnode_lt x 9 k b W Hb)).
  assert (Hlocal : boundary_node x 0 /\ boundary_node x 2 /\ ~ boundary_node x 4).
  { pose proof ex_bnodes as Hbn. unfold ex_square in Hbn. rewrite E in Hbn. rewrite <- !bnodes_ok, Hbn. rewrite !elem_of_list_In. cbn. split; [tauto|]. split; [tauto|]. lia. }
  split; [|split; [|split; [|split; [by eapply compatible_deform|split]]]].
  - intros b Hb'. apply modb_ok. apply Hb in Hb'. revert b Hb'. apply forall_lt. vm_compute. reflexivity.
  - intros a Ha. apply B', Hb in Ha. apply modb_ok. revert a Ha. apply forall_lt. vm_compute. reflexivity.
  - split.
    + intros a b Ha Hb' Hn. apply B', Hb in Ha. apply Hb in Hb'. apply sameb_ok. apply nearb_ok in Hn. revert Hn. apply (implb_true_iff). revert a b Ha Hb'. 
      apply (forall_lt2 9 9 (fun a b => implb (nearb _ _) (sameb _ _))). vm_compute. reflexivity.
    + intros a b Ha Hb' Hn. apply Hb in Ha, Hb'. apply Nat.eqb_eq. apply nearb_ok in Hn. revert Hn. apply (implb_true_iff). revert a b Ha Hb'.
      apply (forall_lt2 9 9 (fun a b => implb (nearb _ _) (a =? b))). vm_compute. reflexivity.
  - destruct Hlocal as (HL0 & HL2 & _). exists 0, 2. split; [apply (proj2 (B' 0)); exact HL0|]. split; [exact HL2|]. apply sameb_ok. vm_compute. reflexivity.
  - destruct Hlocal as (_ & _ & HL4). exists 4. split; [lia|]. intros HB. apply HL4, (proj1 (B' 4)), HB.
Qed.

(** All of it together: 15 nodes, the sides between the squares are gone. *)
Example merge_example : match ex_square with
  | Ok x => match merge_meshes (fun _ => 0%Z) (fun q => q) (fun l => l) (fun l => rev l) (fun l => l) (fun l => l) x (deform right2 x) with
      | Ok y => (so_end (m_own y), map (fun p => (p.1, map (fun e => el_nodes e) (concat (d_els p.2)))) (m_domains y), (m_bnds y).*1)
      | _ => (0, [], []) end
  | _ => (0, [], []) end =
  (15, [(0, [[0; 1; 3; 4]; [1; 2; 4; 5]; [3; 4; 6; 7]; [4; 5; 7; 8]; [2; 9; 5; 11]; [9; 10; 11; 12]; [5; 11; 8; 13]; [11; 12; 13; 14]]);
        (1, [[0; 1]; [1; 2]; [2; 9]; [9; 10]]); (2, [[6; 7]; [7; 8]; [8; 13]; [13; 14]]); (3, [[0; 3]; [3; 6]]); (4, [[10; 12]; [12; 14]])], [1; 2; 3; 4]).
Proof. vm_compute. reflexivity. Qed.
(** With the least integer for NaN the node in the middle makes it undefined. *)
Example merge_undefined_example : match ex_square with
  | Ok x => merge_meshes (fun _ => min64) (fun q => q) (fun l => l) (fun l => l) (fun l => l) (fun l => l) x (deform right2 x)
  | _ => Throw end = UB.
Proof. vm_compute. reflexivity. Qed.

(** C80.  Nodes nearer than the tolerance are missed when they lie in cells that are not
    neighbours: the cells of a planar mesh are 256 epsilon high. *)
Definition up (p : pt) : pt := (p.1.1, p.1.2, p.2 + (5 # 10000000000000))%Q.
Definition one_square : res (mesh pt) := makeSquareMesh 0%Q (fun l => l) (fun l => l) [0; 1]%Q [0; 1]%Q ex_ids.
Lemma up_same p q : same_point p q -> same_point (up p) (up q).
Proof. intros (H1 & H2 & H3). unfold up, same_point. cbn [fst snd]. by rewrite H1, H2, H3. Qed.
Lemma one_bnodes : match one_square with Ok x => bnodes x | _ => [] end = [0; 1; 2; 3; 0; 2; 1; 3].
Proof. vm_compute. reflexivity. Qed.
Theorem match_near_refuted : exists x1 x2 k loc1 loc2, whole_mesh x1 4 k /\ whole_mesh x2 4 k /\ located x1 loc1 /\ located x2 loc2 /\
  (forall b, b < 4 -> boundary_node x1 b /\ moderate (loc1 b)) /\ (forall a, a < 4 -> boundary_node x2 a /\ moderate (loc2 a)) /\
  (forall a, a < 4 -> near (loc2 a) (loc1 a)) /\
  forall odd root, match_map odd root (fun l => l) (fun l => l) x1 x2 = Ok [].
Proof.
  destruct (square_mesh_whole (fun l => l) (fun l => l) [0; 1]%Q [0; 1]%Q ex_ids) as (x & k & E & W & L); [cbn; lia|cbn; lia|by apply (bool_decide_unpack _); vm_compute|done|done|].
  destruct (deform_keeps up x _ k _ up_same W L) as (W' & L' & B' & _). eexists x, (deform up x), k, _, _. split; [exact W|]. split; [exact W'|]. split; [exact L|]. split; [exact L'|].
  assert (HB : forall b, b < 4 -> boundary_node x b). { intros b Hb. pose proof one_bnodes as Hbn. unfold one_square in Hbn. rewrite E in Hbn. rewrite <- bnodes_ok, Hbn, elem_of_list_In. cbn. lia. }
  split; [|split; [|split]].
  - intros b Hb. split; [by apply HB|]. apply modb_ok. revert b Hb. apply forall_lt. vm_compute. reflexivity.
  - intros b Hb. split; [by apply (proj2 (B' b)), HB|]. apply modb_ok. revert b Hb. apply forall_lt. vm_compute. reflexivity.
  - intros a Ha. destruct a as [|[|[|[|a]]]]; [..|lia]; vm_compute; reflexivity.
  - intros odd root. assert (Hm : match one_square with Ok x => match_map odd root (fun l => l) (fun l => l) x (deform up x) | _ => UB end = Ok []) by (vm_compute; reflexivity). unfold one_square in Hm. by rewrite E in Hm.
Qed.
Print Assumptions match_near_refuted.
