(** Property C37: splitting a mesh part by a predicate. *)
From Verif Require Import Base StdAlgo Ownership_model Elem_model Elem_spec Elem_proofs Mesh_model Mesh_spec Mesh_proofs Partition_model Partition_spec Partition2_proofs Partition4_proofs Merge_model Split_model Split_spec Split_proofs Split2_proofs.

(** C37.  Splitting succeeds, in whatever order the hash set and the parallel
    loop run.  One half holds the elements chosen by [kp], the other the rest;
    outside the boundaries the choice is the predicate, and a boundary element is
    in the first half iff a boundary view shows it from an element with the
    predicate.  Each half is a valid part whose boundary views show its own elements. *)
Theorem split_distributes {V} (orders : list nat) (sched : list (element V) -> list (element V)) (shuffle : list nat -> list nat) (x : mesh V) (p : element V -> bool) :
  splittable orders x -> (forall l, sched l ≡ₚ l) -> (forall l, shuffle l ≡ₚ l) ->
  exists t f kp, splitMeshPartition orders sched shuffle x p = Ok (t, f) /\ half_of orders x kp t /\ half_of orders x (fun id e => negb (kp id e)) f /\
    (forall id e, id ∉ (m_bnds x).*1 -> kp id e = p e) /\ (forall id b, id ∈ (m_bnds x).*1 -> kp id b = true <-> viewed_from x p b).
Proof. intros Hx. exact (split_ok orders x Hx p sched shuffle). Qed.
Print Assumptions split_distributes.
(** C37.  For a mesh made by the constructor, of one order, whose boundaries are
    not boundaries of boundaries: a boundary element goes to the half of the
    element its view shows. *)
Theorem split_boundary_follows {V} (o b n : nat) (sched sched' : list (element V) -> list (element V)) (shuffle shuffle' : list nat -> list nat) (m : dmap (domain V))
    (ids : list nat) (x t f : mesh V) (p : element V -> bool) :
  1 <= o -> valid_doms [o] m -> unique_ids m -> (forall l, sched l ≡ₚ l) -> (forall l, shuffle l ≡ₚ l) -> (forall l, sched' l ≡ₚ l) -> (forall l, shuffle' l ≡ₚ l) ->
  make_mesh2 sched shuffle m b n ids = Ok x ->
  (forall id d id' d' k, id ∈ ids -> (id, d) ∈ m -> d_dim d = Some k -> (id', d') ∈ m -> d_dim d' = Some (k + 1) -> id' ∉ ids) ->
  splitMeshPartition [o] sched' shuffle' x p = Ok (t, f) ->
  splittable [o] x /\
  forall id vs c e s, (id, vs) ∈ m_bnds x -> in_domain m id c -> (e, s) ∈ vs -> side_of c e s ->
    (in_domain (m_domains t) id c <-> p e = true) /\ (in_domain (m_domains f) id c <-> p e = false).
Proof.
  intros Ho Hv Hu Hsc Hsh Hsc' Hsh' Hx Hpar Hsp. pose proof (made_splittable o sched shuffle m b n ids x Ho Hv Hu Hsc Hsh Hx Hpar) as Hs. split; [done|].
  destruct (split_ok [o] x Hs p sched' shuffle' Hsc' Hsh') as (t' & f' & kp & Hsp' & Ht & Hf & _ & Hkb). rewrite Hsp in Hsp'. injection Hsp' as <- <-.
  destruct (made_parts o sched shuffle m b n ids x Hv Hsc Hsh Hx) as (Hm & Hk & _). intros id vs c e s Hid Hc He Hsd.
  assert (Hkp : kp id c = p e).
  { apply eq_bool_prop_intro. rewrite !Is_true_true, Hkb by (by apply (elem_of_list_fmap_1 fst) in Hid). split.
    - intros (id' & vs' & e' & s' & Hid' & He' & Hp & Hsd').
      pose proof (view_unique o sched shuffle m b n ids x Ho Hv Hsc Hsh Hx id vs id' vs' (e, s) (e', s') c Hid Hid' He He' Hsd Hsd') as [= -> ->]. done.
    - intros Hp. by exists id, vs, e, s. }
  assert (Hin : forall y g, half_of [o] x g y -> in_domain (m_domains y) id c <-> g id c = true).
  { intros y g Hy. rewrite <- (visit1 [o] (m_domains y) (h_valid _ _ _ _ Hy)), <- dom_elems_visit by apply (h_valid _ _ _ _ Hy). rewrite (h_elems _ _ _ _ Hy).
    rewrite dom_elems_visit by apply Hs. rewrite elem_of_list_In, filter_In, <- elem_of_list_In, (visit1 [o] (m_domains x) (sp_valid _ _ Hs)), Hm. tauto. }
  rewrite (Hin t kp Ht), (Hin f _ Hf), Hkp. destruct (p e); naive_solver.
Qed.
Print Assumptions split_boundary_follows.

(** C37.  If the nodes of a half that the mesh owns are contiguous, the half owns
    exactly those.  Missing: any other choice of elements, for which the claim
    is false. *)
Theorem split_owns_its_nodes_partial {V} (orders : list nat) (x y : mesh V) (kp : nat -> element V -> bool) (a k : nat) :
  half_of orders x kp y -> (forall i, is_node (m_domains y) i /\ owned x i <-> a <= i < a + k) ->
  forall i, (owned y i <-> is_node (m_domains y) i /\ owned x i) /\ (i ∈ so_shared (m_own y) <-> is_node (m_domains y) i /\ ~ owned x i).
Proof.
  intros Hy Hc. destruct (h_range _ _ _ _ Hy) as (l & Hnd & Hl & He & Hb & Hmin).
  assert (Hlen : length l = k).
  { assert (Hp : l ≡ₚ seq a k) by (apply NoDup_Permutation; [done|apply NoDup_seq|]; intros i; rewrite Hl, Hc, elem_of_seq; lia). by rewrite Hp, seq_length. }
  assert (Ho : forall i, owned y i <-> a <= i < a + k).
  { intros i. unfold owned. rewrite He, Hlen. destruct (decide (k = 0)) as [-> |Hk]; [lia|]. assert (Hne : l <> []) by (intros ->; cbn in Hlen; lia).
    assert (Ha : a ∈ l) by (apply Hl, Hc; lia). pose proof (Hmin a Ha). apply Hb in Hne. apply Hl, Hc in Hne. lia. }
  intros i. split; [by rewrite Ho, Hc|]. rewrite (proj2 (h_shared _ _ _ _ Hy) i), Ho, <- Hc. tauto.
Qed.
Print Assumptions split_owns_its_nodes_partial.

(** A row of four quadrilaterals (domain 7) with its two ends and its third
    inner side as boundary 1. *)
Definition row_q (i : nat) : element nat := mk_el Quad 1 [2 * i; 2 * i + 2; 2 * i + 1; 2 * i + 3] [0; 0; 0; 0] i.
Definition row_l (i k : nat) : element nat := mk_el Line 1 [2 * i; 2 * i + 1] [0; 0] k.
Definition row : dmap (domain nat) :=
  [(1, mk_dom [[]; []; [row_l 0 4; row_l 3 5; row_l 4 6]] (Some 1)); (7, mk_dom [[]; [row_q 0; row_q 1; row_q 2; row_q 3]; []] (Some 2))].
Definition row_mesh : mesh nat :=
  mk_mesh row {| so_begin := 0; so_end := 10; so_shared := [] |} [(1, [(row_q 0, 2); (row_q 2, 3); (row_q 3, 3)])].
Lemma row_in id e : in_domain row id e <-> (id = 1 /\ e ∈ [row_l 0 4; row_l 3 5; row_l 4 6]) \/ (id = 7 /\ e ∈ [row_q 0; row_q 1; row_q 2; row_q 3]).
Proof.
  split.
  - intros (d & v & Hd & Hv & He). unfold row in Hd. rewrite !elem_of_cons, elem_of_nil in Hd.
    destruct Hd as [[= -> ->]|[[= -> ->]|[]]]; cbn [d_els] in Hv; rewrite !elem_of_cons, elem_of_nil in Hv; destruct Hv as [-> |[-> |[-> |[]]]]; try (by apply elem_of_nil in He); tauto.
  - intros [[-> He]|[-> He]]; [exists (mk_dom [[]; []; [row_l 0 4; row_l 3 5; row_l 4 6]] (Some 1))|exists (mk_dom [[]; [row_q 0; row_q 1; row_q 2; row_q 3]; []] (Some 2))];
      (eexists; split; [|split; [|exact He]]); unfold row; cbn [d_els]; rewrite ?elem_of_cons; tauto.
Qed.
Lemma row_valid : valid_doms [1] row.
Proof.
  split; [cbn; repeat constructor|]. unfold row. rewrite !Forall_cons, Forall_nil. cbn [snd]. change (slots [1]) with [(Hex, 1); (Quad, 1); (Line, 1)].
  split; [|split; [|done]]; (split; [unfold typed_domain; cbn [d_els]; change (slots [1]) with [(Hex, 1); (Quad, 1); (Line, 1)]; repeat (apply Forall2_cons; split); try apply Forall2_nil; try done; rewrite ?Forall_cons, ?Forall_nil; done|]); intros v e Hv He; cbn [d_els snd] in Hv; rewrite !elem_of_cons, elem_of_nil in Hv;
    destruct Hv as [-> |[-> |[-> |[]]]]; try (by apply elem_of_nil in He); rewrite !elem_of_cons, elem_of_nil in He; naive_solver.
Qed.
Lemma row_unique : unique_ids row.
Proof.
  intros e1 e2 [id1 H1] [id2 H2] He. apply row_in in H1, H2. rewrite !elem_of_cons, !elem_of_nil in H1, H2.
  destruct H1 as [[_ [-> |[-> |[-> |[]]]]]|[_ [-> |[-> |[-> |[-> |[]]]]]]], H2 as [[_ [-> |[-> |[-> |[]]]]]|[_ [-> |[-> |[-> |[-> |[]]]]]]]; done.
Qed.
Lemma row_made : make_mesh2 (fun l => l) (fun l => l) row 0 10 [1] = Ok row_mesh.
Proof. reflexivity. Qed.
Lemma row_parents : forall id d id' d' k, id ∈ [1] -> (id, d) ∈ row -> d_dim d = Some k -> (id', d') ∈ row -> d_dim d' = Some (k + 1) -> id' ∉ [1].
Proof.
  intros id d id' d' k Hid Hd Hk Hd' Hk'. apply elem_of_list_singleton in Hid as ->. unfold row in Hd, Hd'. rewrite !elem_of_cons, elem_of_nil in Hd, Hd'.
  destruct Hd as [[= ->]|[[=]|[]]]. injection Hk as <-. destruct Hd' as [[= -> ->]|[[= -> ->]|[]]]; [done|]. rewrite elem_of_list_singleton. lia.
Qed.
Example row_splittable : splittable [1] row_mesh.
Proof. exact (made_splittable 1 _ _ row 0 10 [1] row_mesh (le_n 1) row_valid row_unique (fun l => reflexivity l) (fun l => reflexivity l) row_made row_parents). Qed.
(** The first two elements: nodes 0-5 owned, boundary element 4; the others: nodes
    4-9 owned, boundary elements 5, 6. *)
Example split_example : exists t f, splitMeshPartition [1] (@rev _) (@rev _) row_mesh (fun e => el_id e <? 2) = Ok (t, f) /\
  map el_id (all_elems (m_domains t)) = [4; 0; 1] /\ map el_id (all_elems (m_domains f)) = [5; 6; 2; 3] /\
  m_own t = {| so_begin := 0; so_end := 6; so_shared := [] |} /\ m_own f = {| so_begin := 4; so_end := 10; so_shared := [] |}.
Proof. eexists _, _. split; [vm_compute; reflexivity|]. done. Qed.

(** C37.  The nodes need not be contiguous: then a half owns a node that it does
    not have, and does not own a node that it has and the mesh owns. *)
Theorem split_ownership_refuted : exists t f i j,
  splittable [1] row_mesh /\ splitMeshPartition [1] (fun l => l) (fun l => l) row_mesh (fun e => (el_id e =? 0) || (el_id e =? 3)) = Ok (t, f) /\
  is_node (m_domains t) i /\ owned row_mesh i /\ ~ owned t i /\ i ∈ so_shared (m_own t) /\ owned t j /\ ~ is_node (m_domains t) j.
Proof.
  eexists _, _, 9, 4. split; [exact row_splittable|]. split; [vm_compute; reflexivity|]. cbn [m_own m_domains]. split; [|split; [|split; [|split; [|split]]]].
  - exists (row_q 3). split; [|by do 3 right; left]. exists 7. eexists _, _. split; [right; left|]. split; [right; left|]. right. left.
  - unfold owned. cbn. lia.
  - unfold owned. cbn. lia.
  - right. left.
  - unfold owned. cbn. lia.
  - intros (e & [id (d & v & Hd & Hv & He)] & Hn). rewrite !elem_of_cons, elem_of_nil in Hd.
    destruct Hd as [[= -> ->]|[[= -> ->]|[]]]; cbn [d_els] in Hv; rewrite !elem_of_cons, elem_of_nil in Hv; destruct Hv as [-> |[-> |[-> |[]]]]; try (by apply elem_of_nil in He);
      rewrite !elem_of_cons, elem_of_nil in He; destruct He as [-> |[-> |[]]]; cbn [el_nodes] in Hn; rewrite !elem_of_cons, elem_of_nil in Hn; lia.
Qed.
Print Assumptions split_ownership_refuted.

(** C37.  Splitting throws for a mesh with an edge as boundary of a face that is
    itself a boundary. *)
Definition nested : dmap (domain nat) :=
  [(1, mk_dom [[]; [mk_el Quad 1 [0; 1; 2; 3] [0; 0; 0; 0] 1]; []] (Some 2)); (2, mk_dom [[]; []; [mk_el Line 1 [0; 1] [0; 0] 2]] (Some 1));
   (7, mk_dom [[mk_el Hex 1 [0; 1; 2; 3; 4; 5; 6; 7] [0; 0; 0; 0; 0; 0; 0; 0] 0]; []; []] (Some 3))].
Theorem split_nested_boundary_refuted : exists x, make_mesh2 (fun l => l) (fun l => l) nested 0 8 [1; 2] = Ok x /\
  splitMeshPartition [1] (fun l => l) (fun l => l) x (fun _ => true) = Throw.
Proof. eexists. split; vm_compute; reflexivity. Qed.
Print Assumptions split_nested_boundary_refuted.
