(** Properties C27 and C56-C60: finding elements, boundary views, construction,
    renumbering, visiting and filling of meshes. *)
From Verif Require Import Base StdAlgo Ownership_model Elem_model Elem_spec Parallel_model Mesh_model Mesh_spec Mesh_proofs.

(** C27.  With ids ascending in each element vector, find(id) returns an element
    with that id if the mesh holds one and nothing otherwise; with unique ids it
    is the element. *)
Theorem find_by_id {V} (m : dmap (domain V)) (id : nat) : ascending m ->
  exists o, find_id id m = Ok o /\
    match o with Some e => is_elem m e /\ el_id e = id | None => forall e, is_elem m e -> el_id e <> id end.
Proof. exact (find_id_ok m id). Qed.
Print Assumptions find_by_id.
Theorem find_by_id_unique {V} (m : dmap (domain V)) (e : element V) :
  ascending m -> unique_ids m -> is_elem m e -> find_id (el_id e) m = Ok (Some e).
Proof. exact (find_id_unique m e). Qed.
Print Assumptions find_by_id_unique.
(** C27.  Non-descending ids are not enough: with a repeated id and a gap the
    contiguity test succeeds and an element with another id is returned; and with
    unordered ids a present element is not found. *)
Theorem find_by_id_unordered_refuted :
  let ln i := mk_el Line 1 [0; 1] [0; 0] i in
  (exists (m : dmap (domain nat)) e, find_id 6 m = Ok (Some e) /\ el_id e = 5 /\ forall v d id, (id, d) ∈ m -> v ∈ d_els d -> Sorted Nat.le (map el_id v)) /\
  (exists m : dmap (domain nat), find_id 3 m = Ok None /\ is_elem m (ln 3)).
Proof.
  intros ln. split.
  - exists [(0, mk_dom [[ln 5; ln 5; ln 7]] (Some 1))], (ln 5). split; [vm_compute; reflexivity|]. split; [done|].
    intros v d id Hd Hv. apply elem_of_list_singleton in Hd. injection Hd as -> ->. apply elem_of_list_singleton in Hv as ->.
    repeat constructor.
  - exists [(0, mk_dom [[ln 4; ln 3; ln 9]] (Some 1))]. split; [vm_compute; reflexivity|].
    exists 0, (mk_dom [[ln 4; ln 3; ln 9]] (Some 1)), [ln 4; ln 3; ln 9]. split; [left|]. split; [left|]. right. left.
Qed.
Print Assumptions find_by_id_unordered_refuted.

(** C56.  makeBoundaryElementViews succeeds iff every boundary domain has a
    domain one dimension higher and every boundary element is a side of an
    element of that dimension; then there is one view per boundary element, and
    it names a side with exactly the boundary element's nodes.  Otherwise it
    throws; it never goes wrong. *)
Theorem boundary_views_match_sides {V} (orders : list nat) (sched : list (element V) -> list (element V))
    (m : dmap (domain V)) (ids : list nat) : valid_doms orders m -> (forall l, sched l ≡ₚ l) ->
  (forall views, makeBoundaryElementViews sched m ids = Ok views ->
     exists bs, bs ≡ₚ visit_elems m ids /\ Forall2 (fun b v => attached m b v.1 v.2) bs views) /\
  ((exists views, makeBoundaryElementViews sched m ids = Ok views) <->
     parents_exist m ids /\ forall b id, id ∈ ids -> in_domain m id b -> exists e s, attached m b e s) /\
  makeBoundaryElementViews sched m ids <> UB.
Proof.
  intros Hv Hs. pose proof (views_ok orders sched m ids Hv Hs) as Hok. cbv zeta in Hok. split; [|split].
  - intros views Hr. rewrite Hr in Hok. destruct Hok as [(views' & bs & [= <-] & Hp & Hf & _)|[? _]]; [|done]. by exists bs.
  - rewrite (views_ok_iff orders sched m ids Hv Hs). assert (Hnd : NoDup m.*1) by (by apply strict_nodup, Hv).
    split; intros [Hp Ha]; (split; [done|]).
    + intros b id Hid Hb. apply Ha, visit_elem; [done|]. by exists id.
    + intros b Hb. apply visit_elem in Hb as (id & Hid & Hb); [|done]. by apply (Ha b id).
  - destruct Hok as [(? & ? & -> & _)|[-> _]]; done.
Qed.
Print Assumptions boundary_views_match_sides.

(** C57.  The constructor for a part of a mesh: the owned range is the given one,
    the shared ids are exactly the other nodes of the elements, ascending and
    without repetition, whatever the iteration order of the hash set; it throws
    iff building a boundary view throws. *)
Theorem partition_constructor {V} (orders : list nat) (sched : list (element V) -> list (element V)) (shuffle : list nat -> list nat)
    (m : dmap (domain V)) (b n : nat) (ids : list nat) :
  valid_doms orders m -> (forall l, sched l ≡ₚ l) -> (forall l, shuffle l ≡ₚ l) ->
  (forall x, make_mesh2 sched shuffle m b n ids = Ok x ->
     m_domains x = m /\ so_begin (m_own x) = b /\ so_end (m_own x) = b + n /\ StronglySorted lt (so_shared (m_own x)) /\
     (forall i, i ∈ so_shared (m_own x) <-> is_node m i /\ ~ (b <= i < b + n)) /\
     StronglySorted lt (m_bnds x).*1 /\ (forall id, id ∈ (m_bnds x).*1 <-> id ∈ ids) /\
     forall id vs, (id, vs) ∈ m_bnds x -> makeBoundaryElementViews sched m [id] = Ok vs) /\
  make_mesh2 sched shuffle m b n ids <> UB /\
  (make_mesh2 sched shuffle m b n ids = Throw <-> exists id, id ∈ ids /\ makeBoundaryElementViews sched m [id] = Throw).
Proof.
  intros Hv Hs Hsh. pose proof (mesh2_ok orders sched shuffle m b n ids Hv Hs Hsh) as Hm.
  destruct (init_ok orders sched m ids Hv Hs) as [(r & Hr & H1 & H2 & H3)|[Hr Hex]]; rewrite Hr in Hm.
  - destruct Hm as (so & Hm & Hb & He & Hss & Hin). rewrite Hm. split; [|split; [done|]].
    + intros x [= <-]. cbn [m_domains m_own m_bnds]. repeat split; auto; by apply Hin || by apply H2.
    + split; [done|]. intros (id & Hid & Ht). apply H2, elem_of_list_fmap in Hid as ([k v] & -> & Hk). cbn [fst] in Ht.
      rewrite (H3 k v Hk) in Ht. done.
  - rewrite Hm. repeat split; done.
Qed.
Print Assumptions partition_constructor.
(** C57.  The constructor for a whole mesh owns exactly the nodes if their ids
    have no gaps. *)
Theorem mesh_constructor {V} (orders : list nat) (sched : list (element V) -> list (element V)) (m : dmap (domain V)) (ids : list nat) (b n : nat) (x : mesh V) :
  valid_doms orders m -> (forall l, sched l ≡ₚ l) -> (forall i, is_node m i <-> b <= i < b + n) ->
  make_mesh1 sched m ids = Ok x ->
  m_domains x = m /\ so_shared (m_own x) = [] /\ (forall i, isOwned (m_own x) i = true <-> is_node m i) /\ numOwned (m_own x) = n.
Proof.
  intros Hv Hs Hc Hx. pose proof (mesh1_ok orders sched m ids b n Hv Hs Hc) as Hm.
  destruct (initBoundaryViews sched m ids); [|congruence|congruence]. destruct Hm as (so & Hm & H). rewrite Hx in Hm. injection Hm as ->. done.
Qed.
Print Assumptions mesh_constructor.
(** C57.  With a gap in the node numbering the last node is neither owned nor
    shared. *)
Theorem mesh_constructor_gap_refuted : exists (m : dmap (domain nat)) x i,
  valid_doms [1] m /\ make_mesh1 (fun l => l) m [] = Ok x /\ is_node m i /\ isOwned (m_own x) i = false /\ isShared (m_own x) i = false.
Proof.
  set (e := mk_el Line 1 [0; 5] [0; 0] 0). exists [(0, mk_dom [[]; []; [e]] (Some 1))]. eexists. exists 5.
  split; [|split; [vm_compute; reflexivity|split; [|split; vm_compute; reflexivity]]].
  - split; [repeat constructor|]. constructor; [|constructor]. cbn. split.
    + repeat constructor.
    + intros v e' Hv He. cbn in Hv. rewrite !elem_of_cons, elem_of_nil in Hv. destruct Hv as [->|[->|[->|[]]]]; try (by apply elem_of_nil in He).
      apply elem_of_list_singleton in He as ->. done.
  - exists e. split; [|right; left]. exists 0, (mk_dom [[]; []; [e]] (Some 1)), [e]. split; [left|]. split; [right; right; left|left].
Qed.
Print Assumptions mesh_constructor_gap_refuted.
(** C57.  copy() of a mesh made by the constructor is the same mesh. *)
Theorem copy_is_equal {V} (orders : list nat) (sched : list (element V) -> list (element V)) (shuffle shuffle' : list nat -> list nat)
    (m : dmap (domain V)) (b n : nat) (ids : list nat) (x : mesh V) :
  valid_doms orders m -> (forall l, sched l ≡ₚ l) -> (forall l, shuffle l ≡ₚ l) -> (forall l, shuffle' l ≡ₚ l) ->
  make_mesh2 sched shuffle m b n ids = Ok x ->
  exists so, copy_mesh sched shuffle' x = Ok (mk_mesh (m_domains x) so (m_bnds x)) /\
    so_shared so = so_shared (m_own x) /\ numOwned so = numOwned (m_own x) /\ forall i, isOwned so i = isOwned (m_own x) i.
Proof. exact (copy_ok orders sched shuffle shuffle' m b n ids x). Qed.
Print Assumptions copy_is_equal.

(** C58.  reindexNodes with a map that sends the owned ids onto a contiguous
    range and the shared ids outside it: the elements' nodes and the shared ids
    are mapped, the range is the new owned range, and nothing else changes. *)
Theorem reindex_renumbers {V} (f : nat -> nat) (m : mesh V) (b : nat) :
  let so := m_own m in let n := numOwned so in
  (forall y, (exists x, so_begin so <= x < so_begin so + n /\ f x = y) <-> b <= y < b + n) ->
  (forall x, x ∈ so_shared so -> ~ (b <= f x < b + n)) ->
  exists m', reindexNodes f m = Ok m' /\
    numOwned (m_own m') = n /\ (forall y, isOwned (m_own m') y = true <-> b <= y < b + n) /\
    (forall y, y ∈ so_shared (m_own m') <-> exists x, x ∈ so_shared so /\ f x = y) /\ Sorted Nat.le (so_shared (m_own m')) /\
    Forall2 (fun d d' : nat * domain V => d'.1 = d.1 /\ d_dim d'.2 = d_dim d.2 /\
      Forall2 (Forall2 (renumbered f)) (d_els d.2) (d_els d'.2)) (m_domains m) (m_domains m') /\
    Forall2 (fun b b' : nat * list (element V * nat) => b'.1 = b.1 /\
      Forall2 (fun v v' => renumbered f v.1 v'.1 /\ v'.2 = v.2) b.2 b'.2) (m_bnds m) (m_bnds m').
Proof.
  intros so n H1 H2. destruct (reindex_ok f m b H1 H2) as (m' & Hm & Hn & Ho & Hs & Hd & Hb). exists m'. rewrite Hs, Hb, Hd.
  assert (Hr : forall e : element V, renumbered f e (reindex_el f e)).
  { intros e. unfold reindex_el. split; [done|]. split; [done|]. split; [done|]. split; [done|]. cbn [el_nodes]. split; [by rewrite map_length|].
    intros i x Hi. change (map f (el_nodes e)) with (f <$> el_nodes e). rewrite list_lookup_fmap, Hi. done. }
  split; [done|]. split; [done|]. split; [done|]. split; [|split; [apply sort_sorted|split]].
  - intros y. rewrite sort_elem, (elem_of_list_fmap f). naive_solver.
  - apply Forall2_fmap_r, Forall_Forall2_diag, Forall_true. intros [i d]. cbn. split; [done|]. split; [done|].
    apply Forall2_fmap_r, Forall_Forall2_diag, Forall_true. intros v. apply Forall2_fmap_r, Forall_Forall2_diag, Forall_true. exact Hr.
  - apply Forall2_fmap_r, Forall_Forall2_diag, Forall_true. intros [i d]. cbn. split; [done|]. apply Forall2_fmap_r, Forall_Forall2_diag, Forall_true. intros v. split; [apply Hr|done].
Qed.
Print Assumptions reindex_renumbers.

(** C59.  Visiting the mesh runs through every element exactly once, domain by
    domain in order of their ids; a parallel visit makes the same calls in some
    order; getNElements counts them. *)
Theorem visit_every_element_once {V} (m : dmap (domain V)) : StronglySorted lt m.*1 ->
  all_elems m = concat (map (fun p : nat * domain V => concat (d_els p.2)) m) /\
  (forall e, e ∈ all_elems m <-> is_elem m e) /\
  (forall ids e, e ∈ visit_elems m ids <-> exists id, id ∈ ids /\ in_domain m id e) /\
  (forall ids calls, visit_par m ids calls -> calls ≡ₚ visit_elems m ids) /\
  getNElements m = length (all_elems m).
Proof.
  intros Hs. assert (Hnd : NoDup m.*1) by (by apply strict_nodup). split; [by apply all_elems_concat|].
  split; [intros e; by apply all_elems_elem|]. split; [intros ids e; by apply visit_elem|].
  split; [exact (visit_par_ok m)|by apply nelements_ok].
Qed.
Print Assumptions visit_every_element_once.
(** C59.  transformReduce over domains returns the fold over their elements. *)
Theorem mesh_reduction_folds {V R} (par : bool) (op : R -> R -> R) (zero : R) (f : element V -> R) (m : dmap (domain V)) (ids : list nat) (r : R) :
  (forall x y z, op x (op y z) = op (op x y) z) -> (forall x y, op x y = op y x) -> (forall x, op zero x = x) ->
  mesh_transformReduce par op f m ids zero r -> r = foldl op zero (map f (visit_elems m ids)).
Proof. intros Ha Hc Hi. exact (mesh_reduce_ok op zero Ha Hc Hi par f m ids r). Qed.
Print Assumptions mesh_reduction_folds.

(** C60.  pushToDomain appends the element to the vector for its type and keeps
    all elements of a domain at one dimension; an element of another dimension
    makes it throw. *)
Theorem push_to_domain {V} (orders : list nat) (d : domain V) (e : element V) :
  typed_domain orders d -> typed_el e -> (el_type e, el_order e) ∈ slots orders ->
  if decide (d_dim d = None \/ d_dim d = Some (native_dim (el_type e)))
  then exists d', pushToDomain orders d e = Ok d' /\ typed_domain orders d' /\ d_dim d' = Some (native_dim (el_type e)) /\
         (dim_domain d -> dim_domain d') /\
         exists i v, slots orders !! i = Some (el_type e, el_order e) /\ d_els d !! i = Some v /\ d_els d' = <[i := v ++ [e]]> (d_els d)
  else pushToDomain orders d e = Throw.
Proof. exact (push_ok orders d e). Qed.
Print Assumptions push_to_domain.

(** Two quadrilaterals in a row with their bottom edges as boundary 1. *)
Definition ex_q (n : list nat) (i : nat) : element nat := mk_el Quad 1 n [0; 0; 0; 0] i.
Definition ex_l (n : list nat) (i : nat) : element nat := mk_el Line 1 n [0; 0] i.
Definition ex_doms : dmap (domain nat) :=
  [(0, mk_dom [[]; [ex_q [0; 1; 3; 4] 0; ex_q [1; 2; 4; 5] 1]; []] (Some 2));
   (1, mk_dom [[]; []; [ex_l [1; 0] 2; ex_l [1; 2] 3]] (Some 1))].
Example mesh_example : ascending ex_doms /\ valid_doms [1] ex_doms /\ (forall i, is_node ex_doms i <-> 0 <= i < 0 + 6) /\
  find_id 1 ex_doms = Ok (Some (ex_q [1; 2; 4; 5] 1)) /\ find_id 7 ex_doms = Ok None /\
  makeBoundaryElementViews (fun l => l) ex_doms [1] = Ok [(ex_q [0; 1; 3; 4] 0, 0); (ex_q [1; 2; 4; 5] 1, 0)] /\
  makeBoundaryElementViews (fun l => l) ex_doms [0] = Throw /\
  (exists x, make_mesh2 (fun l => l) (fun l => l) ex_doms 2 3 [1] = Ok x /\ so_shared (m_own x) = [0; 1; 5] /\
     exists y, reindexNodes (fun i => (i + 4) `mod` 6) x = Ok y /\ so_begin (m_own y) = 0 /\ so_shared (m_own y) = [3; 4; 5]) /\
  getNElements ex_doms = 4 /\
  pushToDomain [1] (mk_dom [[]; []; []] (Some 2)) (ex_l [0; 1] 0) = Throw /\
  pushToDomain [1] (mk_dom [[]; []; []] None) (ex_l [0; 1] 0) = Ok (mk_dom [[]; []; [ex_l [0; 1] 0]] (Some 1)).
Proof.
  assert (Hcase : forall p : nat * domain nat, p ∈ ex_doms -> p = (0, mk_dom [[]; [ex_q [0; 1; 3; 4] 0; ex_q [1; 2; 4; 5] 1]; []] (Some 2)) \/
    p = (1, mk_dom [[]; []; [ex_l [1; 0] 2; ex_l [1; 2] 3]] (Some 1))).
  { intros p Hp. unfold ex_doms in Hp. rewrite !elem_of_cons, elem_of_nil in Hp. tauto. }
  assert (Hvec : forall id d v, (id, d) ∈ ex_doms -> v ∈ d_els d -> v = [] \/ (v = [ex_q [0; 1; 3; 4] 0; ex_q [1; 2; 4; 5] 1] /\ d_dim d = Some 2) \/
    (v = [ex_l [1; 0] 2; ex_l [1; 2] 3] /\ d_dim d = Some 1)).
  { intros id d v Hd Hv. apply Hcase in Hd as [[= -> ->]|[= -> ->]]; cbn in Hv; rewrite !elem_of_cons, elem_of_nil in Hv; cbn; naive_solver. }
  split; [|split; [|split]].
  - intros id d v Hd Hv. destruct (Hvec id d v Hd Hv) as [->|[[-> _]|[-> _]]]; repeat constructor.
  - split; [repeat constructor|]. assert (Hdim : forall id d, (id, d) ∈ ex_doms -> dim_domain d).
    { intros id d Hd v e Hv He. destruct (Hvec id d v Hd Hv) as [->|[[-> Hk]|[-> Hk]]]; rewrite ?Hk; rewrite ?elem_of_cons, ?elem_of_nil in He; [done| |];
        destruct He as [->|[->|[]]]; done. }
    constructor; [|constructor; [|constructor]]; (split; [|eapply Hdim; unfold ex_doms; rewrite !elem_of_cons; cbn; eauto]).
    + repeat constructor.
    + repeat constructor.
  - intros i. rewrite <- (node_set_elem ex_doms i) by (unfold ex_doms; cbn; apply NoDup_cons; split; [by intros H%elem_of_list_singleton|apply NoDup_singleton]).
    replace (node_set ex_doms) with [3; 4; 5; 0; 1; 2] by (vm_compute; reflexivity). rewrite !elem_of_cons, elem_of_nil. lia.
  - repeat split; try (vm_compute; reflexivity). eexists. split; [vm_compute; reflexivity|]. split; [vm_compute; reflexivity|].
    eexists. split; [vm_compute; reflexivity|]. split; vm_compute; reflexivity.
Qed.
