(** Model of mesh/Element.hpp, mesh/ElementData.hpp, mesh/Domain.hpp,
    mesh/BoundaryView.hpp, mesh/BoundaryElementView.hpp and
    mesh/MeshPartition.hpp.  Node, element and domain ids are natural numbers
    (unsigned 64-, 64- and 16-bit integers in the code). *)
From Verif Require Import Base StdAlgo Ownership_model Elem_model Parallel_model.

(** Element.hpp:17-32; [V] is the type of vertices (ElementData.hpp:11-32).
    Type and order are template parameters in the code. *)
Record element (V : Type) := mk_el {
  el_type : etype; el_order : nat; el_nodes : list nat; el_verts : list V; el_id : nat }.
Arguments mk_el {V} _ _ _ _ _.
Arguments el_type {V} _.
Arguments el_order {V} _.
Arguments el_nodes {V} _.
Arguments el_verts {V} _.
Arguments el_id {V} _.
(** The element types a mesh with the given orders can hold: ElementMeta.hpp:18-21,
    util/Meta.hpp:63-82.  One vector of elements per entry. *)
Definition slots (orders : list nat) : list (etype * nat) :=
  concat (map (fun t => map (fun o => (t, o)) orders) [Hex; Quad; Line]).
Fixpoint pos_of {A} `{EqDecision A} (x : A) (l : list A) : option nat :=
  match l with [] => None | y :: l => if decide (x = y) then Some 0 else S <$> pos_of x l end.
(** Domain.hpp:25-41.  [None] is uninitialized_dim. *)
Record domain (V : Type) := mk_dom { d_els : list (list (element V)); d_dim : option nat }.
Arguments mk_dom {V} _ _.
Arguments d_els {V} _.
Arguments d_dim {V} _.
Definition empty_domain {V} (orders : list nat) : domain V := mk_dom (map (fun _ => []) (slots orders)) None.
(** pushToDomain, Domain.hpp:48-57, emplaceInDomain, 59-68.  An element type the
    domain cannot hold is excluded at compile time; it is UB here. *)
Definition pushToDomain {V} (orders : list nat) (d : domain V) (e : element V) : res (domain V) :=
  let dim := default (native_dim (el_type e)) (d_dim d) in
  _ ← throwing_assert (dim =? native_dim (el_type e));
  match pos_of (el_type e, el_order e) (slots orders) with
  | Some i => v ← rd (d_els d) i; Ok (mk_dom (<[i := v ++ [e]]> (d_els d)) (Some dim))
  | None => UB
  end.

(** std::map<d_id_t, ...> as the list of its entries in key order. *)
Notation dmap A := (list (nat * A)).
Fixpoint dm_find {A} (k : nat) (m : dmap A) : option A :=
  match m with [] => None | (k', a) :: m => if k =? k' then Some a else dm_find k m end.
(** Store [a] under key [k]. *)
Fixpoint dm_set {A} (k : nat) (a : A) (m : dmap A) : dmap A :=
  match m with
  | [] => [(k, a)]
  | (k', a') :: m' => if k <? k' then (k, a) :: m else if k =? k' then (k, a) :: m' else (k', a') :: dm_set k a m'
  end.
(** map::emplace: an existing entry stays. *)
Definition dm_emplace {A} (k : nat) (a : A) (m : dmap A) : dmap A :=
  match dm_find k m with Some _ => m | None => dm_set k a m end.

(** ** Visiting and finding *)
Section visit.
  Context {V : Type}.
  Notation el := (element V).
  Notation doms := (dmap (domain V)).
  (** visitImpl, MeshPartition.hpp:457-472, with the sequenced policy (and
      filterExistingDomainIds, 475-481): the elements in visiting order. *)
  Definition visit_elems (m : doms) (ids : list nat) : list el :=
    concat (map (fun id => match dm_find id m with Some d => concat (d_els d) | None => [] end) ids).
  (** The same with a parallel policy: parallelFor over the ids, each iteration
      visiting the domain's vectors in parallel; any interleaving of the domains'
      visits. *)
  Definition visit_par (m : doms) (ids : list nat) (calls : list el) : Prop :=
    exists per_id, Forall2 (fun id l => match dm_find id m with Some d => uv_visit_par (d_els d) l | None => l = [] end) ids per_id /\
      interleaves per_id calls.
  (** transformReduce, 372-389: filterExistingDomainIds, then std::transform_reduce
      over the domains' UniVector::transformReduce. *)
  Definition mesh_transformReduce {R} (par : bool) (op : R -> R -> R) (f : el -> R) (m : doms) (ids : list nat) (zero r : R) : Prop :=
    exists parts, Forall2 (fun d p => uv_transformReduce par op f (d_els d) zero p) (omap (fun id => dm_find id m) ids) parts /\
      gen_sum op (zero :: parts) r.
  (** visit without ids, 327-339. *)
  Definition all_elems (m : doms) : list el := visit_elems m m.*1.
  (** getNElements, 450-455. *)
  Definition getNElements (m : doms) : nat := sum (map (fun d : nat * domain V => sum (map length (d_els d.2))) m).
  (** find with a predicate, 204-219 (UniVector::find in each domain): the loops
      over domains, vectors and elements stop at the first match. *)
  Fixpoint find_res {A B} (f : A -> res (option B)) (l : list A) : res (option B) :=
    match l with
    | [] => Ok None
    | a :: l => r ← f a; match r with Some b => Ok (Some b) | None => find_res f l end
    end.
  Definition find_elem (p : el -> bool) (m : doms) (ids : list nat) : option el := List.find p (visit_elems m ids).
  (** find(id), 221-259: find_in_vec, 228-252. *)
  Definition find_in_vec (id : nat) (v : list el) : res (option el) :=
    match v with
    | [] => Ok None
    | front :: _ =>
      back ← rd v (length v - 1);
      if (id <? el_id front) || (el_id back <? id) then Ok None
      else if el_id back - el_id front + 1 =? length v then e ← rd v (id - el_id front); Ok (Some e)
      else match v !! lower_bound (map el_id v) id with
           | Some e => if el_id e =? id then Ok (Some e) else Ok None
           | None => Ok None
           end
    end.
  Definition find_id (id : nat) (m : doms) : res (option el) :=
    find_res (find_in_vec id) (concat (map (fun d : nat * domain V => d_els d.2) m)).
  (** getMaxDim, 196-202. *)
  Definition getMaxDim (m : doms) : nat := foldr Nat.max 0 (map (fun d : nat * domain V => default 255 (d_dim d.2)) m).
End visit.

(** ** Boundary views *)
Section boundary.
  Context {V : Type}.
  Notation el := (element V).
  Notation doms := (dmap (domain V)).
  (** makeDimToDomainMap, 493-503: the ids of the domains of one dimension. *)
  Definition ids_of_dim (m : doms) (dim : nat) : list nat :=
    map fst (List.filter (fun d : nat * domain V => bool_decide (d_dim d.2 = Some dim)) m).
  (** doesSideMatch, 505-519. *)
  Definition doesSideMatch (e : el) (side_node_inds sorted_boundary_nodes : list nat) : res bool :=
    if length side_node_inds =? length sorted_boundary_nodes then
      side_nodes ← map_res (rd (el_nodes e)) side_node_inds;
      Ok (bool_decide (sort side_nodes = sorted_boundary_nodes))
    else Ok false.
  (** matchBoundaryNodesToElement, 521-545: the first matching side. *)
  Definition matchBoundaryNodesToElement (e : el) (sorted_boundary_nodes : list nat) : res (option nat) :=
    let table := boundary_table (el_type e) (el_order e) in
    find_res (fun (s : nat * list nat) => b ← doesSideMatch e s.2 sorted_boundary_nodes; Ok (if (b : bool) then Some s.1 else None))
      (zip (seq 0 (length table)) table).
  (** makeBoundaryElementViews, 548-594.  A view points to an element and names
      a side; the pointer is modelled by the element.  The boundary elements are
      visited in parallel and views are appended under a mutex: [sched] is the
      order in which that happens.  The views are stored in one vector per
      element type, here in one list. *)
  Definition put_bnd_el_view (m : doms) (bnd_el : el) : res (option (el * nat)) :=
    let sorted := sort (el_nodes bnd_el) in
    match ids_of_dim m (native_dim (el_type bnd_el) + 1) with
    | [] => Throw
    | ids => find_res (fun e => s ← matchBoundaryNodesToElement e sorted;
                               Ok (match s with Some s => Some (e, s) | None => None end)) (visit_elems m ids)
    end.
  Definition makeBoundaryElementViews (sched : list el -> list el) (m : doms) (bnd_ids : list nat) : res (list (el * nat)) :=
    _ ← for_each (fun id _ => match dm_find id m with
                              | Some d => match d_dim d with
                                          | Some dim => throwing_assert (negb (length (ids_of_dim m (dim + 1)) =? 0))
                                          | None => Throw
                                          end
                              | None => Ok tt
                              end) bnd_ids tt;
    views ← map_res (put_bnd_el_view m) (sched (visit_elems m bnd_ids));
    _ ← throwing_assert (forallb (fun o : option (el * nat) => match o with Some _ => true | None => false end) views);
    Ok (omap id views).
  (** initBoundaryViews, 184-194. *)
  Definition initBoundaryViews (sched : list el -> list el) (m : doms) (bnd_ids : list nat) : res (dmap (list (el * nat))) :=
    for_each (fun id r => bv ← makeBoundaryElementViews sched m [id]; Ok (dm_emplace id bv r)) bnd_ids [].
  (** findDomainElement, mesh/MeshUtils.hpp:12-35. *)
  Definition findDomainElement (m : doms) (bnd_el : el) (ids : list nat) : res (option (el * nat)) :=
    find_res (fun e => if native_dim (el_type e) =? native_dim (el_type bnd_el) + 1 then
                         s ← matchBoundaryNodesToElement e (sort (el_nodes bnd_el));
                         Ok (match s with Some s => Some (e, s) | None => None end)
                       else Ok None) (visit_elems m ids).
End boundary.

(** ** MeshPartition, data members 163-165 *)
Record mesh (V : Type) := mk_mesh {
  m_domains : dmap (domain V); m_own : ownership; m_bnds : dmap (list (element V * nat)) }.
Arguments mk_mesh {V} _ _ _.
Arguments m_domains {V} _.
Arguments m_own {V} _.
Arguments m_bnds {V} _.
Section mesh.
  Context {V : Type}.
  Notation el := (element V).
  Notation doms := (dmap (domain V)).
  (** The hash sets of 275-280 and 295-300 as lists without duplicates. *)
  Definition node_set (m : doms) : list nat := remove_dups (concat (map el_nodes (all_elems m))).
  Definition list_min (l : list nat) : nat := match l with [] => 0 | a :: l => foldr Nat.min a l end.
  (** First constructor, 270-285. *)
  Definition make_mesh1 (sched : list el -> list el) (m : doms) (bnd_ids : list nat) : res (mesh V) :=
    let nodes := node_set m in
    own ← make_ownership (list_min nodes) (length nodes) [];
    bnds ← initBoundaryViews sched m bnd_ids;
    Ok (mk_mesh m own bnds).
  (** Second constructor, 287-302.  [shuffle] is the iteration order of the hash set. *)
  Definition make_mesh2 (sched : list el -> list el) (shuffle : list nat -> list nat)
      (m : doms) (begin n : nat) (bnd_ids : list nat) : res (mesh V) :=
    bnds ← initBoundaryViews sched m bnd_ids;
    let ghosts := List.filter (fun x => (x <? begin) || (begin + n <=? x)) (node_set m) in
    own ← make_ownership begin n (shuffle ghosts);
    Ok (mk_mesh m own bnds).
  (** copy, 261-268. *)
  Definition copy_mesh (sched : list el -> list el) (shuffle : list nat -> list nat) (m : mesh V) : res (mesh V) :=
    make_mesh2 sched shuffle (m_domains m) (if numOwned (m_own m) =? 0 then 0 else so_begin (m_own m))
      (numOwned (m_own m)) (m_bnds m).*1.
  (** reindexNodes, 168-182.  The boundary views point to the renumbered elements. *)
  Definition reindex_el (f : nat -> nat) (e : el) : el :=
    mk_el (el_type e) (el_order e) (map f (el_nodes e)) (el_verts e) (el_id e).
  Definition reindex_domain (f : nat -> nat) (d : domain V) : domain V :=
    mk_dom (map (map (reindex_el f)) (d_els d)) (d_dim d).
  Definition reindexNodes (f : nat -> nat) (m : mesh V) : res (mesh V) :=
    let so := m_own m in
    let owned := seq (so_begin so) (numOwned so) in
    let new_begin := match owned with [] => 0 | _ => list_min (map f owned) end in
    own ← make_ownership new_begin (numOwned so) (map f (so_shared so));
    Ok (mk_mesh (map (fun d : nat * domain V => (d.1, reindex_domain f d.2)) (m_domains m)) own
          (map (fun b : nat * list (el * nat) => (b.1, map (fun v => (reindex_el f v.1, v.2)) b.2)) (m_bnds m))).
End mesh.
