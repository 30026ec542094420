(** Model of mesh/PartitionMesh.hpp.  idx_t casts are exact on the modelled
    range; METIS_PartMeshNodal is a parameter. *)
From Verif Require Import Base StdAlgo Ownership_model Elem_model Mesh_model Helpers_model.

Section partition.
  Context {V : Type} (orders : list nat).
  Notation el := (element V).
  Notation doms := (dmap (domain V)).

  (** getBoundaryNodes, getInternalNodes: Element.hpp:34-46. *)
  Definition boundary_nodes (e : el) : res (list nat) := map_res (rd (el_nodes e)) (boundary_node_inds (el_type e) (el_order e)).
  Definition internal_nodes (e : el) : res (list nat) := map_res (rd (el_nodes e)) (internal_node_inds (el_type e) (el_order e)).

  (** 60-66. *)
  Definition getDomainIds (m : doms) (boundary_ids : list nat) : list nat :=
    List.filter (fun id => negb (bool_decide (id ∈ boundary_ids))) m.*1.
  (** 88-107: (e_ind, e_ptr). *)
  Definition prepMetisInput (m : doms) (cond_map domain_ids : list nat) : res (list nat * list nat) :=
    for_each (fun e st => ns ← boundary_nodes e; cs ← map_res (rd cond_map) ns;
                          last ← rd st.2 (length st.2 - 1);
                          Ok (st.1 ++ cs, st.2 ++ [last + length cs]))
      (visit_elems m domain_ids) ([], [0]).
  (** 109-131.  All elements are visited in parallel, storing 1; [order] is the
      order of the visits. *)
  Definition markBoundaryNodes (n_nodes : nat) (order : list el) : res (list nat) :=
    for_each (fun e marks => ns ← boundary_nodes e; for_each (fun n marks => wr marks n 1) ns marks) order (repeat 0 n_nodes).
  (** The loop 120-129, on the rest of the marks: node_full, node_cond. *)
  Fixpoint condense_loop (marks : list nat) (node_full node_cond : nat) : list nat * list nat :=
    match marks with
    | [] => ([], [])
    | x :: marks =>
      if x =? 0 then let r := condense_loop marks (node_full + 1) node_cond in (x :: r.1, r.2)
      else let r := condense_loop marks (node_full + 1) (node_cond + 1) in (node_cond :: r.1, node_full :: r.2)
    end.
  Definition makeNodeCondensationMaps (n_nodes : nat) (order : list el) : res (list nat * list nat) :=
    marks ← markBoundaryNodes n_nodes order; Ok (condense_loop marks 0 0).
  (** 133-140, in place. *)
  Definition condenseNodeWeights (node_weights reverse_map : list nat) : res (list nat) :=
    if length node_weights =? 0 then Ok node_weights
    else st ← for_each (fun n st => x ← rd st.1 n; w ← wr st.1 st.2 x; Ok (w, st.2 + 1)) reverse_map (node_weights, 0); Ok st.1.
  (** 185-205.  The array is not initialised: [None]. *)
  Definition uncondenseNodes (n_nodes : nat) (epart npart_cond reverse_map : list nat) (m : doms) (domain_ids : list nat)
      : res (list (option nat)) :=
    st ← for_each (fun n st => p ← rd npart_cond st.2; r ← wr st.1 n (Some p); Ok (r, st.2 + 1)) reverse_map (repeat None n_nodes, 0);
    st ← for_each (fun e st => p ← rd epart st.2; ns ← internal_nodes e;
                               r ← for_each (fun n r => wr r n (Some p)) ns st.1; Ok (r, st.2 + 1))
           (visit_elems m domain_ids) (st.1, 0);
    Ok st.1.
  (** pushToDomain(maps[part][id], element); [oob] is what maps does outside its range. *)
  Definition push_part (oob : res (list doms)) (part id : nat) (e : el) (maps : list doms) : res (list doms) :=
    match maps !! part with
    | Some dm => d ← pushToDomain orders (default (empty_domain orders) (dm_find id dm)) e; Ok (<[part := dm_set id d dm]> maps)
    | None => oob
    end.
  (** at. *)
  Definition at_ {A} (l : list A) (i : nat) : res A := match l !! i with Some a => Ok a | None => Throw end.
  (** 227-244. *)
  Definition makeDomainMaps (m : doms) (n_parts : nat) (epart domain_ids : list nat) : res (list doms) :=
    st ← for_each (fun id => for_each (fun e st => p ← at_ epart st.2; maps ← push_part Throw p id e st.1; Ok (maps, st.2 + 1))
                               (visit_elems m [id]))
           domain_ids (repeat [] n_parts, 0);
    Ok st.1.
  (** 254-270, 280-286: element ids of the domains are sorted together with the
      parts; the part of an element is looked up by its id. *)
  Definition lookup_el_part (sorted_ids sorted_epart : list nat) (el_id : nat) : res nat :=
    at_ sorted_epart (lower_bound sorted_ids el_id).
  (** 272-319.  parallelFor over the boundaries and, for each, over the domains
      one dimension higher; insertions are guarded by a mutex.  [sched] is the
      order in which the pairs (boundary element, domain) are processed. *)
  Definition boundary_tasks (m : doms) (boundary_ids : list nat) : res (list (nat * nat * el)) :=
    tasks ← map_res (fun b => d ← match dm_find b m with Some d => Ok d | None => Throw end;
                              dim ← match d_dim d with Some dim => Ok dim | None => Throw end;
                              match ids_of_dim m (dim + 1) with
                              | [] => Throw
                              | ids => Ok (concat (map (fun id => map (fun e => (b, id, e)) (visit_elems m [b])) ids))
                              end) boundary_ids;
    Ok (concat tasks).
  Definition assignBoundaryElements (std_sort : sorter) (sched : list (nat * nat * el) -> list (nat * nat * el)) (m : doms) (epart : list nat)
      (new_domain_maps : list doms) (domain_ids boundary_ids : list nat) : res (list doms) :=
    let els := map el_id (visit_elems m domain_ids) in
    let sort_ind := sortingPermutation std_sort els Nat.ltb in
    sorted_ids ← copyPermuted els sort_ind;
    sorted_epart ← copyPermuted epart sort_ind;
    tasks ← boundary_tasks m boundary_ids;
    st ← for_each (fun t st => let '(b, id, e) := t in
                     r ← findDomainElement m e [id];
                     match r with
                     | Some (dom_el, _) => p ← lookup_el_part sorted_ids sorted_epart (el_id dom_el);
                                           maps ← push_part UB p b e st.1; Ok (maps, st.2 + 1)
                     | None => Ok st
                     end) (sched tasks) (new_domain_maps, 0);
    _ ← throwing_assert (st.2 =? length (visit_elems m boundary_ids));
    Ok st.1.

  (** ** Nodes *)
  (** 358-386: the sorted owned and ghost nodes of one part. *)
  Definition rd_npart (npart : list (option nat)) (n : nat) : res nat := x ← rd npart n; match x with Some p => Ok p | None => UB end.
  Definition part_nodes (npart : list (option nat)) (part_ind : nat) (dm : doms) : res (list nat * list nat) :=
    st ← for_each (fun e => for_each (fun n st => p ← rd_npart npart n;
                                       Ok (if p =? part_ind then (n :: st.1, st.2) else (st.1, n :: st.2))) (el_nodes e))
           (all_elems dm) ([], []);
    Ok (sort (remove_dups st.1), sort (remove_dups st.2)).
  (** 372-377. *)
  Definition disjoint_of (npart : list (option nat)) (part_ind : nat) (owned : list nat) : res (list nat) :=
    ps ← map_res (rd_npart npart) (seq 0 (length npart));
    Ok (List.filter (fun n => bool_decide (ps !! n = Some part_ind) && negb (bool_decide (n ∈ owned))) (seq 0 (length npart))).
  (** try_claim, 328-335, applied to the nodes in turn by std::erase_if: the nodes
      that remain, (claimed, ghosts). *)
  Fixpoint claim_loop (nodes claimed ghosts : list nat) : list nat * (list nat * list nat) :=
    match nodes with
    | [] => ([], (claimed, ghosts))
    | n :: nodes =>
      let i := lower_bound ghosts n in
      if bool_decide (ghosts !! i = Some n) then claim_loop nodes (claimed ++ [n]) (delete i ghosts)
      else let r := claim_loop nodes claimed ghosts in (n :: r.1, r.2)
    end.
  (** 322-347.  Merging the sorted claimed nodes into the sorted owned ones is sorting. *)
  Definition reassignDisjointNodes (parts : list (list nat * list nat)) (disjoint : list nat) : res (list (list nat * list nat)) :=
    let st := foldl (fun st (nodes : list nat * list nat) =>
                       let r := claim_loop st.2 [] nodes.2 in (st.1 ++ [(sort (nodes.1 ++ sort r.2.1), r.2.2)], r.1)) ([], disjoint) parts in
    _ ← throwing_assert (length st.2 =? 0);
    Ok st.1.
  (** 349-391. *)
  Definition assignNodes (npart : list (option nat)) (domain_maps : list doms) : res (list (list nat * list nat)) :=
    parts ← map_res (fun ip => part_nodes npart ip.1 ip.2) (zip (seq 0 (length domain_maps)) domain_maps);
    disjoint ← map_res (fun ip => disjoint_of npart ip.1 (ip.2 : list nat * list nat).1) (zip (seq 0 (length parts)) parts);
    reassignDisjointNodes parts (concat disjoint).
  (** 410-440: the map, the owned and ghost nodes, the domains.  The hash map is
      an association list (hm_find, hm_emplace). *)
  Definition number_owned (owned : list nat) (st : list (nat * nat) * nat) : list (nat * nat) * nat :=
    foldl (fun st old => (hm_emplace old st.2 st.1, st.2 + 1)) st owned.
  Definition at_map (mp : list (nat * nat)) (n : nat) : res nat := match hm_find n mp with Some x => Ok x | None => Throw end.
  Definition renumber_elem (mp : list (nat * nat)) (e : el) : res el :=
    ns ← map_res (at_map mp) (el_nodes e); Ok (mk_el (el_type e) (el_order e) ns (el_verts e) (el_id e)).
  Definition renumber_domain (mp : list (nat * nat)) (p : nat * domain V) : res (nat * domain V) :=
    es ← map_res (map_res (renumber_elem mp)) (d_els p.2); Ok (p.1, mk_dom es (d_dim p.2)).
  Definition renumberNodes (dom_maps : list doms) (node_vecs : list (list nat * list nat))
      : res (list (nat * nat) * list (list nat * list nat) * list doms) :=
    let mp := (foldl (fun st (v : list nat * list nat) => number_owned v.1 st) ([], 0) node_vecs).1 in
    (* the loop 416-421 overwrites owned ids in the same order *)
    let owned := (foldl (fun st (v : list nat * list nat) => (st.1 ++ [seq st.2 (length v.1)], st.2 + length v.1)) ([], 0) node_vecs).1 in
    ghosts ← map_res (fun v : list nat * list nat => g ← map_res (at_map mp) v.2; Ok (sort g)) node_vecs;
    maps ← map_res (map_res (renumber_domain mp)) dom_maps;
    Ok (mp, zip owned ghosts, maps).
  (** 393-408. *)
  Definition makeMeshFromPartitionComponents (sched : list el -> list el) (shuffle : list nat -> list nat)
      (dom_maps : list doms) (node_vecs : list (list nat * list nat)) (bnd_ids : list nat) : res (list (mesh V)) :=
    map_res (fun x : list nat * list nat * doms =>
               make_mesh2 sched shuffle x.2 (match x.1.1 with [] => 0 | o :: _ => o end) (length x.1.1) bnd_ids)
      (zip node_vecs dom_maps).

  (** ** The partitioner *)
  (** METIS_PartMeshNodal, 158-183: n_els, n_nodes, e_ptr, e_ind, node weights,
      number of parts; returns epart and npart, or fails. *)
  Notation metis_fn := (nat -> nat -> list nat -> list nat -> list nat -> nat -> res (list nat * list nat)).
  (** What is up to the environment: METIS, std::sort, the order of parallel
      loops and of hash set iteration. *)
  Record env := {
    e_metis : metis_fn; e_sort : sorter; e_visit : list el -> list el;
    e_assign : list (nat * nat * el) -> list (nat * nat * el); e_views : list el -> list el; e_hash : list nat -> list nat }.
  (** 207-225. *)
  Definition partitionCondensedMesh (E : env) (x : mesh V) (domain_ids : list nat) (n_parts : nat) (node_weights : list nat)
      : res (list nat * list (option nat)) :=
    let m := m_domains x in let n_nodes := localSize (m_own x) in
    maps ← makeNodeCondensationMaps n_nodes (e_visit E (all_elems m));
    w ← condenseNodeWeights node_weights maps.2;
    inp ← prepMetisInput m maps.1 domain_ids;
    out ← e_metis E (length (visit_elems m domain_ids)) (length maps.2) inp.2 inp.1 w n_parts;
    npart ← uncondenseNodes n_nodes out.1 out.2 maps.2 m domain_ids;
    Ok (out.1, npart).
  (** 448-466. *)
  Definition partitionMeshImpl (E : env) (x : mesh V) (n_parts : nat) (boundary_ids node_weights : list nat)
      : res (list (mesh V) * list (nat * nat)) :=
    let m := m_domains x in
    let domain_ids := getDomainIds m boundary_ids in
    ep ← partitionCondensedMesh E x domain_ids n_parts node_weights;
    maps ← makeDomainMaps m n_parts ep.1 domain_ids;
    maps ← assignBoundaryElements (e_sort E) (e_assign E) m ep.1 maps domain_ids boundary_ids;
    node_vecs ← assignNodes ep.2 maps;
    r ← renumberNodes maps node_vecs;
    parts ← makeMeshFromPartitionComponents (e_views E) (e_hash E) r.2 r.1.2 boundary_ids;
    Ok (parts, r.1.1).
  (** 468-476; back() of an empty range is UB. *)
  Definition assertUnpartitionedMesh (x : mesh V) : res unit :=
    if negb (length (so_shared (m_own x)) =? 0) then Throw
    else if numOwned (m_own x) =? 0 then UB
    else throwing_assert (so_begin (m_own x) + numOwned (m_own x) - 1 =? numOwned (m_own x) - 1).
  (** 479-499; the node weights (computeNodeWeights) are a parameter. *)
  Definition partitionMesh (E : env) (x : mesh V) (n_parts : nat) (node_weights : list nat) : res (list (mesh V)) :=
    _ ← assertUnpartitionedMesh x;
    _ ← throwing_assert (1 <=? n_parts);
    if n_parts =? 1 then c ← copy_mesh (e_views E) (e_hash E) x; Ok [c]
    else r ← partitionMeshImpl E x n_parts (m_bnds x).*1 node_weights; Ok r.1.
End partition.
