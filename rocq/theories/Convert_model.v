(** Model of mesh/ConvertMeshToOrder.hpp and mesh/ElementIntersecting.hpp: raising the
    order of a mesh.  The overflow checks against the integers of METIS
    (mesh/MeshUtils.hpp:49-55, 63) are left out: ids are natural numbers. *)
From Coq Require Import Reals.
From Verif Require Import Base StdAlgo Ownership_model Elem_model Mesh_model Merge_model Helpers_model Geom_model.
Local Open Scope nat_scope.

(** ** Outer features, ElementIntersecting.hpp *)
(** getSideIntersection, 15-37: the common node indices of two sides. *)
Definition side_intersection (a b : list nat) : list nat := set_intersection (sort a) (sort b).
(** intersectSideWith, 46-50 (tuple_le2, 39-44): intersections of two indices or more. *)
Definition intersect_side_with (a : list nat) (rest : list (list nat)) : list (list nat) :=
  List.filter (fun l => 2 <=? length l) (map (side_intersection a) rest).
(** intersectSidesWithSubseqSides, 52-66: every side with those after it. *)
Fixpoint edge_table (table : list (list nat)) : list (list nat) :=
  match table with [] => [] | a :: rest => intersect_side_with a rest ++ edge_table rest end.
(** element_outer_features, 68-102. *)
Definition outer_features (t : etype) (O dim : nat) : list (list nat) :=
  if (dim =? 0) || (native_dim t <? dim) then []
  else if native_dim t =? dim then [seq 0 (nodes_per_element t O)]
  else if native_dim t - 1 =? dim then boundary_table t O
  else edge_table (boundary_table t O).
(** getHighestMatchableDim, 106-113. *)
Definition highest_matchable (t1 t2 : etype) : nat :=
  if native_dim t1 =? native_dim t2 then native_dim t1 - 1 else Nat.min (native_dim t1) (native_dim t2).

Definition indexed {A} (l : list A) : list (nat * A) := zip (seq 0 (length l)) l.

Section convert.
  (** [loc t verts O i] is nodePhysicalLocation (NodePhysicalLocation.hpp:10-26) of node
      [i] of an element of type [t] and order [O] with the vertices [verts]; it does not
      look at the element's nodes or id.  [near] is getPointMatcher, 181-187. *)
  Context {V P : Type} (near : P -> P -> bool) (loc : etype -> list V -> nat -> nat -> P) (OC : nat).
  Notation el := (element V).
  Notation doms := (dmap (domain V)).
  (** elementIntersectionSpansAtDim, 115-155: the first pair of features with the same
      nodes; the result are the index lists of that pair in the elements of order OC. *)
  Definition spans_at_dim (dim : nat) (e1 e2 : el) : res (list nat * list nat) :=
    r ← find_res (fun f1 : nat * list nat =>
          nodes1 ← map_res (rd (el_nodes e1)) f1.2;
          find_res (fun f2 : nat * list nat =>
            nodes2 ← map_res (rd (el_nodes e2)) f2.2;
            if bool_decide (sort nodes1 = sort nodes2) then
              inds1 ← rd (outer_features (el_type e1) OC dim) f1.1;
              inds2 ← rd (outer_features (el_type e2) OC dim) f2.1;
              Ok (Some (inds1, inds2))
            else Ok None) (indexed (outer_features (el_type e2) 1 dim))) (indexed (outer_features (el_type e1) 1 dim));
    Ok (match r with Some p => p | None => ([], []) end).
  (** elementIntersection, 157-179. *)
  Definition element_intersection (e1 e2 : el) : res (list nat * list nat) :=
    match highest_matchable (el_type e1) (el_type e2) with
    | 0 => Ok ([], [])
    | 1 => spans_at_dim 1 e1 e2
    | _ => m ← spans_at_dim 2 e1 e2;
           match m.1 with [] => spans_at_dim 1 e1 e2 | _ => Ok m end
    end.
  (** The mask (a std::bitset) and the nodes of the element being converted. *)
  Notation marks := (list bool * list nat)%type.
  (** bitset::set throws when out of range. *)
  Definition put_node (ind n : nat) (mn : marks) : res marks :=
    if ind <? length mn.1 then nodes ← wr mn.2 ind n; Ok (<[ind := true]> mn.1, nodes) else Throw.
  (** updateMatchMask from the element itself, 190-205. *)
  Definition own_match (e : el) (mn : marks) : res marks :=
    let t := el_type e in
    let o1 := map (loc t (el_verts e) 1) (seq 0 (nodes_per_element t 1)) in
    let oN := map (loc t (el_verts e) OC) (seq 0 (nodes_per_element t OC)) in
    for_each (fun (ki : nat * nat) mn => n ← rd (el_nodes e) ki.1; put_node ki.2 n mn) (indexed (matchingPermutation near oN o1)) mn.
  (** updateMatchMask from a converted neighbour, 207-233.  The filtered view is lazy;
      the loop at 227-231 only sets bits of indices it has already passed, so the
      filter may be evaluated once. *)
  Definition nbr_match (nbr nbr' e : el) (mn : marks) : res marks :=
    inds ← element_intersection nbr e;
    let '(pattern_inds, match_inds) := inds in
    tested ← map_res (fun i => b ← rd mn.1 i; Ok (i, b)) match_inds;
    let filtered := map fst (List.filter (fun ib : nat * bool => negb ib.2) tested) in
    let buffer := matchingPermutation near (map (loc (el_type nbr) (el_verts nbr') OC) pattern_inds)
                                           (map (loc (el_type e) (el_verts e) OC) filtered) in
    for_each (fun (km : nat * nat) mn => b ← rd buffer km.1; p ← rd pattern_inds b; n ← rd (el_nodes nbr') p; put_node km.2 n mn) (indexed filtered) mn.

  (** ** convertMeshToOrder, ConvertMeshToOrder.hpp *)
  (** makeNeighborInfoMap, 21-34: the element with an id and its domain.  emplace keeps
      the first entry. *)
  Definition nbr_info (m : doms) (id : nat) : option (nat * el) :=
    List.find (fun de : nat * el => el_id de.2 =? id) (concat (map (fun d : nat * domain V => map (pair d.1) (concat (d_els d.2))) m)).
  (** initNewDomains, 36-48. *)
  Definition init_domains (m : doms) : doms :=
    map (fun d : nat * domain V => (d.1, mk_dom (map (fun _ => []) (slots [OC])) (d_dim d.2))) m.
  (** The state of the conversion: new_domains, max_node and converted, 57-61. *)
  Notation state := (doms * nat * list bool)%type.
  (** match_nbr_nodes, 71-86.  An element vector is found by its type. *)
  Definition match_nbr (m : doms) (st : state) (e : el) (nbr_id : nat) (mn : marks) : res marks :=
    let '(new_domains, _, converted) := st in
    c ← rd converted nbr_id;
    if negb c then Ok mn
    else match nbr_info m nbr_id with
         | None => Throw
         | Some (nbr_dom_id, nbr) =>
           match dm_find nbr_dom_id new_domains with
           | None => Throw
           | Some d => match pos_of (el_type nbr, OC) (slots [OC]) with
                       | None => UB
                       | Some k => nbr_vec ← rd (d_els d) k;
                                   nbr' ← rd nbr_vec (lower_bound (map el_id nbr_vec) nbr_id);
                                   nbr_match nbr nbr' e mn
                       end
           end
         end.
  (** 88-93: fresh ids for the unmatched nodes. *)
  Definition number_nodes (inds : list nat) (mn : marks * nat) : res (marks * nat) :=
    for_each (fun i (s : marks * nat) => b ← rd s.1.1 i;
                if (b : bool) then Ok s else nodes ← wr s.1.2 i s.2; Ok ((s.1.1, nodes), S s.2)) inds mn.
  (** convert_element, 64-98.  [adj] is the dual graph: the neighbours of each element. *)
  Definition convert_element (m : doms) (adj : list (list nat)) (domain_id : nat) (e : el) (st : state) : res state :=
    let t := el_type e in
    let n := nodes_per_element t OC in
    mn ← own_match e (replicate n false, replicate n 0);
    nbrs ← rd adj (el_id e);
    mn ← for_each (match_nbr m st e) nbrs mn;
    s ← number_nodes (boundary_node_inds t OC) (mn, st.1.2);
    s ← number_nodes (internal_node_inds t OC) s;
    let e' := mk_el t OC s.1.2 (el_verts e) (el_id e) in
    match dm_find domain_id st.1.1 with
    | None => UB
    | Some d => d' ← pushToDomain [OC] d e';
                converted ← wr st.2 (el_id e) true;
                Ok (dm_set domain_id d' st.1.1, s.2, converted)
    end.
  (** The loops over the domains and their elements, 63, 99-103. *)
  Definition convert_domains (m : doms) (adj : list (list nat)) (st : state) : res state :=
    for_each (fun (d : nat * domain V) st => for_each (convert_element m adj d.1) (concat (d_els d.2)) st) m st.
  (** isUnpartitioned, mesh/MeshUtils.hpp:36-42, and the checks of computeMeshDual, 44-81:
      back() of no nodes is UB; every id below the number of elements must be found. *)
  Definition dual_checks (x : mesh V) : res unit :=
    let own := m_own x in
    _ ← throwing_assert ((localSize own =? 0) ||
          ((length (so_shared own) =? 0) && (so_begin own + numOwned own - 1 + 1 =? numOwned own)));
    _ ← (if numOwned own =? 0 then UB else Ok tt);
    for_each (fun i _ => r ← find_id i (m_domains x); match r with Some _ => Ok tt | None => Throw end)
      (seq 0 (getNElements (m_domains x))) tt.
  (** 51-106.  [adj] is what METIS_MeshToDual computes for at least two common nodes
      (MeshUtils.hpp:85-93). *)
  Definition convertMeshToOrder (sched : list el -> list el) (shuffle : list nat -> list nat) (adj : list (list nat)) (x : mesh V) : res (mesh V) :=
    let m := m_domains x in
    _ ← dual_checks x;
    st ← convert_domains m adj (init_domains m, numOwned (m_own x), replicate (getNElements m) false);
    make_mesh2 sched shuffle st.1.1 0 st.1.2 (m_bnds x).*1.
End convert.

(** nodePhysicalLocation, mesh/NodePhysicalLocation.hpp:21-25 (and 10-19, all nodes), in
    exact arithmetic. *)
Definition nodePhysicalLocation (t : etype) (absc : list R) (verts : list (list R)) (i : nat) : res (list R) :=
  p ← rd (node_locations t absc) i; mapToPhysicalSpace t verts p.
(** The argument [loc] of the conversion, for the abscissae [absc] of order OC. *)
Definition location (absc : list R) (t : etype) (verts : list (list R)) (O i : nat) : list R :=
  match nodePhysicalLocation t (if O =? 1 then absc1 else absc) verts i with Ok p => p | _ => [] end.
(** getPointMatcher, mesh/ElementIntersecting.hpp:181-187. *)
Definition tolerance : R := (/ 10 ^ 12)%R.
Definition point_matcher (p q : list R) : bool :=
  if Rlt_dec (norm 3 (fun a => nth a p 0 - nth a q 0)%R) tolerance then true else false.
