(** Model of mesh/ElementType.hpp and mesh/ElementTraits.hpp.  The local index
    type el_locind_t is taken to be wide enough, as its documentation demands
    (common/Typedefs.h:22: "nodes/element must not overflow this"). *)
From Verif Require Import Base StdAlgo.

(** ElementType.hpp:11-19. *)
Inductive etype := Hex | Quad | Line.
Global Instance etype_dec : EqDecision etype. Proof. solve_decision. Defined.
(** native_dim, n_sides, nodes_per_element: ElementTraits.hpp:66-68, 112-114, 151-153. *)
Definition native_dim (t : etype) : nat := match t with Hex => 3 | Quad => 2 | Line => 1 end.
Definition n_sides (t : etype) : nat := match t with Hex => 6 | Quad => 4 | Line => 2 end.
Definition nodes_per_element (t : etype) (O : nat) : nat :=
  match t with Hex => (O + 1) * (O + 1) * (O + 1) | Quad => (O + 1) * (O + 1) | Line => O + 1 end.
(** The pairs (i, j) of the double loop 84-86. *)
Definition loop2 (n : nat) : list (nat * nat) := concat (map (fun i => map (fun j => (i, j)) (seq 0 n)) (seq 0 n)).
(** boundary_table: Hex 71-99, Quad 117-136, Line 156-160. *)
Definition hex_table (O : nat) : list (list nat) :=
  let n := O + 1 in
  let side := n * n in
  let back_shift := side * (n - 1) in
  let top_shift := n * (n - 1) in
  let right_shift := n - 1 in
  let front := seq 0 (length (loop2 n)) in
  let bottom := map (fun ij => ij.1 * side + ij.2) (loop2 n) in
  let left := map (fun ij => ij.1 * side + ij.2 * n) (loop2 n) in
  [front; map (fun x => x + back_shift) front; bottom; map (fun x => x + top_shift) bottom; left; map (fun x => x + right_shift) left].
Definition quad_table (O : nat) : list (list nat) :=
  let n := O + 1 in
  let top_shift := n * (n - 1) in
  let right_shift := n - 1 in
  let bottom := seq 0 n in
  let left := map (fun i => i * n) (seq 0 n) in
  [bottom; map (fun x => x + top_shift) bottom; left; map (fun x => x + right_shift) left].
Definition boundary_table (t : etype) (O : nat) : list (list nat) :=
  match t with Hex => hex_table O | Quad => quad_table O | Line => [[0]; [O]] end.
(** getBoundaryInds, 22-33: concatenate, sort, drop duplicates. *)
Definition getBoundaryInds (table : list (list nat)) : list nat := unique (sort (concat table)).
(** boundary_node_inds, 35-43, 103, 139, 163. *)
Definition boundary_node_inds (t : etype) (O : nat) : list nat := getBoundaryInds (boundary_table t O).
(** internal_node_inds, 45-59, 104, 140, 164. *)
Definition internal_node_inds (t : etype) (O : nat) : list nat :=
  List.filter (fun i => negb (binary_search (boundary_node_inds t O) i)) (seq 0 (nodes_per_element t O)).
(** getSideNodeIndices, 167-174; .at throws. *)
Definition getSideNodeIndices (t : etype) (O : nat) (side : nat) : res (list nat) :=
  match boundary_table t O !! side with Some l => Ok l | None => Throw end.
(** mesh/NodeReferenceLocation.hpp:11-44: reference coordinates of the nodes,
    from the abscissae along one edge. *)
Definition node_locations {A} (t : etype) (absc : list A) : list (list A) :=
  match t with
  | Line => map (fun x => [x]) absc
  | Quad => concat (map (fun eta => map (fun xi => [xi; eta]) absc) absc)
  | Hex => concat (map (fun zeta => concat (map (fun eta => map (fun xi => [xi; eta; zeta]) absc) absc)) absc)
  end.
