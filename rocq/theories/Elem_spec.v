(** Vocabulary of C26.  A node of an order O element is a point of the grid
    {0..O}^dim (mesh/NodeReferenceLocation.hpp): x runs fastest, then y, then z. *)
From Verif Require Import Base Elem_model.
Definition grid_x (O i : nat) : nat := i `mod` (O + 1).
Definition grid_y (O i : nat) : nat := (i / (O + 1)) `mod` (O + 1).
Definition grid_z (O i : nat) : nat := i / ((O + 1) * (O + 1)).
(** The node lies on the given side. *)
Definition on_side (t : etype) (O side i : nat) : Prop :=
  i < nodes_per_element t O /\
  match t, side with
  | Hex, 0 => grid_z O i = 0 | Hex, 1 => grid_z O i = O
  | Hex, 2 => grid_y O i = 0 | Hex, 3 => grid_y O i = O
  | Hex, 4 => grid_x O i = 0 | Hex, 5 => grid_x O i = O
  | Quad, 0 => grid_y O i = 0 | Quad, 1 => grid_y O i = O
  | Quad, 2 => grid_x O i = 0 | Quad, 3 => grid_x O i = O
  | Line, 0 => grid_x O i = 0 | Line, 1 => grid_x O i = O
  | _, _ => False
  end.
