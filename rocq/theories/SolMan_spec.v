(** The contents of a solution manager: a value for each field and node. *)
From Verif Require Import Base SolMan_model.

Definition changed {V} (m : nat -> nat -> V) (c : change V) : nat -> nat -> V := fun f n =>
  match c with
  | SetFields inds x => if decide (f ∈ inds) then x else m f n
  | ViewSet i j x | RawSet j i x => if decide (f = i /\ n = j) then x else m f n
  end.
Definition contents {V} (initial : V) (l : list (change V)) : nat -> nat -> V := foldl changed (fun _ _ => initial) l.
(** Only fields and nodes that exist are changed. *)
Definition within {V} (fields nodes : nat) (c : change V) : Prop :=
  match c with SetFields inds _ => Forall (fun i => i < fields) inds | ViewSet i j _ | RawSet j i _ => i < fields /\ j < nodes end.
