(** Vocabulary of C78. *)
From Coq Require Import Reals.
From Verif Require Import Base Poly_spec.
Local Open Scope R_scope.

(** Entry [i] of column [c]. *)
Definition entry (Y : list (list R)) (c i : nat) : R := nth i (nth c Y []) 0.
(** [nc] columns of [n] numbers. *)
Definition shaped (n nc : nat) (Y : list (list R)) : Prop := length Y = nc /\ Forall (fun c => length c = n) Y.
(** [Z] = alpha M X + beta Y, where M multiplies entry [i] by [d i]: what Tpetra's
    Operator::apply is to compute. *)
Definition applied (n nc : nat) (d : nat -> R) (alpha : R) (X : list (list R)) (beta : R) (Y Z : list (list R)) : Prop :=
  shaped n nc Z /\ forall c i, (c < nc)%nat -> (i < n)%nat -> entry Z c i = alpha * (d i * entry X c i) + beta * entry Y c i.
(** Entry [i] of a matrix times a vector. *)
Definition times (A : list (list R)) (y : nat -> R) (i : nat) : R := rsum (length A) (fun j => entry A i j * y j).
(** [k] steps of the iteration y := y + M (x - A y) from 0, which are what [k] sweeps of a
    relaxation do. *)
Fixpoint relaxed (A : list (list R)) (d x : nat -> R) (k : nat) : nat -> R :=
  match k with 0%nat => fun _ => 0 | S k => fun i => relaxed A d x k i + d i * (x i - times A (relaxed A d x k) i) end.
