(** Vocabulary of C73. *)
From Coq Require Import Reals.
From Verif Require Import Base.
Local Open Scope R_scope.
(** The buffer holds the operand: component [u] of column [r] at node [J] of [nn] is row
    [J * nu + u] of x. *)
Definition operand_in (nn nu nr : nat) (x : nat -> nat -> R) (buf : list R) : Prop :=
  forall J u r, (J < nn)%nat -> (u < nu)%nat -> (r < nr)%nat -> nth (J + nn * (u + nu * r)) buf 0 = x (J * nu + u)%nat r.
(** Row [i], column [r] of the result in the buffer handed to y_scatter. *)
Definition result_at (nu nr : nat) (buf : list R) (i r : nat) : R := nth (i mod nu + nu * r + nu * nr * (i / nu)) buf 0.
