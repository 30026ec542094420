(** Vocabulary of C72. *)
From Verif Require Import Base LocalSys_model LocalSys_spec.
Section spec.
  Context {F : Type} (zero : F) (add mul sub : F -> F -> F) (nu us : nat).
  (** y is the element matrix of C44 times x, for vectors of n entries and nc columns. *)
  Definition times_matrix (n nc : nat) (l : list lupdate) (x y : nat -> nat -> F) : Prop :=
    forall i r, i < n -> r < nc -> y i r = total zero add (seq 0 n) (fun j => mul (expected_mat zero add mul nu us l i j) (x j r)).
  (** The right-hand side of C44 minus the columns of the Dirichlet unknowns [inds] times
      their values, row [k] of [vals] for the k-th of them. *)
  Definition reduced_rhs (n nr : nat) (l : list lupdate) (inds : list nat) (vals rhs : nat -> nat -> F) : Prop :=
    forall i r, i < n -> r < nr -> rhs i r = sub (expected_rhs zero add mul nu us l i r)
      (total zero add (seq 0 (length inds)) (fun k => mul (expected_mat zero add mul nu us l i (nth k inds 0)) (vals k r))).
End spec.
