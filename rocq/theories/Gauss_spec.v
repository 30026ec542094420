(** Vocabulary of C69. *)
From Coq Require Import Reals.
From Verif Require Import Base Elem_model Poly_spec.
Local Open Scope R_scope.
(** v is the integral of f from -1 to 1. *)
Definition integral_is (f : R -> R) (v : R) : Prop :=
  exists F, (forall x, derivable_pt_lim F x (f x)) /\ v = F 1 - F (-1).
(** The same over [-1, 1]^dim, one variable after the other. *)
Definition integral_on (t : etype) (f : list R -> R) (v : R) : Prop :=
  match t with
  | Line => integral_is (fun x => f [x]) v
  | Quad => exists g, (forall y, integral_is (fun x => f [x; y]) (g y)) /\ integral_is g v
  | Hex => exists g h, (forall y z, integral_is (fun x => f [x; y; z]) (g y z)) /\ (forall z, integral_is (fun y => g y z) (h z)) /\ integral_is h v
  end.
(** Eigenvalues, ascending, and an orthogonal matrix of eigenvectors of a symmetric
    matrix: the contract of Eigen::SelfAdjointEigenSolver. *)
Definition eigen_of (n : nat) (J : nat -> nat -> R) (lam : nat -> R) (V : nat -> nat -> R) : Prop :=
  (forall i, (S i < n)%nat -> lam i <= lam (S i)) /\
  (forall k i, (k < n)%nat -> (i < n)%nat -> rsum n (fun j => J k j * V j i) = lam i * V k i) /\
  (forall i j, (i < n)%nat -> (j < n)%nat -> rsum n (fun k => V k i * V k j) = if (i =? j)%nat then 1 else 0) /\
  (forall i j, (i < n)%nat -> (j < n)%nat -> rsum n (fun k => V i k * V j k) = if (i =? j)%nat then 1 else 0).
