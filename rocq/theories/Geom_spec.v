(** Vocabulary of C68. *)
From Coq Require Import Reals.
From Verif Require Import Base Elem_model Poly_spec Basis_spec.
Local Open Scope R_scope.
(** The determinant, by expansion along the first row. *)
Fixpoint det (n : nat) (a : nat -> nat -> R) : R :=
  match n with
  | O => 1
  | S n => rsum (S n) (fun j => (if Nat.even j then 1 else -1) * a 0%nat j * det n (fun r c => a (S r) (if (c <? j)%nat then c else S c)))
  end.
Definition inner (n : nat) (u v : nat -> R) : R := rsum n (fun i => u i * v i).
(** The square of the area spanned by the m vectors u 0, u 1, ...: Gram's determinant. *)
Definition gram (m n : nat) (u : nat -> nat -> R) : R := det m (fun i j => inner n (u i) (u j)).
(** The sides of the reference element: side s lies where coordinate [axis t s] is
    [sgn s].  Outwards is the direction sgn s along this axis. *)
Definition n_sides (t : etype) : nat := (2 * native_dim t)%nat.
Definition axis (t : etype) (side : nat) : nat := (native_dim t - 1 - side / 2)%nat.
Definition sgn (side : nat) : R := if Nat.even side then -1 else 1.
(** g is the gradient of u at x (Frechet derivative) in n dimensions. *)
Definition dist1 (n : nat) (x y : list R) : R := rsum n (fun i => Rabs (nth i y 0 - nth i x 0)).
Definition gradient (n : nat) (u : list R -> R) (x : list R) (g : nat -> R) : Prop :=
  forall eps, 0 < eps -> exists delta, 0 < delta /\ forall y, length y = n -> dist1 n x y < delta ->
    Rabs (u y - u x - inner n g (fun i => nth i y 0 - nth i x 0)) <= eps * dist1 n x y.
Definition dist2 (p q : list R) : R := foldr (fun a s => a * a + s) 0 (zip_with Rminus p q).
