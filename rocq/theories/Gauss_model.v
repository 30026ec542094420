(** Model of math/ComputeGaussRule.hpp and quad/*.hpp.  Numbers are reals (the long
    double computation and the casts are not modelled).  A quadrature is the list of
    its points and the list of its weights. *)
From Coq Require Import Reals.
From Verif Require Import Base Elem_model Poly_model.
Local Open Scope R_scope.

(** ** math/ComputeGaussRule.hpp:26-62 *)
(** The entries of the matrix J, 35-46.  Entry (ind, ind), also for the last row, is
    -b(n) / a(n) with n = ind + 1; the entries (ind + 1, ind) and (ind, ind + 1) are
    beta. *)
Definition gauss_alpha (a b : nat -> R) (ind : nat) : R := - b (ind + 1)%nat / a (ind + 1)%nat.
Definition gauss_beta (a c : nat -> R) (ind : nat) : R :=
  let n := (ind + 1)%nat in R_sqrt.sqrt (c (n + 1)%nat / (a n * a (n + 1)%nat)).
Definition gauss_matrix (a b c : nat -> R) (i j : nat) : R :=
  if (i =? j)%nat then gauss_alpha a b i
  else if (j =? i + 1)%nat then gauss_beta a c i
  else if (i =? j + 1)%nat then gauss_beta a c j
  else 0.
(** 48-61.  [eig_vals] and [eig_vecs] are what Eigen::SelfAdjointEigenSolver returns
    for J; column i of [eig_vecs] belongs to number i of [eig_vals]. *)
Definition gauss_rule (order : nat) (eig_vals : nat -> R) (eig_vecs : nat -> nat -> R) : list R * list R :=
  (map eig_vals (seq 0 order), map (fun i => 2 * eig_vecs O i * eig_vecs O i) (seq 0 order)).

(** ** quad/ReferenceQuadrature.hpp *)
(** getRefQuadSize, 14-23. *)
Definition getRefQuadSize (QO : nat) : nat := (QO / 2 + 1)%nat.
(** The coefficients of the Legendre recurrence, 34-42. *)
Definition ref_a (x : nat) : R := INR (2 * x - 1) / INR x.
Definition ref_b (_ : nat) : R := 0.
Definition ref_c (x : nat) : R := INR (x - 1) / INR x.
(** getReferenceQuadrature, 25-51, given the solver's result. *)
Definition getReferenceQuadrature (QO : nat) (eig_vals : nat -> R) (eig_vecs : nat -> nat -> R) : list (list R) * list R :=
  let '(qp, w) := gauss_rule (getRefQuadSize QO) eig_vals eig_vecs in
  (map (fun v => [v]) qp, w).

(** ** quad/GenerateQuadrature.hpp *)
(** Point i of the reference quadrature has one coordinate. *)
Definition coord (pts : list (list R)) (i : nat) : res R := p ← rd pts i; rd p 0.
(** The index triples of the loops 61-63. *)
Definition loop3 (n : nat) : list (nat * nat * nat) :=
  concat (map (fun i => map (fun jk => (i, jk.1, jk.2)) (loop2 n)) (seq 0 n)).
(** getQuadrature: Line 11-16, Quad 18-47, Hex 49-78. *)
Definition getQuadrature (t : etype) (ref : list (list R) * list R) : res (list (list R) * list R) :=
  let '(p, w) := ref in
  let n := length w in
  match t with
  | Line => Ok ref
  | Quad =>
    l ← map_res (fun ij => x ← coord p ij.1; y ← coord p ij.2; a ← rd w ij.1; b ← rd w ij.2; Ok ([x; y], a * b)) (loop2 n);
    Ok (map fst l, map snd l)
  | Hex =>
    l ← map_res (fun ijk => let '(i, j, k) := ijk in
           x ← coord p i; y ← coord p j; z ← coord p k; a ← rd w i; b ← rd w j; c ← rd w k; Ok ([x; y; z], a * b * c)) (loop3 n);
    Ok (map fst l, map snd l)
  end.

(** ** quad/EvalQuadrature.hpp *)
(** 64-76: the integrand gets the index of the point and the point. *)
Definition evalQuadrature (integrand : nat -> list R -> R) (q : list (list R) * list R) (zero : R) : R :=
  foldl (fun acc e => acc + integrand e.1 e.2.1 * e.2.2) zero (zip (seq 0 (length q.1)) (zip q.1 q.2)).
