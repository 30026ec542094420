(** Vocabulary of C67 and C70. *)
From Coq Require Import Reals.
From Verif Require Import Base Elem_model Poly_spec.
Local Open Scope R_scope.
(** A polynomial in several variables: the coefficients of the powers of the last
    variable are polynomials in the others.  Highest powers first. *)
Definition poly2 (c : list (list R)) (x y : R) : R := poly (map (fun l => poly l x) c) y.
Definition poly3 (c : list (list (list R))) (x y z : R) : R := poly (map (fun l => poly2 l x y) c) z.
(** Polynomials of at most n coefficients per variable, i.e. of degree less than n in
    each variable, as functions of a point. *)
Definition is_poly (t : etype) (n : nat) (f : list R -> R) : Prop :=
  match t with
  | Line => exists c, (length c <= n)%nat /\ forall x, f [x] = poly c x
  | Quad => exists c, (length c <= n)%nat /\ Forall (fun l => length l <= n)%nat c /\ forall x y, f [x; y] = poly2 c x y
  | Hex => exists c, (length c <= n)%nat /\ Forall (fun l => length l <= n /\ Forall (fun l => length l <= n) l)%nat c /\
             forall x y z, f [x; y; z] = poly3 c x y z
  end.
(** d is the partial derivative of f along axis k at p. *)
Definition partial (f : list R -> R) (k : nat) (p : list R) (d : R) : Prop :=
  exists x, p !! k = Some x /\ derivable_pt_lim (fun s => f (<[k := s]> p)) x d.
(** The numbers ascend strictly. *)
Definition ascending (l : list R) : Prop := forall i j a b, l !! i = Some a -> l !! j = Some b -> (i < j)%nat -> a < b.
(** The numbers do not descend. *)
Definition sorted_up (l : list R) : Prop := forall i j a b, l !! i = Some a -> l !! j = Some b -> (i < j)%nat -> a <= b.
(** The sum of a list. *)
Definition total (l : list R) : R := foldr Rplus 0 l.
