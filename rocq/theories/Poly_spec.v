(** Vocabulary of C51-C53, C55 and C61. *)
From Coq Require Import Reals.
From Verif Require Import Base.
Local Open Scope R_scope.
(** The polynomial with the given coefficients, highest power first. *)
Fixpoint poly (coefs : list R) (x : R) : R :=
  match coefs with [] => 0 | c :: l => c * x ^ length l + poly l x end.
(** Legendre polynomials by Bonnet's recurrence
    (n + 2) P_{n+2} = (2 n + 3) x P_{n+1} - (n + 1) P_n. *)
Fixpoint legendre_pair (n : nat) (x : R) : R * R :=
  match n with
  | O => (1, x)
  | S n => let '(p, p1) := legendre_pair n x in
           (p1, ((2 * INR n + 3) * x * p1 - (INR n + 1) * p) / (INR n + 2))
  end.
Definition legendre (n : nat) (x : R) : R := (legendre_pair n x).1.
(** The sum f 0 + ... + f (n - 1). *)
Fixpoint rsum (n : nat) (f : nat -> R) : R := match n with O => 0 | S n => rsum n f + f n end.
