(** Model of math/Polynomial.hpp, LagrangeInterpolation.hpp, Legendre.hpp,
    Lobatto.hpp and of the grids in util/Common.hpp.  Floating point numbers are
    real numbers: rounding, overflow and NaN are not modelled.  std::array<T, n>
    is a list of n numbers. *)
From Coq Require Import Reals.
From Verif Require Import Base.
Local Open Scope R_scope.

(** ** math/Polynomial.hpp *)
(** evaluate, 56-66. *)
Definition evaluate (coefs : list R) (x : R) : R := foldl (fun ret c => ret * x + c) 0 coefs.
(** integral, 68-77.  ORDER + 1 is the length of the list. *)
Definition integral (coefs : list R) : list R :=
  let int_coefs := rev (map (fun i => 1 / INR i) (seq 1 (length coefs))) in
  zip_with Rmult coefs int_coefs ++ [0].
(** derivative, 79-96. *)
Definition derivative (coefs : list R) : list R :=
  let ORDER := (length coefs - 1)%nat in
  if (ORDER =? 0)%nat then [0] else zip_with Rmult (take ORDER coefs) (map INR (rev (seq 1 ORDER))).
(** The companion matrix of roots, 108-116: its entry in row i, column j.  The
    eigenvalues are found by Eigen. *)
Definition companion (coefs : list R) (i j : nat) : R :=
  let ORDER := (length coefs - 1)%nat in
  let c k := nth k coefs 0 in
  if (j =? ORDER - 1)%nat then
    match i with
    | O => - c ORDER / c O
    | S i => - c (ORDER - 1 - i)%nat / c O
    end
  else match i with O => 0 | S i => if (i =? j)%nat then 1 else 0 end.
(** operator*, 124-134.  The code iterates over the polynomials themselves, which
    are no ranges, so it cannot be instantiated; modelled for their coefs. *)
Definition poly_mul (a b : list R) : res (list R) :=
  st ← for_each (fun ac (st : list R * nat) =>
         r ← for_each (fun bc (r : list R * nat) => x ← rd r.1 (st.2 + r.2)%nat; l ← wr r.1 (st.2 + r.2)%nat (x + ac * bc); Ok (l, S r.2))
               b (st.1, O);
         Ok (r.1, S st.2)) a (repeat 0 (length a - 1 + (length b - 1) + 1), O);
  Ok st.1.

(** ** math/LagrangeInterpolation.hpp:11-40 *)
(** The in-place product 29-33: l := l * (X - r), for k = j + 1 down to 1. *)
Definition mul_root (j : nat) (r : R) (l : list R) : res (list R) :=
  for_each (fun k l => a ← rd l k; b ← rd l (k - 1)%nat; wr l k (a - b * r)) (rev (seq 1 (j + 1))) l.
Definition root_poly (n : nat) (roots : list R) : res (list R) :=
  l ← wr (repeat 0 n) O 1;
  for_each (fun j l => r ← rd roots j; mul_root j r l) (seq 0 (n - 1)) l.
Definition lagrangeInterp (x y : list R) : res (list R) :=
  let N := length x in
  for_each (fun i lag =>
    let roots := take i x ++ drop (i + 1) x in
    l_i ← root_poly N roots;
    xi ← rd x i; yi ← rd y i;
    let s := yi / evaluate l_i xi in
    Ok (zip_with (fun g l => g + s * l) lag l_i)) (seq 0 N) (repeat 0 N).

(** ** math/Legendre.hpp:8-46 *)
Definition leg_a (x : nat) : R := INR (2 * x - 1) / INR x.
Definition leg_c (x : nat) : R := INR (x - 1) / INR x.
(** std::copy from position [index] on. *)
Definition copy_from (index : nat) (src dst : list R) : list R := take index dst ++ drop index src.
(** One iteration, 34-43, on (P_n1, P_n2, coefs). *)
Definition leg_step (N : nat) (i : nat) (st : list R * list R * list R) : res (list R * list R * list R) :=
  let '(P_n1, P_n2, coefs) := st in
  let index := (N - i)%nat in
  let P_n2 := copy_from index P_n1 P_n2 in
  let P_n1 := copy_from index coefs P_n1 in
  let tr := zip_with (fun c1 c2 => leg_a i * c1 - leg_c i * c2) (drop (index + 1) P_n1) (drop index P_n2) in
  let coefs := take index coefs ++ tr ++ drop (index + length tr) coefs in
  b ← rd P_n2 (length P_n2 - 1)%nat;
  coefs ← wr coefs (length coefs - 1)%nat (- leg_c i * b);
  Ok (P_n1, P_n2, coefs).
Definition getLegendrePolynomial (N : nat) : res (list R) :=
  let coefs := repeat 0 (N + 1) in
  match N with
  | O => wr coefs O 1
  | S O => coefs ← wr coefs O 1; wr coefs 1 0
  | _ =>
    P_n1 ← wr (repeat 0 (N + 1)) (N - 1)%nat 1;
    coefs ← wr coefs N (- (1 / 2));
    coefs ← wr coefs (N - 2)%nat (3 / 2);
    st ← for_each (leg_step N) (seq 3 (N - 2)) (P_n1, repeat 0 (N + 1), coefs);
    Ok st.2
  end.
(** math/Lobatto.hpp:8-12. *)
Definition getLobattoPolynomial (N : nat) : res (list R) := p ← getLegendrePolynomial (N + 1); Ok (derivative p).

(** ** util/Common.hpp *)
(** linspaceArray, 187-200 (N >= 2 is a constraint), and linspace, 201-213. *)
Definition linspaceArray (N : nat) (lo hi : R) : list R :=
  let L := hi - lo in let d := L / INR (N - 1) in
  map (fun i => lo + INR i * d) (seq 0 N).
Definition linspace (lo hi : R) (N : nat) : res (list R) :=
  _ ← throwing_assert (2 <=? N)%nat; Ok (linspaceArray N lo hi).
(** geomspace, 215-227. *)
Definition geomspace (lo hi : R) (N : nat) : res (list R) :=
  _ ← throwing_assert (2 <=? N)%nat;
  let a := Rpower (hi / lo) (1 / INR (N - 1)) in
  Ok (map (fun i => lo * Rpower a (INR i)) (seq 0 N)).
(** std::inclusive_scan. *)
Fixpoint scan_R (acc : R) (l : list R) : list R := match l with [] => [] | a :: l => (acc + a) :: scan_R (acc + a) l end.
(** geomSpaceProg, 229-247; std::pow(q, i) with integral i. *)
Definition geomSpaceProg (lo hi : R) (N : nat) (q : R) : res (list R) :=
  _ ← throwing_assert (2 <=? N)%nat;
  _ ← throwing_assert (if Rlt_dec 0 q then true else false);
  let lengths := map (fun i => q ^ i) (seq 0 (N - 1)) in
  let retval := lo :: scan_R 0 lengths in
  back ← rd retval (N - 1)%nat;
  let scale := (hi - lo) / back in
  Ok (lo :: map (fun r => r * scale + lo) (take (N - 2) (drop 1 retval)) ++ [hi]).
