(** Properties C51-C53, C55, C61: polynomials, interpolation, Legendre polynomials
    and one-dimensional grids, in exact arithmetic. *)
From Coq Require Import Reals Lra.
From Verif Require Import Base Poly_model Poly_spec Poly_proofs Poly2_proofs Poly3_proofs.
Local Open Scope R_scope.

(** C51.  evaluate computes the polynomial with the stored coefficients (highest
    first), derivative and integral its derivative and the antiderivative that is
    0 at 0; the product's value is the product of the values. *)
Theorem polynomial_evaluate (l : list R) (x : R) : evaluate l x = poly l x.
Proof. exact (evaluate_poly l x). Qed.
Print Assumptions polynomial_evaluate.
Theorem polynomial_derivative (l : list R) (x : R) : l <> [] ->
  derivable_pt_lim (poly l) x (evaluate (derivative l) x) /\ length (derivative l) = Nat.max 1 (length l - 1).
Proof.
  intros Hl. split.
  - eapply derivable_pt_lim_ext; [|by apply derivative_ok]. intros y. apply evaluate_poly.
  - destruct l as [|a [|b l]]; [done|done|]. rewrite derivative_length; cbn; lia.
Qed.
Print Assumptions polynomial_derivative.
Theorem polynomial_integral (l : list R) (x : R) :
  derivable_pt_lim (evaluate (integral l)) x (poly l x) /\ evaluate (integral l) 0 = 0 /\ length (integral l) = S (length l).
Proof. rewrite <- evaluate_poly. destruct (integral_ok l x). by rewrite integral_length. Qed.
Print Assumptions polynomial_integral.
Theorem polynomial_product (a b : list R) (x : R) : a <> [] -> b <> [] ->
  exists r, poly_mul a b = Ok r /\ length r = (length a + length b - 1)%nat /\ evaluate r x = poly a x * poly b x.
Proof.
  intros Ha Hb. destruct (mul_ok a b x Ha Hb) as (r & Hr & Hl & He). exists r. rewrite <- !evaluate_poly. split; [done|]. split; [|done].
  rewrite Hl. destruct a, b; try done. cbn [length]. lia.
Qed.
Print Assumptions polynomial_product.
(** 2x^2 + 3x + 4: value, derivative and integral. *)
Example polynomial_example :
  [2; 3; 4] <> [] /\ evaluate [2; 3; 4] 10 = 234 /\ derivative [2; 3; 4] = [4; 3] /\ integral [6; 2; 1] = [2; 1; 1; 0] /\
  exists r, poly_mul [1; 1] [1; -1] = Ok r /\ evaluate r 3 = 8.
Proof.
  split; [done|]. split; [cbn; lra|]. split; [unfold derivative; cbn; repeat f_equal; lra|]. split; [unfold integral; cbn; repeat f_equal; lra|].
  destruct (polynomial_product [1; 1] [1; -1] 3) as (r & Hr & _ & He); [done|done|]. exists r. split; [done|]. rewrite He. cbn. lra.
Qed.

(** C61.  The matrix whose eigenvalues roots() computes has the right spectrum:
    r is a root iff it is an eigenvalue (with a real eigenvector). *)
Theorem companion_eigenvalues (c : list R) (N : nat) (r : R) :
  length c = S N -> (1 <= N)%nat -> nth 0 c 0 <> 0 ->
  (poly c r = 0 <-> exists v : nat -> R, (exists i, (i < N)%nat /\ v i <> 0) /\
     forall i, (i < N)%nat -> rsum N (fun j => companion c i j * v j) = r * v i).
Proof. intros H1 H2 H3. rewrite <- evaluate_poly. exact (comp_right c N H1 H2 H3 r). Qed.
Print Assumptions companion_eigenvalues.
(** x^2 - 3x + 2 at its root 2. *)
Example companion_example : length [1; -3; 2] = 3%nat /\ nth 0 [1; -3; 2] 0 <> 0 /\ poly [1; -3; 2] 2 = 0 /\
  companion [1; -3; 2] 0 1 = -2 /\ companion [1; -3; 2] 1 1 = 3 /\ companion [1; -3; 2] 1 0 = 1.
Proof. cbn. split; [done|]. split; [lra|]. split; [lra|]. split; [lra|]. split; lra. Qed.

(** C52.  The interpolant goes through all points. *)
Theorem lagrange_interpolates (x y : list R) : length x = length y -> (1 < length x)%nat -> NoDup x ->
  exists l, lagrangeInterp x y = Ok l /\ length l = length x /\ forall i, (i < length x)%nat -> poly l (nth i x 0) = nth i y 0.
Proof.
  intros H1 H2 H3. destruct (lagrange_ok x y H1 H2 H3) as (l & Hl & Hn & He). exists l. split; [done|]. split; [done|]. intros i Hi. rewrite <- evaluate_poly. by apply He.
Qed.
Print Assumptions lagrange_interpolates.
(** Three points. *)
Example lagrange_example : NoDup [0; 1; 3] /\ exists l, lagrangeInterp [0; 1; 3] [5; 7; 2] = Ok l /\ poly l 3 = 2.
Proof.
  assert (Hnd : NoDup [0; 1; 3]). { repeat constructor; rewrite ?elem_of_cons, ?elem_of_nil; intros H; repeat destruct H as [H|H]; lra || done. }
  split; [done|]. destruct (lagrange_interpolates [0; 1; 3] [5; 7; 2]) as (l & Hl & _ & He); [done|cbn; lia|done|]. exists l. split; [done|].
  apply (He 2%nat). cbn. lia.
Qed.

(** C53.  getLegendrePolynomial<N> is the Legendre polynomial of order N, which is
    1 at 1; getLobattoPolynomial<N> is the derivative of the one of order N + 1. *)
Theorem legendre_polynomial (N : nat) :
  exists l, getLegendrePolynomial N = Ok l /\ length l = S N /\ (forall x, poly l x = legendre N x) /\ poly l 1 = 1.
Proof.
  destruct (legendre_ok N) as (l & Hl & Hn & He). exists l. split; [done|]. split; [done|].
  assert (Hx : forall x, poly l x = legendre N x) by (intros x; rewrite <- evaluate_poly; apply He). split; [done|]. rewrite Hx. apply legendre_at_1.
Qed.
Print Assumptions legendre_polynomial.
Theorem lobatto_polynomial (N : nat) :
  exists l, getLobattoPolynomial N = Ok l /\ length l = S N /\ forall x, derivable_pt_lim (legendre (S N)) x (poly l x).
Proof.
  unfold getLobattoPolynomial. rewrite Nat.add_1_r. destruct (legendre_ok (S N)) as (l & Hl & Hn & He). rewrite Hl, bind_ok. exists (derivative l). split; [done|].
  assert (Hne : l <> []) by (intros ->; done). split; [rewrite derivative_length by lia; lia|]. intros x. rewrite <- evaluate_poly. eapply derivable_pt_lim_ext; [|by apply derivative_ok]. done.
Qed.
Print Assumptions lobatto_polynomial.
(** P_3 = (5 x^3 - 3 x) / 2. *)
Example legendre_example : exists l, getLegendrePolynomial 3 = Ok l /\ nth 0 l 0 = 5 / 2 /\ nth 1 l 0 = 0 /\ nth 2 l 0 = - (3 / 2) /\ nth 3 l 0 = 0.
Proof. eexists. split; [cbv -[Rplus Rminus Rmult Rdiv Ropp Rinv IZR INR]; reflexivity|]. cbn. repeat split; lra. Qed.

(** C55.  The grids.  All three throw for fewer than two points. *)
Definition strictly_up (l : list R) : Prop := forall i j, (i < j < length l)%nat -> nth i l 0 < nth j l 0.
Definition strictly_down (l : list R) : Prop := forall i j, (i < j < length l)%nat -> nth j l 0 < nth i l 0.
Lemma up_step l : (forall i, (S i < length l)%nat -> nth i l 0 < nth (S i) l 0) -> strictly_up l.
Proof.
  intros H i j [Hij Hj]. induction j as [|j IH]; [lia|]. destruct (decide (i = j)) as [->|Hne]; [by apply H|]. apply (Rlt_trans _ (nth j l 0)); [apply IH; lia|by apply H].
Qed.
Lemma down_step l : (forall i, (S i < length l)%nat -> nth (S i) l 0 < nth i l 0) -> strictly_down l.
Proof.
  intros H i j [Hij Hj]. induction j as [|j IH]; [lia|]. destruct (decide (i = j)) as [->|Hne]; [by apply H|]. apply (Rlt_trans _ (nth j l 0)); [by apply H|apply IH; lia].
Qed.
Theorem grids_too_few (lo hi q : R) (N : nat) : (N < 2)%nat ->
  linspace lo hi N = Throw /\ geomspace lo hi N = Throw /\ geomSpaceProg lo hi N q = Throw.
Proof. intros H. unfold linspace, geomspace, geomSpaceProg. destruct (Nat.leb_spec 2 N); [lia|]. done. Qed.
Print Assumptions grids_too_few.
Theorem linspace_grid (lo hi : R) (N : nat) : (2 <= N)%nat ->
  exists l, linspace lo hi N = Ok l /\ length l = N /\ nth 0 l 0 = lo /\ nth (N - 1) l 0 = hi /\
    (forall i, (S i < N)%nat -> nth (S i) l 0 - nth i l 0 = (hi - lo) / INR (N - 1)) /\
    (lo < hi -> strictly_up l) /\ (hi < lo -> strictly_down l) /\ linspaceArray N lo hi = l.
Proof.
  intros HN. destruct (linspace_ok lo hi N HN) as (l & Hl & Ha & Hn & H0 & H1 & Hs). exists l. split; [done|]. split; [done|]. split; [done|]. split; [done|]. split; [done|].
  assert (Hd : 0 < / INR (N - 1)) by (apply Rinv_0_lt_compat, lt_0_INR; lia). split; [|split; [|done]].
  - intros Hlt. apply up_step. rewrite Hn. intros i Hi. specialize (Hs i Hi). assert (0 < (hi - lo) * / INR (N - 1)) by (apply Rmult_lt_0_compat; lra). unfold Rdiv in Hs. lra.
  - intros Hlt. apply down_step. rewrite Hn. intros i Hi. specialize (Hs i Hi). assert (0 < (lo - hi) * / INR (N - 1)) by (apply Rmult_lt_0_compat; lra). unfold Rdiv in Hs. lra.
Qed.
Print Assumptions linspace_grid.
Theorem geomspace_grid (lo hi : R) (N : nat) : (2 <= N)%nat -> 0 < lo -> 0 < hi ->
  exists l q, geomspace lo hi N = Ok l /\ length l = N /\ nth 0 l 0 = lo /\ nth (N - 1) l 0 = hi /\
    (forall i, (S i < N)%nat -> nth (S i) l 0 = q * nth i l 0) /\ (lo < hi -> strictly_up l) /\ (hi < lo -> strictly_down l).
Proof.
  intros HN Hlo Hhi. destruct (geomspace_ok lo hi N HN Hlo Hhi) as (l & q & Hl & Hq & Hu & Hd & Hn & H0 & H1 & Hp & Hs). exists l, q. split; [done|]. split; [done|]. split; [done|]. split; [done|]. split; [done|].
  split.
  - intros Hlt%Hu. apply up_step. rewrite Hn. intros i Hi. rewrite (Hs i Hi). specialize (Hp i ltac:(lia)). assert (0 < (q - 1) * nth i l 0) by (apply Rmult_lt_0_compat; lra). lra.
  - intros Hlt%Hd. apply down_step. rewrite Hn. intros i Hi. rewrite (Hs i Hi). specialize (Hp i ltac:(lia)). assert (0 < (1 - q) * nth i l 0) by (apply Rmult_lt_0_compat; lra). lra.
Qed.
Print Assumptions geomspace_grid.
Theorem progression_grid (lo hi : R) (N : nat) (q : R) : (2 <= N)%nat -> 0 < q ->
  exists l, geomSpaceProg lo hi N q = Ok l /\ length l = N /\ nth 0 l 0 = lo /\ nth (N - 1) l 0 = hi /\
    (forall i, (S (S i) < N)%nat -> nth (S (S i)) l 0 - nth (S i) l 0 = q * (nth (S i) l 0 - nth i l 0)) /\ (lo < hi -> strictly_up l).
Proof.
  intros HN Hq. destruct (prog_ok lo hi N q HN Hq) as (l & d & Hl & Hn & H0 & H1 & Hd & Hs). exists l. split; [done|]. split; [done|]. split; [done|]. split; [done|]. split.
  - intros i Hi. rewrite (Hs (S i)), (Hs i) by lia. cbn. lra.
  - intros Hlt%Hd. apply up_step. rewrite Hn. intros i Hi. specialize (Hs i Hi). assert (0 < d * q ^ i) by (apply Rmult_lt_0_compat; [done|by apply pow_lt]). lra.
Qed.
Print Assumptions progression_grid.
Theorem progression_bad_ratio (lo hi : R) (N : nat) (q : R) : q <= 0 -> geomSpaceProg lo hi N q = Throw.
Proof. intros H. unfold geomSpaceProg. destruct (2 <=? N)%nat; [|done]. change (throwing_assert true) with (Ok tt). rewrite bind_ok. destruct (Rlt_dec 0 q); [lra|done]. Qed.
Print Assumptions progression_bad_ratio.
(** Four points from 1 to 8 with gap ratio 2: 1, 2, 4, 8; and five points from 0 to 1. *)
Example grid_example : (exists l, geomSpaceProg 1 8 4 2 = Ok l /\ nth 1 l 0 = 2 /\ nth 2 l 0 = 4) /\ (exists l, linspace 0 1 5 = Ok l /\ nth 1 l 0 = 1 / 4) /\
  (exists l q, geomspace 1 8 4 = Ok l /\ 0 < 1 /\ nth 3 l 0 = 8 /\ nth 1 l 0 = q * 1).
Proof.
  split; [|split].
  - unfold geomSpaceProg. cbn [Nat.leb]. change (throwing_assert true) with (Ok tt). rewrite bind_ok. destruct (Rlt_dec 0 2); [|lra]. change (throwing_assert true) with (Ok tt). rewrite bind_ok.
    cbn -[nth Rplus Rmult Rdiv Rminus Rpow_def.pow]. eexists. split; [reflexivity|]. cbn. split; field.
  - eexists. split; [reflexivity|]. cbn. lra.
  - destruct (geomspace_grid 1 8 4) as (l & q & Hl & _ & H0 & H1 & Hs & _); [lia|lra|lra|]. exists l, q. split; [done|]. split; [lra|]. split; [exact H1|]. rewrite (Hs O) by lia. by rewrite H0.
Qed.
