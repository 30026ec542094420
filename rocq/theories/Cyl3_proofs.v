(** Lemmas for C81: the shape of the parts. *)
From Coq Require Import Reals Lra Psatz.
From Verif Require Import Base Prim_model Cyl_model Cyl_spec Cyl_proofs Cyl2_proofs.
Local Open Scope R_scope.

Definition pol (r a : R) : point := (r * cos a, r * sin a).
Lemma quarter_pol r a : quarter (pol r a) = pol r (a + PI / 2).
Proof. unfold quarter, pol. cbn [fst snd]. rewrite cos_plus, sin_plus, cos_PI2, sin_PI2. f_equal; ring. Qed.
Lemma pol_2pi r a : pol r (a + 2 * PI) = pol r a.
Proof. unfold pol. by rewrite cos_2PI_sin_2PI_cos || (rewrite cos_plus, sin_plus, cos_2PI, sin_2PI; f_equal; ring). Qed.
Lemma turned_1 P i j : turned 1 P i j = quarter (P i j). Proof. done. Qed.
Lemma turned_2 P i j : turned 2 P i j = quarter (quarter (P i j)). Proof. done. Qed.
Lemma turned_3 P i j : turned 3 P i j = quarter (quarter (quarter (P i j))). Proof. done. Qed.

Section shape.
  Context (g : cyl_geometry) (m : nat) (Hm : (0 < m)%nat) (Em : n_circumf g = (8 * m)%nat).
  Lemma dir_m j : dir g j = PI / 4 * (INR j / INR m).
  Proof using Hm Em. unfold dir. rewrite Em, mult_INR. assert (INR m <> 0) by (apply not_0_INR; lia). cbn [INR]. field. done. Qed.
  Lemma dir_plus a b : dir g (a + b) = dir g a + dir g b.
  Proof using Hm Em. rewrite !dir_m, plus_INR. assert (INR m <> 0) by (apply not_0_INR; lia). field. done. Qed.
  Lemma dir_mul k : dir g (k * m) = INR k * (PI / 4).
  Proof using Hm Em. rewrite dir_m, mult_INR. assert (INR m <> 0) by (apply not_0_INR; lia). field. done. Qed.
  Lemma dir_lt i j : (i < j)%nat -> dir g i < dir g j.
  Proof using Hm Em.
    intros Hij. rewrite !dir_m. apply Rmult_lt_compat_l; [pose proof PI_RGT_0; lra|]. unfold Rdiv. apply Rmult_lt_compat_r; [apply Rinv_0_lt_compat, lt_0_INR; lia|by apply lt_INR].
  Qed.
  Lemma dir_le i j : (i <= j)%nat -> dir g i <= dir g j.
  Proof using Hm Em. intros H. destruct (decide (i = j)) as [->|]; [lra|]. apply Rlt_le, dir_lt. lia. Qed.
  Lemma half_outer j : (0 < n_radial g)%nat -> 0 < q_radial g -> half_pt g (n_radial g) j = pol (r_outer g) (dir g j).
  Proof. intros Hn Hq. unfold half_pt, pol. cbv zeta. rewrite graded_frac, frac_n by done. f_equal; ring. Qed.
  Lemma half_pol i j : half_pt g i j = pol (graded (r_inner g) (r_outer g) (n_radial g) (q_radial g) i) (dir g j). Proof. done. Qed.
  Lemma wake_outer L n q j : wake_pt g L n q 0 j = pol (r_outer g) (dir g j - PI / 4).
  Proof. unfold wake_pt, pol. cbv zeta. rewrite graded_frac, frac_0. f_equal; ring. Qed.
  Lemma wake_top L n q i : wake_pt g L n q i (2 * m) = (graded (r_outer g * cos (PI / 4)) L n q i, r_outer g * sin (PI / 4)).
  Proof using Hm Em. unfold wake_pt. cbv zeta. rewrite dir_mul. replace (INR 2 * (PI / 4) - PI / 4) with (PI / 4) by (cbn [INR]; lra). done. Qed.
  Lemma wake_bottom L n q i : wake_pt g L n q i 0 = (graded (r_outer g * cos (PI / 4)) L n q i, - (r_outer g * sin (PI / 4))).
  Proof using Hm Em. unfold wake_pt. cbv zeta. replace 0%nat with (0 * m)%nat by done. rewrite dir_mul. replace (INR 0 * (PI / 4) - PI / 4) with (- (PI / 4)) by (cbn [INR]; lra). rewrite cos_neg, sin_neg. f_equal. ring. Qed.
  Lemma corner_bottom Lx nx qx Ly ny qy i : corner_pt g Lx nx qx Ly ny qy i 0 = wake_pt g Lx nx qx i (2 * m).
  Proof using Hm Em. rewrite wake_top. unfold corner_pt. f_equal. rewrite graded_frac, frac_0. ring. Qed.
  Lemma corner_left Lx nx qx Ly ny qy j : corner_pt g Lx nx qx Ly ny qy 0 j = quarter (wake_pt g Ly ny qy j 0).
  Proof using Hm Em. rewrite wake_bottom. unfold corner_pt, quarter. cbn [fst snd]. rewrite Ropp_involutive, cos_PI4, sin_PI4. f_equal. rewrite graded_frac, frac_0. ring. Qed.

  (** Shape. *)
  Lemma left_quarter a b c : left_of a b c -> left_of (quarter a) (quarter b) (quarter c).
  Proof. unfold left_of, quarter. cbn [fst snd]. lra. Qed.
  Lemma convex_quarter a b c d : convex4 a b c d -> convex4 (quarter a) (quarter b) (quarter c) (quarter d).
  Proof. intros (H1 & H2 & H3 & H4). repeat split; by apply left_quarter. Qed.
  Lemma trapezoid xa xb xc xd y y' : xa < xb -> xd < xc -> y < y' -> convex4 (xa, y) (xb, y) (xc, y') (xd, y').
  Proof.
    intros H1 H2 H3. assert (0 < (xb - xa) * (y' - y)) by (apply Rmult_lt_0_compat; lra). assert (0 < (xc - xd) * (y' - y)) by (apply Rmult_lt_0_compat; lra).
    unfold convex4, left_of. cbn [fst snd]. repeat split; lra.
  Qed.
  Lemma sector r r' t t' : 0 < r -> r < r' -> 0 < sin (t' - t) -> convex4 (pol r t) (pol r' t) (pol r' t') (pol r t').
  Proof.
    intros H1 H2 H3. rewrite sin_minus in H3. set (S := sin t' * cos t - cos t' * sin t) in *.
    assert (0 < (r' - r) * r' * S) by (apply Rmult_lt_0_compat; [|done]; apply Rmult_lt_0_compat; lra). assert (0 < (r' - r) * r * S) by (apply Rmult_lt_0_compat; [|done]; apply Rmult_lt_0_compat; lra).
    unfold convex4, left_of, pol. cbn [fst snd]. unfold S in *. repeat split; lra.
  Qed.
  Lemma graded_up lo hi n q i : lo < hi -> 0 < q -> (0 < n)%nat -> graded lo hi n q i < graded lo hi n q (i + 1).
  Proof. intros H Hq Hn. rewrite !graded_frac. pose proof (frac_up n q i Hq Hn). apply Rplus_lt_compat_l, Rmult_lt_compat_l; lra. Qed.
  Lemma graded_in lo hi n q i : lo <= hi -> 0 < q -> (0 < n)%nat -> (i <= n)%nat -> lo <= graded lo hi n q i <= hi.
  Proof.
    intros H Hq Hn Hi. rewrite !graded_frac. destruct (frac_in n q i Hq Hn Hi) as [H0 H1]. assert (0 <= (hi - lo) * frac n q i) by (apply Rmult_le_pos; lra).
    assert ((hi - lo) * frac n q i <= (hi - lo) * 1) by (apply Rmult_le_compat_l; lra). lra.
  Qed.
  Lemma half_convex i j : 0 < r_inner g -> r_inner g < r_outer g -> 0 < q_radial g -> (0 < n_radial g)%nat -> (i < n_radial g)%nat ->
    convex4 (half_pt g i j) (half_pt g (i + 1) j) (half_pt g (i + 1) (j + 1)) (half_pt g i (j + 1)).
  Proof using Hm Em.
    intros H1 H2 H3 H4 H5. rewrite !half_pol. apply sector.
    - destruct (graded_in (r_inner g) (r_outer g) (n_radial g) (q_radial g) i); [lra|done|done|lia|lra].
    - by apply graded_up.
    - rewrite dir_plus. replace (dir g j + dir g 1 - dir g j) with (dir g 1) by lra. apply sin_gt_0; [replace 0 with (dir g 0) by (rewrite dir_m; cbn [INR]; lra); apply dir_lt; lia|].
      assert (H : dir g 1 <= dir g (1 * m)) by (apply dir_le; lia). rewrite dir_mul in H. cbn [INR] in H. pose proof PI_RGT_0. lra.
  Qed.
  Lemma wake_angle j : (j <= 2 * m)%nat -> - (PI / 4) <= dir g j - PI / 4 <= PI / 4.
  Proof using Hm Em.
    intros Hj. pose proof (dir_le 0 j ltac:(lia)) as H0. pose proof (dir_le j (2 * m) Hj) as H1. rewrite dir_mul in H1. replace (dir g 0) with 0 in H0 by (rewrite dir_m; cbn [INR]; lra). cbn [INR] in H1. pose proof PI_RGT_0. lra.
  Qed.
  Lemma wake_cos j : (j <= 2 * m)%nat -> 0 <= cos (dir g j - PI / 4) <= 1.
  Proof using Hm Em. intros Hj. pose proof (wake_angle j Hj). pose proof PI_RGT_0. split; [apply cos_ge_0; lra|apply COS_bound]. Qed.
  Lemma wake_convex L n q i j : 0 < r_outer g -> r_outer g < L -> 0 < q -> (0 < n)%nat -> (i < n)%nat -> (j < 2 * m)%nat ->
    convex4 (wake_pt g L n q i j) (wake_pt g L n q (i + 1) j) (wake_pt g L n q (i + 1) (j + 1)) (wake_pt g L n q i (j + 1)).
  Proof using Hm Em.
    intros H1 H2 H3 H4 H5 H6. unfold wake_pt. cbv zeta. pose proof PI_RGT_0. assert (Hc : forall k, (k <= 2 * m)%nat -> r_outer g * cos (dir g k - PI / 4) < L).
    { intros k Hk. destruct (wake_cos k Hk). assert (r_outer g * cos (dir g k - PI / 4) <= r_outer g * 1) by (apply Rmult_le_compat_l; lra). lra. }
    apply trapezoid; [apply graded_up; [apply Hc; lia|done|done]|apply graded_up; [apply Hc; lia|done|done]|].
    apply Rmult_lt_compat_l; [done|]. pose proof (wake_angle j ltac:(lia)). pose proof (wake_angle (j + 1) ltac:(lia)). apply sin_increasing_1; try lra. pose proof (dir_lt j (j + 1) ltac:(lia)). lra.
  Qed.
  Lemma cos4 : 0 < cos (PI / 4) < 1.
  Proof. split; [apply cos_gt_0; pose proof PI_RGT_0; lra|]. rewrite <- cos_0. apply cos_decreasing_1; pose proof PI_RGT_0; lra. Qed.
  Lemma corner_ends L : 0 < r_outer g -> r_outer g < L -> 0 < r_outer g * cos (PI / 4) < L /\ 0 < r_outer g * sin (PI / 4) < L.
  Proof.
    intros H1 H2. assert (E : sin (PI / 4) = cos (PI / 4)) by (by rewrite sin_PI4, cos_PI4). rewrite E. pose proof cos4 as [C0 C1]. assert (0 < r_outer g * cos (PI / 4)) by (by apply Rmult_lt_0_compat). assert (r_outer g * cos (PI / 4) < r_outer g * 1) by (by apply Rmult_lt_compat_l). lra.
  Qed.
  Lemma corner_convex Lx nx qx Ly ny qy i j : 0 < r_outer g -> r_outer g < Lx -> r_outer g < Ly -> 0 < qx -> (0 < nx)%nat -> 0 < qy -> (0 < ny)%nat ->
    convex4 (corner_pt g Lx nx qx Ly ny qy i j) (corner_pt g Lx nx qx Ly ny qy (i + 1) j) (corner_pt g Lx nx qx Ly ny qy (i + 1) (j + 1)) (corner_pt g Lx nx qx Ly ny qy i (j + 1)).
  Proof.
    intros H1 H2 H3 H4 H5 H6 H7. destruct (corner_ends Lx H1 H2) as [C1 _]. destruct (corner_ends Ly H1 H3) as [_ C2]. unfold corner_pt. apply trapezoid; apply graded_up; (done || lra).
  Qed.

  (** Bounds. *)
  Lemma half_box i j : 0 < r_inner g -> r_inner g < r_outer g -> 0 < q_radial g -> (0 < n_radial g)%nat -> (i <= n_radial g)%nat ->
    let p := half_pt g i j in - r_outer g <= p.1 <= r_outer g /\ - r_outer g <= p.2 <= r_outer g /\ r_inner g * r_inner g <= p.1 * p.1 + p.2 * p.2.
  Proof.
    intros H1 H2 H3 H4 H5. rewrite half_pol. cbv zeta. destruct (graded_in (r_inner g) (r_outer g) (n_radial g) (q_radial g) i) as [R0 R1]; [lra|done|done|done|]. set (r := graded _ _ _ _ _) in *. unfold pol. cbn [fst snd].
    destruct (COS_bound (dir g j)). destruct (SIN_bound (dir g j)). assert (E : (r * cos (dir g j)) * (r * cos (dir g j)) + (r * sin (dir g j)) * (r * sin (dir g j)) = r * r).
    { pose proof (sin2_cos2 (dir g j)) as Hsc. unfold Rsqr in Hsc. replace (r * cos (dir g j) * (r * cos (dir g j)) + r * sin (dir g j) * (r * sin (dir g j))) with (r * r * (sin (dir g j) * sin (dir g j) + cos (dir g j) * cos (dir g j))) by ring. rewrite Hsc. ring. }
    rewrite E. repeat split; try nra.
  Qed.
  Lemma wake_box L n q i j : 0 < r_outer g -> r_outer g < L -> 0 < q -> (0 < n)%nat -> (i <= n)%nat -> (j <= 2 * m)%nat ->
    let p := wake_pt g L n q i j in 0 <= p.1 <= L /\ - r_outer g <= p.2 <= r_outer g /\ r_outer g * r_outer g <= p.1 * p.1 + p.2 * p.2.
  Proof using Hm Em.
    intros H1 H2 H3 H4 H5 H6. unfold wake_pt. cbv zeta. cbn [fst snd]. set (a := dir g j - PI / 4). destruct (wake_cos j H6) as [C0 C1]. fold a in C0, C1. destruct (SIN_bound a) as [S0 S1].
    destruct (graded_in (r_outer g * cos a) L n q i) as [G0 G1]; [nra|done|done|done|]. set (x := graded _ _ _ _ _) in *. pose proof (sin2_cos2 a) as E. unfold Rsqr in E. assert (X0 : 0 <= r_outer g * cos a) by nra.
    assert (E2 : r_outer g * cos a * (r_outer g * cos a) + r_outer g * sin a * (r_outer g * sin a) = r_outer g * r_outer g).
    { replace (r_outer g * cos a * (r_outer g * cos a) + r_outer g * sin a * (r_outer g * sin a)) with (r_outer g * r_outer g * (sin a * sin a + cos a * cos a)) by ring. rewrite E. ring. }
    split; [lra|]. split; [nra|]. assert (r_outer g * cos a * (r_outer g * cos a) <= x * x) by (apply Rmult_le_compat; lra). lra.
  Qed.
  Lemma corner_box Lx nx qx Ly ny qy i j : 0 < r_outer g -> r_outer g < Lx -> r_outer g < Ly -> 0 < qx -> (0 < nx)%nat -> 0 < qy -> (0 < ny)%nat -> (i <= nx)%nat -> (j <= ny)%nat ->
    let p := corner_pt g Lx nx qx Ly ny qy i j in 0 <= p.1 <= Lx /\ 0 <= p.2 <= Ly /\ r_outer g * r_outer g <= p.1 * p.1 + p.2 * p.2.
  Proof.
    intros H1 H2 H3 H4 H5 H6 H7 H8 H9. unfold corner_pt. cbv zeta. cbn [fst snd]. destruct (corner_ends Lx H1 H2) as [C1 _]. destruct (corner_ends Ly H1 H3) as [_ C2].
    destruct (graded_in (r_outer g * cos (PI / 4)) Lx nx qx i) as [G0 G1]; [lra|done|done|done|]. destruct (graded_in (r_outer g * sin (PI / 4)) Ly ny qy j) as [G2 G3]; [lra|done|done|done|]. set (x := graded _ _ _ _ i) in *. set (y := graded _ _ _ _ j) in *.
    pose proof (sin2_cos2 (PI / 4)) as E. unfold Rsqr in E. set (c := cos (PI / 4)) in *. set (s := sin (PI / 4)) in *.
    assert (r_outer g * c * (r_outer g * c) <= x * x) by (apply Rmult_le_compat; lra). assert (r_outer g * s * (r_outer g * s) <= y * y) by (apply Rmult_le_compat; lra).
    assert (E2 : r_outer g * c * (r_outer g * c) + r_outer g * s * (r_outer g * s) = r_outer g * r_outer g). { replace (r_outer g * c * (r_outer g * c) + r_outer g * s * (r_outer g * s)) with (r_outer g * r_outer g * (s * s + c * c)) by ring. rewrite E. ring. }
    repeat split; lra.
  Qed.
End shape.
