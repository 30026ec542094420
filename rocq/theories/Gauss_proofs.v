From Coq Require Import Reals Lra.
From Verif Require Import Base Elem_model Poly_model Poly_spec Poly_proofs Poly2_proofs Poly3_proofs Basis_model Basis_spec Basis_proofs Leg_proofs Gauss_model Gauss_spec.
Local Open Scope R_scope.

(** ** Integrals *)
Lemma int_plus f g v w : integral_is f v -> integral_is g w -> integral_is (fun x => f x + g x) (v + w).
Proof.
  intros (F & HF & ->) (G & HG & ->). exists (fun x => F x + G x). split; [|lra]. intros x. by apply (derivable_pt_lim_plus F G).
Qed.
Lemma int_scal f v c : integral_is f v -> integral_is (fun x => c * f x) (c * v).
Proof. intros (F & HF & ->). exists (fun x => c * F x). split; [|lra]. intros x. by apply derivable_pt_lim_scal. Qed.
Lemma int_ext f g v : (forall x, f x = g x) -> integral_is f v -> integral_is g v.
Proof. intros H (F & HF & ->). exists F. split; [|done]. intros x. rewrite <- H. apply HF. Qed.
Lemma int_zero : integral_is (fun _ => 0) 0.
Proof. exists (fun _ => 0). split; [|lra]. intros x. apply derivable_pt_lim_const. Qed.
Lemma int_unique f v w : integral_is f v -> integral_is f w -> v = w.
Proof.
  intros (F & HF & ->) (G & HG & ->). destruct (MVT_cor2 (fun x => F x - G x) (fun _ => 0) (-1) 1) as (c & Hc & _); [lra| |lra].
  intros x _. replace 0 with (f x - f x) by lra. by apply (derivable_pt_lim_minus F G).
Qed.

(** ** Legendre polynomials *)
Lemma leg_rec k x : (INR k + 1) * legendre (S k) x = (2 * INR k + 1) * x * legendre k x - INR k * legendre (pred k) x.
Proof.
  destruct k as [|k]; [rewrite legendre_1, legendre_0; cbn; lra|]. rewrite legendre_SS. cbn [pred]. pose proof (pos_INR k). rewrite S_INR. field. lra.
Qed.
Fixpoint dleg (n : nat) (x : R) : R * R :=
  match n with O => (0, 1) | S n => let '(d, d1) := dleg n x in (d1, ((2 * INR n + 3) * (legendre (S n) x + x * d1) - (INR n + 1) * d) / (INR n + 2)) end.
Lemma dleg_S n x : (dleg (S n) x).1 = (dleg n x).2.
Proof. cbn. by destruct (dleg n x). Qed.
Lemma dleg_ok n x : derivable_pt_lim (legendre n) x (dleg n x).1 /\ derivable_pt_lim (legendre (S n)) x (dleg n x).2.
Proof.
  induction n as [|n [IH1 IH2]].
  - split; cbn.
    + apply (derivable_pt_lim_ext (fun _ => 1)); [done|apply derivable_pt_lim_const].
    + apply (derivable_pt_lim_ext (fun x => x)); [done|apply derivable_pt_lim_id].
  - rewrite dleg_S. split; [done|]. cbn [dleg]. destruct (dleg n x) as [d d1]. cbn [fst snd] in *.
    apply (derivable_pt_lim_ext (fun y => / (INR n + 2) * ((2 * INR n + 3) * (y * legendre (S n) y) - (INR n + 1) * legendre n y))).
    { intros y. rewrite legendre_SS. unfold Rdiv. ring. }
    replace (((2 * INR n + 3) * (legendre (S n) x + x * d1) - (INR n + 1) * d) / (INR n + 2)) with (/ (INR n + 2) * ((2 * INR n + 3) * (1 * legendre (S n) x + x * d1) - (INR n + 1) * d)) by (unfold Rdiv; ring).
    apply derivable_pt_lim_scal. apply (derivable_pt_lim_minus (fun y => (2 * INR n + 3) * (y * legendre (S n) y)) (fun y => (INR n + 1) * legendre n y)).
    + apply derivable_pt_lim_scal. apply (derivable_pt_lim_mult (fun y => y) (legendre (S n))); [apply derivable_pt_lim_id|done].
    + by apply derivable_pt_lim_scal.
Qed.
Lemma dleg_AB n x : (dleg n x).2 = x * (dleg n x).1 + (INR n + 1) * legendre n x /\ x * (dleg n x).2 = (dleg n x).1 + (INR n + 1) * legendre (S n) x.
Proof.
  induction n as [|n [IA IB]].
  - cbn [dleg fst snd]. rewrite legendre_0, legendre_1. cbn. lra.
  - rewrite dleg_S. pose proof (leg_rec (S n) x) as Hr. cbn [pred] in Hr. rewrite S_INR in *. cbn [dleg]. destruct (dleg n x) as [d d1]. cbn [fst snd] in *. pose proof (pos_INR n) as Hp.
    assert (HA : ((2 * INR n + 3) * (legendre (S n) x + x * d1) - (INR n + 1) * d) / (INR n + 2) = x * d1 + (INR n + 1 + 1) * legendre (S n) x).
    { replace d with (x * d1 - (INR n + 1) * legendre (S n) x) by lra. field. lra. }
    rewrite HA. split; [done|]. assert (x * (x * d1) = x * d + (INR n + 1) * (x * legendre (S n) x)) as H2 by (rewrite IB; ring). nra.
Qed.
Lemma leg_int j : (1 <= j)%nat -> integral_is (legendre j) 0.
Proof.
  intros Hj. destruct j as [|j]; [lia|]. exists (fun x => / (2 * INR j + 3) * (legendre (S (S j)) x - legendre j x)). pose proof (pos_INR j) as Hp. split.
  - intros x. destruct (dleg_ok j x) as [H1 _]. destruct (dleg_ok (S j) x) as [_ H2]. destruct (dleg_AB j x) as [_ HB]. destruct (dleg_AB (S j) x) as [HA _]. rewrite dleg_S, S_INR in HA.
    replace (legendre (S j) x) with (/ (2 * INR j + 3) * ((dleg (S j) x).2 - (dleg j x).1)).
    + apply derivable_pt_lim_scal. by apply (derivable_pt_lim_minus (legendre (S (S j))) (legendre j)).
    + rewrite HA, HB. field. lra.
  - rewrite !legendre_at_1, !legendre_at_m1. cbn [Rpow_def.pow]. ring.
Qed.
Lemma leg_orth a j : (a < j)%nat -> integral_is (fun x => x ^ a * legendre j x) 0.
Proof.
  revert j. induction a as [|a IH]; intros j Hj.
  - apply (int_ext (legendre j)); [intros x; cbn; lra|]. apply leg_int. lia.
  - pose proof (pos_INR j) as Hp. apply (int_ext (fun x => (INR j + 1) / (2 * INR j + 1) * (x ^ a * legendre (S j) x) + INR j / (2 * INR j + 1) * (x ^ a * legendre (pred j) x))).
    + intros x. cbn [Rpow_def.pow]. pose proof (leg_rec j x) as Hr. replace (x * x ^ a * legendre j x) with (x ^ a / (2 * INR j + 1) * ((2 * INR j + 1) * x * legendre j x)) by (field; lra).
      replace ((2 * INR j + 1) * x * legendre j x) with ((INR j + 1) * legendre (S j) x + INR j * legendre (pred j) x) by lra. field. lra.
    + replace 0 with ((INR j + 1) / (2 * INR j + 1) * 0 + INR j / (2 * INR j + 1) * 0) by ring. apply int_plus; apply int_scal, IH; lia.
Qed.

(** ** The rule of Golub and Welsch *)
Definition sq (k : nat) : R := R_sqrt.sqrt (2 * INR k + 1).
Lemma sq_pos k : 0 < sq k.
Proof. apply sqrt_lt_R0. pose proof (pos_INR k). lra. Qed.
Lemma sq_sq k : sq k * sq k = 2 * INR k + 1.
Proof. apply sqrt_sqrt. pose proof (pos_INR k). lra. Qed.
Lemma beta_ok k : gauss_beta ref_a ref_c k = (INR k + 1) / (sq k * sq (S k)).
Proof.
  unfold gauss_beta. cbv zeta. pose proof (pos_INR k) as Hp. pose proof (sq_pos k). pose proof (sq_pos (S k)).
  assert (Hb : 0 <= (INR k + 1) / (sq k * sq (S k))). { apply Rlt_le, Rdiv_lt_0_compat; [lra|]. by apply Rmult_lt_0_compat. }
  rewrite <- (sqrt_square ((INR k + 1) / (sq k * sq (S k)))) by done. f_equal.
  replace ((INR k + 1) / (sq k * sq (S k)) * ((INR k + 1) / (sq k * sq (S k)))) with ((INR k + 1) * (INR k + 1) / ((sq k * sq k) * (sq (S k) * sq (S k)))) by (field; lra).
  rewrite !sq_sq, S_INR. unfold ref_a, ref_c. replace (k + 1 + 1 - 1)%nat with (S k) by lia. replace (2 * (k + 1) - 1)%nat with (S (2 * k)) by lia. replace (2 * (k + 1 + 1) - 1)%nat with (S (S (S (2 * k)))) by lia.
  replace (k + 1 + 1)%nat with (S (S k)) by lia. replace (k + 1)%nat with (S k) by lia. rewrite !S_INR, mult_INR. change (INR 2) with 2. field. lra.
Qed.
Lemma row_sum n k (v : nat -> R) : (k < n)%nat ->
  rsum n (fun j => gauss_matrix ref_a ref_b ref_c k j * v j) =
  (if decide (S k < n)%nat then gauss_beta ref_a ref_c k * v (S k) else 0) + (if decide (0 < k)%nat then gauss_beta ref_a ref_c (pred k) * v (pred k) else 0).
Proof.
  intros Hk. rewrite (rsum_ext n _ (fun j => (if decide (j = S k) then gauss_beta ref_a ref_c k * v (S k) else 0) + (if decide (S j = k) then gauss_beta ref_a ref_c (pred k) * v (pred k) else 0))).
  - rewrite rsum_plus. f_equal.
    + destruct (decide (S k < n)%nat) as [Hlt|Hge].
      * rewrite (rsum_one n _ (S k) Hlt); [by rewrite decide_True|]. intros j Hj Hne. by rewrite decide_False.
      * apply rsum_zero. intros j Hj. rewrite decide_False; [done|lia].
    + destruct (decide (0 < k)%nat) as [Hlt|Hge].
      * rewrite (rsum_one n _ (pred k)); [rewrite decide_True by lia; done|lia|]. intros j Hj Hne. rewrite decide_False; [done|lia].
      * apply rsum_zero. intros j Hj. rewrite decide_False; [done|lia].
  - intros j Hj. unfold gauss_matrix, gauss_alpha, ref_b. destruct (Nat.eqb_spec k j) as [->|].
    + rewrite !decide_False by lia. unfold Rdiv. ring.
    + destruct (Nat.eqb_spec j (k + 1)) as [->|].
      * rewrite decide_True by lia. rewrite decide_False by lia. replace (k + 1)%nat with (S k) by lia. ring.
      * destruct (Nat.eqb_spec k (j + 1)) as [->|].
        -- rewrite decide_False by lia. rewrite decide_True by lia. replace (pred (j + 1)) with j by lia. ring.
        -- rewrite !decide_False by lia. ring.
Qed.
Lemma rsum_swap n m (f : nat -> nat -> R) : rsum n (fun i => rsum m (fun j => f i j)) = rsum m (fun j => rsum n (fun i => f i j)).
Proof. induction n as [|n IH]; cbn; [symmetry; by apply rsum_zero|]. by rewrite IH, rsum_plus. Qed.
Lemma matrix_sym i j : gauss_matrix ref_a ref_b ref_c i j = gauss_matrix ref_a ref_b ref_c j i.
Proof.
  unfold gauss_matrix. destruct (Nat.eqb_spec i j) as [->|H]; [by rewrite Nat.eqb_refl|]. destruct (Nat.eqb_spec j i); [congruence|].
  destruct (Nat.eqb_spec j (i + 1)), (Nat.eqb_spec i (j + 1)); try lia; done.
Qed.
Lemma find_index n (P : nat -> Prop) : (forall i, P i \/ ~ P i) -> (exists i, (i < n)%nat /\ P i) \/ forall i, (i < n)%nat -> ~ P i.
Proof.
  intros Hd. induction n as [|n [(i & Hi & HP)|IH]]; [right; intros; lia|left; exists i; split; [lia|done]|]. destruct (Hd n) as [HP|HP]; [left; exists n; split; [lia|done]|right].
  intros i Hi. destruct (decide (i = n)) as [->|]; [done|]. apply IH. lia.
Qed.
Section rule.
  Context (n : nat) (lam : nat -> R) (V : nat -> nat -> R) (Hn : (1 <= n)%nat) (He : eigen_of n (gauss_matrix ref_a ref_b ref_c) lam V).
  Lemma step k i : (k < n)%nat -> (i < n)%nat ->
    (if decide (S k < n)%nat then (INR k + 1) / (sq k * sq (S k)) * V (S k) i else 0) + (if decide (0 < k)%nat then INR k / (sq (pred k) * sq k) * V (pred k) i else 0) = lam i * V k i.
  Proof using He Hn.
    intros Hk Hi. destruct He as (_ & Heig & _). rewrite <- (Heig k i Hk Hi), row_sum by done. rewrite !beta_ok. f_equal. destruct (decide (0 < k)%nat); [|done]. destruct k as [|k]; [lia|]. cbn [pred]. by rewrite S_INR.
  Qed.
  Lemma column k i : (i < n)%nat -> (k < n)%nat -> V k i = sq k * legendre k (lam i) * V O i.
  Proof using He Hn.
    intros Hi. induction k as [k IH] using lt_wf_ind. intros Hk. destruct k as [|k].
    - rewrite legendre_0. unfold sq. cbn. rewrite Rmult_0_r, Rplus_0_l, sqrt_1. lra.
    - pose proof (step k i ltac:(lia) Hi) as Hs. rewrite decide_True in Hs by lia. pose proof (leg_rec k (lam i)) as Hr. pose proof (pos_INR k) as Hp. pose proof (sq_pos k). pose proof (sq_pos (S k)). pose proof (sq_sq k) as Hkk.
      rewrite (IH k) in Hs by lia.
      assert (Hs' : (INR k + 1) / (sq k * sq (S k)) * V (S k) i = lam i * (sq k * legendre k (lam i) * V O i) - INR k / sq k * legendre (pred k) (lam i) * V O i).
      { rewrite <- Hs. destruct (decide (0 < k)%nat) as [Hk0|Hk0]; [|replace k with O by lia; cbn; unfold Rdiv; ring]. rewrite (IH (pred k)) by lia. pose proof (sq_pos (pred k)). field. lra. }
      apply (Rmult_eq_reg_l ((INR k + 1) / (sq k * sq (S k)))); [|apply Rgt_not_eq, Rdiv_lt_0_compat; [lra|by apply Rmult_lt_0_compat]]. rewrite Hs'.
      replace ((INR k + 1) / (sq k * sq (S k)) * (sq (S k) * legendre (S k) (lam i) * V O i)) with (/ sq k * V O i * ((INR k + 1) * legendre (S k) (lam i))) by (field; lra). rewrite Hr.
      rewrite <- Hkk. field. lra.
  Qed.
  Lemma V0_nonzero i : (i < n)%nat -> V O i <> 0.
  Proof using He Hn.
    intros Hi H0. destruct He as (_ & _ & Hc & _). specialize (Hc i i Hi Hi). rewrite Nat.eqb_refl in Hc. rewrite rsum_zero in Hc; [lra|]. intros k Hk. rewrite (column k i Hi Hk), H0. lra.
  Qed.
  Lemma lam_root i : (i < n)%nat -> legendre n (lam i) = 0.
  Proof using He Hn.
    intros Hi. pose proof (V0_nonzero i Hi) as H0. pose proof (step (n - 1) i ltac:(lia) Hi) as Hs. rewrite decide_False in Hs by lia. pose proof (leg_rec (n - 1) (lam i)) as Hr. replace (S (n - 1)) with n in Hr by lia.
    set (k := (n - 1)%nat) in *. pose proof (pos_INR k) as Hp. pose proof (sq_pos k). pose proof (sq_sq k) as Hkk. rewrite (column k i) in Hs by lia.
    assert (Hs' : INR k / sq k * legendre (pred k) (lam i) * V O i = lam i * (sq k * legendre k (lam i) * V O i)).
    { rewrite <- Hs. destruct (decide (0 < k)%nat) as [Hk0|Hk0]; [|replace (INR k) with 0 by (replace k with O by lia; done); unfold Rdiv; ring]. rewrite (column (pred k) i) by lia. pose proof (sq_pos (pred k)). field. lra. }
    assert (Hz : (INR k + 1) * legendre n (lam i) = 0); [|apply Rmult_integral in Hz as [?|?]; [lra|done]]. rewrite Hr, <- Hkk. apply (Rmult_eq_reg_r (/ sq k * V O i)).
    - rewrite Rmult_0_l. transitivity (lam i * (sq k * legendre k (lam i) * V O i) - INR k / sq k * legendre (pred k) (lam i) * V O i); [field; lra|]. rewrite Hs'. ring.
    - apply Rmult_integral_contrapositive_currified; [|done]. apply Rinv_neq_0_compat. lra.
  Qed.
  (** Every zero of the polynomial is an eigenvalue. *)
  Lemma root_lam r : legendre n r = 0 -> exists i, (i < n)%nat /\ lam i = r.
  Proof using He Hn.
    intros Hr. set (v := fun k => sq k * legendre k r).
    assert (Hv : forall k, (k < n)%nat -> rsum n (fun j => gauss_matrix ref_a ref_b ref_c k j * v j) = r * v k).
    { intros k Hk. rewrite row_sum by done. rewrite !beta_ok. pose proof (leg_rec k r) as Hrec. pose proof (pos_INR k) as Hp. pose proof (sq_pos k). pose proof (sq_pos (S k)). pose proof (sq_sq k) as Hkk. unfold v.
      assert (E1 : (if decide (S k < n)%nat then (INR k + 1) / (sq k * sq (S k)) * (sq (S k) * legendre (S k) r) else 0) = / sq k * ((INR k + 1) * legendre (S k) r)).
      { destruct (decide (S k < n)%nat); [field; lra|]. replace (S k) with n by lia. rewrite Hr. ring. }
      assert (E2 : (if decide (0 < k)%nat then (INR (pred k) + 1) / (sq (pred k) * sq (S (pred k))) * (sq (pred k) * legendre (pred k) r) else 0) = / sq k * (INR k * legendre (pred k) r)).
      { destruct (decide (0 < k)%nat); [|replace k with O by lia; cbn; ring]. pose proof (sq_pos (pred k)). replace (S (pred k)) with k by lia. replace (INR (pred k) + 1) with (INR k); [field; lra|]. rewrite <- S_INR. f_equal. lia. }
      rewrite E1, E2, Hrec. replace (r * (sq k * legendre k r)) with (/ sq k * ((sq k * sq k) * r * legendre k r)) by (field; lra). rewrite Hkk. ring. }
    set (c := fun i => rsum n (fun k => V k i * v k)). destruct He as (_ & Heig & _ & Hrow).
    assert (Hc : forall i, (i < n)%nat -> lam i * c i = r * c i).
    { intros i Hi. unfold c. rewrite <- !rsum_scal. rewrite (rsum_ext n (fun k => lam i * (V k i * v k)) (fun k => rsum n (fun j => gauss_matrix ref_a ref_b ref_c k j * V j i * v k))).
      - rewrite rsum_swap. apply rsum_ext. intros j Hj. rewrite (rsum_ext n _ (fun k => V j i * (gauss_matrix ref_a ref_b ref_c j k * v k))) by (intros k Hk; rewrite (matrix_sym j k); ring). rewrite rsum_scal, Hv by done. ring.
      - intros k Hk. rewrite (rsum_ext n _ (fun j => v k * (gauss_matrix ref_a ref_b ref_c k j * V j i))) by (intros; ring). rewrite rsum_scal, (Heig k i Hk Hi). ring. }
    destruct (find_index n (fun i => lam i = r)) as [Hex|Hno]; [intros i; destruct (Req_dec (lam i) r); auto|done|].
    exfalso. assert (Hz : forall i, (i < n)%nat -> c i = 0). { intros i Hi. specialize (Hc i Hi). assert (Hm : (lam i - r) * c i = 0) by lra. apply Rmult_integral in Hm as [Hm|Hm]; [|done]. exfalso. apply (Hno i Hi). lra. }
    assert (Hv0 : v O = rsum n (fun i => V O i * c i)).
    { unfold c. rewrite (rsum_ext n _ (fun i => rsum n (fun k => V O i * (V k i * v k)))) by (intros i Hi; by rewrite rsum_scal). rewrite rsum_swap. rewrite (rsum_one n _ O).
      - rewrite (rsum_ext n _ (fun i => v O * (V O i * V O i))) by (intros; ring). rewrite rsum_scal, (Hrow O O) by lia. cbn. ring.
      - lia.
      - intros k Hk Hne. rewrite (rsum_ext n _ (fun i => v k * (V O i * V k i))) by (intros; ring). rewrite rsum_scal, (Hrow O k) by lia. destruct (Nat.eqb_spec O k); [congruence|ring]. }
    rewrite rsum_zero in Hv0 by (intros i Hi; rewrite Hz by done; ring). unfold v in Hv0. rewrite legendre_0 in Hv0. pose proof (sq_pos O). lra.
  Qed.
  Definition Qf (f : R -> R) : R := rsum n (fun i => 2 * V O i * V O i * f (lam i)).
  Definition exact (f : R -> R) : Prop := integral_is f (Qf f).
  Lemma exact_lin f g a b h : (forall x, h x = a * f x + b * g x) -> exact f -> exact g -> exact h.
  Proof using.
    intros Hh Hf Hg. unfold exact in *. replace (Qf h) with (a * Qf f + b * Qf g).
    - apply (int_ext (fun x => a * f x + b * g x)); [done|]. apply int_plus; by apply int_scal.
    - unfold Qf. rewrite <- !rsum_scal, <- rsum_plus. apply rsum_ext. intros k _. rewrite Hh. ring.
  Qed.
  Lemma exact_leg j : (j <= n)%nat -> exact (legendre j).
  Proof using He Hn.
    intros Hj. unfold exact. destruct (decide (j = n)) as [->|Hne].
    - replace (Qf (legendre n)) with 0; [apply leg_int; lia|]. symmetry. apply rsum_zero. intros i Hi. rewrite lam_root by done. ring.
    - assert (HQ : Qf (legendre j) = 2 / sq j * rsum n (fun i => V O i * V j i)).
      { unfold Qf. rewrite <- rsum_scal. apply rsum_ext. intros i Hi. rewrite (column j i) by lia. pose proof (sq_pos j). field. lra. }
      destruct He as (_ & _ & _ & Hrow). rewrite HQ, (Hrow O j) by lia. destruct (Nat.eqb_spec O j) as [<-|].
      + replace (2 / sq 0 * 1) with (1 - -1). { exists (fun x => x). split; [|done]. intros x. rewrite legendre_0. apply derivable_pt_lim_id. }
        unfold sq. cbn. rewrite Rmult_0_r, Rplus_0_l, sqrt_1. lra.
      + rewrite Rmult_0_r. apply leg_int. lia.
  Qed.
  Lemma exact_pow_leg a j : (j <= n)%nat -> (a + j <= 2 * n - 1)%nat -> exact (fun x => x ^ a * legendre j x).
  Proof using He Hn.
    revert j. induction a as [|a IH]; intros j Hj Ha.
    - apply (exact_lin (legendre j) (legendre j) 1 0); [intros x; cbn; lra| |]; by apply exact_leg.
    - destruct (decide (j = n)) as [->|Hne].
      + unfold exact. replace (Qf (fun x => x ^ S a * legendre n x)) with 0; [apply leg_orth; lia|]. symmetry. apply rsum_zero. intros i Hi. rewrite lam_root by done. ring.
      + pose proof (pos_INR j) as Hp. apply (exact_lin (fun x => x ^ a * legendre (S j) x) (fun x => x ^ a * legendre (pred j) x) ((INR j + 1) / (2 * INR j + 1)) (INR j / (2 * INR j + 1))).
        * intros x. cbn [Rpow_def.pow]. pose proof (leg_rec j x) as Hr. replace (x * x ^ a * legendre j x) with (x ^ a / (2 * INR j + 1) * ((2 * INR j + 1) * x * legendre j x)) by (field; lra).
          replace ((2 * INR j + 1) * x * legendre j x) with ((INR j + 1) * legendre (S j) x + INR j * legendre (pred j) x) by lra. field. lra.
        * apply IH; lia.
        * apply IH; lia.
  Qed.
  Lemma exact_poly c : (length c <= 2 * n)%nat -> exact (poly c).
  Proof using He Hn.
    induction c as [|a c IH]; intros Hc; cbn in Hc.
    - apply (exact_lin (legendre 0) (legendre 0) 0 0); [intros x; cbn; lra| |]; apply exact_leg; lia.
    - apply (exact_lin (fun x => x ^ length c * legendre 0 x) (poly c) a 1); [intros x; rewrite legendre_0; cbn [poly]; lra| |].
      + apply exact_pow_leg; lia.
      + apply IH. lia.
  Qed.
End rule.
