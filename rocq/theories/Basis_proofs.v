From Coq Require Import Reals Lra.
From Verif Require Import Base Elem_model Poly_model Poly_spec Poly_proofs Poly2_proofs Basis_model Basis_spec.
Local Open Scope R_scope.

(** ** Zeros of polynomials *)
Lemma geo_list r n : exists g, length g = n /\ forall x, (x - r) * poly g x = x ^ n - r ^ n.
Proof.
  induction n as [|n (g & Hg & IH)]; [exists []; split; [done|]; intros x; cbn; lra|].
  exists (g ++ [r ^ n]). rewrite app_length, Hg. cbn [length]. split; [lia|]. intros x. rewrite poly_app. cbn [length poly Rpow_def.pow]. specialize (IH x).
  replace ((x - r) * (poly g x * (x * 1) + (r ^ n * 1 + 0))) with (x * ((x - r) * poly g x) + (x - r) * r ^ n) by ring. rewrite IH. ring.
Qed.
Lemma divide_root c r : exists q, length q = (length c - 1)%nat /\ forall x, poly c x = (x - r) * poly q x + poly c r.
Proof.
  induction c as [|a c (q & Hq & IH)]; [exists []; split; [done|]; intros x; cbn; lra|].
  destruct c as [|b c]; [exists []; split; [done|]; intros x; cbn; lra|]. set (l := b :: c) in *. destruct (geo_list r (length l)) as (g & Hg & Hgx).
  exists (zip_with (fun g l => g + a * l) (0 :: q) g). assert (Hl : length (0 :: q) = length g) by (cbn [length]; rewrite Hq, Hg; unfold l; cbn; lia).
  split; [rewrite zip_with_length, <- Hl; cbn [length]; rewrite Hq; unfold l; cbn [length]; lia|]. intros x.
  rewrite <- (evaluate_poly (zip_with _ _ _)), evaluate_add by done. rewrite !evaluate_poly. change (poly (a :: l) x) with (a * x ^ length l + poly l x).
  change (poly (a :: l) r) with (a * r ^ length l + poly l r). change (poly (0 :: q) x) with (0 * x ^ length q + poly q x). rewrite (IH x). specialize (Hgx x).
  replace (a * x ^ length l) with (a * (x ^ length l - r ^ length l) + a * r ^ length l) by ring. rewrite <- Hgx. ring.
Qed.
Lemma too_many_zeros c zs : NoDup zs -> (length c <= length zs)%nat -> (forall z, z ∈ zs -> poly c z = 0) -> forall x, poly c x = 0.
Proof.
  revert c. induction zs as [|z zs IH]; intros c Hnd Hl Hz x; [destruct c; [done|cbn in Hl; lia]|].
  apply NoDup_cons in Hnd as [Hin Hnd]. destruct (divide_root c z) as (q & Hq & Hx). assert (H0 : poly c z = 0) by (apply Hz; left). rewrite Hx, H0.
  rewrite (IH q); [lra|done|cbn in Hl; lia|]. intros y Hy. assert (Hc : poly c y = 0) by (apply Hz; by right). rewrite Hx, H0 in Hc.
  destruct (Rmult_integral (y - z) (poly q y)) as [He|He]; [lra| |done]. exfalso. apply Hin. replace z with y by lra. done.
Qed.

(** ** Sums *)
Lemma rsum_plus n f g : rsum n (fun k => f k + g k) = rsum n f + rsum n g.
Proof. induction n as [|n IH]; cbn; [lra|]. rewrite IH. lra. Qed.
Lemma rsum_app n m f : rsum (n + m) f = rsum n f + rsum m (fun k => f (n + k)%nat).
Proof. induction m as [|m IH]; [rewrite Nat.add_0_r; cbn; lra|]. rewrite Nat.add_succ_r. cbn. rewrite IH. lra. Qed.
Lemma rsum_grid n m (f : nat -> nat -> R) : (0 < n)%nat -> rsum (n * m) (fun k => f (k `mod` n)%nat (k / n)%nat) = rsum m (fun j => rsum n (fun i => f i j)).
Proof.
  intros Hn. induction m as [|m IH]; [by rewrite Nat.mul_0_r|]. rewrite Nat.mul_succ_r, rsum_app, IH. cbn. f_equal. apply rsum_ext. intros k Hk.
  rewrite (Nat.mul_comm n m), Nat.add_comm. rewrite Nat.mod_add, Nat.div_add by lia. by rewrite Nat.mod_small, Nat.div_small by lia.
Qed.
Lemma fold_plus_rsum l : fold_plus l = rsum (length l) (fun k => nth k l 0).
Proof.
  induction l as [|a l IH]; [done|]. destruct l as [|b l]; [cbn; lra|]. change (fold_plus (a :: b :: l)) with (a + fold_plus (b :: l)). rewrite IH.
  change (length (a :: b :: l)) with (S (length (b :: l))). rewrite rsum_S. done.
Qed.
Lemma fold_plus_map f n : fold_plus (map f (seq 0 n)) = rsum n f.
Proof.
  rewrite fold_plus_rsum, map_length, seq_length. apply rsum_ext. intros k Hk. rewrite (nth_indep _ 0 (f O)) by (rewrite map_length, seq_length; lia). by rewrite map_nth, seq_nth by lia.
Qed.
Lemma map_res_map {A B} (f : A -> res B) g l : (forall a, a ∈ l -> f a = Ok (g a)) -> map_res f l = Ok (map g l).
Proof. induction l as [|a l IH]; intros H; [done|]. cbn. rewrite H by left. rewrite bind_ok, IH by (intros b Hb; apply H; by right). done. Qed.

(** ** Basis functions along a line *)
Definition coefs (absc : list R) (i : nat) : list R := match lineBasisPolynomial absc i with Ok l => l | _ => [] end.
Definition Lb (absc : list R) (i : nat) (x : R) : R := poly (coefs absc i) x.
Definition Db (absc : list R) (i : nat) (x : R) : R := poly (derivative (coefs absc i)) x.
Section line.
  Context (absc : list R) (Hn : (1 < length absc)%nat) (Hnd : NoDup absc).
  Notation n := (length absc).
  Lemma coefs_ok i : (i < n)%nat -> lineBasisPolynomial absc i = Ok (coefs absc i) /\ length (coefs absc i) = n /\
    forall j, (j < n)%nat -> Lb absc i (nth j absc 0) = if decide (j = i) then 1 else 0.
  Proof using Hn Hnd.
    intros Hi. unfold Lb, coefs, lineBasisPolynomial. rewrite wr_ok by (rewrite repeat_length; lia). rewrite bind_ok.
    destruct (lagrange_ok absc (<[i := 1]> (repeat 0 n))) as (l & -> & Hl & He); [by rewrite insert_length, repeat_length|done|done|]. split; [done|]. split; [done|].
    intros j Hj. rewrite <- evaluate_poly, He by done. rewrite nth_insert by (rewrite repeat_length; lia). destruct (decide _); [done|].
    clear. generalize n. intros m. revert j. induction m as [|m IH]; intros [|j]; cbn; auto.
  Qed.
  Lemma lineFun_ok i x : (i < n)%nat -> lineFun absc i x = Ok (Lb absc i x).
  Proof using Hn Hnd. intros Hi. unfold lineFun. destruct (coefs_ok i Hi) as (-> & _). rewrite bind_ok. by rewrite evaluate_poly. Qed.
  Lemma lineFunDer_ok i x : (i < n)%nat -> lineFunDer absc i x = Ok (Db absc i x).
  Proof using Hn Hnd. intros Hi. unfold lineFunDer. destruct (coefs_ok i Hi) as (-> & _). rewrite bind_ok. by rewrite evaluate_poly. Qed.
  Lemma Lb_der i x : (i < n)%nat -> derivable_pt_lim (Lb absc i) x (Db absc i x).
  Proof using Hn Hnd.
    intros Hi. destruct (coefs_ok i Hi) as (_ & Hl & _). unfold Lb, Db. rewrite <- evaluate_poly. eapply derivable_pt_lim_ext; [|apply derivative_ok]; [intros y; apply evaluate_poly|].
    intros H0. rewrite H0 in Hl. cbn in Hl. lia.
  Qed.
  Lemma combination (y : nat -> R) m : (m <= n)%nat -> exists c, length c = n /\ forall x, poly c x = rsum m (fun i => y i * Lb absc i x).
  Proof using Hn Hnd.
    induction m as [|m IH]; intros Hm.
    - exists (repeat 0 n). rewrite repeat_length. split; [done|]. intros x. cbn. generalize n. intros k. induction k as [|k IH]; cbn; [done|]. rewrite IH. lra.
    - destruct IH as (c & Hc & Hx); [lia|]. destruct (coefs_ok m ltac:(lia)) as (_ & Hl & _). exists (zip_with (fun g l => g + y m * l) c (coefs absc m)). rewrite zip_with_length. split; [lia|].
      intros x. rewrite <- evaluate_poly, evaluate_add by lia. rewrite !evaluate_poly, Hx. done.
  Qed.
  Lemma reproduce p x : (length p <= n)%nat -> rsum n (fun i => poly p (nth i absc 0) * Lb absc i x) = poly p x.
  Proof using Hn Hnd.
    intros Hp. destruct (combination (fun i => poly p (nth i absc 0)) n ltac:(lia)) as (c & Hc & Hx). rewrite <- Hx.
    set (p' := repeat 0 (n - length p) ++ p). assert (Hp' : length p' = n) by (unfold p'; rewrite app_length, repeat_length; lia).
    assert (Hpp : forall x, poly p' x = poly p x). { intros y. unfold p'. rewrite poly_app. cut (poly (repeat 0 (n - length p)) y = 0); [intros ->; lra|]. generalize (n - length p)%nat. intros k. induction k as [|k IH]; cbn; [done|]. rewrite IH. lra. }
    enough (Hz : poly (zip_with (fun g l => g + (-1) * l) c p') x = 0). { rewrite <- evaluate_poly, evaluate_add in Hz by lia. rewrite !evaluate_poly, Hpp in Hz. lra. }
    apply (too_many_zeros _ absc); [done|rewrite zip_with_length; lia|]. intros z (j & Hj)%elem_of_list_lookup. assert (Hjn : (j < n)%nat) by (by eapply lookup_lt_Some).
    rewrite <- evaluate_poly, evaluate_add by lia. rewrite !evaluate_poly, Hpp, Hx. rewrite <- (nth_lookup_Some _ _ 0 _ Hj). rewrite (rsum_one n _ j Hjn).
    - destruct (coefs_ok j Hjn) as (_ & _ & ->); [|done]. rewrite decide_True by done. lra.
    - intros k Hk Hne. destruct (coefs_ok k Hk) as (_ & _ & ->); [|done]. rewrite decide_False by congruence. lra.
  Qed.
  Lemma unity x : rsum n (fun i => Lb absc i x) = 1.
  Proof using Hn Hnd. transitivity (poly [1] x); [|cbn; lra]. rewrite <- reproduce by (cbn; lia). apply rsum_ext. intros k _. cbn. lra. Qed.
End line.
