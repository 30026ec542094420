From Coq Require Import Reals Lra.
From Verif Require Import Base Poly_model Poly_spec.
Local Open Scope R_scope.

Lemma rsum_ext n f g : (forall k, (k < n)%nat -> f k = g k) -> rsum n f = rsum n g.
Proof. induction n as [|n IH]; intros H; [done|]. cbn. rewrite IH by (intros; apply H; lia). by rewrite H by lia. Qed.
Lemma rsum_zero n f : (forall k, (k < n)%nat -> f k = 0) -> rsum n f = 0.
Proof. induction n as [|n IH]; intros H; [done|]. cbn. rewrite IH by (intros; apply H; lia). rewrite H by lia. lra. Qed.
Lemma rsum_one n f i : (i < n)%nat -> (forall k, (k < n)%nat -> k <> i -> f k = 0) -> rsum n f = f i.
Proof.
  induction n as [|n IH]; intros Hi H; [lia|]. cbn. destruct (decide (i = n)) as [->|].
  - rewrite rsum_zero by (intros; apply H; lia). lra.
  - rewrite IH by (try intros; try apply H; lia). rewrite (H n) by lia. lra.
Qed.
Lemma rsum_scal n f c : rsum n (fun k => c * f k) = c * rsum n f.
Proof. induction n as [|n IH]; cbn; [lra|]. rewrite IH. lra. Qed.
Lemma rsum_S n f : rsum (S n) f = f O + rsum n (fun k => f (S k)).
Proof. induction n as [|n IH]; [cbn; lra|]. change (rsum (S (S n)) f) with (rsum (S n) f + f (S n)). rewrite IH. cbn. lra. Qed.

(** ** Horner's rule *)
Lemma evaluate_acc l x acc : foldl (fun ret c => ret * x + c) acc l = acc * x ^ length l + poly l x.
Proof. revert acc. induction l as [|c l IH]; intros acc; cbn [foldl length Rpow_def.pow poly]; [lra|]. rewrite IH. cbn. lra. Qed.
Lemma evaluate_poly l x : evaluate l x = poly l x.
Proof. unfold evaluate. rewrite evaluate_acc. lra. Qed.
Fixpoint hor (m : nat) (f : nat -> R) (t : R) : R := match m with O => 0 | S m => t * hor m f t + f m end.
Lemma hor_ext m f g t : (forall k, (k < m)%nat -> f k = g k) -> hor m f t = hor m g t.
Proof. induction m as [|m IH]; intros H; [done|]. cbn. rewrite IH by (intros; apply H; lia). by rewrite H by lia. Qed.
Lemma hor_lin m f g a b t : hor m (fun k => a * f k + b * g k) t = a * hor m f t + b * hor m g t.
Proof. induction m as [|m IH]; cbn; [lra|]. rewrite IH. lra. Qed.
Lemma hor_S m f t : hor (S m) f t = f O * t ^ m + hor m (fun k => f (S k)) t.
Proof. induction m as [|m IH]; [cbn; lra|]. change (hor (S (S m)) f t) with (t * hor (S m) f t + f (S m)). rewrite IH. cbn. lra. Qed.
Lemma hor_poly l t : poly l t = hor (length l) (fun k => nth k l 0) t.
Proof. induction l as [|c l IH]; [done|]. cbn [length]. rewrite hor_S. cbn [poly nth]. by rewrite IH. Qed.
Lemma evaluate_hor l t : evaluate l t = hor (length l) (fun k => nth k l 0) t.
Proof. by rewrite evaluate_poly, hor_poly. Qed.

(** ** Derivative, integral, product *)
Lemma rev_seq n : rev (seq 1 (S n)) = S n :: rev (seq 1 n).
Proof. rewrite seq_S, rev_app_distr. done. Qed.
Fixpoint dl (l : list R) : list R := match l with [] => [] | [_] => [] | c :: l => c * INR (length l) :: dl l end.
Lemma derivative_dl l : l <> [] -> forall x, poly (derivative l) x = poly (dl l) x.
Proof.
  intros Hl x. unfold derivative. destruct l as [|c l]; [done|]. cbn [length]. replace (S (length l) - 1)%nat with (length l) by lia. destruct (Nat.eqb_spec (length l) 0) as [H0|H0].
  - destruct l; [cbn; lra|done].
  - f_equal. clear Hl. revert c H0. induction l as [|a l IH]; intros c H0; [done|]. cbn [length]. rewrite rev_seq. cbn [take firstn map zip_with].
    change (dl (c :: a :: l)) with (c * INR (length (a :: l)) :: dl (a :: l)). f_equal. destruct l as [|b l]; [done|]. apply (IH a). done.
Qed.
Lemma dl_length c l : length (dl (c :: l)) = length l.
Proof. revert c. induction l as [|a l IH]; intros c; [done|]. change (dl (c :: a :: l)) with (c * INR (length (a :: l)) :: dl (a :: l)). cbn [length]. by rewrite IH. Qed.
Lemma dl_ok l x : derivable_pt_lim (poly l) x (poly (dl l) x).
Proof.
  induction l as [|c l IH]; [apply (derivable_pt_lim_const 0)|]. destruct l as [|a l].
  - cbn [dl]. replace (poly [] x) with (0 * 0 + 0) by (cbn; lra). apply (derivable_pt_lim_ext (fun y => c)); [intros y; cbn; lra|]. replace (0 * 0 + 0) with 0 by lra. apply derivable_pt_lim_const.
  - change (dl (c :: a :: l)) with (c * INR (length (a :: l)) :: dl (a :: l)). cbn [poly]. rewrite dl_length.
    apply (derivable_pt_lim_plus (fun y => c * y ^ length (a :: l)) (poly (a :: l))); [|exact IH].
    replace (c * INR (length (a :: l)) * x ^ length l) with (c * (INR (length (a :: l)) * x ^ pred (length (a :: l)))) by (cbn [length pred]; lra).
    apply derivable_pt_lim_scal, derivable_pt_lim_pow.
Qed.
Lemma derivative_ok l x : l <> [] -> derivable_pt_lim (evaluate l) x (evaluate (derivative l) x).
Proof.
  intros Hl. rewrite evaluate_poly, (derivative_dl l Hl). apply (derivable_pt_lim_ext (poly l)); [intros y; by rewrite evaluate_poly|]. apply dl_ok.
Qed.
Lemma derivative_length l : (2 <= length l)%nat -> length (derivative l) = (length l - 1)%nat.
Proof.
  intros H. unfold derivative. destruct (Nat.eqb_spec (length l - 1) 0); [lia|]. rewrite zip_with_length, take_length, map_length, rev_length, seq_length. lia.
Qed.
Lemma integral_cons c l : integral (c :: l) = c * (1 / INR (S (length l))) :: integral l.
Proof. unfold integral. cbn [length]. rewrite seq_S, map_app, rev_app_distr. done. Qed.
Lemma integral_length l : length (integral l) = S (length l).
Proof. induction l as [|c l IH]; [done|]. rewrite integral_cons. cbn. by rewrite IH. Qed.
Lemma integral_ok l x : derivable_pt_lim (evaluate (integral l)) x (evaluate l x) /\ evaluate (integral l) 0 = 0.
Proof.
  rewrite (evaluate_poly l), (evaluate_poly (integral l)). split.
  - apply (derivable_pt_lim_ext (poly (integral l))); [intros y; by rewrite evaluate_poly|]. induction l as [|c l IH].
    + apply (derivable_pt_lim_ext (fun y => 0)); [intros y; cbn; lra|]. apply derivable_pt_lim_const.
    + rewrite integral_cons. cbn [poly]. rewrite integral_length.
      apply (derivable_pt_lim_plus (fun y => c * (1 / INR (S (length l))) * y ^ S (length l)) (poly (integral l))); [|exact IH].
      replace (c * x ^ length l) with (c * (1 / INR (S (length l))) * (INR (S (length l)) * x ^ pred (S (length l)))) by (cbn [pred]; field; apply not_0_INR; lia).
      apply derivable_pt_lim_scal, derivable_pt_lim_pow.
  - induction l as [|c l IH]; [cbn; lra|]. rewrite integral_cons. cbn [poly]. rewrite IH, integral_length. cbn [Rpow_def.pow]. lra.
Qed.

Lemma poly_app l1 l2 x : poly (l1 ++ l2) x = poly l1 x * x ^ length l2 + poly l2 x.
Proof. induction l1 as [|c l IH]; cbn [app poly]; [lra|]. rewrite IH, app_length, pow_add. lra. Qed.
Lemma poly_insert l k v x : (k < length l)%nat -> poly (<[k := v]> l) x = poly l x + (v - nth k l 0) * x ^ (length l - 1 - k).
Proof.
  revert k. induction l as [|c l IH]; intros k Hk; [cbn in Hk; lia|]. destruct k as [|k]; cbn [nth length].
  - change (poly (<[0%nat := v]> (c :: l)) x) with (v * x ^ length l + poly l x). cbn [poly]. replace (S (length l) - 1 - 0)%nat with (length l) by lia. lra.
  - change (poly (<[S k := v]> (c :: l)) x) with (c * x ^ length (<[k := v]> l) + poly (<[k := v]> l) x). cbn [poly]. cbn in Hk. rewrite IH by lia. rewrite insert_length. replace (S (length l) - 1 - S k)%nat with (length l - 1 - k)%nat by lia. lra.
Qed.
Lemma rd_nth (l : list R) k : (k < length l)%nat -> rd l k = Ok (nth k l 0).
Proof. intros H. apply rd_ok. destruct (lookup_lt_is_Some_2 l k H) as [a Ha]. rewrite Ha. f_equal. symmetry. by apply nth_lookup_Some. Qed.
Lemma mul_ok a b x : a <> [] -> b <> [] -> exists r, poly_mul a b = Ok r /\ length r = (length a - 1 + (length b - 1) + 1)%nat /\ evaluate r x = evaluate a x * evaluate b x.
Proof.
  intros Ha Hb. unfold poly_mul. set (n := (length a - 1 + (length b - 1) + 1)%nat).
  assert (Hla : (0 < length a)%nat) by (destruct a; [done|cbn; lia]). assert (Hlb : (0 < length b)%nat) by (destruct b; [done|cbn; lia]).
  assert (Hin : forall (ac : R) (i : nat) (l0 : list R), (i < length a)%nat -> length l0 = n -> exists l', for_each (fun bc (r : list R * nat) => x ← rd r.1 (i + r.2)%nat; l ← wr r.1 (i + r.2)%nat (x + ac * bc); Ok (l, S r.2)) b (l0, O) = Ok (l', length b) /\
    length l' = n /\ poly l' x = poly l0 x + ac * x ^ (length a - 1 - i) * poly b x).
  { intros ac i l0 Hi Hl0.
    destruct (for_each_inv (fun bc (r : list R * nat) => x ← rd r.1 (i + r.2)%nat; l ← wr r.1 (i + r.2)%nat (x + ac * bc); Ok (l, S r.2))
      (fun pre r => r.2 = length pre /\ length r.1 = n /\ poly r.1 x = poly l0 x + ac * x ^ (length a - 1 - i) * (poly pre x * x ^ (length b - length pre))) b [] (l0, O)) as ([l' k] & Hr & Hk & Hl & Hp).
    - cbn. split; [done|]. split; [done|]. lra.
    - intros pre bc [l k] (post & Heq) (Hk & Hl & Hp). cbn [fst snd app] in *. subst k.
      assert (Hlp : (length pre < length b)%nat) by (rewrite Heq, app_length; cbn; lia).
      rewrite rd_nth by lia. rewrite bind_ok, wr_ok by lia. rewrite bind_ok. eexists. split; [done|]. cbn [fst snd]. rewrite app_length, insert_length. cbn [length]. split; [lia|]. split; [done|].
      rewrite poly_insert by lia. rewrite Hp, poly_app. cbn [poly length Rpow_def.pow]. rewrite Hl.
      replace (n - 1 - (i + length pre))%nat with (length a - 1 - i + (length b - (length pre + 1)))%nat by lia. rewrite pow_add.
      replace (length b - length pre)%nat with (S (length b - (length pre + 1))) by lia. cbn [Rpow_def.pow]. ring.
    - exists l'. cbn [app fst snd] in *. rewrite Hr, Hk. split; [done|]. split; [done|]. rewrite Hp. replace (length b - length b)%nat with 0%nat by lia. cbn [Rpow_def.pow]. ring. }
  set (f := fun ac (st : list R * nat) => _).
  destruct (for_each_inv f (fun pre st => st.2 = length pre /\ length st.1 = n /\ poly st.1 x = poly pre x * x ^ (length a - length pre) * poly b x) a [] (repeat 0 n, O)) as ([r k] & Hr & Hk & Hl & Hp).
  - cbn [fst snd length]. split; [done|]. split; [apply repeat_length|]. assert (H0 : forall m, poly (repeat 0 m) x = 0) by (induction m as [|m IH]; [done|]; cbn; rewrite IH; lra). rewrite H0. cbn. lra.
  - intros pre ac [l k] (post & Heq) (Hk & Hl & Hp). cbn [fst snd app] in *. subst k. assert (Hlp : (length pre < length a)%nat) by (rewrite Heq, app_length; cbn; lia).
    unfold f. cbn [fst snd]. destruct (Hin ac (length pre) l Hlp Hl) as (l' & -> & Hl' & Hp'). rewrite bind_ok. eexists. split; [done|]. cbn [fst snd]. rewrite app_length. cbn [length]. split; [lia|]. split; [done|].
    rewrite Hp', Hp, poly_app. cbn [poly length Rpow_def.pow]. replace (length a - 1 - length pre)%nat with (length a - (length pre + 1))%nat by lia.
    replace (length a - length pre)%nat with (S (length a - (length pre + 1))) by lia. cbn [Rpow_def.pow]. ring.
  - cbn [app fst snd] in *. rewrite Hr, bind_ok. exists r. split; [done|]. split; [done|]. rewrite !evaluate_poly, Hp. replace (length a - length a)%nat with 0%nat by lia. cbn [Rpow_def.pow]. ring.
Qed.
