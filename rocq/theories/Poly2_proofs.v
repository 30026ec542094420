From Coq Require Import Reals Lra.
From Verif Require Import Base Poly_model Poly_spec Poly_proofs.
Local Open Scope R_scope.

(** ** The companion matrix *)
Lemma poly_rsum l x : poly l x = rsum (length l) (fun i => nth (length l - 1 - i) l 0 * x ^ i).
Proof.
  induction l as [|c l IH]; [done|]. cbn [poly length rsum]. rewrite IH. replace (S (length l) - 1 - length l)%nat with O by lia. cbn [nth].
  rewrite (rsum_ext _ (fun i => nth (S (length l) - 1 - i) (c :: l) 0 * x ^ i) (fun i => nth (length l - 1 - i) l 0 * x ^ i)); [lra|].
  intros k Hk. replace (S (length l) - 1 - k)%nat with (S (length l - 1 - k)) by lia. done.
Qed.
Section companion.
  Context (c : list R) (N : nat) (Hlen : length c = S N) (HN : (1 <= N)%nat) (H0 : nth 0 c 0 <> 0).
  Lemma comp_last i : (i < N)%nat -> companion c i (N - 1) = - nth (N - i) c 0 / nth 0 c 0.
  Proof.
    intros Hi. unfold companion. rewrite Hlen. replace (S N - 1)%nat with N by lia. rewrite Nat.eqb_refl. destruct i as [|i]; [by rewrite Nat.sub_0_r|].
    by replace (N - 1 - i)%nat with (N - S i)%nat by lia.
  Qed.
  Lemma comp_col (v : nat -> R) j : (S j < N)%nat -> rsum N (fun i => v i * companion c i j) = v (S j).
  Proof.
    intros Hj. assert (Hc : forall i, companion c i j = match i with O => 0 | S i => if (i =? j)%nat then 1 else 0 end).
    { intros i. unfold companion. rewrite Hlen. destruct (Nat.eqb_spec j (S N - 1 - 1)); [lia|done]. }
    rewrite (rsum_one N _ (S j) Hj); [rewrite Hc, Nat.eqb_refl; lra|]. intros [|k] Hk Hne; rewrite Hc; [lra|]. destruct (Nat.eqb_spec k j); [congruence|lra].
  Qed.
  Lemma comp_root r : evaluate c r = 0 <->
    exists v, (exists i, (i < N)%nat /\ v i <> 0) /\ forall j, (j < N)%nat -> rsum N (fun i => v i * companion c i j) = r * v j.
  Proof.
    assert (Hp : poly c r = rsum N (fun i => nth (N - i) c 0 * r ^ i) + nth 0 c 0 * r ^ N).
    { rewrite poly_rsum, Hlen. cbn [rsum]. replace (S N - 1 - N)%nat with O by lia. f_equal. apply rsum_ext. intros k Hk. by replace (S N - 1 - k)%nat with (N - k)%nat by lia. }
    assert (Hl : forall v0 : R, rsum N (fun i => v0 * r ^ i * companion c i (N - 1)) = - v0 / nth 0 c 0 * rsum N (fun i => nth (N - i) c 0 * r ^ i)).
    { intros v0. rewrite <- rsum_scal. apply rsum_ext. intros k Hk. rewrite comp_last by lia. field. exact H0. }
    assert (Hr : r * r ^ (N - 1) = r ^ N). { replace N with (S (N - 1)) at 2 by lia. done. }
    rewrite evaluate_poly, Hp. split.
    - intros Hz. exists (fun i => 1 * r ^ i). split; [exists O; split; [lia|cbn; lra]|]. intros j Hj. destruct (decide (j = (N - 1)%nat)) as [->|Hne].
      + rewrite Hl, Rmult_1_l, Hr. apply (Rmult_eq_reg_l (nth 0 c 0)); [|exact H0]. field_simplify; [|exact H0]. lra.
      + rewrite (comp_col (fun i => 1 * r ^ i)) by lia. cbn. lra.
    - intros (v & (i0 & Hi0 & Hv) & Heq). assert (Hpow : forall j, (j < N)%nat -> v j = v O * r ^ j).
      { induction j as [|j IH]; intros Hj; [cbn; lra|]. rewrite <- (comp_col v j Hj), Heq by lia. rewrite IH by lia. cbn. lra. }
      assert (Hv0 : v O <> 0) by (intros Hz; apply Hv; rewrite Hpow, Hz by lia; lra).
      pose proof (Heq (N - 1)%nat ltac:(lia)) as Hlast. rewrite (rsum_ext _ _ (fun i => v O * r ^ i * companion c i (N - 1))) in Hlast by (intros k Hk; by rewrite (Hpow k Hk)).
      rewrite Hl, (Hpow (N - 1)%nat) in Hlast by lia. replace (r * (v O * r ^ (N - 1))) with (v O * r ^ N) in Hlast by (rewrite <- Hr; ring).
      apply (Rmult_eq_reg_l (- v O / nth 0 c 0)).
      + rewrite Rmult_plus_distr_l, Hlast. field. exact H0.
      + unfold Rdiv. apply Rmult_integral_contrapositive_currified; [lra|by apply Rinv_neq_0_compat].
  Qed.
End companion.

(** ** Lagrange interpolation *)
Lemma nth_insert (l : list R) k v j : (k < length l)%nat -> nth j (<[k := v]> l) 0 = if decide (j = k) then v else nth j l 0.
Proof.
  intros Hk. rewrite !nth_lookup. destruct (decide (j = k)) as [->|Hne].
  - by rewrite list_lookup_insert.
  - by rewrite list_lookup_insert_ne.
Qed.
Lemma mul_root_ok j r l : (j + 1 < length l)%nat ->
  exists l', mul_root j r l = Ok l' /\ length l' = length l /\
    forall k, nth k l' 0 = if decide (1 <= k <= j + 1)%nat then nth k l 0 - nth (k - 1) l 0 * r else nth k l 0.
Proof.
  intros Hj. unfold mul_root.
  destruct (for_each_inv (fun k l => a ← rd l k; b ← rd l (k - 1)%nat; wr l k (a - b * r))
    (fun pre l' => length l' = length l /\ forall k, nth k l' 0 = if decide (j + 1 - length pre < k <= j + 1)%nat then nth k l 0 - nth (k - 1) l 0 * r else nth k l 0)
    (rev (seq 1 (j + 1))) [] l) as (l' & Hl' & Hlen & Hn).
  - split; [done|]. intros k. cbn [length]. destruct (decide _); [lia|done].
  - intros pre k l' (post & Heq) (Hlen & Hn). cbn [app] in Heq.
    assert (Hk : k = (j + 1 - length pre)%nat /\ (length pre < j + 1)%nat).
    { assert (Hl : rev (seq 1 (j + 1)) !! length pre = Some k) by (rewrite Heq; by apply list_lookup_middle).
      rewrite rev_alt in Hl. change (rev_append (seq 1 (j + 1)) []) with (reverse (seq 1 (j + 1))) in Hl.
      pose proof Hl as Hlt. apply lookup_lt_Some in Hlt. rewrite reverse_length, seq_length in Hlt.
      rewrite reverse_lookup in Hl by (rewrite seq_length; lia). rewrite seq_length in Hl. apply lookup_seq in Hl. lia. }
    destruct Hk as [-> Hp]. rewrite !rd_nth by lia. rewrite !bind_ok, wr_ok by lia. eexists. split; [done|]. rewrite insert_length. split; [done|].
    intros k. rewrite nth_insert by lia. rewrite !app_length. cbn [length]. destruct (decide (k = (j + 1 - length pre)%nat)) as [->|Hne].
    + rewrite !Hn. destruct (decide _); [lia|]. destruct (decide _); [lia|]. destruct (decide _); [done|lia].
    + rewrite Hn. destruct (decide _), (decide _); try lia; done.
  - cbn [app] in *. exists l'. split; [done|]. split; [done|]. intros k. rewrite Hn, rev_length, seq_length. destruct (decide _), (decide _); try lia; done.
Qed.
Fixpoint rprod (l : list R) (t : R) : R := match l with [] => 1 | r :: l => (t - r) * rprod l t end.
Lemma rprod_app l1 l2 t : rprod (l1 ++ l2) t = rprod l1 t * rprod l2 t.
Proof. induction l1 as [|a l IH]; cbn; [lra|]. rewrite IH. lra. Qed.
Lemma hor_mul_root m f g r t : (1 <= m)%nat -> g O = f O -> (forall k, (1 <= k <= m)%nat -> g k = f k - f (k - 1)%nat * r) -> hor (S m) g t = t * hor m f t + f m - r * hor m f t.
Proof.
  intros Hm H0 H. induction m as [|m IH]; [lia|]. destruct m as [|m].
  - cbn. rewrite H0, (H 1%nat) by lia. cbn. lra.
  - change (hor (S (S (S m))) g t) with (t * hor (S (S m)) g t + g (S (S m))). rewrite IH by (try intros; try apply H; lia). rewrite (H (S (S m))) by lia.
    replace (S (S m) - 1)%nat with (S m) by lia. change (hor (S (S m)) f t) with (t * hor (S m) f t + f (S m)). ring.
Qed.
Lemma root_poly_ok n roots : (1 <= n)%nat -> length roots = (n - 1)%nat -> exists l, root_poly n roots = Ok l /\ length l = n /\ forall t, evaluate l t = rprod roots t.
Proof.
  intros Hn Hlr. unfold root_poly. rewrite wr_ok by (rewrite repeat_length; lia). rewrite bind_ok.
  destruct (for_each_inv (fun j l => r ← rd roots j; mul_root j r l)
    (fun pre l => length l = n /\ (forall k, (length pre < k)%nat -> nth k l 0 = 0) /\ forall t, hor (S (length pre)) (fun k => nth k l 0) t = rprod (take (length pre) roots) t)
    (seq 0 (n - 1)) [] (<[0%nat := 1]> (repeat 0 n))) as (l & Hl & Hlen & _ & Ht).
  - rewrite insert_length, repeat_length. split; [done|]. split.
    + intros k Hk. cbn in Hk. rewrite nth_insert by (rewrite repeat_length; lia). destruct (decide _); [lia|]. clear. revert k. induction n as [|n IH]; intros [|k]; cbn; auto.
    + intros t. cbn [length hor firstn rprod]. rewrite nth_insert by (rewrite repeat_length; lia). destruct (decide _); [change (take 0 roots) with (@nil R); cbn; lra|done].
  - intros pre j l (post & Heq) (Hlen & Hz & Ht). cbn [app] in Heq.
    assert (Hj : j = length pre /\ (j < n - 1)%nat). { assert (Hl : seq 0 (n - 1) !! length pre = Some j) by (rewrite Heq; by apply list_lookup_middle). apply lookup_seq in Hl. lia. }
    destruct Hj as [-> Hjn]. set (j := length pre) in *. rewrite rd_nth by lia. rewrite bind_ok. destruct (mul_root_ok j (nth j roots 0) l ltac:(lia)) as (l' & -> & Hl' & Hk). exists l'. split; [done|].
    rewrite app_length. cbn [length]. fold j. split; [lia|]. split.
    + intros k Hk'. rewrite Hk. destruct (decide _); [lia|]. apply Hz. lia.
    + intros t. replace (S (j + 1)) with (S (S j)) by lia. rewrite (hor_mul_root (S j) (fun k => nth k l 0) _ (nth j roots 0)); [|lia| |].
      * rewrite Ht. rewrite (Hz (S j)) by lia. replace (j + 1)%nat with (S j) by lia. rewrite (take_S_r _ j (nth j roots 0)).
        -- rewrite rprod_app. cbn. lra.
        -- destruct (lookup_lt_is_Some_2 roots j) as [a Ha]; [lia|]. rewrite Ha. f_equal. symmetry. by apply nth_lookup_Some.
      * rewrite Hk. destruct (decide _); [lia|done].
      * intros k Hk'. rewrite Hk. destruct (decide _); [done|lia].
  - cbn [app] in *. exists l. split; [done|]. split; [done|]. intros t. rewrite seq_length in Ht. rewrite evaluate_hor, Hlen. replace n with (S (n - 1)) at 1 by lia. rewrite Ht, take_ge by lia. done.
Qed.
Lemma rprod_zero l t : t ∈ l -> rprod l t = 0.
Proof. induction 1; cbn; [lra|]. rewrite IHelem_of_list. lra. Qed.
Lemma rprod_nonzero l t : t ∉ l -> rprod l t <> 0.
Proof. induction l as [|a l IH]; intros H; cbn; [lra|]. apply not_elem_of_cons in H as [Ha Hl]. apply Rmult_integral_contrapositive_currified; [|auto]. intros Hz. apply Ha. lra. Qed.
Lemma evaluate_add l1 l2 s t : length l1 = length l2 -> evaluate (zip_with (fun g l => g + s * l) l1 l2) t = evaluate l1 t + s * evaluate l2 t.
Proof.
  rewrite !evaluate_poly. revert l2. induction l1 as [|a l1 IH]; intros [|b l2] H; cbn in H; try done; cbn [zip_with poly]; [lra|]. rewrite IH by lia. rewrite zip_with_length. replace (length l1 `min` length l2)%nat with (length l1) by lia.
  replace (length l2) with (length l1) by lia. lra.
Qed.
Lemma lagrange_ok x y : length x = length y -> (1 < length x)%nat -> NoDup x ->
  exists l, lagrangeInterp x y = Ok l /\ length l = length x /\ forall i, (i < length x)%nat -> evaluate l (nth i x 0) = nth i y 0.
Proof.
  intros Hxy HN Hnd. unfold lagrangeInterp. set (N := length x) in *.
  assert (Hx : forall i, (i < N)%nat -> x !! i = Some (nth i x 0)). { intros i Hi. destruct (lookup_lt_is_Some_2 x i Hi) as [a Ha]. rewrite Ha. f_equal. symmetry. by apply nth_lookup_Some. }
  set (f := fun i lag => _).
  destruct (for_each_inv f (fun pre lag => length lag = N /\ forall k, (k < N)%nat -> evaluate lag (nth k x 0) = if decide (k < length pre)%nat then nth k y 0 else 0) (seq 0 N) [] (repeat 0 N)) as (l & Hl & Hlen & Hk).
  - split; [apply repeat_length|]. intros k Hk. cbn. destruct (decide _); [lia|]. rewrite evaluate_poly. clear. induction N as [|m IH]; [done|]. cbn. rewrite IH. lra.
  - intros pre i lag (post & Heq) (Hlag & Hk). cbn [app] in Heq.
    assert (Hi : i = length pre /\ (i < N)%nat). { assert (Hl : seq 0 N !! length pre = Some i) by (rewrite Heq; by apply list_lookup_middle). apply lookup_seq in Hl. lia. }
    destruct Hi as [-> Hi]. set (i := length pre) in *. unfold f. cbv zeta.
    assert (Hroots : length (take i x ++ drop (i + 1) x) = (N - 1)%nat) by (rewrite app_length, take_length, drop_length; fold N; lia).
    destruct (root_poly_ok N (take i x ++ drop (i + 1) x)) as (l & -> & Hll & Hev); [lia|done|]. rewrite bind_ok, !rd_nth by (fold N; lia). rewrite !bind_ok. eexists. split; [done|].
    rewrite zip_with_length. split; [lia|]. intros k Hkn. rewrite evaluate_add by lia. rewrite Hk by lia. rewrite !Hev. rewrite app_length. cbn [length]. fold i.
    destruct (decide (k = i)) as [->|Hne].
    + destruct (decide (i < i)%nat); [lia|]. destruct (decide (i < i + 1)%nat); [|lia]. field. apply rprod_nonzero. intros Hin. apply elem_of_app in Hin as [Hin|Hin]; apply elem_of_list_lookup in Hin as [p Hp].
      * pose proof Hp as Hp'. apply lookup_lt_Some in Hp'. rewrite take_length in Hp'. rewrite lookup_take in Hp by lia. pose proof (NoDup_lookup x p i _ Hnd Hp (Hx i Hi)). lia.
      * rewrite lookup_drop in Hp. pose proof (NoDup_lookup x _ i _ Hnd Hp (Hx i Hi)). lia.
    + rewrite (rprod_zero _ (nth k x 0)).
      * destruct (decide (k < i)%nat), (decide (k < i + 1)%nat); try lia; lra.
      * apply elem_of_app. destruct (decide (k < i)%nat) as [Hlt|Hge]; [left|right].
        -- apply elem_of_list_lookup. exists k. rewrite lookup_take by lia. by apply Hx.
        -- apply elem_of_list_lookup. exists (k - (i + 1))%nat. rewrite lookup_drop. replace (i + 1 + (k - (i + 1)))%nat with k by lia. by apply Hx.
  - cbn [app] in *. exists l. split; [done|]. split; [done|]. intros i Hi. rewrite Hk by lia. rewrite seq_length. destruct (decide _); [done|lia].
Qed.
