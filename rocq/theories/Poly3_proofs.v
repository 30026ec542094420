From Coq Require Import Reals Lra.
From Verif Require Import Base Poly_model Poly_spec Poly_proofs Poly2_proofs.
Local Open Scope R_scope.

(** ** Legendre polynomials *)
Lemma legendre_0 x : legendre 0 x = 1.
Proof. done. Qed.
Lemma legendre_1 x : legendre 1 x = x.
Proof. done. Qed.
Lemma legendre_SS n x : legendre (S (S n)) x = ((2 * INR n + 3) * x * legendre (S n) x - (INR n + 1) * legendre n x) / (INR n + 2).
Proof. unfold legendre. cbn [legendre_pair]. destruct (legendre_pair n x) as [p p1]. done. Qed.
Lemma legendre_at_1 n : legendre n 1 = 1.
Proof.
  cut (legendre n 1 = 1 /\ legendre (S n) 1 = 1); [by intros [? _]|]. induction n as [|n [IH1 IH2]]; [split; [apply legendre_0|apply legendre_1]|]. split; [done|].
  rewrite legendre_SS, IH1, IH2. pose proof (pos_INR n). field. lra.
Qed.
Lemma nth_drop (l : list R) n k : nth k (drop n l) 0 = nth (n + k) l 0.
Proof. by rewrite !nth_lookup, lookup_drop. Qed.
Lemma nth_take_lt (l : list R) n k : (k < n)%nat -> nth k (take n l) 0 = nth k l 0.
Proof. intros H. by rewrite !nth_lookup, lookup_take. Qed.
Lemma copy_from_length i (s d : list R) : length s = length d -> length (copy_from i s d) = length d.
Proof. intros H. unfold copy_from. rewrite app_length, take_length, drop_length. lia. Qed.
Lemma copy_from_nth i (s d : list R) k : length s = length d -> (i <= length d)%nat -> nth k (copy_from i s d) 0 = if decide (k < i)%nat then nth k d 0 else nth k s 0.
Proof.
  intros H Hi. unfold copy_from. destruct (decide (k < i)%nat) as [Hk|Hk].
  - rewrite app_nth1 by (rewrite take_length; lia). by apply nth_take_lt.
  - rewrite app_nth2 by (rewrite take_length; lia). rewrite nth_drop, take_length. f_equal. lia.
Qed.
Lemma nth_zip_with (f : R -> R -> R) l1 l2 k : (k < length l1)%nat -> (k < length l2)%nat -> nth k (zip_with f l1 l2) 0 = f (nth k l1 0) (nth k l2 0).
Proof. revert l2 k. induction l1 as [|a l1 IH]; intros [|b l2] [|k] H1 H2; cbn in *; try lia; [done|]. apply IH; lia. Qed.
Lemma leg_step_ok N i n1 n2 cs : (3 <= i <= N)%nat -> length n1 = S N -> length n2 = S N -> length cs = S N ->
  (forall p, (p < N - i + 1)%nat -> nth p cs 0 = 0) -> (forall p, (p < N - i + 2)%nat -> nth p n1 0 = 0) ->
  exists n2' cs', leg_step N i (n1, n2, cs) = Ok (copy_from (N - i) cs n1, n2', cs') /\ length n2' = S N /\ length cs' = S N /\
    forall p, (p <= N)%nat -> nth p cs' 0 = leg_a i * nth (S p) cs 0 + - leg_c i * nth p n1 0.
Proof.
  intros Hi H1 H2 H3 Hc Hn. unfold leg_step. set (ix := (N - i)%nat). set (n2' := copy_from ix n1 n2). set (n1' := copy_from ix cs n1).
  assert (L1 : length n1' = S N) by (unfold n1'; rewrite copy_from_length; lia). assert (L2 : length n2' = S N) by (unfold n2'; rewrite copy_from_length; lia).
  set (tr := zip_with _ _ _). assert (Ltr : length tr = i). { unfold tr. rewrite zip_with_length, !drop_length, L1, L2. unfold ix. lia. }
  set (c0 := take ix cs ++ tr ++ drop (ix + length tr) cs). assert (Lc : length c0 = S N). { unfold c0. rewrite !app_length, take_length, drop_length, Ltr. unfold ix. lia. }
  rewrite rd_nth by lia. rewrite bind_ok, wr_ok by lia. rewrite bind_ok. eexists n2', _. split; [done|]. split; [done|]. rewrite insert_length. split; [done|].
  intros p Hp. rewrite nth_insert by lia. rewrite L2, Lc. replace (S N - 1)%nat with N by lia. destruct (decide (p = N)) as [->|Hne].
  - rewrite (nth_overflow cs) by lia. unfold n2'. rewrite copy_from_nth by (unfold ix; lia). destruct (decide _) as [Hlt|_]; [unfold ix in Hlt; lia|]. lra.
  - unfold c0. destruct (decide (p < ix)%nat) as [Hlt|Hge].
    + rewrite app_nth1 by (rewrite take_length; lia). rewrite nth_take_lt by lia. rewrite !Hc by (unfold ix in Hlt; lia). rewrite Hn by (unfold ix in Hlt; lia). lra.
    + rewrite app_nth2 by (rewrite take_length; lia). rewrite take_length. replace (ix `min` length cs)%nat with ix by (unfold ix; lia).
      rewrite app_nth1 by (rewrite Ltr; unfold ix; lia). unfold tr. rewrite nth_zip_with by (rewrite drop_length; unfold ix in *; lia). rewrite !nth_drop.
      replace (ix + 1 + (p - ix))%nat with (S p) by lia. replace (ix + (p - ix))%nat with p by lia. unfold n1', n2'. rewrite !copy_from_nth by (unfold ix; lia).
      destruct (decide _); [lia|]. destruct (decide _); [lia|]. lra.
Qed.
Lemma hor_shift N f t : f O = 0 -> f (S N) = 0 -> hor (S N) (fun k => f (S k)) t = t * hor (S N) f t.
Proof. intros H0 H1. pose proof (hor_S (S N) f t) as Hs. change (hor (S (S N)) f t) with (t * hor (S N) f t + f (S N)) in Hs. rewrite H0, H1 in Hs. lra. Qed.
Lemma evaluate_copy i (s d : list R) t : length s = length d -> (i <= length d)%nat -> (forall p, (p < i)%nat -> nth p s 0 = 0 /\ nth p d 0 = 0) -> evaluate (copy_from i s d) t = evaluate s t.
Proof.
  intros Hl Hi Hz. rewrite !evaluate_hor, copy_from_length by done. rewrite Hl. apply hor_ext. intros k Hk. rewrite copy_from_nth by done. destruct (decide _); [|done]. destruct (Hz k); [done|]. congruence.
Qed.
Lemma nth_repeat0 m k : nth k (repeat 0 m) 0 = 0.
Proof. revert k. induction m as [|m IH]; intros [|k]; cbn; auto. Qed.
Lemma evaluate_insert l k v x : (k < length l)%nat -> evaluate (<[k := v]> l) x = evaluate l x + (v - nth k l 0) * x ^ (length l - 1 - k).
Proof. rewrite !evaluate_poly. apply poly_insert. Qed.
Lemma evaluate_zeros m x : evaluate (repeat 0 m) x = 0.
Proof. rewrite evaluate_poly. induction m as [|m IH]; [done|]. cbn. rewrite IH. lra. Qed.
Lemma legendre_ok N : exists l, getLegendrePolynomial N = Ok l /\ length l = S N /\ forall x, evaluate l x = legendre N x.
Proof.
  destruct N as [|[|N']]; [| |set (N := S (S N'))].
  - cbn. eexists. split; [done|]. split; [done|]. intros x. cbn. lra.
  - cbn. eexists. split; [done|]. split; [done|]. intros x. cbn. lra.
  - assert (HN : (2 <= N)%nat) by (unfold N; lia). unfold getLegendrePolynomial. fold N. cbv zeta. unfold N at 1. cbv iota beta.
    rewrite (wr_ok (repeat 0 (N + 1)) (N - 1)) by (rewrite repeat_length; lia). rewrite bind_ok, wr_ok by (rewrite repeat_length; lia). rewrite bind_ok, wr_ok by (rewrite insert_length, repeat_length; lia). rewrite bind_ok.
    set (n1 := <[(N - 1)%nat := 1]> (repeat 0 (N + 1))). set (cs := <[(N - 2)%nat := 3 / 2]> (<[N := - (1 / 2)]> (repeat 0 (N + 1)))).
    assert (Ln1 : length n1 = S N) by (unfold n1; rewrite insert_length, repeat_length; lia).
    assert (Lcs : length cs = S N) by (unfold cs; rewrite !insert_length, repeat_length; lia).
    assert (En1 : forall x, evaluate n1 x = legendre 1 x).
    { intros x. unfold n1. rewrite evaluate_insert by (rewrite repeat_length; lia). rewrite evaluate_zeros, nth_repeat0, repeat_length, legendre_1. replace (N + 1 - 1 - (N - 1))%nat with 1%nat by lia. cbn. lra. }
    assert (Ecs : forall x, evaluate cs x = legendre 2 x).
    { intros x. unfold cs. rewrite evaluate_insert by (rewrite insert_length, repeat_length; lia). rewrite nth_insert by (rewrite repeat_length; lia). destruct (decide _); [lia|].
      rewrite evaluate_insert by (rewrite repeat_length; lia). rewrite evaluate_zeros, !nth_repeat0, insert_length, repeat_length. replace (N + 1 - 1 - (N - 2))%nat with 2%nat by lia. replace (N + 1 - 1 - N)%nat with O by lia.
      rewrite legendre_SS, legendre_0, legendre_1. cbn. lra. }
    destruct (for_each_inv (leg_step N) (fun pre st => let i := (2 + length pre)%nat in
       length st.1.1 = S N /\ length st.1.2 = S N /\ length st.2 = S N /\
       (forall p, (p < N - i)%nat -> nth p st.2 0 = 0) /\ (forall p, (p < N - i + 1)%nat -> nth p st.1.1 0 = 0) /\
       (forall x, evaluate st.2 x = legendre i x) /\ forall x, evaluate st.1.1 x = legendre (i - 1) x)
      (seq 3 (N - 2)) [] (n1, repeat 0 (N + 1), cs)) as ([[a b] l] & Hr & _ & _ & Hll & _ & _ & Hev & _).
    + cbn [length fst snd]. split; [done|]. split; [rewrite repeat_length; lia|]. split; [done|]. split; [|split; [|done]].
      * intros p Hp. unfold cs. rewrite !nth_insert by (rewrite ?insert_length, repeat_length; lia). destruct (decide _); [lia|]. destruct (decide _); [lia|]. apply nth_repeat0.
      * intros p Hp. unfold n1. rewrite nth_insert by (rewrite repeat_length; lia). destruct (decide _); [lia|]. apply nth_repeat0.
    + intros pre i [[a b] l] (post & Heq) H. cbn [app fst snd] in *. destruct H as (La & Lb & Ll & Zl & Za & El & Ea).
      assert (Hi : i = (3 + length pre)%nat /\ (i <= N)%nat). { assert (Hl : seq 3 (N - 2) !! length pre = Some i) by (rewrite Heq; by apply list_lookup_middle). apply lookup_seq in Hl. lia. }
      destruct Hi as [Hi HiN]. destruct (leg_step_ok N i a b l) as (n2' & cs' & Hs & L2' & Lc' & Hn); [lia|done|done|done|intros p Hp; apply Zl; lia|intros p Hp; apply Za; lia|].
      eexists. split; [exact Hs|]. cbn [fst snd]. rewrite app_length. cbn [length]. split; [rewrite copy_from_length; lia|]. split; [done|]. split; [done|].
      split; [|split; [|split]].
      * intros p Hp. rewrite Hn by lia. rewrite (Zl (S p)) by lia. rewrite (Za p) by lia. lra.
      * intros p Hp. rewrite copy_from_nth by lia. destruct (decide _); [apply Za|apply Zl]; lia.
      * intros x. rewrite evaluate_hor, Lc'. rewrite (hor_ext _ _ (fun p => leg_a i * nth (S p) l 0 + - leg_c i * nth p a 0)) by (intros k Hk; apply Hn; lia).
        rewrite hor_lin. rewrite (hor_shift N (fun k => nth k l 0)); [|apply Zl; lia|apply nth_overflow; lia].
        rewrite <- Ll at 1. rewrite <- evaluate_hor. rewrite <- La. rewrite <- evaluate_hor. rewrite El, Ea.
        replace (2 + (length pre + 1))%nat with (S (S (S (length pre)))) by lia. rewrite (legendre_SS (S (length pre))). replace (2 + length pre)%nat with (S (S (length pre))) by lia.
        replace (S (S (length pre)) - 1)%nat with (S (length pre)) by lia. unfold leg_a, leg_c.
        assert (E1 : INR i = INR (S (length pre)) + 2). { rewrite Hi. change (3 + length pre)%nat with (S (S (S (length pre)))). rewrite !S_INR. lra. }
        assert (E2 : INR (2 * i - 1) = 2 * INR (S (length pre)) + 3). { rewrite Hi. replace (2 * (3 + length pre) - 1)%nat with (2 * (S (length pre)) + 3)%nat by lia. rewrite plus_INR, mult_INR. cbn [INR]. lra. }
        assert (E3 : INR (i - 1) = INR (S (length pre)) + 1). { rewrite Hi. replace (3 + length pre - 1)%nat with (S (length pre) + 1)%nat by lia. rewrite plus_INR. cbn [INR]. lra. }
        rewrite E1, E2, E3. pose proof (pos_INR (S (length pre))). field. lra.
      * intros x. rewrite evaluate_copy; [|lia|lia|]. { rewrite El. f_equal. lia. } intros p Hp. split; [apply Zl|apply Za]; lia.
    + cbn [app fst snd] in *. rewrite Hr, bind_ok. exists l. split; [done|]. split; [done|]. intros x. rewrite Hev, seq_length. f_equal. lia.
Qed.

(** ** Grids *)
Lemma nth_map_seq (f : nat -> R) n k : (k < n)%nat -> nth k (map f (seq 0 n)) 0 = f k.
Proof. intros H. apply nth_lookup_Some. change (map f (seq 0 n)) with (f <$> seq 0 n). rewrite list_lookup_fmap, lookup_seq_lt by done. done. Qed.
Lemma linspace_ok lo hi N : (2 <= N)%nat -> exists l, linspace lo hi N = Ok l /\ l = linspaceArray N lo hi /\ length l = N /\ nth 0 l 0 = lo /\ nth (N - 1) l 0 = hi /\
  forall i, (S i < N)%nat -> nth (S i) l 0 - nth i l 0 = (hi - lo) / INR (N - 1).
Proof.
  intros HN. unfold linspace. destruct (Nat.leb_spec 2 N); [|lia]. change (throwing_assert true) with (Ok tt). rewrite bind_ok. eexists. split; [done|]. split; [done|].
  assert (Hd : INR (N - 1) <> 0) by (apply not_0_INR; lia). unfold linspaceArray.
  split; [by rewrite map_length, seq_length|]. split; [rewrite nth_map_seq by lia; cbn; lra|]. split; [rewrite nth_map_seq by lia; field; exact Hd|].
  intros i Hi. rewrite !nth_map_seq by lia. rewrite S_INR. ring.
Qed.
Lemma geomspace_ok lo hi N : (2 <= N)%nat -> 0 < lo -> 0 < hi -> exists l q, geomspace lo hi N = Ok l /\ 0 < q /\ (lo < hi -> 1 < q) /\ (hi < lo -> q < 1) /\ length l = N /\ nth 0 l 0 = lo /\ nth (N - 1) l 0 = hi /\
  (forall i, (i < N)%nat -> 0 < nth i l 0) /\ forall i, (S i < N)%nat -> nth (S i) l 0 = q * nth i l 0.
Proof.
  intros HN Hlo Hhi. unfold geomspace. destruct (Nat.leb_spec 2 N); [|lia]. change (throwing_assert true) with (Ok tt). rewrite bind_ok. set (q := Rpower (hi / lo) (1 / INR (N - 1))).
  assert (Hd : 0 < INR (N - 1)) by (apply lt_0_INR; lia). assert (Hr : 0 < hi / lo) by (by apply Rdiv_lt_0_compat). assert (Hq : 0 < q) by (unfold q, Rpower; apply exp_pos).
  assert (Hqn : Rpower q (INR (N - 1)) = hi / lo). { unfold q. rewrite Rpower_mult. replace (1 / INR (N - 1) * INR (N - 1)) with 1 by (field; lra). by apply Rpower_1. }
  eexists _, q. split; [done|]. split; [done|]. split; [|split].
  - intros Hlt. pose proof (Rpower_lt (hi / lo) 0 (1 / INR (N - 1))) as Hl. rewrite Rpower_O in Hl by done. apply Hl; [|apply Rdiv_lt_0_compat; lra]. apply (Rmult_lt_reg_r lo); [done|]. unfold Rdiv. rewrite Rmult_assoc, Rinv_l; lra.
  - intros Hlt. destruct (Rlt_or_le q 1) as [|Hge]; [done|]. exfalso.
    assert (Hp : 1 <= Rpower q (INR (N - 1))). { rewrite Rpower_pow by done. apply pow_R1_Rle. lra. }
    rewrite Hqn in Hp. apply (Rmult_le_compat_r lo) in Hp; [|lra]. unfold Rdiv in Hp. rewrite Rmult_assoc, Rinv_l in Hp by lra. lra.
  - split; [by rewrite map_length, seq_length|]. split; [rewrite nth_map_seq by lia; cbn [INR]; rewrite Rpower_O by done; lra|].
    split; [rewrite nth_map_seq by lia; rewrite Hqn; field; lra|]. split.
    + intros i Hi. rewrite nth_map_seq by lia. apply Rmult_lt_0_compat; [done|]. unfold Rpower. apply exp_pos.
    + intros i Hi. rewrite !nth_map_seq by lia. rewrite !Rpower_pow by done. cbn. ring.
Qed.
Lemma scan_R_length acc l : length (scan_R acc l) = length l.
Proof. revert acc. induction l as [|a l IH]; intros acc; cbn; [done|]. by rewrite IH. Qed.
Lemma scan_R_nth l : forall acc k, (k < length l)%nat -> nth k (scan_R acc l) 0 = acc + rsum (S k) (fun i => nth i l 0).
Proof.
  induction l as [|a l IH]; intros acc k Hk; [cbn in Hk; lia|]. destruct k as [|k]; cbn [scan_R nth]; [cbn; lra|]. rewrite IH by (cbn in Hk; lia). rewrite (rsum_S (S k)). cbn [nth]. lra.
Qed.
Lemma rsum_pos n f : (1 <= n)%nat -> (forall k, (k < n)%nat -> 0 < f k) -> 0 < rsum n f.
Proof.
  intros Hn H. induction n as [|n IH]; [lia|]. cbn. destruct n as [|n]; [cbn; specialize (H O ltac:(lia)); lra|].
  pose proof (IH ltac:(lia) ltac:(intros; apply H; lia)). pose proof (H (S n) ltac:(lia)). lra.
Qed.
Lemma prog_ok lo hi N q : (2 <= N)%nat -> 0 < q -> exists l d, geomSpaceProg lo hi N q = Ok l /\ length l = N /\ nth 0 l 0 = lo /\ nth (N - 1) l 0 = hi /\
  (lo < hi -> 0 < d) /\ forall i, (S i < N)%nat -> nth (S i) l 0 - nth i l 0 = d * q ^ i.
Proof.
  intros HN Hq. unfold geomSpaceProg. destruct (Nat.leb_spec 2 N); [|lia]. change (throwing_assert true) with (Ok tt). rewrite bind_ok. destruct (Rlt_dec 0 q); [|done]. change (throwing_assert true) with (Ok tt). rewrite bind_ok.
  set (ls := map (fun i => q ^ i) (seq 0 (N - 1))). assert (Lls : length ls = (N - 1)%nat) by (unfold ls; by rewrite map_length, seq_length).
  rewrite rd_nth by (cbn [length]; rewrite scan_R_length, Lls; lia). rewrite bind_ok.
  assert (Hs : forall k, (k < N - 1)%nat -> nth k (scan_R 0 ls) 0 = rsum (S k) (fun i => q ^ i)).
  { intros k Hk. rewrite scan_R_nth by lia. rewrite Rplus_0_l. apply rsum_ext. intros i Hi. unfold ls. apply (nth_map_seq (fun i => q ^ i)). lia. }
  set (T := rsum (N - 1) (fun i => q ^ i)). assert (HT : 0 < T) by (apply rsum_pos; [lia|intros; by apply pow_lt]).
  assert (Hback : nth (N - 1) (lo :: scan_R 0 ls) 0 = T). { replace (N - 1)%nat with (S (N - 2)) by lia. cbn [nth]. rewrite Hs by lia. unfold T. f_equal. lia. }
  rewrite Hback. set (mid := map _ _). assert (Lm : length mid = (N - 2)%nat). { unfold mid. rewrite map_length, take_length, drop_length. cbn [length]. rewrite scan_R_length. lia. }
  set (l := lo :: mid ++ [hi]). assert (Hl : forall i, (i < N)%nat -> nth i l 0 = lo + (hi - lo) / T * rsum i (fun i => q ^ i)).
  { intros [|i] Hi; [cbn; lra|]. unfold l. cbn [nth]. destruct (decide (i = (N - 2)%nat)) as [->|Hne].
    - rewrite app_nth2 by lia. rewrite Lm, Nat.sub_diag. cbn [nth]. replace (S (N - 2)) with (N - 1)%nat by lia. fold T. field. lra.
    - rewrite app_nth1 by lia. unfold mid. change (drop 1 (lo :: scan_R 0 ls)) with (scan_R 0 ls). apply nth_lookup_Some. change (map ?g ?a) with (g <$> a). rewrite list_lookup_fmap, lookup_take by lia.
      destruct (lookup_lt_is_Some_2 (scan_R 0 ls) i) as [a Ha]; [rewrite scan_R_length; lia|]. rewrite Ha. cbn [fmap option_fmap option_map]. f_equal.
      pose proof (nth_lookup_Some _ _ 0 _ Ha) as Hn. rewrite Hs in Hn by lia. rewrite <- Hn. lra. }
  exists l, ((hi - lo) / T). split; [done|]. split; [unfold l; cbn [length]; rewrite app_length, Lm; cbn; lia|]. split; [done|]. split; [|split].
  - rewrite Hl by lia. fold T. field. lra.
  - intros Hlt. apply Rdiv_lt_0_compat; lra.
  - intros i Hi. rewrite !Hl by lia. cbn [rsum]. lra.
Qed.

(** ** Right eigenvectors of the companion matrix *)
Section companion.
  Context (c : list R) (N : nat) (Hlen : length c = S N) (HN : (1 <= N)%nat) (H0 : nth 0 c 0 <> 0).
  Lemma comp_row (v : nat -> R) i : (i < N)%nat ->
    rsum N (fun j => companion c i j * v j) = (match i with O => 0 | S i => v i end) - nth (N - i) c 0 / nth 0 c 0 * v (N - 1)%nat.
  Proof.
    intros Hi. destruct N as [|n] eqn:En; [lia|]. cbn [rsum]. replace (S n - 1)%nat with n by lia.
    pose proof (comp_last c (S n) Hlen HN i Hi) as Hl. replace (S n - 1)%nat with n in Hl by lia. rewrite Hl.
    assert (Hc : forall j, (j < n)%nat -> companion c i j = match i with O => 0 | S i => if (i =? j)%nat then 1 else 0 end).
    { intros j Hj. unfold companion. rewrite Hlen. destruct (Nat.eqb_spec j (S (S n) - 1 - 1)); [lia|done]. }
    destruct i as [|i].
    - rewrite rsum_zero; [lra|]. intros k Hk. rewrite Hc by done. lra.
    - rewrite (rsum_one n _ i); [|lia|intros k Hk Hne; rewrite Hc by done; destruct (Nat.eqb_spec i k); [congruence|lra]]. rewrite Hc by lia. rewrite Nat.eqb_refl. lra.
  Qed.
  Lemma comp_right r : evaluate c r = 0 <->
    exists v, (exists i, (i < N)%nat /\ v i <> 0) /\ forall i, (i < N)%nat -> rsum N (fun j => companion c i j * v j) = r * v i.
  Proof.
    set (h k := hor k (fun k => nth k c 0) r). assert (Hh : forall k, h (S k) = r * h k + nth k c 0) by done.
    assert (He : evaluate c r = r * h N + nth N c 0) by (rewrite evaluate_hor, Hlen; done).
    assert (H1 : h 1%nat = nth 0 c 0) by (rewrite Hh; unfold h; cbn [hor]; lra). split.
    - intros Hz. exists (fun k => h (N - k)%nat / nth 0 c 0). split.
      + exists (N - 1)%nat. split; [lia|]. replace (N - (N - 1))%nat with 1%nat by lia. rewrite H1. unfold Rdiv. rewrite Rinv_r by done. lra.
      + intros i Hi. rewrite comp_row by done. replace (N - (N - 1))%nat with 1%nat by lia. rewrite H1. destruct i as [|i].
        * rewrite Nat.sub_0_r. apply (Rmult_eq_reg_r (nth 0 c 0)); [|done]. field_simplify; [|done|done]. lra.
        * replace (N - i)%nat with (S (N - S i)) by lia. rewrite Hh. field. done.
    - intros (v & (i & Hi & Hv) & Hrow). assert (Hval : forall k, (k < N)%nat -> v (N - 1 - k)%nat = v (N - 1)%nat * (h (S k) / nth 0 c 0)).
      { induction k as [|k IH]; intros Hk; [rewrite Nat.sub_0_r, H1; field; done|]. specialize (IH ltac:(lia)). specialize (Hrow (N - 1 - k)%nat ltac:(lia)). rewrite comp_row in Hrow by lia.
        replace (N - 1 - k)%nat with (S (N - 1 - S k)) in Hrow by lia. cbn iota in Hrow. replace (S (N - 1 - S k)) with (N - 1 - k)%nat in Hrow by lia. replace (N - (N - 1 - k))%nat with (S k) in Hrow by lia.
        rewrite IH in Hrow. rewrite (Hh (S k)). apply (Rplus_eq_reg_r (- (nth (S k) c 0 / nth 0 c 0 * v (N - 1)%nat))). unfold Rminus in Hrow. rewrite Hrow. field. done. }
      assert (Hw : v (N - 1)%nat <> 0). { intros Hz. apply Hv. replace i with (N - 1 - (N - 1 - i))%nat by lia. rewrite Hval by lia. rewrite Hz. lra. }
      specialize (Hrow O ltac:(lia)). rewrite comp_row in Hrow by lia. pose proof (Hval (N - 1)%nat ltac:(lia)) as Hv0. rewrite Nat.sub_diag in Hv0. replace (S (N - 1)) with N in Hv0 by lia.
      rewrite Hv0, Nat.sub_0_r in Hrow. rewrite He. apply (Rmult_eq_reg_l (v (N - 1)%nat / nth 0 c 0)).
      + rewrite Rmult_0_r. transitivity (r * (v (N - 1)%nat * (h N / nth 0 c 0)) + nth N c 0 / nth 0 c 0 * v (N - 1)%nat); [field; done|]. rewrite <- Hrow. lra.
      + unfold Rdiv. apply Rmult_integral_contrapositive_currified; [done|by apply Rinv_neq_0_compat].
  Qed.
End companion.
