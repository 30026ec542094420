From Verif Require Import Base Bitset_model Bitset_spec.
From Coq Require Import Lia.
Local Open Scope nat_scope.

(** ** One bit of a word vector *)
Definition bit (d : list N) (i : nat) : bool :=
  match d !! (i / 64) with
  | Some w => N.testbit w (N.of_nat (i mod 64))
  | None => false
  end.
Definition words_ok (d : list N) : Prop := Forall (fun w => (w < 2 ^ 64)%N) d.

Lemma div64 i : i = 64 * (i / 64) + i mod 64 /\ i mod 64 < 64.
Proof. split; [apply Nat.div_mod; lia|apply Nat.mod_upper_bound; lia]. Qed.
Lemma alloc_spec n : n <= 64 * computeAllocUls n < n + 64.
Proof.
  unfold computeAllocUls, ul_bits. pose proof (div64 n) as [D M].
  destruct (Nat.eqb_spec (n mod 64) 0); lia.
Qed.
Lemma bit_in_range (d : list N) n i : length d = computeAllocUls n -> i < n -> i / 64 < length d.
Proof.
  intros Hl Hi. pose proof (alloc_spec n). pose proof (div64 i). lia.
Qed.

Lemma testbit_mask b k : N.testbit (getMask b) (N.of_nat k) = (k =? b).
Proof.
  unfold getMask. rewrite N.shiftl_1_l, N.pow2_bits_eqb.
  destruct (N.eqb_spec (N.of_nat b) (N.of_nat k)), (Nat.eqb_spec k b); try reflexivity; lia.
Qed.
Lemma testbit_high w k : (w < 2 ^ 64)%N -> (64 <= k)%N -> N.testbit w k = false.
Proof.
  intros Hw Hk. destruct (N.eq_dec w 0) as [->|Hz]; [apply N.bits_0|].
  apply N.bits_above_log2. apply N.lt_le_trans with 64%N; [|exact Hk].
  apply N.log2_lt_pow2; [lia|exact Hw].
Qed.
Lemma below_pow2 w : (forall k, (64 <= k)%N -> N.testbit w k = false) -> (w < 2 ^ 64)%N.
Proof.
  intros H. destruct (N.lt_ge_cases w (2 ^ 64)) as [|Hge]; [assumption|].
  assert (w <> 0%N) by lia. exfalso.
  pose proof (N.bit_log2 w ltac:(assumption)) as B. rewrite H in B; [discriminate|].
  apply N.log2_le_pow2; [lia|exact Hge].
Qed.
Lemma testbit_lnot w k : k < 64 -> N.testbit (bnot w) (N.of_nat k) = negb (N.testbit w (N.of_nat k)).
Proof. intros H. unfold bnot. apply N.lnot_spec_low. lia. Qed.

(** effect of the word updates on bits *)
Lemma lor_mask w b k : N.testbit (N.lor w (getMask b)) (N.of_nat k)
  = if k =? b then true else N.testbit w (N.of_nat k).
Proof. rewrite N.lor_spec, testbit_mask. destruct (k =? b); [apply orb_true_r|apply orb_false_r]. Qed.
Lemma land_mask w b k : k < 64 -> N.testbit (N.land w (bnot (getMask b))) (N.of_nat k)
  = if k =? b then false else N.testbit w (N.of_nat k).
Proof.
  intros H. rewrite N.land_spec, testbit_lnot, testbit_mask by exact H.
  destruct (k =? b); [apply andb_false_r|apply andb_true_r].
Qed.
Lemma lxor_mask w b k : N.testbit (N.lxor w (getMask b)) (N.of_nat k)
  = if k =? b then negb (N.testbit w (N.of_nat k)) else N.testbit w (N.of_nat k).
Proof.
  rewrite N.lxor_spec, testbit_mask.
  destruct (k =? b); [apply xorb_true_r|apply xorb_false_r].
Qed.
Lemma mask_lt b : b < 64 -> (getMask b < 2 ^ 64)%N.
Proof.
  intros H. unfold getMask. rewrite N.shiftl_1_l. apply N.pow_lt_mono_r; lia.
Qed.
Lemma lor_lt a b : (a < 2 ^ 64)%N -> (b < 2 ^ 64)%N -> (N.lor a b < 2 ^ 64)%N.
Proof.
  intros Ha Hb. apply below_pow2. intros k Hk. rewrite N.lor_spec, !testbit_high; auto.
Qed.
Lemma land_lt a b : (a < 2 ^ 64)%N -> (N.land a b < 2 ^ 64)%N.
Proof.
  intros Ha. apply below_pow2. intros k Hk. rewrite N.land_spec, (testbit_high a); auto.
Qed.
Lemma lxor_lt a b : (a < 2 ^ 64)%N -> (b < 2 ^ 64)%N -> (N.lxor a b < 2 ^ 64)%N.
Proof.
  intros Ha Hb. apply below_pow2. intros k Hk. rewrite N.lxor_spec, !testbit_high; auto.
Qed.

(** ** The generic update *)
Lemma upd_ok p f s (g : bool -> bool) :
  p / 64 < length (m_data s) -> words_ok (m_data s) ->
  (forall w, (w < 2 ^ 64)%N -> (f w < 2 ^ 64)%N /\
     forall k, k < 64 -> N.testbit (f w) (N.of_nat k)
       = if k =? p mod 64 then g (N.testbit w (N.of_nat k)) else N.testbit w (N.of_nat k)) ->
  exists d, upd p f s = Ok (Bitset d (m_size s)) /\ length d = length (m_data s) /\ words_ok d /\
    forall i, bit d i = if i =? p then g (bit (m_data s) i) else bit (m_data s) i.
Proof.
  intros Hp Hw Hf. unfold upd, getEntryInd, ul_bits.
  destruct (lookup_lt_is_Some_2 _ _ Hp) as [w Ew].
  rewrite (rd_ok _ _ _ Ew). cbn [mbind res_bind]. rewrite wr_ok by exact Hp. cbn [mbind res_bind].
  assert (Hw1 : (w < 2 ^ 64)%N) by (eapply Forall_lookup in Hw; [exact Hw|exact Ew]).
  destruct (Hf w Hw1) as [F1 F2].
  eexists. split; [reflexivity|]. split; [apply insert_length|]. split.
  - apply Forall_insert; assumption.
  - intros i. unfold bit. pose proof (div64 i) as [Di Mi]. pose proof (div64 p) as [Dp Mp].
    destruct (decide (i / 64 = p / 64)) as [E|E].
    + rewrite E. rewrite list_lookup_insert by exact Hp. rewrite Ew, F2 by exact Mi.
      destruct (Nat.eqb_spec (i mod 64) (p mod 64)), (Nat.eqb_spec i p); try reflexivity; exfalso; lia || congruence.
    + rewrite list_lookup_insert_ne by congruence.
      destruct (Nat.eqb_spec i p); [congruence|reflexivity].
Qed.

Lemma set_ok p s : p / 64 < length (m_data s) -> words_ok (m_data s) ->
  exists d, set p s = Ok (Bitset d (m_size s)) /\ length d = length (m_data s) /\ words_ok d /\
    forall i, bit d i = if i =? p then true else bit (m_data s) i.
Proof.
  intros Hp Hw. apply (upd_ok p _ s (fun _ => true) Hp Hw). intros w Hlt. split.
  - apply lor_lt; [exact Hlt|]. apply mask_lt. apply Nat.mod_upper_bound. lia.
  - intros k _. apply lor_mask.
Qed.
Lemma reset_ok p s : p / 64 < length (m_data s) -> words_ok (m_data s) ->
  exists d, reset p s = Ok (Bitset d (m_size s)) /\ length d = length (m_data s) /\ words_ok d /\
    forall i, bit d i = if i =? p then false else bit (m_data s) i.
Proof.
  intros Hp Hw. apply (upd_ok p _ s (fun _ => false) Hp Hw). intros w Hlt. split.
  - apply land_lt; exact Hlt.
  - intros k Hk. apply land_mask. exact Hk.
Qed.
Lemma flip_ok p s : p / 64 < length (m_data s) -> words_ok (m_data s) ->
  exists d, flip p s = Ok (Bitset d (m_size s)) /\ length d = length (m_data s) /\ words_ok d /\
    forall i, bit d i = if i =? p then negb (bit (m_data s) i) else bit (m_data s) i.
Proof.
  intros Hp Hw. apply (upd_ok p _ s negb Hp Hw). intros w Hlt. split.
  - apply lxor_lt; [exact Hlt|]. apply mask_lt. apply Nat.mod_upper_bound. lia.
  - intros k _. apply lxor_mask.
Qed.
Lemma or_val_ok p (v : bool) s : p / 64 < length (m_data s) -> words_ok (m_data s) ->
  exists d, upd p (fun w => N.lor w (N.shiftl (if v then 1 else 0)%N (N.of_nat (getBitPos p)))) s
              = Ok (Bitset d (m_size s)) /\ length d = length (m_data s) /\ words_ok d /\
    forall i, bit d i = if i =? p then v || bit (m_data s) i else bit (m_data s) i.
Proof.
  intros Hp Hw. destruct v.
  - destruct (set_ok p s Hp Hw) as (d & E & H). exists d. split; [exact E|exact H].
  - apply (upd_ok p _ s (fun b => b) Hp Hw). intros w Hlt. rewrite N.shiftl_0_l, N.lor_0_r.
    split; [exact Hlt|]. intros k _. destruct (k =? p mod 64); reflexivity.
Qed.
Lemma assign_ok p v s : p / 64 < length (m_data s) -> words_ok (m_data s) ->
  exists d, assign p v s = Ok (Bitset d (m_size s)) /\ length d = length (m_data s) /\ words_ok d /\
    forall i, bit d i = if i =? p then v else bit (m_data s) i.
Proof.
  intros Hp Hw. unfold assign.
  destruct (reset_ok p s Hp Hw) as (d1 & E1 & L1 & W1 & B1).
  unfold reset in E1. rewrite E1. cbn [mbind res_bind].
  destruct (or_val_ok p v (Bitset d1 (m_size s))) as (d2 & E2 & L2 & W2 & B2);
    [cbn [m_data]; lia|exact W1|].
  cbn [m_data m_size] in *.
  exists d2. split; [exact E2|]. split; [lia|]. split; [exact W2|].
  intros i. rewrite B2, B1. destruct (i =? p); [apply orb_false_r|reflexivity].
Qed.

(** ** Representation relation *)
Definition rep (s : bitset) (l : list bool) : Prop :=
  m_size s = length l /\ length (m_data s) = computeAllocUls (length l)
  /\ words_ok (m_data s)
  /\ forall i, bit (m_data s) i = match l !! i with Some b => b | None => false end.

Lemma at_pos_rep p (g : bool -> bool) s l l' (stp : res bitset) :
  rep s l -> at_pos p g l = Some l' ->
  (p / 64 < length (m_data s) -> words_ok (m_data s) ->
   exists d, stp = Ok (Bitset d (m_size s)) /\ length d = length (m_data s) /\ words_ok d /\
    forall i, bit d i = if i =? p then g (bit (m_data s) i) else bit (m_data s) i) ->
  exists s', stp = Ok s' /\ rep s' l'.
Proof.
  intros (Hs & Hd & Hw & Hb) Ha Hstp. unfold at_pos in Ha.
  destruct (l !! p) as [b|] eqn:El; [|discriminate]. injection Ha as <-.
  assert (Hp : p < length l) by (apply lookup_lt_is_Some_1; eauto).
  destruct Hstp as (d & -> & L & W & B); [apply (bit_in_range _ (length l)); assumption|assumption|].
  eexists. split; [reflexivity|]. unfold rep. cbn [m_size m_data].
  rewrite insert_length. split; [exact Hs|]. split; [lia|]. split; [exact W|].
  intros i. rewrite B. destruct (Nat.eqb_spec i p) as [->|Hne].
  - rewrite list_lookup_insert by exact Hp. rewrite Hb, El. reflexivity.
  - rewrite list_lookup_insert_ne by congruence. apply Hb.
Qed.

Lemma bit_ge d i : 64 * length d <= i -> bit d i = false.
Proof.
  intros H. unfold bit. rewrite (proj2 (lookup_ge_None d (i / 64))); [reflexivity|].
  pose proof (div64 i). lia.
Qed.
Lemma bit_resize d n i : bit (vec_resize d n) i = if i <? 64 * n then bit d i else false.
Proof.
  unfold vec_resize. destruct (Nat.ltb_spec i (64 * n)) as [H|H].
  - unfold bit. pose proof (div64 i).
    destruct (decide (i / 64 < length d)).
    + rewrite lookup_app_l by (rewrite take_length; lia).
      rewrite lookup_take by lia. reflexivity.
    + rewrite lookup_app_r by (rewrite take_length; lia).
      rewrite (proj2 (lookup_ge_None d (i / 64))) by lia.
      rewrite lookup_replicate_2 by (rewrite take_length; lia). apply N.bits_0.
  - apply bit_ge. rewrite app_length, take_length, replicate_length. lia.
Qed.
Lemma words_ok_resize d n : words_ok d -> words_ok (vec_resize d n).
Proof.
  intros H. apply Forall_app. split; [apply Forall_take, H|]. apply Forall_replicate. reflexivity.
Qed.
Lemma resize_rep n s l : rep s l -> Forall (fun b => b = false) (drop n l) ->
  rep (resize n s) (take n l ++ replicate (n - length l) false).
Proof.
  intros (Hs & Hd & Hw & Hb) Hc.
  assert (Hlen : length (take n l ++ replicate (n - length l) false) = n)
    by (rewrite app_length, take_length, replicate_length; lia).
  unfold rep, resize. cbn [m_size m_data]. rewrite Hlen.
  split; [reflexivity|]. split.
  { unfold vec_resize. rewrite app_length, take_length, replicate_length. lia. }
  split; [apply words_ok_resize, Hw|].
  intros i. rewrite bit_resize, Hb. pose proof (alloc_spec n) as A.
  destruct (Nat.lt_ge_cases i n) as [Hi|Hi].
  - destruct (Nat.ltb_spec i (64 * computeAllocUls n)); [|lia].
    destruct (Nat.lt_ge_cases i (length l)).
    + rewrite lookup_app_l by (rewrite take_length; lia). rewrite lookup_take by exact Hi. reflexivity.
    + rewrite lookup_app_r by (rewrite take_length; lia).
      rewrite (proj2 (lookup_ge_None l i)) by lia.
      rewrite lookup_replicate_2 by (rewrite take_length; lia). reflexivity.
  - rewrite (proj2 (lookup_ge_None (take n l ++ replicate (n - length l) false) i)) by lia.
    destruct (i <? 64 * computeAllocUls n); [|reflexivity].
    destruct (l !! i) as [b|] eqn:E; [|reflexivity].
    eapply Forall_lookup in Hc; [exact Hc|].
    rewrite lookup_drop. replace (n + (i - n)) with i by lia. exact E.
Qed.
Lemma clear_rep s l : rep s l -> rep (clear s) (map (fun _ => false) l).
Proof.
  intros (Hs & Hd & Hw & Hb). unfold rep, clear. cbn [m_size m_data]. rewrite !map_length.
  split; [exact Hs|]. split; [exact Hd|]. split.
  - apply Forall_forall. intros w Hin. apply elem_of_list_In, in_map_iff in Hin.
    destruct Hin as (? & <- & _). reflexivity.
  - intros i. unfold bit. change (@map N N) with (@fmap list _ N N).
    change (@map bool bool) with (@fmap list _ bool bool).
    rewrite !list_lookup_fmap. destruct (m_data s !! (i / 64)); simpl; rewrite ?N.bits_0; destruct (l !! i); reflexivity.
Qed.
Lemma step_rep o s l l' :
  rep s l -> spec_step o l = Some l' ->
  (match o with OResize n => Forall (fun b => b = false) (drop n l) | _ => True end) ->
  exists s', step o s = Ok s' /\ rep s' l'.
Proof.
  intros Hr Hs Hc. destruct o; cbn [step spec_step] in *.
  - eapply at_pos_rep; [exact Hr|exact Hs|]. apply set_ok.
  - eapply at_pos_rep; [exact Hr|exact Hs|]. apply reset_ok.
  - eapply at_pos_rep; [exact Hr|exact Hs|]. apply flip_ok.
  - eapply at_pos_rep; [exact Hr|exact Hs|]. apply assign_ok.
  - injection Hs as <-. eexists. split; [reflexivity|]. apply clear_rep, Hr.
  - injection Hs as <-. eexists. split; [reflexivity|]. apply resize_rep; assumption.
  - unfold sub_set. rewrite Nat.add_comm. eapply at_pos_rep; [exact Hr|exact Hs|]. apply set_ok.
  - unfold sub_reset. rewrite Nat.add_comm. eapply at_pos_rep; [exact Hr|exact Hs|]. apply reset_ok.
  - unfold sub_flip. rewrite Nat.add_comm. eapply at_pos_rep; [exact Hr|exact Hs|]. apply flip_ok.
  - unfold sub_assign. rewrite Nat.add_comm. eapply at_pos_rep; [exact Hr|exact Hs|]. apply assign_ok.
Qed.
Lemma run_rep : forall ops s l l',
  rep s l -> spec_run ops l = Some l' -> cuts_only_clear ops l ->
  exists s', run ops s = Ok s' /\ rep s' l'.
Proof.
  induction ops as [|o ops IH]; intros s l l' Hr Hs Hc; cbn [spec_run cuts_only_clear] in *.
  - injection Hs as <-. exists s. auto.
  - destruct Hc as [Hc1 Hc2]. destruct (spec_step o l) as [l1|] eqn:E; [|discriminate].
    destruct (step_rep o s l l1 Hr E Hc1) as (s1 & E1 & R1).
    destruct (IH s1 l1 l' R1 Hs Hc2) as (s' & E2 & R2).
    exists s'. split; [|exact R2]. unfold run. cbn [for_each]. rewrite E1. exact E2.
Qed.
Lemma make_rep n : rep (make n) (replicate n false).
Proof.
  unfold rep, make. cbn [m_size m_data]. rewrite !replicate_length.
  split; [reflexivity|]. split; [reflexivity|]. split; [apply Forall_replicate; reflexivity|].
  intros i. unfold bit.
  assert (E1 : match replicate n false !! i with Some b => b | None => false end = false).
  { destruct (replicate n false !! i) eqn:E; [|reflexivity].
    apply lookup_replicate_1 in E. destruct E as [-> _]. reflexivity. }
  rewrite E1. destruct (replicate (computeAllocUls n) 0%N !! (i / 64)) eqn:E; [|reflexivity].
  apply lookup_replicate_1 in E. destruct E as [-> _]. apply N.bits_0.
Qed.
Lemma no_shrink_cuts : forall ops l, no_shrink ops l -> cuts_only_clear ops l.
Proof.
  induction ops as [|o ops IH]; intros l H; cbn in *; [exact I|].
  destruct H as [H1 H2]. split.
  - destruct o; try exact I. cbn in H1. rewrite drop_ge by exact H1. constructor.
  - destruct (spec_step o l); auto.
Qed.

(** ** Queries *)
Lemma test_bit i s : i / 64 < length (m_data s) -> test i s = Ok (bit (m_data s) i).
Proof.
  intros H. unfold test, getEntryInd, getBitPos, ul_bits, bit.
  destruct (lookup_lt_is_Some_2 _ _ H) as [w E]. rewrite (rd_ok _ _ _ E), E. cbn [mbind res_bind].
  f_equal. set (k := i mod 64).
  destruct (N.testbit w (N.of_nat k)) eqn:Eb.
  - destruct (N.eqb_spec (N.land w (getMask k)) 0) as [Ez|]; [|reflexivity].
    exfalso. assert (N.testbit (N.land w (getMask k)) (N.of_nat k) = true).
    { rewrite N.land_spec, Eb, testbit_mask, Nat.eqb_refl. reflexivity. }
    rewrite Ez, N.bits_0 in H0. discriminate.
  - destruct (N.eqb_spec (N.land w (getMask k)) 0) as [Ez|Hne]; [reflexivity|].
    exfalso. apply Hne. apply N.bits_inj_0. intros m. rewrite N.land_spec.
    destruct (N.eq_dec m (N.of_nat k)) as [->|Hm]; [rewrite Eb; reflexivity|].
    rewrite <- (N2Nat.id m), testbit_mask.
    destruct (Nat.eqb_spec (N.to_nat m) k); [lia|apply andb_false_r].
Qed.

(** number of [i] in [seq a n] with [f i] *)
Definition cnt (f : nat -> bool) (a n : nat) : nat := length (List.filter f (seq a n)).
Lemma cnt_app f a n m : cnt f a (n + m) = cnt f a n + cnt f (a + n) m.
Proof. unfold cnt. rewrite seq_app, List.filter_app, app_length. reflexivity. Qed.
Lemma cnt_ext f g a n : (forall i, a <= i < a + n -> f i = g i) -> cnt f a n = cnt g a n.
Proof.
  unfold cnt. revert a. induction n as [|n IH]; intros a H; [reflexivity|].
  cbn [seq List.filter]. rewrite (H a) by lia. destruct (g a); cbn [length]; rewrite IH; try reflexivity; intros; apply H; lia.
Qed.
Lemma cnt_shift f a n k : cnt f (k + a) n = cnt (fun i => f (k + i)) a n.
Proof.
  unfold cnt. revert a. induction n as [|n IH]; intros a; [reflexivity|].
  cbn [seq List.filter]. rewrite <- Nat.add_succ_r.
  destruct (f (k + a)); cbn [length]; rewrite IH; reflexivity.
Qed.
Lemma cnt_false f a n : (forall i, a <= i < a + n -> f i = false) -> cnt f a n = 0.
Proof.
  unfold cnt. revert a. induction n as [|n IH]; intros a H; [reflexivity|].
  cbn [seq List.filter]. rewrite (H a) by lia. apply IH. intros; apply H; lia.
Qed.
Lemma cnt_list (l : list bool) :
  count_true l = cnt (fun i => match l !! i with Some b => b | None => false end) 0 (length l).
Proof.
  induction l as [|b l IH]; [reflexivity|].
  change (length (b :: l)) with (1 + length l). rewrite cnt_app. change (0 + 1) with (1 + 0). rewrite (cnt_shift _ 0 _ 1).
  transitivity (count_true [b] + count_true l).
  { unfold count_true. cbn [List.filter]. unfold id at 1. unfold id at 2. destruct b; reflexivity. }
  f_equal; [destruct b; reflexivity|]. rewrite IH. reflexivity.
Qed.
Lemma cnt_window f a n m : a + n <= m -> (forall i, i < a \/ a + n <= i -> f i = false) ->
  cnt f 0 m = cnt f a n.
Proof.
  intros H Hf. assert (E : m = a + (n + (m - a - n))) by lia. rewrite E.
  rewrite !cnt_app. rewrite cnt_false, (cnt_false f (0 + a + n)), Nat.add_0_r; [reflexivity| |];
    intros i Hi; apply Hf; lia.
Qed.
Lemma popcount_cnt w : popcount w = cnt (fun k => N.testbit w (N.of_nat k)) 0 64.
Proof. unfold popcount, cnt. reflexivity. Qed.
Lemma popcount_bits d j w : d !! j = Some w -> popcount w = cnt (bit d) (64 * j) 64.
Proof.
  intros E. rewrite popcount_cnt.
  rewrite <- (Nat.add_0_r (64 * j)), cnt_shift. apply cnt_ext. intros i Hi.
  unfold bit. replace ((64 * j + i) / 64) with j by (apply Nat.div_unique with i; lia).
  replace ((64 * j + i) mod 64) with i by (apply Nat.mod_unique with j; lia).
  rewrite E. reflexivity.
Qed.
Lemma popcount_mask d j w a n : d !! j = Some w -> a + n <= 64 ->
  popcount (N.land w (or_masks a n)) = cnt (bit d) (64 * j + a) n.
Proof.
  intros E Hn.
  assert (HM : forall k, N.testbit (or_masks a n) (N.of_nat k) = (a <=? k) && (k <? a + n)).
  { intros k. unfold or_masks. clear Hn.
    assert (G : forall n a m, N.testbit (foldl (fun m i => N.lor m (getMask i)) m (seq a n)) (N.of_nat k)
        = N.testbit m (N.of_nat k) || ((a <=? k) && (k <? a + n))).
    { clear. induction n as [|n IH]; intros a m.
      - cbn [seq foldl]. destruct (Nat.leb_spec a k), (Nat.ltb_spec k (a + 0)); try lia; cbn [andb]; rewrite ?orb_false_r; reflexivity.
      - cbn [seq foldl]. rewrite IH, lor_mask.
        destruct (Nat.eqb_spec k a), (Nat.leb_spec a k), (Nat.leb_spec (S a) k),
          (Nat.ltb_spec k (S a + n)), (Nat.ltb_spec k (a + S n)); try lia; cbn [andb orb];
          rewrite ?orb_true_r, ?orb_false_r; reflexivity. }
    rewrite G, N.bits_0. reflexivity. }
  rewrite popcount_cnt.
  rewrite (cnt_window _ a n 64 Hn).
  - replace a with (a + 0) at 1 by lia. rewrite (cnt_shift _ 0 n a).
    replace (64 * j + a) with (64 * j + a + 0) by lia. rewrite (cnt_shift _ 0 n (64 * j + a)).
    apply cnt_ext. intros i Hi. rewrite N.land_spec, HM. unfold bit.
    assert (E1 : (64 * j + a + i) / 64 = j) by (symmetry; apply Nat.div_unique with (a + i); lia).
    assert (E2 : (64 * j + a + i) mod 64 = a + i) by (symmetry; apply Nat.mod_unique with j; lia).
    rewrite E1, E2, E. destruct (Nat.leb_spec a (a + i)), (Nat.ltb_spec (a + i) (a + n)); try lia.
    apply andb_true_r.
  - intros i Hi. rewrite N.land_spec, HM.
    destruct (Nat.leb_spec a i), (Nat.ltb_spec i (a + n)); try lia; apply andb_false_r.
Qed.

Lemma sum_popcount d : forall j, j <= length d ->
  sum_list_with popcount (take j d) = cnt (bit d) 0 (64 * j).
Proof.
  induction j as [|j IH]; intros Hj; [rewrite Nat.mul_0_r; reflexivity|].
  destruct (lookup_lt_is_Some_2 d j ltac:(lia)) as [w E].
  rewrite (take_S_r _ _ _ E), sum_list_with_app, IH by lia.
  replace (64 * S j) with (64 * j + 64) by lia. rewrite cnt_app. f_equal.
  cbn [sum_list_with]. rewrite Nat.add_0_r. apply popcount_bits. exact E.
Qed.
Lemma count_bits s : count s = cnt (bit (m_data s)) 0 (64 * length (m_data s)).
Proof. unfold count. rewrite <- sum_popcount by lia. rewrite take_ge by lia. reflexivity. Qed.
Lemma count_rep s l : rep s l -> count s = count_true l.
Proof.
  intros (Hs & Hd & Hw & Hb). rewrite count_bits, cnt_list, Hd.
  pose proof (alloc_spec (length l)) as A.
  replace (64 * computeAllocUls (length l)) with (length l + (64 * computeAllocUls (length l) - length l)) by lia.
  rewrite cnt_app, (cnt_false _ (0 + length l)), Nat.add_0_r.
  - apply cnt_ext. intros i _. apply Hb.
  - intros i Hi. rewrite Hb, (proj2 (lookup_ge_None l i)); [reflexivity|lia].
Qed.
Lemma mid_loop s : forall n a r, a + n <= length (m_data s) ->
  for_each (fun i r => w ← rd (m_data s) i; Ok (r + popcount w)) (seq a n) r
  = Ok (r + cnt (bit (m_data s)) (64 * a) (64 * n)).
Proof.
  induction n as [|n IH]; intros a r H.
  - cbn [seq for_each]. rewrite Nat.mul_0_r. unfold cnt. cbn [seq List.filter length]. rewrite Nat.add_0_r. reflexivity.
  - cbn [seq for_each]. destruct (lookup_lt_is_Some_2 (m_data s) a ltac:(lia)) as [w E].
    rewrite (rd_ok _ _ _ E). cbn [mbind res_bind]. rewrite IH by lia.
    rewrite (popcount_bits _ _ _ E). replace (64 * S n) with (64 + 64 * n) by lia.
    rewrite cnt_app. replace (64 * S a) with (64 * a + 64) by lia. f_equal. lia.
Qed.
Lemma sub_count_bits b e s : b <= e -> (e = b \/ (e - 1) / 64 < length (m_data s)) ->
  sub_count b e s = Ok (cnt (bit (m_data s)) b (e - b)).
Proof.
  intros Hbe Hr. unfold sub_count. destruct (Nat.eqb_spec b e) as [->|Hne].
  - rewrite Nat.sub_diag. reflexivity.
  - destruct Hr as [|Hr]; [lia|]. unfold getEntryInd, getBitPos, ul_bits.
    pose proof (div64 b) as [Db Mb]. pose proof (div64 (e - 1)) as [De Me].
    assert (Hle : b / 64 <= (e - 1) / 64) by (apply Nat.div_le_mono; lia).
    destruct (lookup_lt_is_Some_2 (m_data s) (b / 64) ltac:(lia)) as [w0 E0].
    destruct (lookup_lt_is_Some_2 (m_data s) ((e - 1) / 64) ltac:(lia)) as [w1 E1].
    rewrite (rd_ok _ _ _ E0). cbn [mbind res_bind].
    destruct (Nat.eqb_spec (b / 64) ((e - 1) / 64)) as [Eq|Neq].
    + rewrite (popcount_mask _ _ _ _ _ E0) by lia. do 2 f_equal; lia.
    + rewrite (popcount_mask _ _ _ _ _ E0) by lia.
      rewrite mid_loop by lia. cbn [mbind res_bind].
      rewrite (rd_ok _ _ _ E1). cbn [mbind res_bind].
      rewrite (popcount_mask _ _ _ _ _ E1) by lia. f_equal.
      set (q0 := b / 64) in *. set (q1 := (e - 1) / 64) in *.
      set (r0 := b mod 64) in *. set (r1 := (e - 1) mod 64) in *. clearbody q0 q1 r0 r1.
      replace (64 * q0 + r0) with b by lia.
      replace (64 * (q0 + 1)) with (b + (64 - r0)) by lia.
      replace (64 * q1 + 0) with (b + (64 - r0 + 64 * (q1 - (q0 + 1)))) by lia.
      replace (e - b) with ((64 - r0 + 64 * (q1 - (q0 + 1))) + S r1) by lia.
      rewrite cnt_app. f_equal. rewrite cnt_app. reflexivity.
Qed.
Lemma count_sub l b e : b <= e <= length l ->
  count_true (take (e - b) (drop b l))
  = cnt (fun i => match l !! i with Some b => b | None => false end) b (e - b).
Proof.
  intros H. rewrite cnt_list, take_length, drop_length, Nat.min_l by lia.
  assert (Hsh : forall f, cnt f b (e - b) = cnt (fun i => f (b + i)) 0 (e - b))
    by (intros f; rewrite <- (cnt_shift f 0 (e - b) b), Nat.add_0_r; reflexivity).
  rewrite Hsh. apply cnt_ext. intros i Hi.
  rewrite lookup_take by lia. rewrite lookup_drop. reflexivity.
Qed.
Lemma rep_answers s l : rep s l -> answers_like s l.
Proof.
  intros Hr. pose proof Hr as (Hs & Hd & Hw & Hb). unfold answers_like.
  assert (Ht : forall i b, l !! i = Some b -> test i s = Ok b).
  { intros i b E. rewrite test_bit.
    - rewrite Hb, E. reflexivity.
    - apply (bit_in_range _ (length l)); [exact Hd|]. apply lookup_lt_is_Some_1. eauto. }
  split; [exact Hs|]. split; [apply count_rep, Hr|]. split; [exact Ht|]. split.
  - intros b i v E. unfold sub_test. apply Ht. rewrite Nat.add_comm. exact E.
  - intros b e Hbe. rewrite sub_count_bits; [|lia|].
    + f_equal. rewrite count_sub by lia. apply cnt_ext. intros i _. apply Hb.
    + destruct (decide (e = b)); [left; assumption|right].
      apply (bit_in_range _ (length l)); [exact Hd|lia].
Qed.

Lemma bitset_history n ops l :
  spec_run ops (replicate n false) = Some l -> cuts_only_clear ops (replicate n false) ->
  exists s, run ops (make n) = Ok s /\ answers_like s l.
Proof.
  intros H1 H2. destruct (run_rep ops (make n) _ l (make_rep n) H1 H2) as (s & E & R).
  exists s. split; [exact E|apply rep_answers, R].
Qed.
Lemma bitset_history_grow n ops l :
  spec_run ops (replicate n false) = Some l -> no_shrink ops (replicate n false) ->
  exists s, run ops (make n) = Ok s /\ answers_like s l.
Proof. intros H1 H2. apply bitset_history; [exact H1|apply no_shrink_cuts, H2]. Qed.

Lemma shrink_refuted : exists n ops l s,
  spec_run ops (replicate n false) = Some l /\ run ops (make n) = Ok s
  /\ size s = length l /\ count s <> count_true l.
Proof.
  exists 10, [OSet 7; OResize 5], (replicate 5 false), (Bitset [128%N] 5).
  repeat split; try (vm_compute; reflexivity). vm_compute. discriminate.
Qed.
Lemma regrow_refuted : exists n ops l s i,
  spec_run ops (replicate n false) = Some l /\ run ops (make n) = Ok s
  /\ l !! i = Some false /\ test i s = Ok true.
Proof.
  exists 10, [OSet 7; OResize 5; OResize 10], (replicate 10 false), (Bitset [128%N] 10), 7.
  repeat split; vm_compute; reflexivity.
Qed.

(** ** Atomic view *)
Definition hist_spec (h : list aop) (l : list bool) : list bool :=
  foldl (fun l o => match l !! aop_pos o with
                    | Some b => <[aop_pos o := aop_fun o b]> l | None => l end) l h.
Lemma astep_rep o s l : rep s l -> aop_pos o < length l ->
  exists s', astep o s = Ok s' /\
   rep s' (match l !! aop_pos o with Some b => <[aop_pos o := aop_fun o b]> l | None => l end).
Proof.
  intros Hr Hp. destruct (lookup_lt_is_Some_2 _ _ Hp) as [b Eb]. rewrite Eb.
  assert (Ha : at_pos (aop_pos o) (aop_fun o) l = Some (<[aop_pos o := aop_fun o b]> l))
    by (unfold at_pos; rewrite Eb; reflexivity).
  destruct o; cbn [aop_pos aop_fun astep] in *.
  - apply (at_pos_rep pos (fun _ => true) s l _ _ Hr Ha). apply set_ok.
  - apply (at_pos_rep pos (fun _ => false) s l _ _ Hr Ha). apply reset_ok.
  - apply (at_pos_rep pos negb s l _ _ Hr Ha). apply flip_ok.
Qed.
Lemma step_len l o : length (match l !! aop_pos o with Some b => <[aop_pos o := aop_fun o b]> l | None => l end) = length l.
Proof. destruct (l !! aop_pos o); [apply insert_length|reflexivity]. Qed.

Definition in_range (n : nat) (ts : list (list aop)) : Prop :=
  Forall (Forall (fun o => aop_pos o < n)) ts.
Lemma in_range_step n ts t o rest : in_range n ts -> ts !! t = Some (o :: rest) ->
  aop_pos o < n /\ in_range n (<[t := rest]> ts).
Proof.
  intros H E. pose proof H as H'. unfold in_range in H'. eapply Forall_lookup in H'; [|exact E].
  inversion_clear H'. split; [assumption|]. apply Forall_insert; assumption.
Qed.
Lemma machine_hist c c' : rtc mstep c c' -> forall l, rep c.2 l -> in_range (length l) c.1 ->
  exists h, rep c'.2 (hist_spec h l) /\ in_range (length l) c'.1 /\ length (hist_spec h l) = length l
    /\ (Forall (fun t => t = []) c'.1 -> merges c.1 h).
Proof.
  induction 1 as [c|c c1 c' Hstep Hrest IH]; intros l Hr Hin.
  - exists []. split; [exact Hr|]. split; [exact Hin|]. split; [reflexivity|].
    intros Hf. constructor. exact Hf.
  - destruct Hstep as [ts t o rest s s' Et Es]. cbn [fst snd] in *.
    destruct (in_range_step _ _ _ _ _ Hin Et) as [Hp Hin'].
    destruct (astep_rep o s l Hr Hp) as (s1 & E1 & R1). rewrite Es in E1. injection E1 as <-.
    destruct (IH _ R1) as (h & R & Hin2 & Hlen & Hm).
    { rewrite step_len. exact Hin'. }
    rewrite step_len in Hin2, Hlen.
    exists (o :: h). split; [exact R|]. split; [exact Hin2|]. split; [exact Hlen|].
    intros Hf. econstructor; [exact Et|]. apply Hm, Hf.
Qed.
Lemma machine_progress ts s l : rep s l -> in_range (length l) ts ->
  Forall (fun t => t = []) ts \/ exists c, mstep (ts, s) c.
Proof.
  intros Hr Hin.
  destruct (decide (Forall (fun t : list aop => length t = 0) ts)) as [Hd|Hd].
  - left. eapply Forall_impl; [exact Hd|]. intros t Ht. destruct t; [reflexivity|discriminate].
  - right. apply not_Forall_Exists in Hd; [|intros x; apply _].
    apply Exists_exists in Hd. destruct Hd as (t & Ht & Hne).
    apply elem_of_list_lookup in Ht. destruct Ht as [k Ek].
    destruct t as [|o rest]; [cbn in Hne; lia|].
    destruct (in_range_step _ _ _ _ _ Hin Ek) as [Hp _].
    destruct (astep_rep o s l Hr Hp) as (s1 & E1 & R1).
    eexists. econstructor; eassumption.
Qed.
(** per-flag meaning of a history *)
Lemma hist_lookup h : forall l i b, l !! i = Some b ->
  hist_spec h l !! i = Some (foldl (fun b o => aop_fun o b) b
     (List.filter (fun o => aop_pos o =? i) h)).
Proof.
  induction h as [|o h IH]; intros l i b E; [exact E|].
  cbn [hist_spec foldl List.filter]. fold (hist_spec h).
  destruct (Nat.eqb_spec (aop_pos o) i) as [Ei|Hne].
  - rewrite Ei, E. cbn [foldl]. apply IH.
    rewrite list_lookup_insert; [reflexivity|]. apply lookup_lt_is_Some_1. eauto.
  - apply IH. destruct (l !! aop_pos o); [|exact E].
    rewrite list_lookup_insert_ne by exact Hne. exact E.
Qed.
Lemma merges_perm ts h : merges ts h -> h ≡ₚ concat ts.
Proof.
  induction 1 as [ts Hf|ts t o rest h Et Hm IH].
  - induction Hf as [|t ts -> Hf IHf]; [reflexivity|exact IHf].
  - rewrite IH. clear IH Hm.
    rewrite <- (take_drop_middle _ _ _ Et) at 2.
    assert (Ht : t < length ts) by (apply lookup_lt_is_Some_1; eauto).
    rewrite insert_take_drop by exact Ht. rewrite !concat_app. cbn [concat].
    apply (Permutation_middle (concat (take t ts)) (rest ++ concat (drop (S t) ts)) o).
Qed.

Lemma atomic_main n ops l s ts ts' s' :
  spec_run ops (replicate n false) = Some l -> cuts_only_clear ops (replicate n false) ->
  run ops (make n) = Ok s ->
  in_range (length l) ts ->
  rtc mstep (ts, s) (ts', s') ->
  (Forall (fun t => t = []) ts' \/ exists c, mstep (ts', s') c) /\
  (Forall (fun t => t = []) ts' ->
    exists h, merges ts h /\
      answers_like s' (imap (fun i b => foldl (fun b o => aop_fun o b) b
                              (List.filter (fun o => aop_pos o =? i) h)) l)).
Proof.
  intros H1 H2 H3 Hin Hrt.
  destruct (run_rep ops (make n) _ l (make_rep n) H1 H2) as (s0 & E & R).
  rewrite H3 in E. injection E as <-.
  destruct (machine_hist _ _ Hrt l R Hin) as (h & R' & Hin' & Hlen & Hm). cbn [fst snd] in *.
  split.
  - apply (machine_progress _ _ (hist_spec h l) R'). rewrite Hlen. exact Hin'.
  - intros Hf. exists h. split; [apply Hm, Hf|].
    replace (imap _ l) with (hist_spec h l); [apply rep_answers, R'|].
    apply list_eq. intros i. rewrite list_lookup_imap.
    destruct (l !! i) as [b|] eqn:Ei.
    + cbn. apply hist_lookup. exact Ei.
    + cbn. apply lookup_ge_None. rewrite Hlen. apply lookup_ge_None. exact Ei.
Qed.

Lemma atomic_sets n ops l s ts ts' s' :
  spec_run ops (replicate n false) = Some l -> cuts_only_clear ops (replicate n false) ->
  run ops (make n) = Ok s ->
  in_range (length l) ts ->
  Forall (Forall (fun o => exists p, o = ASet p)) ts ->
  rtc mstep (ts, s) (ts', s') -> Forall (fun t => t = []) ts' ->
  forall i b, l !! i = Some b ->
    exists v, test i s' = Ok v /\ (v = true <-> b = true \/ exists t, t ∈ ts /\ ASet i ∈ t).
Proof.
  intros H1 H2 H3 Hin Hsets Hrt Hf i b Ei.
  destruct (atomic_main n ops l s ts ts' s' H1 H2 H3 Hin Hrt) as [_ Hfin].
  destruct (Hfin Hf) as (h & Hm & Hans).
  destruct Hans as (_ & _ & Ht & _).
  eexists. split; [apply Ht; rewrite list_lookup_imap, Ei; reflexivity|].
  assert (Hh : forall o, o ∈ h -> exists p, o = ASet p).
  { intros o Ho. rewrite (merges_perm _ _ Hm) in Ho.
    apply elem_of_list_In, in_concat in Ho. destruct Ho as (t & Ht1 & Ht2).
    apply elem_of_list_In in Ht1, Ht2.
    eapply Forall_forall in Hsets; [|exact Ht1]. eapply Forall_forall in Hsets; [|exact Ht2]. exact Hsets. }
  assert (Hex : (exists t, t ∈ ts /\ ASet i ∈ t) <-> ASet i ∈ h).
  { rewrite (merges_perm _ _ Hm). rewrite elem_of_list_In, in_concat. split.
    - intros (t & Ha & Hb). exists t. rewrite <- !elem_of_list_In. auto.
    - intros (t & Ha & Hb). exists t. rewrite !elem_of_list_In. auto. }
  rewrite Hex. clear - Hh. revert b. induction h as [|o h IH]; intros b.
  - cbn. split; [auto|]. intros [?|?%elem_of_nil]; [assumption|contradiction].
  - destruct (Hh o) as [p ->]; [left|]. cbn [List.filter aop_pos].
    assert (IH' := IH (fun o Ho => Hh o (elem_of_list_further _ _ _ Ho))). clear IH.
    destruct (Nat.eqb_spec p i) as [->|Hne].
    + cbn [foldl aop_fun]. rewrite IH'. split; intros _; [right; left|left; reflexivity].
    + rewrite IH'. rewrite elem_of_cons. split; intros [?|?]; auto.
      destruct H; [congruence|auto].
Qed.

Lemma atomic_flips n ops l s ts ts' s' :
  spec_run ops (replicate n false) = Some l -> cuts_only_clear ops (replicate n false) ->
  run ops (make n) = Ok s ->
  in_range (length l) ts ->
  Forall (Forall (fun o => exists p, o = AFlip p)) ts ->
  rtc mstep (ts, s) (ts', s') -> Forall (fun t => t = []) ts' ->
  forall i b, l !! i = Some b ->
    test i s' = Ok (xorb b (Nat.odd (length (List.filter (fun o => aop_pos o =? i) (concat ts))))).
Proof.
  intros H1 H2 H3 Hin Hsets Hrt Hf i b Ei.
  destruct (atomic_main n ops l s ts ts' s' H1 H2 H3 Hin Hrt) as [_ Hfin].
  destruct (Hfin Hf) as (h & Hm & Hans).
  destruct Hans as (_ & _ & Ht & _).
  apply Ht. rewrite list_lookup_imap, Ei. cbn. f_equal.
  assert (Hh : forall o, o ∈ h -> exists p, o = AFlip p).
  { intros o Ho. rewrite (merges_perm _ _ Hm) in Ho.
    apply elem_of_list_In, in_concat in Ho. destruct Ho as (t & Ht1 & Ht2).
    apply elem_of_list_In in Ht1, Ht2.
    eapply Forall_forall in Hsets; [|exact Ht1]. eapply Forall_forall in Hsets; [|exact Ht2]. exact Hsets. }
  assert (Hlen : length (List.filter (fun o => aop_pos o =? i) (concat ts))
     = length (List.filter (fun o => aop_pos o =? i) h)).
  { pose proof (merges_perm _ _ Hm) as Hp. clear - Hp.
    symmetry. induction Hp as [|o h1 h2 Hp IH|o o' h0|h1 h2 h3 _ IH1 _ IH2]; cbn [List.filter].
    - reflexivity.
    - destruct (aop_pos o =? i); cbn [length]; congruence.
    - destruct (aop_pos o =? i), (aop_pos o' =? i); reflexivity.
    - congruence. }
  rewrite Hlen. clear - Hh. revert b. induction h as [|o h IH]; intros b.
  - cbn. rewrite xorb_false_r. reflexivity.
  - destruct (Hh o) as [p ->]; [left|]. cbn [List.filter aop_pos].
    assert (IH' := IH (fun o Ho => Hh o (elem_of_list_further _ _ _ Ho))). clear IH.
    destruct (Nat.eqb_spec p i) as [->|Hne]; [|apply IH'].
    cbn [foldl aop_fun length]. rewrite IH', Nat.odd_succ, <- Nat.negb_odd.
    destruct b, (Nat.odd (length (List.filter (fun o => aop_pos o =? i) h))); reflexivity.
Qed.

Lemma subview_count s b e :
  b <= e -> e <= 64 * length (m_data s) ->
  sub_count b e s =
    Ok (length (List.filter (fun i => match test i s with Ok true => true | _ => false end) (seq b (e - b)))).
Proof.
  intros Hbe He. rewrite sub_count_bits; [|exact Hbe|].
  - f_equal. apply (cnt_ext _ (fun i => match test i s with Ok true => true | _ => false end)).
    intros i Hi. rewrite test_bit; [destruct (bit (m_data s) i); reflexivity|].
    pose proof (div64 i). lia.
  - destruct (decide (e = b)); [left; assumption|right]. pose proof (div64 (e - 1)). lia.
Qed.
Lemma size_alloc n ops s : run ops (make n) = Ok s -> size s <= 64 * length (m_data s).
Proof.
  intros E.
  assert (G : forall ops s0, length (m_data s0) = computeAllocUls (m_size s0) -> run ops s0 = Ok s ->
     length (m_data s) = computeAllocUls (m_size s)).
  { clear E. induction ops0 as [|o ops0 IH]; intros s0 H0 E; unfold run in *; cbn [for_each] in E.
    - injection E as <-. exact H0.
    - apply bind_inv in E. destruct E as (s1 & E1 & E2). apply (IH s1); [|exact E2].
      assert (U : forall p f a b, upd p f a = Ok b -> length (m_data a) = computeAllocUls (m_size a) ->
        length (m_data b) = computeAllocUls (m_size b)).
      { intros p f a b Hu Ha. unfold upd in Hu. apply bind_inv in Hu. destruct Hu as (w & _ & Hu).
        apply bind_inv in Hu. destruct Hu as (d & Hd & Hu). injection Hu as <-.
        apply wr_inv in Hd. destruct Hd as [_ ->]. cbn [m_data m_size]. rewrite insert_length. exact Ha. }
      assert (A : forall p v a b, assign p v a = Ok b -> length (m_data a) = computeAllocUls (m_size a) ->
        length (m_data b) = computeAllocUls (m_size b)).
      { intros p v a b Hu Ha. unfold assign in Hu. apply bind_inv in Hu. destruct Hu as (a1 & Hu1 & Hu2).
        eapply U; [exact Hu2|]. eapply U; eassumption. }
      destruct o; cbn [step] in E1;
        try (unfold set, reset, flip, sub_set, sub_reset, sub_flip in E1; eapply U; eassumption);
        try (unfold sub_assign in E1; eapply A; eassumption).
      + injection E1 as <-. cbn. rewrite map_length. exact H0.
      + injection E1 as <-. cbn. unfold vec_resize. rewrite app_length, take_length, replicate_length. lia. }
  apply G in E; [|cbn; rewrite replicate_length; reflexivity].
  unfold size. rewrite E. pose proof (alloc_spec (m_size s)). lia.
Qed.
Lemma subview_count_hist n ops s b e :
  run ops (make n) = Ok s -> b <= e <= size s ->
  sub_count b e s =
    Ok (length (List.filter (fun i => match test i s with Ok true => true | _ => false end) (seq b (e - b)))).
Proof.
  intros E H. pose proof (size_alloc _ _ _ E). apply subview_count; lia.
Qed.
