(** The order of the slots of a hash table, on functions from slots to info and nodes. *)
From Verif Require Import Base.

Section shape.
  Context {K V : Type} `{EqDecision K}.
  Implicit Types (I : nat -> nat) (X : nat -> option (K * V)).
  (** [hm] and [hi] are the first slot and the first info of keys, [n] the number of slots
      that keys are sent to, [N] that of all slots. *)
  Record shape (hm hi : K -> nat) (n N inc : nat) I X : Prop := {
    s_hm : forall k, hm k < n;
    s_nN : n <= N;
    s_inc : 2 <= inc <= 32;
    s_hi : forall k, inc <= hi k < 2 * inc;
    s_sent : I N = 1;
    s_pad : forall i, N < i -> I i = 0;
    s_none : forall i, N <= i -> X i = None;
    s_occ : forall i, i < N -> (I i = 0 <-> X i = None);
    s_pos : forall i k v, X i = Some (k, v) -> hm k <= i /\ I i = hi k + (i - hm k) * inc;
    s_byte : forall i, I i <= 255;
    s_ord : forall i, I (S i) < 2 * inc \/ I (S i) <= I i + inc;
    s_uniq : forall i j k v w, X i = Some (k, v) -> X j = Some (k, w) -> i = j }.

  Context (hm hi : K -> nat) (n N inc : nat).
  Notation sh := (shape hm hi n N inc).
  Definition pth (k : K) (j : nat) : nat := hi k + (j - hm k) * inc.
  Lemma pth_S k j : hm k <= j -> pth k (S j) = pth k j + inc.
  Proof. intros H. unfold pth. rewrite Nat.sub_succ_l by done. rewrite Nat.mul_succ_l. apply Nat.add_assoc. Qed.
  Lemma pth_0 k : pth k (hm k) = hi k.
  Proof. unfold pth. by rewrite Nat.sub_diag, Nat.mul_0_l, Nat.add_0_r. Qed.
  Lemma pth_ge k j I X : sh I X -> inc <= pth k j.
  Proof. intros S. pose proof (s_hi _ _ _ _ _ _ _ S k) as [H _]. unfold pth. etransitivity; [exact H|apply Nat.le_add_r]. Qed.
  Lemma pth_ge2 k j I X : sh I X -> hm k < j -> 2 * inc <= pth k j.
  Proof. intros S Hj. destruct j as [|j]; [lia|]. rewrite pth_S by lia. pose proof (pth_ge k j I X S). lia. Qed.
  Lemma some_lt I X i x : sh I X -> X i = Some x -> i < N.
  Proof. intros S H. destruct (Nat.lt_ge_cases i N) as [|Hl]; [done|]. rewrite (s_none _ _ _ _ _ _ _ S i Hl) in H. done. Qed.
  Lemma big_some I X i : sh I X -> 2 <= I i -> i < N /\ exists x, X i = Some x.
  Proof.
    intros S H. assert (i < N). { destruct (Nat.lt_trichotomy i N) as [?|[->|Hl]]; [done| |]; [rewrite (s_sent _ _ _ _ _ _ _ S) in H; lia|rewrite (s_pad _ _ _ _ _ _ _ S i Hl) in H; lia]. }
    split; [done|]. destruct (X i) as [x|] eqn:E; [by exists x|]. apply (s_occ _ _ _ _ _ _ _ S) in E; [lia|done].
  Qed.
  Lemma occ_ge I X i : sh I X -> i < N -> I i <> 0 -> inc <= I i.
  Proof.
    intros S Hi H. destruct (X i) as [[k v]|] eqn:E; [|by apply (s_occ _ _ _ _ _ _ _ S) in E].
    destruct (s_pos _ _ _ _ _ _ _ S i k v E) as [_ ->]. by apply (pth_ge k i I X).
  Qed.
  Lemma ord_back I X i a : sh I X -> 2 * inc <= a + inc -> a + inc <= I (S i) -> a <= I i.
  Proof. intros S H1 H2. destruct (s_ord _ _ _ _ _ _ _ S i); lia. Qed.
  Lemma chain I X i k v j : sh I X -> X i = Some (k, v) -> hm k <= j <= i -> pth k j <= I j.
  Proof.
    intros S E. destruct (s_pos _ _ _ _ _ _ _ S i k v E) as [Hh Ei]. intros [H1 H2].
    remember (i - j) as d eqn:Hd. revert j H1 H2 Hd. induction d as [|d IH]; intros j H1 H2 Hd.
    - replace j with i by lia. by rewrite Ei.
    - apply (ord_back I X _ _ S); [pose proof (pth_ge k j I X S); lia|]. rewrite <- pth_S by done. apply IH; lia.
  Qed.

  (** An empty slot after all homes, while there are fewer elements than the buffer holds. *)
  Lemma buffer_spot I X l : sh I X -> N = n + Nat.min (n * 80 / 100) 255 -> NoDup l -> (forall k, k ∈ l <-> exists i v, X i = Some (k, v)) -> length l < n * 80 / 100 ->
    exists e, n <= e < N /\ I e = 0.
  Proof.
    intros S HN Hl Hk Hlen. destruct (Nat.le_gt_cases (n * 80 / 100) 255) as [Hm|Hm].
    - destruct (decide (Exists (fun e => I e = 0) (seq n (N - n)))) as [He|He].
      + apply Exists_exists in He as (e & He & E). exists e. apply elem_of_seq in He. split; [lia|done].
      + exfalso. apply not_Exists_Forall in He; [|apply _]. rewrite Forall_forall in He.
        assert (Ha : forall e, e ∈ seq n (N - n) -> exists x, X e = Some x).
        { intros e Hin. pose proof (He e Hin) as H1. apply elem_of_seq in Hin. cbn in H1. destruct (X e) as [x|] eqn:E; [by exists x|]. apply (s_occ _ _ _ _ _ _ _ S) in E; [done|lia]. }
        set (ks := omap (fun e => fst <$> X e) (seq n (N - n))).
        assert (Hsub : ks ⊆ l). { intros k. unfold ks. rewrite elem_of_list_omap. intros (e & _ & E). apply Hk. destruct (X e) as [[k' v]|] eqn:E'; [|done]. injection E as <-. by exists e, v. }
        assert (Hnd : NoDup ks /\ length ks = N - n).
        { unfold ks. clear Hsub. assert (Hs : NoDup (seq n (N - n))) by apply NoDup_seq. replace (N - n) with (length (seq n (N - n))) at 3 by apply seq_length. clear ks He. revert Ha Hs. generalize (seq n (N - n)). intros L. induction L as [|e L IH]; intros Ha Hs; [split; [apply NoDup_nil_2|done]|].
          apply NoDup_cons in Hs as [Hn Hs]. destruct IH as [I1 I2]; [intros; apply Ha; by right|done|]. destruct (Ha e) as [[k v] E]; [by left|]. cbn. rewrite E. cbn. split; [|by f_equal]. apply NoDup_cons; split; [|done].
          rewrite elem_of_list_omap. intros (e' & He' & E'). destruct (X e') as [[k' v']|] eqn:Ee; [|done]. injection E' as ->. rewrite (s_uniq _ _ _ _ _ _ _ S e e' k v v' E Ee) in Hn. done. }
        destruct Hnd as [Hnd Hlk]. pose proof (submseteq_length ks l (NoDup_submseteq _ _ Hnd Hsub)). lia.
    - exists (n + 130). split; [lia|]. destruct (X (n + 130)) as [[k v]|] eqn:E; [|apply (s_occ _ _ _ _ _ _ _ S); [lia|done]].
      exfalso. destruct (s_pos _ _ _ _ _ _ _ S _ k v E) as [_ Ei]. pose proof (s_byte _ _ _ _ _ _ _ S (n + 130)). pose proof (s_hm _ _ _ _ _ _ _ S k). pose proof (s_inc _ _ _ _ _ _ _ S).
      assert (131 * 2 <= (n + 130 - hm k) * inc) by (apply Nat.mul_le_mono; lia). lia.
  Qed.

  Definition ins_I I (k : K) (p e j : nat) : nat := if decide (j = p) then pth k p else if decide (p < j <= e) then I (j - 1) + inc else I j.
  Definition ins_X X (kv : K * V) (p e j : nat) : option (K * V) := if decide (j = p) then Some kv else if decide (p < j <= e) then X (j - 1) else X j.
  (** Insertion keeps the order. *)
  Lemma insert_shape I X k v p e : sh I X -> (forall i w, X i <> Some (k, w)) -> hm k <= p -> (forall j, hm k <= j < p -> pth k j <= I j) -> I p < pth k p ->
    p <= e < N -> I e = 0 -> (forall j, p <= j < e -> I j <> 0) -> (forall i, I i + inc <= 255) -> sh (ins_I I k p e) (ins_X X (k, v) p e).
  Proof.
    intros S Ha Hp Hc Hlt He E0 Hne H255. pose proof S as [A1 A2 A3 A4 A5 A6 A7 A8 A9 A10 A11 A12].
    assert (Hpp : inc <= pth k p) by by eapply pth_ge.
    assert (Hp255 : pth k p <= 255).
    { destruct (decide (p = hm k)) as [->|Hn]; [rewrite pth_0; pose proof (A4 k); lia|].
      destruct p as [|p]; [lia|]. rewrite pth_S by lia. pose proof (Hc p). pose proof (H255 p). lia. }
    assert (Hocc : forall j, p <= j < e -> inc <= I j). { intros j Hj. apply (occ_ge I X); [done|lia|by apply Hne]. }
    split; try done; unfold ins_I, ins_X.
    - rewrite !decide_False by lia. done.
    - intros i Hi. rewrite !decide_False by lia. by apply A6.
    - intros i Hi. rewrite !decide_False by lia. by apply A7.
    - intros i Hi. case_decide; [subst; split; [lia|done]|]. case_decide; [|by apply A8]. split; [lia|]. intros HX. apply A8 in HX; [|lia]. destruct (Hne (i - 1)); [lia|done].
    - intros i k' v'. case_decide; [intros [= <- <-]; subst; split; [done|reflexivity]|]. case_decide; [|apply A9]. intros HX. destruct (A9 _ _ _ HX) as [H1 H2]. split; [lia|]. rewrite H2. replace (i - hm k') with (Datatypes.S (i - 1 - hm k')) by lia. rewrite Nat.mul_succ_l. by rewrite Nat.add_assoc.
    - intros i. case_decide; [done|]. case_decide; [apply H255|apply A10].
    - intros i. repeat case_decide; subst; try lia.
      + destruct (decide (hm k = Datatypes.S i)) as [E|E]; [left; rewrite <- E, pth_0; apply A4|]. right. rewrite pth_S by lia. pose proof (Hc i). lia.
      + right. replace (Datatypes.S p - 1) with p by lia. lia.
      + replace (Datatypes.S i - 1) with i by lia. pose proof (A11 (i - 1)) as Ho. replace (Datatypes.S (i - 1)) with i in Ho by lia. pose proof (Hocc (i - 1)). right. lia.
      + assert (p = e) as -> by lia. destruct (A11 e) as [Ho|Ho]; [by left|]. rewrite E0 in Ho. left. lia.
      + assert (i = e) as -> by lia. destruct (A11 e) as [Ho|Ho]; [by left|]. rewrite E0 in Ho. left. lia.
      + apply A11.
    - intros i j k' v' w' Hx Hy. destruct (decide (i = p)) as [Ei|Ei], (decide (j = p)) as [Ej|Ej]; [lia| | |].
      + injection Hx as -> ->. destruct (decide (p < j <= e)); by destruct (Ha _ _ Hy).
      + injection Hy as -> ->. destruct (decide (p < i <= e)); by destruct (Ha _ _ Hx).
      + destruct (decide (p < i <= e)) as [Di|Di], (decide (p < j <= e)) as [Dj|Dj]; pose proof (A12 _ _ _ _ _ Hx Hy); try lia.
  Qed.

  Definition era_I I (i q j : nat) : nat := if decide (j = q) then 0 else if decide (i <= j < q) then I (j + 1) - inc else I j.
  Definition era_X X (i q j : nat) : option (K * V) := if decide (j = q) then None else if decide (i <= j < q) then X (j + 1) else X j.
  (** So does the removal of the node in slot [i], when the nodes up to slot [q] move back. *)
  Lemma erase_shape I X i q : sh I X -> i <= q < N -> (forall j, i < j <= q -> 2 * inc <= I j) -> I (q + 1) < 2 * inc -> sh (era_I I i q) (era_X X i q).
  Proof.
    intros S Hq Hbig Hend. pose proof S as [A1 A2 A3 A4 A5 A6 A7 A8 A9 A10 A11 A12].
    assert (Hord : forall j, I (j + 1) < 2 * inc \/ I (j + 1) <= I j + inc) by (intros j; rewrite Nat.add_1_r; apply A11).
    split; try done; unfold era_I, era_X.
    - rewrite !decide_False by lia. done.
    - intros a Ha. rewrite !decide_False by lia. by apply A6.
    - intros a Ha. rewrite !decide_False by lia. by apply A7.
    - intros a Ha. case_decide; [done|]. case_decide; [|by apply A8]. pose proof (Hbig (a + 1)). split; [lia|]. intros HX. apply A8 in HX; lia.
    - intros a k v. case_decide; [done|]. case_decide; [|apply A9]. intros HX. pose proof (Hbig (a + 1)) as Hb. destruct (A9 _ _ _ HX) as [H1 H2].
      assert (Hlt : hm k < a + 1). { destruct (decide (hm k = a + 1)) as [E|E]; [|lia]. rewrite H2, <- E, Nat.sub_diag, Nat.mul_0_l in Hb. pose proof (A4 k). lia. }
      split; [lia|]. rewrite H2. replace (a + 1 - hm k) with (Datatypes.S (a - hm k)) by lia. rewrite Nat.mul_succ_l. generalize ((a - hm k) * inc). intros z. lia.
    - intros a. case_decide; [lia|]. case_decide; [|apply A10]. pose proof (A10 (a + 1)). lia.
    - intros a. replace (Datatypes.S a) with (a + 1) by lia. pose proof (Hord a) as O1. pose proof (Hord (a + 1)) as O2.
      destruct (decide (a + 1 = q)) as [D1|D1]; [left; lia|]. destruct (decide (i <= a + 1 < q)) as [D2|D2].
      + pose proof (Hbig (a + 1 + 1)) as B1. rewrite decide_False by lia. destruct (decide (i <= a < q)) as [D3|D3]; [right; pose proof (Hbig (a + 1)); lia|]. lia.
      + destruct (decide (a = q)) as [->|D3]; [by left|]. rewrite decide_False by lia. done.
    - intros a b k v w Hx Hy. destruct (decide (a = q)); [done|]. destruct (decide (b = q)); [done|].
      destruct (decide (i <= a < q)), (decide (i <= b < q)); pose proof (A12 _ _ _ _ _ Hx Hy); try lia.
  Qed.

End shape.

(** And the halving of the info. *)
Lemma halve_shape {K V} (hm hi hi' : K -> nat) n N c I I' (X : nat -> option (K * V)) : 2 <= c -> shape hm hi n N (2 * c) I X -> (forall k, hi' k = hi k / 2) ->
  (forall i, i < N -> I' i = I i / 2) -> I' N = 1 -> (forall i, N < i -> I' i = 0) -> shape hm hi' n N c I' X.
Proof.
  intros Hc [A1 A2 A3 A4 A5 A6 A7 A8 A9 A10 A11 A12] Hh H1 H2 H3.
  assert (Hle : forall i, I' i <= I i / 2 + (if decide (i = N) then 1 else 0)). { intros i. destruct (Nat.lt_trichotomy i N) as [Hl|[->|Hl]]; [rewrite H1 by done; lia|rewrite H2, decide_True by done; lia|rewrite H3 by done; lia]. }
  assert (Hlt : forall i k v, X i = Some (k, v) -> i < N). { intros i k v E. destruct (Nat.lt_ge_cases i N) as [|Hl]; [done|]. rewrite A7 in E by done. done. }
  split; try done; try lia.
  - intros k. rewrite Hh. pose proof (A4 k). split; [apply Nat.div_le_lower_bound; lia|apply Nat.div_lt_upper_bound; lia].
  - intros i Hi. rewrite H1, <- A8 by done. split; [|intros ->; done]. intros E. apply Nat.div_small_iff in E; [|lia].
    destruct (X i) as [[k v]|] eqn:EX; [|by apply A8]. destruct (A9 i k v EX) as [_ E2]. pose proof (A4 k) as H4. exfalso. revert E E2. generalize ((i - hm k) * (2 * c)). intros z. lia.
  - intros i k v E. destruct (A9 i k v E) as [E1 E2]. split; [done|]. rewrite H1, E2, Hh by by eapply Hlt. rewrite (Nat.mul_comm 2 c), Nat.mul_assoc. by rewrite Nat.div_add.
  - intros i. pose proof (Hle i) as H. pose proof (A10 i). assert (I i / 2 < 128) by (apply Nat.div_lt_upper_bound; lia). case_decide; lia.
  - intros i. destruct (Nat.lt_trichotomy (S i) N) as [Hl|[E|Hl]]; [|rewrite E, H2; left; lia|rewrite H3 by done; left; lia].
    rewrite !H1 by lia. destruct (A11 i) as [H|H]; [left; apply Nat.div_lt_upper_bound; lia|right]. etransitivity; [apply Nat.div_le_mono; [done|exact H]|]. replace (2 * c) with (c * 2) by lia. by rewrite Nat.div_add.
Qed.
