(** Property C93: powers and smallest integral types. *)
From Verif Require Import Base Helpers_model Helpers_spec SmallInt_model.

Lemma for_each_snoc {A S} (f : A -> S -> res S) l x s : for_each f (l ++ [x]) s = (s ← for_each f l s; f x s).
Proof.
  revert s. induction l as [|a l IH]; intros s; cbn [app for_each].
  - rewrite bind_ok. by destruct (f x s).
  - destruct (f a s); [rewrite !bind_ok; apply IH|done|done].
Qed.

(** C93.  Unsigned powers are exact modulo the range of the type. *)
Theorem integral_power_unsigned b base e : (0 < b)%Z ->
  integralPower (u_type b) base e = Ok ((base ^ Z.of_nat e) mod 2 ^ b)%Z.
Proof.
  intros Hb. unfold integralPower. induction e as [|e IH].
  - cbn. rewrite Z.mod_small; [done|]. split; [lia|]. apply Z.pow_gt_1; lia.
  - rewrite seq_S, for_each_snoc, IH, bind_ok. unfold mul_assign. cbn [i_signed i_bits u_type].
    rewrite Nat2Z.inj_succ, Z.pow_succ_r by lia. rewrite Zmult_mod_idemp_l. f_equal. f_equal. lia.
Qed.
(** Signed powers are exact whenever the result is representable, and otherwise undefined: no
    intermediate product overflows before the result does. *)
Theorem integral_power_signed b base e : (1 < b)%Z ->
  (representable true b (base ^ Z.of_nat e) -> integralPower (i_type b) base e = Ok (base ^ Z.of_nat e)%Z) /\
  (~ representable true b (base ^ Z.of_nat e) -> integralPower (i_type b) base e = UB).
Proof.
  intros Hb. unfold representable. cbv beta iota.
  assert (P : (2 <= 2 ^ (b - 1))%Z) by (change 2%Z with (2 ^ 1)%Z at 1; apply Z.pow_le_mono_r; lia).
  unfold integralPower. induction e as [|e [IH1 IH2]].
  - cbn. split; [done|]. intros X. destruct X. lia.
  - rewrite seq_S, for_each_snoc. rewrite Nat2Z.inj_succ, Z.pow_succ_r by lia.
    set (q := (base ^ Z.of_nat e)%Z) in *. set (m := (2 ^ (b - 1))%Z) in *.
    assert (Q0 : base = 0%Z -> (q = 0 \/ q = 1)%Z).
    { intros ->. subst q. destruct e; [right; done|left; apply Z.pow_0_l; lia]. }
    assert (D : (- m <= q < m)%Z \/ ~ (- m <= q < m)%Z) by lia.
    destruct D as [D|D].
    + rewrite IH1, bind_ok by lia. unfold mul_assign, imin, imax, i_type. cbn [i_signed i_bits]. fold m.
      rewrite (Z.mul_comm q base). clearbody m. clear IH1 IH2 Q0. generalize (base * q)%Z. intros y.
      destruct (Z.leb_spec (- m) y), (Z.leb_spec y (m - 1)); cbn [andb]; split; intros X; try done; exfalso; lia.
    + rewrite IH2 by lia. split; [|done]. intros X. exfalso. apply D.
      destruct (decide (base = 0%Z)) as [Z0|N]; [destruct (Q0 Z0); lia|].
      assert (S1 : (base <= -2 \/ base = -1 \/ base = 1 \/ 2 <= base)%Z) by lia.
      destruct S1 as [S1|[->|[->|S1]]]; [nia| |nia|nia].
      assert (q = 1 \/ q = -1)%Z as [->| ->]; [|lia|lia].
      subst q. clear. induction e as [|e IH]; [by left|]. rewrite Nat2Z.inj_succ, Z.pow_succ_r by lia. lia.
Qed.

(** smallest_integral_t: the type can represent both bounds and all between them, no standard type of the
    same signedness and fewer bits can, it is signed exactly for negative lower bounds, and there
    is none exactly when no type of at most 64 bits fits. *)
Theorem smallest_integral_exact mx mn : (0 <= mx < 2 ^ 64)%Z -> (- 2 ^ 63 <= mn < 2 ^ 63)%Z ->
  match smallest_integral mx mn with
  | Some t => i_signed t = (mn <? 0)%Z /\ i_bits t ∈ [8; 16; 32; 64]%Z /\
      (forall x, (mn <= x <= mx)%Z -> representable (i_signed t) (i_bits t) x) /\
      forall b, b ∈ [8; 16; 32; 64]%Z -> (b < i_bits t)%Z ->
        ~ (representable (i_signed t) b mx /\ (i_signed t = true -> representable true b mn))
  | None => (mn < 0)%Z /\ (2 ^ 63 <= mx)%Z
  end.
Proof.
  intros Hx Hn. unfold smallest_integral, imax, imin, i_type, u_type. cbn [i_signed i_bits].
  change (2 ^ 64)%Z with 18446744073709551616%Z in *. change (2 ^ 63)%Z with 9223372036854775808%Z in *.
  change (2 ^ (8 - 1))%Z with 128%Z. change (2 ^ (16 - 1))%Z with 32768%Z. change (2 ^ (32 - 1))%Z with 2147483648%Z.
  change (2 ^ (64 - 1))%Z with 9223372036854775808%Z. change (2 ^ 8)%Z with 256%Z. change (2 ^ 16)%Z with 65536%Z. change (2 ^ 32)%Z with 4294967296%Z.
  destruct (Z.ltb_spec mn 0).
  all: repeat match goal with |- context [if (?a <=? ?b)%Z && (?c <=? ?d)%Z then _ else _] => destruct (Z.leb_spec a b), (Z.leb_spec c d); cbn [andb]
    | |- context [if (?a <=? ?b)%Z then _ else _] => destruct (Z.leb_spec a b) end.
  all: try (split; lia).
  all: try (exfalso; lia).
  all: split; [done|]; cbn [i_signed i_bits]; split; [rewrite !elem_of_cons; tauto|]; split; [intros x Hxx; unfold representable; cbn; lia|].
  all: intros b Hb Lb; rewrite !elem_of_cons, elem_of_nil in Hb; unfold representable.
  all: destruct Hb as [->|[->|[->|[->|[]]]]]; try (exfalso; lia); cbn; intros [X Y]; try specialize (Y eq_refl); lia.
Qed.

Example integral_power_example :
  integralPower (i_type 32) (-2) 31 = Ok (-2147483648)%Z /\ integralPower (i_type 32) 2 31 = UB /\
  integralPower (u_type 32) 3 21 = Ok 1870418611%Z /\ smallest_integral 300 0 = Some (u_type 16) /\
  smallest_integral 100 (-129) = Some (i_type 16) /\ smallest_integral (2 ^ 63) (-1) = None.
Proof. vm_compute. done. Qed.

Print Assumptions integral_power_unsigned.
Print Assumptions integral_power_signed.
Print Assumptions smallest_integral_exact.
