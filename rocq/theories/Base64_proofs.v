From Verif Require Import Base Base64_model Base64_spec.
From Coq Require Import Lia.
Local Open Scope N_scope.

(** ** Finite checks *)
Definition all_bytes : list N := map N.of_nat (seq 0 256).
Lemma in_all_bytes b : b < 256 -> In b all_bytes.
Proof.
  intros H. unfold all_bytes. apply in_map_iff. exists (N.to_nat b).
  split; [lia|]. apply in_seq. lia.
Qed.
Lemma check1 (P : N -> bool) :
  forallb P all_bytes = true -> forall b, b < 256 -> P b = true.
Proof. intros H b Hb. rewrite forallb_forall in H. auto using in_all_bytes. Qed.
Lemma check2 (P : N -> N -> bool) :
  forallb (fun a => forallb (P a) all_bytes) all_bytes = true ->
  forall a b, a < 256 -> b < 256 -> P a b = true.
Proof.
  intros H a b Ha Hb. rewrite forallb_forall in H.
  specialize (H a (in_all_bytes a Ha)). rewrite forallb_forall in H.
  auto using in_all_bytes.
Qed.

Definition res_eqb (r : res N) (c : N) : bool :=
  match r with Ok a => a =? c | _ => false end.
Lemma res_eqb_eq r c : res_eqb r c = true -> r = Ok c.
Proof. destruct r; simpl; try discriminate. intros ->%N.eqb_eq. reflexivity. Qed.

(** The letters RFC 4648 assigns. *)
Definition L0 (b0 : N) : N := letter (take 6 (bits_of 8 b0)).
Definition L1 (b0 b1 : N) : N := letter (drop 6 (bits_of 8 b0) ++ take 4 (bits_of 8 b1)).
Definition L2 (b1 b2 : N) : N := letter (drop 4 (bits_of 8 b1) ++ take 2 (bits_of 8 b2)).
Definition L3 (b2 : N) : N := letter (drop 2 (bits_of 8 b2)).

Lemma enc0_ok b0 : b0 < 256 -> enc0 b0 = Ok (L0 b0).
Proof.
  intros H. apply res_eqb_eq.
  apply (check1 (fun b0 => res_eqb (enc0 b0) (L0 b0))); [vm_compute; reflexivity|exact H].
Qed.
(** Code points of the second and third letter, by bit lists. *)
Lemma bits_len n x : List.length (bits_of n x) = n.
Proof. induction n; simpl; congruence. Qed.
Lemma lo2 b : b < 256 -> N.land b 3 = value_of (drop 6 (bits_of 8 b)).
Proof.
  intros H. apply N.eqb_eq.
  apply (check1 (fun b => N.land b 3 =? value_of (drop 6 (bits_of 8 b)))); [vm_compute; reflexivity|exact H].
Qed.
Lemma hi4 b : b < 256 -> N.shiftr b 4 = value_of (take 4 (bits_of 8 b)).
Proof.
  intros H. apply N.eqb_eq.
  apply (check1 (fun b => N.shiftr b 4 =? value_of (take 4 (bits_of 8 b)))); [vm_compute; reflexivity|exact H].
Qed.
Lemma lo4 b : b < 256 -> N.land b 15 = value_of (drop 4 (bits_of 8 b)).
Proof.
  intros H. apply N.eqb_eq.
  apply (check1 (fun b => N.land b 15 =? value_of (drop 4 (bits_of 8 b)))); [vm_compute; reflexivity|exact H].
Qed.
Lemma hi2 b : b < 256 -> N.shiftr b 6 = value_of (take 2 (bits_of 8 b)).
Proof.
  intros H. apply N.eqb_eq.
  apply (check1 (fun b => N.shiftr b 6 =? value_of (take 2 (bits_of 8 b)))); [vm_compute; reflexivity|exact H].
Qed.
Lemma cp1 x y : List.length x = 2%nat -> List.length y = 4%nat ->
  N.lor ((N.shiftl (value_of x) 4) `mod` 256) (value_of y) = value_of (x ++ y)
  /\ 16 * value_of x + value_of y = value_of (x ++ y) /\ value_of (x ++ y) < 64.
Proof.
  intros Hx Hy.
  destruct x as [|x0 [|x1 [|]]]; try discriminate Hx.
  destruct y as [|y0 [|y1 [|y2 [|y3 [|]]]]]; try discriminate Hy.
  destruct x0, x1, y0, y1, y2, y3; vm_compute; auto.
Qed.
Lemma cp2 x y : List.length x = 4%nat -> List.length y = 2%nat ->
  N.lor ((N.shiftl (value_of x) 2) `mod` 256) (value_of y) = value_of (x ++ y)
  /\ 4 * value_of x + value_of y = value_of (x ++ y) /\ value_of (x ++ y) < 64.
Proof.
  intros Hx Hy.
  destruct y as [|y0 [|y1 [|]]]; try discriminate Hy.
  destruct x as [|x0 [|x1 [|x2 [|x3 [|]]]]]; try discriminate Hx.
  destruct y0, y1, x0, x1, x2, x3; vm_compute; auto.
Qed.
Lemma len_hi n b : (n <= 8)%nat -> List.length (take n (bits_of 8 b)) = n.
Proof. intros H. rewrite take_length, bits_len. lia. Qed.
Lemma len_lo n b : List.length (drop n (bits_of 8 b)) = (8 - n)%nat.
Proof. rewrite drop_length, bits_len. reflexivity. Qed.
Lemma table_ok g : List.length g = 6%nat -> table_at (value_of g) = Ok (letter g).
Proof.
  intros Hg. destruct g as [|a1 [|a2 [|a3 [|a4 [|a5 [|a6 [|]]]]]]]; try discriminate Hg.
  destruct a1, a2, a3, a4, a5, a6; vm_compute; reflexivity.
Qed.
Lemma ascii_ok g : List.length g = 6%nat -> to_ascii1 (value_of g) = letter g.
Proof.
  intros Hg. destruct g as [|a1 [|a2 [|a3 [|a4 [|a5 [|a6 [|]]]]]]]; try discriminate Hg.
  destruct a1, a2, a3, a4, a5, a6; vm_compute; reflexivity.
Qed.
Lemma enc1_ok b0 b1 : b0 < 256 -> b1 < 256 -> enc1 b0 b1 = Ok (L1 b0 b1).
Proof.
  intros H H'. unfold enc1, L1. rewrite lo2, hi4 by assumption.
  destruct (cp1 (drop 6 (bits_of 8 b0)) (take 4 (bits_of 8 b1))) as [-> _];
    [apply len_lo|apply len_hi; lia|].
  apply table_ok. rewrite app_length, len_lo, len_hi by lia. reflexivity.
Qed.
Lemma enc2_ok b1 b2 : b1 < 256 -> b2 < 256 -> enc2 b1 b2 = Ok (L2 b1 b2).
Proof.
  intros H H'. unfold enc2, L2. rewrite lo4, hi2 by assumption.
  destruct (cp2 (drop 4 (bits_of 8 b1)) (take 2 (bits_of 8 b2))) as [-> _];
    [apply len_lo|apply len_hi; lia|].
  apply table_ok. rewrite app_length, len_lo, len_hi by lia. reflexivity.
Qed.
Lemma enc3_ok b2 : b2 < 256 -> enc3 b2 = Ok (L3 b2).
Proof.
  intros H. apply res_eqb_eq.
  apply (check1 (fun b0 => res_eqb (enc3 b0) (L3 b0))); [vm_compute; reflexivity|exact H].
Qed.

(** ** The RFC text, three bytes at a time *)
Lemma groups_fuel_enough k bs f1 f2 :
  (0 < k)%nat -> (List.length bs <= f1)%nat -> (List.length bs <= f2)%nat ->
  groups_fuel f1 k bs = groups_fuel f2 k bs.
Proof.
  intros Hk. revert bs f2. induction f1 as [|f1 IH]; intros bs f2 H1 H2.
  - destruct bs; [|simpl in H1; lia]. destruct f2; reflexivity.
  - destruct f2 as [|f2].
    + destruct bs; [reflexivity|simpl in H2; lia].
    + destruct bs as [|b bs]; [reflexivity|]. cbn [groups_fuel]. f_equal.
      apply IH; rewrite drop_length; simpl in *; lia.
Qed.
Lemma groups6_app g bs : List.length g = 6%nat ->
  groups6 (g ++ bs) = g :: groups6 bs.
Proof.
  intros Hg. destruct g as [|a1 [|a2 [|a3 [|a4 [|a5 [|a6 [|]]]]]]]; try discriminate Hg.
  unfold groups6.
  transitivity ([a1;a2;a3;a4;a5;a6] :: groups_fuel (5 + List.length bs) 6 (drop 0 bs)); [reflexivity|].
  f_equal. rewrite drop_0. apply groups_fuel_enough; lia.
Qed.

Definition text (l : list N) : list N := map letter (groups6 (flat_map (bits_of 8) l)).
Lemma bits8_split b : exists a0 a1 a2 a3 a4 a5 a6 a7,
  bits_of 8 b = [a0;a1;a2;a3;a4;a5;a6;a7].
Proof. cbn. repeat eexists. Qed.
Lemma text_cons3 b0 b1 b2 l :
  text (b0 :: b1 :: b2 :: l) = L0 b0 :: L1 b0 b1 :: L2 b1 b2 :: L3 b2 :: text l.
Proof.
  unfold text, L0, L1, L2, L3. cbn [flat_map].
  destruct (bits8_split b0) as (x0&x1&x2&x3&x4&x5&x6&x7&->).
  destruct (bits8_split b1) as (y0&y1&y2&y3&y4&y5&y6&y7&->).
  destruct (bits8_split b2) as (z0&z1&z2&z3&z4&z5&z6&z7&->).
  change ([x0;x1;x2;x3;x4;x5;x6;x7] ++ [y0;y1;y2;y3;y4;y5;y6;y7]
           ++ [z0;z1;z2;z3;z4;z5;z6;z7] ++ flat_map (bits_of 8) l)
    with ([x0;x1;x2;x3;x4;x5] ++ [x6;x7;y0;y1;y2;y3] ++ [y4;y5;y6;y7;z0;z1]
          ++ [z2;z3;z4;z5;z6;z7] ++ flat_map (bits_of 8) l).
  rewrite !groups6_app by reflexivity. reflexivity.
Qed.
Lemma text_1 b : b < 256 -> text [b] = [L0 b; L1 b 0].
Proof.
  intros _. unfold text, L0, L1. cbn [flat_map].
  destruct (bits8_split b) as (x0&x1&x2&x3&x4&x5&x6&x7&->). reflexivity.
Qed.
Lemma text_2 a b : text [a; b] = [L0 a; L1 a b; L2 b 0].
Proof.
  unfold text, L0, L1, L2. cbn [flat_map].
  destruct (bits8_split a) as (x0&x1&x2&x3&x4&x5&x6&x7&->).
  destruct (bits8_split b) as (y0&y1&y2&y3&y4&y5&y6&y7&->). reflexivity.
Qed.

(** Induction over lists in steps of three. *)
Lemma list_ind3 {A} (P : list A -> Prop) :
  P [] -> (forall a, P [a]) -> (forall a b, P [a; b]) ->
  (forall a b c l, P l -> P (a :: b :: c :: l)) -> forall l, P l.
Proof.
  intros H0 H1 H2 H3. fix IH 1.
  intros [|a [|b [|c l]]]; [exact H0|apply H1|apply H2|apply H3, IH].
Qed.

Lemma text_length l :
  List.length (text l) = (List.length l / 3 * 4 +
     match List.length l mod 3 with O => 0 | 1 => 2 | _ => 3 end)%nat.
Proof.
  induction l as [|a|a b|a b c l IH] using list_ind3.
  - reflexivity.
  - unfold text. cbn [flat_map]. destruct (bits8_split a) as (?&?&?&?&?&?&?&?&->). reflexivity.
  - rewrite text_2. reflexivity.
  - rewrite text_cons3. cbn [List.length]. rewrite IH.
    replace (S (S (S (List.length l)))) with (List.length l + 1 * 3)%nat by lia.
    rewrite Nat.div_add, Nat.mod_add by lia. lia.
Qed.

Lemma rfc_cons3 b0 b1 b2 l :
  rfc4648_encode (b0 :: b1 :: b2 :: l)
  = [L0 b0; L1 b0 b1; L2 b1 b2; L3 b2] ++ rfc4648_encode l.
Proof.
  unfold rfc4648_encode. fold (text (b0 :: b1 :: b2 :: l)). fold (text l).
  rewrite text_cons3. cbn [List.length app]. do 4 f_equal. f_equal. f_equal.
  replace (S (S (S (S (List.length (text l)))))) with (List.length (text l) + 1 * 4)%nat by lia.
  rewrite Nat.mod_add by lia. reflexivity.
Qed.
Lemma rfc_1 b : b < 256 -> rfc4648_encode [b] = [L0 b; L1 b 0; 61; 61].
Proof. intros H. unfold rfc4648_encode. fold (text [b]). rewrite text_1 by exact H. reflexivity. Qed.
Lemma rfc_2 a b : rfc4648_encode [a; b] = [L0 a; L1 a b; L2 b 0; 61].
Proof. unfold rfc4648_encode. fold (text [a; b]). rewrite text_2. reflexivity. Qed.
Lemma rfc_nil : rfc4648_encode [] = [].
Proof. reflexivity. Qed.
Lemma rfc_app l1 l2 : (List.length l1 mod 3 = 0)%nat ->
  rfc4648_encode (l1 ++ l2) = rfc4648_encode l1 ++ rfc4648_encode l2.
Proof.
  induction l1 as [|a|a b|a b c l IH] using list_ind3; intros H; try discriminate H.
  - reflexivity.
  - cbn [app]. rewrite !rfc_cons3. cbn [app]. rewrite IH; [reflexivity|].
    cbn [List.length] in H.
    replace (S (S (S (List.length l)))) with (List.length l + 1 * 3)%nat in H by lia.
    rewrite Nat.mod_add in H by lia. exact H.
Qed.
Lemma rfc_length l : List.length (rfc4648_encode l) = getBase64EncodingSize 1 (List.length l).
Proof.
  induction l as [|a|a b|a b c l IH] using list_ind3.
  - reflexivity.
  - unfold rfc4648_encode. fold (text [a]). rewrite app_length, replicate_length, text_length. reflexivity.
  - rewrite rfc_2. reflexivity.
  - rewrite rfc_cons3. cbn [List.length app]. rewrite IH. unfold getBase64EncodingSize.
    rewrite !Nat.mul_1_r.
    replace (S (S (S (List.length l)))) with (List.length l + 1 * 3)%nat by lia.
    rewrite Nat.div_add, Nat.mod_add by lia. lia.
Qed.
Lemma size_scale T n : getBase64EncodingSize T n = getBase64EncodingSize 1 (n * T).
Proof. unfold getBase64EncodingSize. rewrite Nat.mul_1_r. reflexivity. Qed.

(** ** Writing text into the buffer *)
(** [buf] with [t] written at position [o]. *)
Definition put (buf : list N) (o : nat) (t : list N) : list N :=
  take o buf ++ t ++ drop (o + List.length t) buf.
Lemma put_length buf o t : (o + List.length t <= List.length buf)%nat ->
  List.length (put buf o t) = List.length buf.
Proof. intros H. unfold put. rewrite !app_length, take_length, drop_length. lia. Qed.
Lemma put_nil buf o : put buf o [] = buf.
Proof. unfold put. cbn. rewrite Nat.add_0_r. apply take_drop. Qed.
Lemma put_app buf o t1 t2 : (o + List.length t1 + List.length t2 <= List.length buf)%nat ->
  put (put buf o t1) (o + List.length t1) t2 = put buf o (t1 ++ t2).
Proof.
  intros H. unfold put.
  rewrite (app_assoc (take o buf) t1 (drop _ buf)).
  rewrite (take_app_alt (take o buf ++ t1));
    [|rewrite app_length, take_length; lia].
  rewrite <- !app_assoc. do 2 f_equal. f_equal.
  rewrite app_length.
  rewrite (app_assoc (take o buf) t1).
  rewrite drop_app_ge; rewrite app_length, take_length; [|lia].
  rewrite drop_drop. f_equal. lia.
Qed.
Lemma wr_put buf o c : (o < List.length buf)%nat -> wr buf o c = Ok (put buf o [c]).
Proof.
  intros H. rewrite wr_ok by exact H. f_equal. unfold put. cbn.
  rewrite insert_take_drop by exact H. rewrite Nat.add_1_r. reflexivity.
Qed.
Lemma emit_put buf o c : (o < List.length buf)%nat ->
  emit c (buf, o) = Ok (put buf o [c], S o).
Proof. intros H. unfold emit. cbn [fst snd]. rewrite wr_put by exact H. reflexivity. Qed.
Lemma emit_more buf o t c n : (o + List.length t < List.length buf)%nat ->
  n = (o + List.length t)%nat ->
  emit c (put buf o t, n) = Ok (put buf o (t ++ [c]), S n).
Proof.
  intros H ->. rewrite emit_put by (rewrite put_length; lia).
  rewrite put_app by (cbn [List.length app]; lia). reflexivity.
Qed.

(** ** Scalar loop *)
Lemma drop_cons {A} (l : list A) i x : l !! i = Some x -> drop i l = x :: drop (S i) l.
Proof. apply drop_S. Qed.

Lemma is_bytes_drop n l : is_bytes l -> is_bytes (drop n l).
Proof. apply Forall_drop. Qed.
Lemma is_bytes_take n l : is_bytes l -> is_bytes (take n l).
Proof. apply Forall_take. Qed.

Lemma drop_lookup_3 (data : list N) i : (i + 3 <= List.length data)%nat ->
  exists b0 b1 b2, data !! i = Some b0 /\ data !! (i + 1)%nat = Some b1
    /\ data !! (i + 2)%nat = Some b2 /\ drop i data = b0 :: b1 :: b2 :: drop (i + 3) data.
Proof.
  intros H.
  destruct (lookup_lt_is_Some_2 data i ltac:(lia)) as [b0 E0].
  destruct (lookup_lt_is_Some_2 data (i + 1) ltac:(lia)) as [b1 E1].
  destruct (lookup_lt_is_Some_2 data (i + 2) ltac:(lia)) as [b2 E2].
  exists b0, b1, b2. do 3 (split; [assumption|]).
  rewrite (drop_S _ _ _ E0). rewrite Nat.add_1_r in E1. rewrite (drop_S _ _ _ E1).
  replace (i + 2)%nat with (S (S i)) in E2 by lia.
  rewrite (drop_S _ _ _ E2). do 3 f_equal. f_equal. lia.
Qed.

Definition full3 (n : nat) : nat := (n / 3 * 3)%nat.

Lemma serial_loop_ok : forall fuel data i buf o,
  is_bytes data -> (List.length data - i < fuel)%nat -> (i <= List.length data)%nat ->
  let m := full3 (List.length data - i) in
  (o + List.length (rfc4648_encode (take m (drop i data))) <= List.length buf)%nat ->
  serial_loop fuel data i (buf, o) =
    Ok ((i + m)%nat, (put buf o (rfc4648_encode (take m (drop i data))),
                      (o + List.length (rfc4648_encode (take m (drop i data))))%nat)).
Proof.
  induction fuel as [|fuel IH]; intros data i buf o Hb Hf Hi m Hbuf; [lia|].
  cbn [serial_loop].
  destruct (Nat.leb_spec (i + 3) (List.length data)) as [Hle|Hgt].
  - destruct (drop_lookup_3 data i Hle) as (b0 & b1 & b2 & E0 & E1 & E2 & Ed).
    assert (Hb0 : b0 < 256) by (eapply Forall_lookup in Hb; [exact Hb|exact E0]).
    assert (Hb1 : b1 < 256) by (eapply Forall_lookup in Hb; [exact Hb|exact E1]).
    assert (Hb2 : b2 < 256) by (eapply Forall_lookup in Hb; [exact Hb|exact E2]).
    assert (Hm : m = (3 + full3 (List.length data - (i + 3)))%nat).
    { unfold m, full3.
      replace (List.length data - i)%nat with ((List.length data - (i + 3)) + 1 * 3)%nat by lia.
      rewrite Nat.div_add by lia. lia. }
    clearbody m. subst m.
    set (m' := full3 (List.length data - (i + 3))) in *.
    rewrite Ed in Hbuf |- *. cbn [Nat.add take] in Hbuf |- *.
    rewrite rfc_cons3 in Hbuf |- *. cbn [app List.length] in Hbuf |- *.
    rewrite (rd_ok _ _ _ E0), (rd_ok _ _ _ E1), (rd_ok _ _ _ E2). cbn [mbind res_bind].
    rewrite enc0_ok, enc1_ok, enc2_ok, enc3_ok by assumption. cbn [mbind res_bind].
    rewrite emit_put by lia. cbn [mbind res_bind].
    rewrite emit_more by (cbn [List.length app]; lia). cbn [mbind res_bind app].
    rewrite emit_more by (cbn [List.length app]; lia). cbn [mbind res_bind app].
    rewrite emit_more by (cbn [List.length app]; lia). cbn [mbind res_bind app].
    rewrite IH; [|assumption|lia|lia| fold m'; rewrite put_length by (cbn [List.length app]; lia); lia].
    fold m'. f_equal. f_equal; [lia|]. f_equal; [|lia].
    replace (S (S (S (S o)))) with (o + List.length [L0 b0; L1 b0 b1; L2 b1 b2; L3 b2])%nat by (cbn [List.length app]; lia).
    rewrite put_app by (cbn [List.length app]; lia). reflexivity.
  - assert (m = 0%nat) as -> by (unfold m, full3; rewrite Nat.div_small by lia; reflexivity).
    cbn [take]. change (rfc4648_encode []) with (@nil N). cbn [List.length].
    rewrite put_nil, !Nat.add_0_r. reflexivity.
Qed.

Lemma full3_le n : (full3 n <= n)%nat.
Proof. unfold full3. pose proof (Nat.div_mod n 3). lia. Qed.
Lemma full3_mod n : (full3 n mod 3 = 0)%nat.
Proof. unfold full3. apply Nat.mod_mul. lia. Qed.

Lemma serial_ok data buf o :
  is_bytes data ->
  let m := full3 (List.length data) in
  (o + List.length (rfc4648_encode (take m data)) <= List.length buf)%nat ->
  encB64SerialImpl data (buf, o) =
    Ok (m, (put buf o (rfc4648_encode (take m data)),
            (o + List.length (rfc4648_encode (take m data)))%nat)).
Proof.
  intros Hb m H. unfold encB64SerialImpl.
  assert (Em : full3 (List.length data - 0) = m) by (unfold m; f_equal; lia).
  rewrite serial_loop_ok; [|exact Hb|lia|lia|rewrite Em; exact H].
  rewrite Em. rewrite drop_0. reflexivity.
Qed.

Lemma remainder_ok data buf o :
  is_bytes data -> (List.length data < 3)%nat ->
  (o + List.length (rfc4648_encode data) <= List.length buf)%nat ->
  encB64Remainder data (buf, o) =
    Ok (put buf o (rfc4648_encode data), (o + List.length (rfc4648_encode data))%nat).
Proof.
  intros Hb Hl H. destruct data as [|a [|b [|c data]]]; simpl in Hl; [| | |lia].
  - cbn. rewrite put_nil, Nat.add_0_r. reflexivity.
  - inversion_clear Hb. rewrite rfc_1 in H |- * by assumption. cbn [List.length] in H |- *.
    cbn [encB64Remainder]. rewrite enc0_ok, enc1_ok by (assumption || lia). cbn [mbind res_bind].
    rewrite emit_put by lia. cbn [mbind res_bind].
    rewrite emit_more by (cbn [List.length app]; lia). cbn [mbind res_bind app].
    rewrite emit_more by (cbn [List.length app]; lia). cbn [mbind res_bind app].
    rewrite emit_more by (cbn [List.length app]; lia). cbn [mbind res_bind app].
    do 2 f_equal. lia.
  - inversion_clear Hb as [|? ? Ha Hb']. inversion_clear Hb'. rewrite rfc_2 in H |- *.
    cbn [List.length] in H |- *.
    cbn [encB64Remainder]. rewrite enc0_ok, enc1_ok, enc2_ok by (assumption || lia). cbn [mbind res_bind].
    rewrite emit_put by lia. cbn [mbind res_bind].
    rewrite emit_more by (cbn [List.length app]; lia). cbn [mbind res_bind app].
    rewrite emit_more by (cbn [List.length app]; lia). cbn [mbind res_bind app].
    rewrite emit_more by (cbn [List.length app]; lia). cbn [mbind res_bind app].
    do 2 f_equal. lia.
Qed.

(** ** AVX2 block *)
Definition u16 (c0 c1 c2 c3 s : N) : N :=
  N.lor (mulhi_epu16 (N.land s c0) c1) (mullo_epi16 (N.land s c2) c3).
Lemma testbit_lo_hi lo hi n : lo < 256 ->
  N.testbit (lo + 256 * hi) n = if n <? 8 then N.testbit lo n else N.testbit hi (n - 8).
Proof.
  intros H. replace (lo + 256 * hi) with (N.lor lo (N.shiftl hi 8)).
  - rewrite N.lor_spec. destruct (N.ltb_spec n 8).
    + rewrite N.shiftl_spec_low by assumption. apply orb_false_r.
    + rewrite N.shiftl_spec_high' by assumption.
      replace (N.testbit lo n) with false; [reflexivity|].
      symmetry. destruct (N.eq_dec lo 0) as [->|Hz]; [apply N.bits_0|].
      apply N.bits_above_log2. apply N.lt_le_trans with 8; [|assumption].
      apply N.log2_lt_pow2; [lia|]. exact H.
  - rewrite <- N.lxor_lor, <- N.add_nocarry_lxor.
    + rewrite N.shiftl_mul_pow2. change (2 ^ 8) with 256. lia.
    + apply N.bits_inj_0. intros k. rewrite N.land_spec.
      destruct (N.ltb_spec k 8).
      * rewrite N.shiftl_spec_low by assumption. apply andb_false_r.
      * replace (N.testbit lo k) with false; [reflexivity|].
        symmetry. destruct (N.eq_dec lo 0) as [->|Hz]; [apply N.bits_0|].
        apply N.bits_above_log2. apply N.lt_le_trans with 8; [|assumption].
        apply N.log2_lt_pow2; [lia|]. exact H.
    + apply N.bits_inj_0. intros k. rewrite N.land_spec.
      destruct (N.ltb_spec k 8).
      * rewrite N.shiftl_spec_low by assumption. apply andb_false_r.
      * replace (N.testbit lo k) with false; [reflexivity|].
        symmetry. destruct (N.eq_dec lo 0) as [->|Hz]; [apply N.bits_0|].
        apply N.bits_above_log2. apply N.lt_le_trans with 8; [|assumption].
        apply N.log2_lt_pow2; [lia|]. exact H.
Qed.
Lemma land_lt_256 a b : a < 256 -> N.land a b < 256.
Proof.
  intros H. destruct (N.eq_dec (N.land a b) 0) as [->|Hz]; [lia|].
  apply (N.log2_lt_pow2 _ 8); [lia|].
  apply N.le_lt_trans with (N.log2 a).
  - etransitivity; [apply N.log2_land|lia].
  - destruct (N.eq_dec a 0) as [->|]; [rewrite N.land_0_l in Hz; lia|].
    apply N.log2_lt_pow2; [lia|exact H].
Qed.
Lemma land_lo_hi lo hi mlo mhi : lo < 256 -> mlo < 256 ->
  N.land (lo + 256 * hi) (mlo + 256 * mhi) = N.land lo mlo + 256 * N.land hi mhi.
Proof.
  intros H H'. apply N.bits_inj. intros n.
  rewrite N.land_spec, !testbit_lo_hi by (assumption || apply land_lt_256; assumption).
  destruct (n <? 8); rewrite N.land_spec; reflexivity.
Qed.
Lemma lor_lo_hi lo hi lo' hi' : lo < 256 -> lo' < 256 -> N.lor lo lo' < 256 ->
  N.lor (lo + 256 * hi) (lo' + 256 * hi') = N.lor lo lo' + 256 * N.lor hi hi'.
Proof.
  intros H H' H''. apply N.bits_inj. intros n.
  rewrite N.lor_spec, !testbit_lo_hi by assumption.
  destruct (n <? 8); rewrite N.lor_spec; reflexivity.
Qed.
(** low half word: bytes d1,d0 (little endian) -> letters 0 and 1 *)
Lemma byte_facts b : b < 256 ->
  N.land b 0xfc / 4 = value_of (take 6 (bits_of 8 b)) /\
  N.land b 0xf0 / 16 = value_of (take 4 (bits_of 8 b)) /\
  N.land b 0xf0 `mod` 16 = 0 /\
  N.land b 0x3 = value_of (drop 6 (bits_of 8 b)) /\
  N.land b 0xc0 / 64 = value_of (take 2 (bits_of 8 b)) /\
  N.land b 0xc0 `mod` 64 = 0 /\
  N.land b 0x0f = value_of (drop 4 (bits_of 8 b)) /\
  N.land b 0x3f = value_of (drop 2 (bits_of 8 b)) /\
  N.land b 0xfc < 256 /\ N.land b 0xf0 < 256 /\ N.land b 3 < 4 /\ N.land b 15 < 16 /\ N.land b 63 < 64 /\ N.land b 0xc0 < 256.
Proof.
  intros H.
  pose proof (check1 (fun b =>
    (N.land b 0xfc / 4 =? value_of (take 6 (bits_of 8 b))) &&
    (N.land b 0xf0 / 16 =? value_of (take 4 (bits_of 8 b))) &&
    (N.land b 0xf0 `mod` 16 =? 0) &&
    (N.land b 0x3 =? value_of (drop 6 (bits_of 8 b))) &&
    (N.land b 0xc0 / 64 =? value_of (take 2 (bits_of 8 b))) &&
    (N.land b 0xc0 `mod` 64 =? 0) &&
    (N.land b 0x0f =? value_of (drop 4 (bits_of 8 b))) &&
    (N.land b 0x3f =? value_of (drop 2 (bits_of 8 b))) &&
    (N.land b 0xfc <? 256) && (N.land b 0xf0 <? 256) && (N.land b 3 <? 4)
    && (N.land b 15 <? 16) && (N.land b 63 <? 64) && (N.land b 0xc0 <? 256))
    ltac:(vm_compute; reflexivity) b H) as C.
  cbv beta in C. rewrite !andb_true_iff, !N.eqb_eq, !N.ltb_lt in C. tauto.
Qed.
Lemma div_mod_256 a b : a < 256 -> (a + 256 * b) `mod` 256 = a /\ (a + 256 * b) / 256 = b.
Proof.
  intros H. split.
  - symmetry. apply N.mod_unique with b; lia.
  - symmetry. apply N.div_unique with a; lia.
Qed.
Lemma half_lo d0 d1 : d0 < 256 -> d1 < 256 ->
  let w := u16 0xfc00 0x0040 0x03f0 0x0010 (d1 + 256 * d0) in
  to_ascii1 (w `mod` 256) = L0 d0 /\ to_ascii1 (w / 256) = L1 d0 d1.
Proof.
  intros H0 H1 w. destruct (byte_facts d0 H0) as (A1&_&_&A2&_&_&_&_&A3&_&A4&_).
  destruct (byte_facts d1 H1) as (_&B1&B2&_&_&_&_&_&_&B3&_).
  destruct (cp1 (drop 6 (bits_of 8 d0)) (take 4 (bits_of 8 d1))) as (_ & C & _);
    [apply len_lo|apply len_hi; lia|].
  assert (E : w = value_of (take 6 (bits_of 8 d0))
                + 256 * value_of (drop 6 (bits_of 8 d0) ++ take 4 (bits_of 8 d1))
              /\ value_of (take 6 (bits_of 8 d0)) < 256).
  { unfold w, u16.
    change 0xfc00 with (0 + 256 * 0xfc). change 0x03f0 with (0xf0 + 256 * 0x3).
    rewrite !land_lo_hi by lia. rewrite N.land_0_r.
    unfold mulhi_epu16, mullo_epi16. rewrite <- A1, <- C, <- A2, <- B1.
    set (x := N.land d0 0xfc) in *. set (y := N.land d1 0xf0) in *. set (z := N.land d0 3) in *.
    pose proof (N.div_mod y 16 ltac:(lia)) as Dy. rewrite B2 in Dy.
    assert (x / 4 < 64) by (apply N.div_lt_upper_bound; lia).
    assert (y / 16 < 16) by (apply N.div_lt_upper_bound; lia).
    split; [|lia].
    replace ((0 + 256 * x) * 64) with (x * 16384) by lia.
    change 65536 with (4 * 16384) at 1. rewrite N.div_mul_cancel_r by lia.
    rewrite N.mod_small by lia.
    replace ((y + 256 * z) * 16) with (0 + 256 * (16 * z + y / 16)) by lia.
    replace (x / 4) with (x / 4 + 256 * 0) at 1 by lia.
    rewrite lor_lo_hi by (rewrite ?N.lor_0_r; lia).
    rewrite N.lor_0_r, N.lor_0_l. reflexivity. }
  destruct E as [-> Hlt].
  destruct (div_mod_256 (value_of (take 6 (bits_of 8 d0)))
    (value_of (drop 6 (bits_of 8 d0) ++ take 4 (bits_of 8 d1))) Hlt) as [-> ->].
  split; apply ascii_ok; [apply len_hi; lia|].
  rewrite app_length, len_lo, len_hi by lia. reflexivity.
Qed.
Lemma half_hi d1 d2 : d1 < 256 -> d2 < 256 ->
  let w := u16 0x0fc0 0x0400 0x003f 0x0100 (d2 + 256 * d1) in
  to_ascii1 (w `mod` 256) = L2 d1 d2 /\ to_ascii1 (w / 256) = L3 d2.
Proof.
  intros H1 H2 w. destruct (byte_facts d1 H1) as (_&_&_&_&_&_&A1&_&_&_&_&A2&_).
  destruct (byte_facts d2 H2) as (_&_&_&_&B1&B2&_&B3&_&_&_&_&B4&B5).
  destruct (cp2 (drop 4 (bits_of 8 d1)) (take 2 (bits_of 8 d2))) as (_ & C & C');
    [apply len_lo|apply len_hi; lia|].
  assert (E : w = value_of (drop 4 (bits_of 8 d1) ++ take 2 (bits_of 8 d2))
                + 256 * value_of (drop 2 (bits_of 8 d2))).
  { unfold w, u16.
    change 0x0fc0 with (0xc0 + 256 * 0x0f). change 0x003f with (0x3f + 256 * 0).
    rewrite !land_lo_hi by lia. rewrite N.land_0_r.
    unfold mulhi_epu16, mullo_epi16. rewrite <- C, <- A1, <- B1, <- B3.
    set (x := N.land d1 15) in *. set (y := N.land d2 0xc0) in *. set (z := N.land d2 0x3f) in *.
    pose proof (N.div_mod y 64 ltac:(lia)) as Dy. rewrite B2 in Dy.
    assert (y / 64 < 4) by (apply N.div_lt_upper_bound; lia).
    replace ((y + 256 * x) * 1024) with ((4 * x + y / 64) * 65536) by lia.
    rewrite N.div_mul by lia. rewrite N.mod_small by lia.
    replace ((z + 256 * 0) * 256) with (0 + 256 * z) by lia.
    replace (4 * x + y / 64) with (4 * x + y / 64 + 256 * 0) at 1 by lia.
    rewrite lor_lo_hi by (rewrite ?N.lor_0_r; lia).
    rewrite N.lor_0_r, N.lor_0_l. reflexivity. }
  rewrite E.
  destruct (div_mod_256 (value_of (drop 4 (bits_of 8 d1) ++ take 2 (bits_of 8 d2)))
    (value_of (drop 2 (bits_of 8 d2))) ltac:(lia)) as [-> ->].
  split; apply ascii_ok.
  - rewrite app_length, len_lo, len_hi by lia. reflexivity.
  - apply len_lo.
Qed.

Lemma list24 (d : list N) : List.length d = 24%nat ->
  exists d0 d1 d2 d3 d4 d5 d6 d7 d8 d9 d10 d11 d12 d13 d14 d15 d16 d17 d18 d19 d20 d21 d22 d23,
  d = [d0;d1;d2;d3;d4;d5;d6;d7;d8;d9;d10;d11;d12;d13;d14;d15;d16;d17;d18;d19;d20;d21;d22;d23].
Proof.
  intros H. do 24 (destruct d as [|? d]; [discriminate H|]). destruct d; [|discriminate H].
  repeat eexists.
Qed.

Lemma simd_words d0 d1 d2 d3 d4 d5 d6 d7 d8 d9 d10 d11 d12 d13 d14 d15 d16 d17 d18 d19 d20 d21 d22 d23 :
  let lo := u16 0xfc00 0x0040 0x03f0 0x0010 in
  let hi := u16 0x0fc0 0x0400 0x003f 0x0100 in
  unpack_lo6 ([0;0;0;0] ++ [d0;d1;d2;d3;d4;d5;d6;d7;d8;d9;d10;d11;d12;d13;d14;d15;d16;d17;d18;d19;d20;d21;d22;d23] ++ [0;0;0;0])
  = bytes16 [lo (d1 + 256 * d0); hi (d2 + 256 * d1);
             lo (d4 + 256 * d3); hi (d5 + 256 * d4);
             lo (d7 + 256 * d6); hi (d8 + 256 * d7);
             lo (d10 + 256 * d9); hi (d11 + 256 * d10);
             lo (d13 + 256 * d12); hi (d14 + 256 * d13);
             lo (d16 + 256 * d15); hi (d17 + 256 * d16);
             lo (d19 + 256 * d18); hi (d20 + 256 * d19);
             lo (d22 + 256 * d21); hi (d23 + 256 * d22)].
Proof. reflexivity. Qed.

Lemma simd_block_ok d : List.length d = 24%nat -> is_bytes d ->
  to_ascii (unpack_lo6 ([0;0;0;0] ++ d ++ [0;0;0;0])) = rfc4648_encode d.
Proof.
  intros Hl Hb. apply list24 in Hl.
  destruct Hl as (d0&d1&d2&d3&d4&d5&d6&d7&d8&d9&d10&d11&d12&d13&d14&d15&d16&d17&d18&d19&d20&d21&d22&d23&->).
  rewrite simd_words. rewrite !rfc_cons3, rfc_nil.
  unfold is_bytes in Hb. rewrite !Forall_cons in Hb.
  destruct Hb as (H0&H1&H2&H3&H4&H5&H6&H7&H8&H9&H10&H11&H12&H13&H14&H15&H16&H17&H18&H19&H20&H21&H22&H23&_).
  unfold to_ascii, bytes16. cbn [flat_map map app].
  repeat match goal with
  | |- context [to_ascii1 (u16 64512 64 1008 16 (?b + 256 * ?a) `mod` 256)] =>
    let E1 := fresh in let E2 := fresh in
    destruct (half_lo a b ltac:(assumption) ltac:(assumption)) as [E1 E2];
    rewrite E1, E2; clear E1 E2
  | |- context [to_ascii1 (u16 4032 1024 63 256 (?b + 256 * ?a) `mod` 256)] =>
    let E1 := fresh in let E2 := fresh in
    destruct (half_hi a b ltac:(assumption) ltac:(assumption)) as [E1 E2];
    rewrite E1, E2; clear E1 E2
  end.
  reflexivity.
Qed.

Lemma load24_ok data start : (start + 24 <= List.length data)%nat ->
  load24 data start = Ok ([0;0;0;0] ++ take 24 (drop start data) ++ [0;0;0;0]).
Proof.
  intros H. unfold load24.
  rewrite (map_res_ok _ (fun k => nth (start + k) data 0)).
  - cbn [mbind res_bind]. do 3 f_equal.
    apply nth_ext with (d := 0) (d' := 0).
    + rewrite map_length, seq_length, take_length, drop_length. lia.
    + intros n Hn. rewrite map_length, seq_length in Hn.
      rewrite (nth_indep _ 0 (nth (start + 0) data 0)) by (rewrite map_length, seq_length; lia).
      rewrite (map_nth (fun k => nth (start + k) data 0)). rewrite seq_nth by lia.
      rewrite !nth_lookup. f_equal. rewrite lookup_take by lia. rewrite lookup_drop. f_equal.
  - intros k Hk. apply elem_of_seq in Hk. apply rd_ok.
    rewrite nth_lookup.
    destruct (data !! (start + k)%nat) eqn:E; [reflexivity|].
    apply lookup_ge_None in E. lia.
Qed.

Lemma store256_ok v : forall buf o, (o + List.length v <= List.length buf)%nat ->
  store256 buf o v = Ok (put buf o v).
Proof.
  intros buf o H. unfold store256.
  assert (G : forall v s buf, (o + s + List.length v <= List.length buf)%nat ->
    for_each (fun '(k, c) b => wr b (o + k) c) (zip (seq s (List.length v)) v) buf
    = Ok (put buf (o + s) v)).
  { clear. induction v as [|c v IH]; intros s buf H; cbn [List.length seq zip zip_with for_each].
    - rewrite put_nil. reflexivity.
    - cbn [List.length] in H. rewrite wr_put by lia. cbn [mbind res_bind].
      rewrite IH by (rewrite put_length; cbn; lia).
      replace (o + S s)%nat with (o + s + List.length [c])%nat by (cbn [List.length app]; lia).
      rewrite put_app by (cbn [List.length app]; lia). reflexivity. }
  rewrite G by lia. rewrite Nat.add_0_r. reflexivity.
Qed.

Lemma lookup_put buf o t i : (o + List.length t <= List.length buf)%nat ->
  put buf o t !! i =
    if decide (o <= i < o + List.length t)%nat then t !! (i - o)%nat else buf !! i.
Proof.
  intros H. unfold put. case_decide as D.
  - rewrite lookup_app_r by (rewrite take_length; lia).
    rewrite take_length, Nat.min_l by lia.
    rewrite lookup_app_l by lia. reflexivity.
  - destruct (decide (i < o)%nat).
    + rewrite lookup_app_l by (rewrite take_length; lia). apply lookup_take; lia.
    + rewrite lookup_app_r by (rewrite take_length; lia).
      rewrite take_length, Nat.min_l by lia.
      rewrite lookup_app_r by lia. rewrite lookup_drop. f_equal. lia.
Qed.

Definition block_text (data : list N) (b : nat) : list N :=
  rfc4648_encode (take 24 (drop (b * 24) data)).
Lemma block_text_length data b : (b * 24 + 24 <= List.length data)%nat ->
  List.length (block_text data b) = 32%nat.
Proof.
  intros H. unfold block_text. rewrite rfc_length, take_length, drop_length, Nat.min_l by lia.
  reflexivity.
Qed.

Lemma process_block_ok data o b buf : is_bytes data ->
  (b * 24 + 24 <= List.length data)%nat -> (o + b * 32 + 32 <= List.length buf)%nat ->
  process_block data o b buf = Ok (put buf (o + b * 32) (block_text data b)).
Proof.
  intros Hb H1 H2. unfold process_block. rewrite load24_ok by lia. cbn [mbind res_bind].
  rewrite simd_block_ok.
  - rewrite store256_ok; [reflexivity|].
    fold (block_text data b). rewrite block_text_length by lia. lia.
  - rewrite take_length, drop_length. lia.
  - apply is_bytes_take, is_bytes_drop, Hb.
Qed.

(** The text of the first [n] blocks. *)
Lemma blocks_text data n : (n * 24 <= List.length data)%nat -> forall i,
  rfc4648_encode (take (n * 24) data) !! i =
    if decide (i < n * 32)%nat then block_text data (i / 32) !! (i mod 32)%nat else None.
Proof.
  induction n as [|n IH]; intros H i.
  - rewrite decide_False by lia. reflexivity.
  - replace (S n * 24)%nat with (n * 24 + 24)%nat by lia.
    rewrite <- take_take_drop.
    rewrite rfc_app by (rewrite take_length, Nat.min_l by lia;
      replace (n * 24)%nat with ((n * 8) * 3)%nat by lia; apply Nat.mod_mul; lia).
    assert (Hlen : List.length (rfc4648_encode (take (n * 24) data)) = (n * 32)%nat).
    { rewrite rfc_length, take_length, Nat.min_l by lia. unfold getBase64EncodingSize.
      rewrite Nat.mul_1_r. replace (n * 24)%nat with (n * 8 * 3)%nat by lia.
      rewrite Nat.div_mul, Nat.mod_mul by lia. cbn [Nat.ltb Nat.leb]. lia. }
    destruct (decide (i < n * 32)%nat) as [Hi|Hi].
    + rewrite lookup_app_l by lia. rewrite IH by lia.
      rewrite !decide_True by lia. reflexivity.
    + rewrite lookup_app_r by lia. rewrite Hlen. fold (block_text data n).
      case_decide.
      * replace (i / 32)%nat with n by (apply Nat.div_unique with (i - n * 32)%nat; lia).
        replace (i mod 32)%nat with (i - n * 32)%nat
          by (apply Nat.mod_unique with n; lia). reflexivity.
      * apply lookup_ge_None. rewrite block_text_length by lia. lia.
Qed.

Lemma blocks_fold data o : is_bytes data -> forall order buf,
  (forall b, b ∈ order -> b * 24 + 24 <= List.length data /\ o + b * 32 + 32 <= List.length buf)%nat ->
  exists buf', for_each (process_block data o) order buf = Ok buf' /\
    List.length buf' = List.length buf /\
    forall i, buf' !! i =
      if decide (o <= i /\ ((i - o) / 32)%nat ∈ order)%nat
      then block_text data ((i - o) / 32) !! ((i - o) mod 32)%nat else buf !! i.
Proof.
  intros Hb. induction order as [|b order IH]; intros buf H; cbn [for_each].
  - exists buf. do 2 (split; [reflexivity|]). intros i. rewrite decide_False; [reflexivity|].
    intros [_ ?%elem_of_nil]. assumption.
  - destruct (H b) as [H1 H2]; [left|].
    rewrite process_block_ok by assumption. cbn [mbind res_bind].
    pose proof (block_text_length data b H1) as Hl.
    destruct (IH (put buf (o + b * 32) (block_text data b))) as (buf' & E & L & G).
    { intros b' Hb'. rewrite put_length by lia. apply H. right. exact Hb'. }
    exists buf'. split; [exact E|]. split; [rewrite L, put_length; lia|].
    intros i. rewrite G. clear G E IH.
    destruct (decide (o <= i)%nat) as [Ho|Ho].
    2:{ rewrite !decide_False by lia. rewrite lookup_put by lia.
        rewrite decide_False by lia. reflexivity. }
    destruct (decide (((i - o) / 32)%nat ∈ order)) as [D|D].
    + rewrite !decide_True; [reflexivity| |split; assumption].
      split; [assumption|right; assumption].
    + rewrite decide_False by tauto.
      rewrite lookup_put by lia. rewrite Hl.
      pose proof (Nat.div_mod (i - o) 32 ltac:(lia)) as Dm.
      pose proof (Nat.mod_upper_bound (i - o) 32 ltac:(lia)) as Mu.
      destruct (decide ((i - o) / 32 = b)%nat) as [Eb|Eb].
      * rewrite (decide_True (P := (o + b * 32 <= i < o + b * 32 + 32)%nat)) by lia.
        rewrite decide_True by (split; [assumption|rewrite Eb; left]).
        rewrite Eb. f_equal. lia.
      * rewrite (decide_False (P := (o + b * 32 <= i < o + b * 32 + 32)%nat)).
        2:{ intros Hr. apply Eb. symmetry.
            apply Nat.div_unique with (i - o - b * 32)%nat; lia. }
        rewrite decide_False; [reflexivity|].
        intros [_ Hin]. apply elem_of_cons in Hin. destruct Hin; [congruence|contradiction].
Qed.

Lemma simd_ok order data buf o : is_bytes data ->
  let nb := (List.length data / 24)%nat in
  (order nb ≡ₚ seq 0 nb) ->
  (o + nb * 32 <= List.length buf)%nat ->
  encB64SimdImpl order data (buf, o) =
    Ok ((nb * 24)%nat, (put buf o (rfc4648_encode (take (nb * 24) data)), (o + nb * 32)%nat)).
Proof.
  intros Hb nb Hp Hbuf. unfold encB64SimdImpl. cbn [fst snd].
  pose proof (Nat.div_mod (List.length data) 24 ltac:(lia)) as Dm. fold nb in Dm.
  fold nb. assert (Hin : forall b, b ∈ order nb <-> (b < nb)%nat).
  { intros b. rewrite Hp, elem_of_seq. lia. }
  destruct (blocks_fold data o Hb (order nb) buf) as (buf' & E & L & G).
  { intros b Hin'. apply Hin in Hin'. nia. }
  rewrite E. cbn [mbind res_bind]. fold nb. do 3 f_equal.
  assert (Hlen : List.length (rfc4648_encode (take (nb * 24) data)) = (nb * 32)%nat).
  { rewrite rfc_length, take_length, Nat.min_l by lia. unfold getBase64EncodingSize.
    rewrite Nat.mul_1_r. replace (nb * 24)%nat with (nb * 8 * 3)%nat by lia.
    rewrite Nat.div_mul, Nat.mod_mul by lia. cbn [Nat.ltb Nat.leb]. lia. }
  apply list_eq. intros i. rewrite G. rewrite lookup_put by lia. rewrite Hlen.
  pose proof (Nat.div_mod (i - o) 32 ltac:(lia)) as Dm'.
  pose proof (Nat.mod_upper_bound (i - o) 32 ltac:(lia)) as Mu.
  destruct (decide (o <= i < o + nb * 32)%nat) as [D|D].
  - rewrite blocks_text by lia. rewrite (decide_True (P := (i - o < nb * 32)%nat)) by lia.
    rewrite decide_True; [reflexivity|]. split; [lia|]. apply Hin.
    apply Nat.div_lt_upper_bound; lia.
  - rewrite decide_False; [reflexivity|]. intros [Ho Hi]. apply Hin in Hi.
    apply D. split; [assumption|]. nia.
Qed.

(** ** The whole encoder *)
Lemma take_add_rfc data n m : (n mod 3 = 0)%nat -> (n <= List.length data)%nat ->
  rfc4648_encode (take n data) ++ rfc4648_encode (take m (drop n data))
  = rfc4648_encode (take (n + m) data).
Proof.
  intros Hn Hl. rewrite <- rfc_app by (rewrite take_length, Nat.min_l by lia; exact Hn).
  rewrite take_take_drop. reflexivity.
Qed.
Lemma rfc_take_drop data n : (n mod 3 = 0)%nat -> (n <= List.length data)%nat ->
  rfc4648_encode (take n data) ++ rfc4648_encode (drop n data) = rfc4648_encode data.
Proof.
  intros Hn Hl. rewrite <- rfc_app by (rewrite take_length, Nat.min_l by lia; exact Hn).
  rewrite take_drop. reflexivity.
Qed.


(** Number of bytes consumed before the SIMD pass. *)
Definition aligned_bytes (p : path) (n : nat) : nat :=
  match p with
  | Avx2Unaligned addr => if (align_bytes addr <=? n)%nat then full3 (align_bytes addr) else 0%nat
  | _ => 0%nat
  end.

Lemma aligned_mod p n : (aligned_bytes p n mod 3 = 0)%nat.
Proof.
  destruct p; try reflexivity. cbn. case_match; [apply full3_mod|reflexivity].
Qed.
Lemma aligned_le p n : (aligned_bytes p n <= n)%nat.
Proof.
  destruct p; cbn; try lia. destruct (Nat.leb_spec (align_bytes addr) n); [|lia].
  etransitivity; [apply full3_le|lia].
Qed.

Lemma align_pass_ok p data buf o : is_bytes data ->
  (o + List.length (rfc4648_encode data) <= List.length buf)%nat ->
  let n := aligned_bytes p (List.length data) in
  align_pass p data (buf, o) =
    Ok (n, (put buf o (rfc4648_encode (take n data)),
            (o + List.length (rfc4648_encode (take n data)))%nat)).
Proof.
  intros Hb Hbuf n.
  assert (E0 : Ok (0%nat, (buf, o)) = Ok (0%nat, (put buf o (rfc4648_encode (take 0 data)),
            (o + List.length (rfc4648_encode (take 0 data)))%nat))).
  { cbn [take]. change (rfc4648_encode []) with (@nil N). cbn [List.length].
    rewrite put_nil, Nat.add_0_r. reflexivity. }
  destruct p; try exact E0.
  unfold n, aligned_bytes, align_pass, alignForSimd.
  destruct (Nat.leb_spec (align_bytes addr) (List.length data)) as [Hl|Hl]; [|exact E0].
  pose proof (full3_le (align_bytes addr)) as F.
  pose proof (full3_mod (align_bytes addr)) as Fm.
  assert (Et : take (full3 (List.length (take (align_bytes addr) data))) (take (align_bytes addr) data)
             = take (full3 (align_bytes addr)) data).
  { rewrite take_length, Nat.min_l, take_take, Nat.min_l by lia. reflexivity. }
  rewrite serial_ok; [rewrite Et|apply is_bytes_take, Hb|rewrite Et].
  - rewrite take_length, Nat.min_l by lia. reflexivity.
  - rewrite <- (rfc_take_drop data (full3 (align_bytes addr))) in Hbuf by lia.
    rewrite app_length in Hbuf. lia.
Qed.

Theorem encode_correct p order data buf o :
  is_bytes data ->
  (forall n, order n ≡ₚ seq 0 n) ->
  (o + List.length (rfc4648_encode data) <= List.length buf)%nat ->
  encodeAsBase64 p order data buf o =
    Ok (List.length (rfc4648_encode data), put buf o (rfc4648_encode data)).
Proof.
  intros Hb Hord Hbuf. unfold encodeAsBase64.
  rewrite align_pass_ok by assumption. cbn [mbind res_bind].
  set (n0 := aligned_bytes p (List.length data)) in *.
  pose proof (aligned_mod p (List.length data)) as M0. fold n0 in M0.
  pose proof (aligned_le p (List.length data)) as Le0. fold n0 in Le0.
  pose proof (rfc_take_drop data n0 M0 Le0) as S0.
  assert (Hbuf0 : (o + List.length (rfc4648_encode (take n0 data))
      + List.length (rfc4648_encode (drop n0 data)) <= List.length buf)%nat).
  { rewrite <- S0, app_length in Hbuf. lia. }
  (* SIMD pass *)
  assert (H1 : exists n1, (n1 mod 3 = 0)%nat /\ (n0 + n1 <= List.length data)%nat /\
    simd_pass p order (drop n0 data) (put buf o (rfc4648_encode (take n0 data)),
            (o + List.length (rfc4648_encode (take n0 data)))%nat) =
    Ok (n1, (put buf o (rfc4648_encode (take (n0 + n1) data)),
             (o + List.length (rfc4648_encode (take (n0 + n1) data)))%nat))).
  { assert (Hp : p = NoAvx2 \/ p <> NoAvx2) by (destruct p; [left|right|right]; congruence). destruct Hp as [->|Hp].
    - exists 0%nat. split; [reflexivity|]. split; [lia|]. replace (n0 + 0)%nat with n0 by lia. reflexivity.
    - set (nb := ((List.length data - n0) / 24)%nat).
      assert (Hnb : (nb * 24 <= List.length data - n0)%nat).
      { unfold nb. pose proof (Nat.div_mod (List.length data - n0) 24). lia. }
      assert (M1 : (nb * 24 mod 3 = 0)%nat).
      { replace (nb * 24)%nat with (nb * 8 * 3)%nat by lia. apply Nat.mod_mul. lia. }
      exists (nb * 24)%nat. split; [exact M1|]. split; [lia|].
      assert (Esz : List.length (rfc4648_encode (take (nb * 24) (drop n0 data))) = (nb * 32)%nat).
      { rewrite rfc_length, take_length, drop_length, Nat.min_l by lia. unfold getBase64EncodingSize.
        rewrite Nat.mul_1_r. replace (nb * 24)%nat with (nb * 8 * 3)%nat by lia.
        rewrite Nat.div_mul, Nat.mod_mul by lia. cbn [Nat.ltb Nat.leb]. lia. }
      pose proof (rfc_take_drop (drop n0 data) (nb * 24) M1 ltac:(rewrite drop_length; lia)) as S1.
      assert (Hsz : (nb * 32 <= List.length (rfc4648_encode (drop n0 data)))%nat).
      { rewrite <- S1, app_length, Esz. lia. }
      transitivity (encB64SimdImpl order (drop n0 data) (put buf o (rfc4648_encode (take n0 data)),
            (o + List.length (rfc4648_encode (take n0 data)))%nat)).
      { destruct p; [congruence| |]; reflexivity. }
      rewrite simd_ok; rewrite ?drop_length; fold nb.
      + do 2 f_equal. rewrite <- take_add_rfc by lia. rewrite app_length, Esz.
        f_equal; [|lia]. rewrite put_app by lia. reflexivity.
      + apply is_bytes_drop, Hb.
      + apply Hord.
      + rewrite put_length by lia. lia. }
  destruct H1 as (n1 & M1 & Le1 & ->). cbn [mbind res_bind].
  set (n2 := (n0 + n1)%nat) in *.
  assert (M2 : (n2 mod 3 = 0)%nat).
  { unfold n2. rewrite Nat.add_mod, M0, M1 by lia. reflexivity. }
  pose proof (rfc_take_drop data n2 M2 Le1) as S2.
  set (m := full3 (List.length (drop n2 data))) in *.
  assert (Hm : (m <= List.length (drop n2 data))%nat) by apply full3_le.
  assert (Mm : (m mod 3 = 0)%nat) by apply full3_mod.
  pose proof (rfc_take_drop (drop n2 data) m Mm Hm) as S3.
  assert (Hbuf2 : (o + List.length (rfc4648_encode (take n2 data))
      + List.length (rfc4648_encode (drop n2 data)) <= List.length buf)%nat).
  { rewrite <- S2, app_length in Hbuf. lia. }
  assert (Hbuf3 : (o + List.length (rfc4648_encode (take n2 data))
      + List.length (rfc4648_encode (take m (drop n2 data)))
      + List.length (rfc4648_encode (drop m (drop n2 data))) <= List.length buf)%nat).
  { rewrite <- S3, app_length in Hbuf2. lia. }
  rewrite serial_ok; [|apply is_bytes_drop, Hb|rewrite put_length by lia; fold m; lia].
  fold m. cbn [mbind res_bind].
  rewrite put_app by lia.
  rewrite <- (drop_drop data m n2).
  rewrite <- Nat.add_assoc, <- app_length.
  rewrite remainder_ok.
  - cbn [mbind res_bind fst snd]. rewrite put_app by (rewrite app_length; lia).
    rewrite <- Nat.add_assoc, <- app_length.
    rewrite <- app_assoc, S3, S2. do 2 f_equal. lia.
  - apply is_bytes_drop, is_bytes_drop, Hb.
  - rewrite drop_length. unfold m, full3.
    pose proof (Nat.div_mod (List.length (drop n2 data)) 3).
    pose proof (Nat.mod_upper_bound (List.length (drop n2 data)) 3). lia.
  - rewrite put_length by (rewrite app_length; lia). rewrite app_length. lia.
Qed.

Theorem encode_in_place p order data pre room post :
  is_bytes data -> (forall n, order n ≡ₚ seq 0 n) ->
  List.length room = List.length (rfc4648_encode data) ->
  encodeAsBase64 p order data (pre ++ room ++ post) (List.length pre) =
    Ok (List.length (rfc4648_encode data), pre ++ rfc4648_encode data ++ post).
Proof.
  intros Hb Ho Hr. rewrite encode_correct; [|assumption|assumption|rewrite !app_length; lia].
  do 2 f_equal. unfold put. rewrite take_app. f_equal. f_equal.
  rewrite drop_app_ge by lia.
  replace (List.length pre + List.length (rfc4648_encode data) - List.length pre)%nat
    with (List.length room) by lia.
  apply drop_app.
Qed.

(** ** Decoding *)
Lemma value_bits8 b : b < 256 -> value_of (bits_of 8 b) = b.
Proof.
  intros H. apply N.eqb_eq.
  apply (check1 (fun b => value_of (bits_of 8 b) =? b)); [vm_compute; reflexivity|exact H].
Qed.
Lemma decode_letter g t : List.length g = 6%nat ->
  decode_letters (letter g :: t) = (fun bs => g ++ bs) <$> decode_letters t.
Proof.
  intros Hg. destruct g as [|a1 [|a2 [|a3 [|a4 [|a5 [|a6 [|]]]]]]]; try discriminate Hg.
  cbn [decode_letters].
  destruct a1, a2, a3, a4, a5, a6;
    match goal with |- context [letter ?g] =>
      let c := eval vm_compute in (letter g) in change (letter g) with c end;
    match goal with |- context [?c =? pad_char] => change (c =? pad_char) with false end;
    cbv iota;
    match goal with |- context [index_of ?c rfc_alphabet] =>
      let r := eval vm_compute in (index_of c rfc_alphabet) in
      change (index_of c rfc_alphabet) with r end;
    cbv iota; (destruct (decode_letters t); reflexivity).
Qed.
Lemma octets_enough f1 : forall bs f2,
  (List.length bs <= f1)%nat -> (List.length bs <= f2)%nat ->
  octets_fuel f1 bs = octets_fuel f2 bs.
Proof.
  induction f1 as [|f1 IH]; intros bs f2 H1 H2.
  - destruct bs; [|simpl in H1; lia]. destruct f2; reflexivity.
  - destruct f2 as [|f2].
    + destruct bs; [reflexivity|simpl in H2; lia].
    + cbn [octets_fuel]. destruct (Nat.ltb_spec (List.length bs) 8) as [|Hb]; [reflexivity|].
      f_equal. apply IH; rewrite drop_length; lia.
Qed.
Definition octets (bs : list bool) : list N := octets_fuel (List.length bs) bs.
Lemma octets_cons b bs : b < 256 -> octets (bits_of 8 b ++ bs) = b :: octets bs.
Proof.
  intros Hb. unfold octets. rewrite app_length. change (List.length (bits_of 8 b)) with 8%nat.
  change (8 + List.length bs)%nat with (S (7 + List.length bs)).
  set (f := (7 + List.length bs)%nat). assert (Hf : (List.length bs <= f)%nat) by lia. clearbody f.
  cbn [octets_fuel]. rewrite app_length. change (List.length (bits_of 8 b)) with 8%nat.
  destruct (Nat.ltb_spec (8 + List.length bs) 8); [lia|].
  rewrite take_app_alt by reflexivity. rewrite drop_app_alt by reflexivity.
  rewrite value_bits8 by assumption. f_equal. apply octets_enough; lia.
Qed.

Lemma decode_encode_bits l : is_bytes l ->
  exists z, decode_letters (rfc4648_encode l) = Some (flat_map (bits_of 8) l ++ z)
    /\ (List.length z < 8)%nat.
Proof.
  induction l as [|a|a b|a b c l IH] using list_ind3; intros Hb.
  - exists []. split; [reflexivity|cbn; lia].
  - inversion_clear Hb. rewrite rfc_1 by assumption. unfold L0, L1. cbn [flat_map].
    rewrite decode_letter by reflexivity. rewrite decode_letter by reflexivity.
    exists [false;false;false;false]. split; [reflexivity|cbn; lia].
  - rewrite rfc_2. unfold L0, L1, L2. cbn [flat_map].
    rewrite decode_letter by reflexivity. rewrite decode_letter by reflexivity.
    rewrite decode_letter by reflexivity.
    exists [false;false]. split; [reflexivity|cbn; lia].
  - unfold is_bytes in Hb. rewrite !Forall_cons in Hb. destruct Hb as (Ha & Hb' & Hc & Hl).
    destruct (IH Hl) as (z & E & Hz). rewrite rfc_cons3. unfold L0, L1, L2, L3. cbn [app].
    do 4 rewrite decode_letter by reflexivity. rewrite E.
    exists z. split; [reflexivity|exact Hz].
Qed.

Theorem decode_encode l : is_bytes l -> rfc4648_decode (rfc4648_encode l) = Some l.
Proof.
  intros Hb. destruct (decode_encode_bits l Hb) as (z & E & Hz).
  unfold rfc4648_decode. rewrite E. cbn [fmap option_fmap option_map]. f_equal.
  fold (octets (flat_map (bits_of 8) l ++ z)). clear E.
  induction l as [|b l IH]; cbn [flat_map app].
  - unfold octets. destruct z as [|x z]; [reflexivity|]. cbn [octets_fuel List.length].
    destruct (Nat.ltb_spec (S (List.length z)) 8); [reflexivity|cbn [List.length] in Hz; lia].
  - inversion_clear Hb. rewrite <- app_assoc, octets_cons by assumption. f_equal. apply IH. assumption.
Qed.

(** ** Statements used by the property file *)
Lemma encode_props p order data pre room post n sizeof_T :
    is_bytes data ->
    List.length data = (n * sizeof_T)%nat ->
    (forall k, order k ≡ₚ seq 0 k) ->
    List.length room = getBase64EncodingSize sizeof_T n ->
    encodeAsBase64 p order data (pre ++ room ++ post) (List.length pre)
      = Ok (getBase64EncodingSize sizeof_T n, pre ++ rfc4648_encode data ++ post)
    /\ List.length (rfc4648_encode data) = getBase64EncodingSize sizeof_T n.
Proof.
  intros Hb Hl Ho Hr. rewrite size_scale in Hr |- *. rewrite <- Hl in Hr |- *.
  rewrite <- rfc_length in Hr |- *. split; [|reflexivity].
  apply encode_in_place; assumption.
Qed.
Lemma roundtrip p order data buf :
    is_bytes data -> (forall k, order k ≡ₚ seq 0 k) ->
    List.length buf = getBase64EncodingSize 1 (List.length data) ->
    exists txt, encodeAsBase64 p order data buf 0 = Ok (List.length txt, txt)
      /\ rfc4648_decode txt = Some data.
Proof.
  intros Hb Ho Hr. exists (rfc4648_encode data). split; [|apply decode_encode, Hb].
  rewrite <- rfc_length in Hr.
  pose proof (encode_in_place p order data [] buf [] Hb Ho Hr) as E.
  cbn [app List.length] in E. rewrite !app_nil_r in E. exact E.
Qed.
Lemma injective p1 p2 order1 order2 data1 data2 buf1 buf2 txt n1 n2 :
    is_bytes data1 -> is_bytes data2 ->
    (forall k, order1 k ≡ₚ seq 0 k) -> (forall k, order2 k ≡ₚ seq 0 k) ->
    List.length buf1 = getBase64EncodingSize 1 (List.length data1) ->
    List.length buf2 = getBase64EncodingSize 1 (List.length data2) ->
    encodeAsBase64 p1 order1 data1 buf1 0 = Ok (n1, txt) ->
    encodeAsBase64 p2 order2 data2 buf2 0 = Ok (n2, txt) ->
    data1 = data2.
Proof.
  intros B1 B2 O1 O2 L1 L2 E1 E2.
  destruct (roundtrip p1 order1 data1 buf1 B1 O1 L1) as (t1 & F1 & D1).
  destruct (roundtrip p2 order2 data2 buf2 B2 O2 L2) as (t2 & F2 & D2).
  congruence.
Qed.
Lemma align_refuted : exists addr data n st,
    is_bytes data /\
    alignForSimd addr data (replicate 100 0, 0%nat) = Ok (n, st)
    /\ (24 <= List.length (drop n data))%nat
    /\ (addr + N.of_nat n) `mod` 4 <> 0.
Proof.
  exists 3, (replicate 40 1), 3%nat, (put (replicate 100 0) 0 (rfc4648_encode [1;1;1]), 4%nat).
  split; [apply Forall_replicate; lia|].
  split; [vm_compute; reflexivity|]. split; [vm_compute; lia|vm_compute; discriminate].
Qed.
