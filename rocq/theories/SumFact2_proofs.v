From Coq Require Import Reals Lra.
From Verif Require Import Base Elem_model Poly_model Poly_spec Poly_proofs Basis_model Basis_proofs Gauss_model Geom_model Geom_proofs LocalSys_model SumFact_model SumFact_proofs.
Local Open Scope R_scope.

(** Tensor-product sums of a buffer. *)
Definition T2 (K : nat) (A B : mat) (r : nat -> R) (f q1 q2 : nat) : R :=
  rsum K (fun b2 => rsum K (fun b1 => r (b1 + K * (b2 + K * f))%nat * A b1 q1) * B b2 q2).
Definition T3 (K : nat) (A B C : mat) (r : nat -> R) (f q1 q2 q3 : nat) : R :=
  rsum K (fun b3 => rsum K (fun b2 => rsum K (fun b1 => r (b1 + K * (b2 + K * (b3 + K * f)))%nat * A b1 q1) * B b2 q2) * C b3 q3).

Lemma swept_at K N Q M inb acc outb out n q i : swept K N Q M inb acc outb out -> (n < N)%nat -> (q < Q)%nat -> i = (n + N * q)%nat ->
  nth i out 0 = (if acc then nth i outb 0 else 0) + rsum K (fun k => nth (k + K * n) inb 0 * M k q).
Proof. intros [_ H] Hn Hq ->. by apply H. Qed.

Section bounds.
  Context (nb nq nf : nat).
  Lemma pow2 x : (x ^ 2 = x * x)%nat. Proof. cbn. lia. Qed.
  Lemma pow3 x : (x ^ 3 = x * x * x)%nat. Proof. cbn. lia. Qed.
  Lemma size2 a b : (a = nb \/ a = nq)%nat -> (b = nb \/ b = nq)%nat -> (nf * (a * b) <= buf_size nb nq nf 2)%nat.
  Proof. intros Ha Hb. unfold buf_size. rewrite (Nat.mul_comm _ nf). apply Nat.mul_le_mono_l. rewrite !pow2. destruct (Nat.le_ge_cases nb nq); destruct Ha, Hb; subst; nia. Qed.
  Lemma size3 a b c : (a = nb \/ a = nq)%nat -> (b = nb \/ b = nq)%nat -> (c = nb \/ c = nq)%nat -> (nf * (a * b * c) <= buf_size nb nq nf 3)%nat.
  Proof.
    intros Ha Hb Hc. unfold buf_size. rewrite (Nat.mul_comm _ nf). apply Nat.mul_le_mono_l. set (m := Nat.max nb nq). assert (Hm : (m ^ 3 <= Nat.max (nb ^ 3) (nq ^ 3))%nat).
    { unfold m. destruct (Nat.max_dec nb nq) as [E|E]; rewrite E; lia. }
    rewrite pow3 in Hm. assert (a <= m /\ b <= m /\ c <= m)%nat by (unfold m; lia). assert (a * b <= m * m)%nat by (apply Nat.mul_le_mono; lia). assert (a * b * c <= m * m * m)%nat by (apply Nat.mul_le_mono; lia). lia.
  Qed.
End bounds.

Section transforms.
  Context (nb nq : nat) (Im Dm : mat) (oe : option nat).
  (** What the odd-even variant needs. *)
  Definition oe_ok : Prop := forall bs, oe = Some bs -> (0 < bs)%nat /\ mirror false nb nq Im /\ mirror true nb nq Dm.
  Context (Hoe : oe_ok).
  Lemma mirror_trans der K Q M : mirror der K Q M -> mirror der Q K (fun q k => M k q).
  Proof using. intros H k q Hk Hq. by apply H. Qed.
  Lemma back_ok nf dim s der src dst bufs a b N : bufs !! src = Some a -> bufs !! dst = Some b -> N = (nf * nq ^ s * nb ^ (dim - 1 - s))%nat -> (nb * N <= length a)%nat -> (N * nq <= length b)%nat ->
    exists out, back nb nq Im Dm oe nf dim s der src dst bufs = Ok (<[dst := out]> bufs) /\ length out = length b /\ swept nb N nq (if der then Dm else Im) a false b out.
  Proof using Hoe.
    intros Ha Hb -> H1 H2. unfold back. rewrite (rd_ok _ _ _ Ha), (rd_ok _ _ _ Hb), !bind_ok.
    destruct (sweep_ok nb (nf * nq ^ s * nb ^ (dim - 1 - s)) nq (if der then Dm else Im) a false b der oe H1 H2) as (out & E & Hs). { intros bs Hbs. destruct (Hoe bs Hbs) as (? & ? & ?). by destruct der. }
    rewrite E, bind_ok. rewrite wr_ok by (by eapply lookup_lt_Some). exists out. split; [done|]. split; [by destruct Hs|done].
  Qed.
  Lemma forward_ok nf dim s der src dst bufs a b N : bufs !! src = Some a -> bufs !! dst = Some b -> N = (nf * nb ^ s * nq ^ (dim - 1 - s))%nat -> (nq * N <= length a)%nat -> (N * nb <= length b)%nat ->
    exists out, forward nb nq Im Dm oe nf dim s der src dst bufs = Ok (<[dst := out]> bufs) /\ length out = length b /\ swept nq N nb (if der then (fun q b => Dm b q) else fun q b => Im b q) a der b out.
  Proof using Hoe.
    intros Ha Hb -> H1 H2. unfold forward. rewrite (rd_ok _ _ _ Ha), (rd_ok _ _ _ Hb), !bind_ok.
    destruct (sweep_ok nq (nf * nb ^ s * nq ^ (dim - 1 - s)) nb (if der then (fun q b => Dm b q) else fun q b => Im b q) a der b der oe H1 H2) as (out & E & Hs).
    { intros bs Hbs. destruct (Hoe bs Hbs) as (? & HI & HD). split; [done|]. destruct der; [apply (mirror_trans true nb nq Dm HD)|apply (mirror_trans false nb nq Im HI)]. }
    rewrite E, bind_ok. rewrite wr_ok by (by eapply lookup_lt_Some). exists out. split; [done|]. split; [by destruct Hs|done].
  Qed.

  (** Composition of stages, from K to Q values per direction. *)
  Lemma two_stages K Q nf A B a b u c out acc f q1 q2 : swept K (nf * K) Q A a false b u -> swept K (nf * Q) Q B u acc c out -> (f < nf)%nat -> (q1 < Q)%nat -> (q2 < Q)%nat ->
    nth (f + nf * (q1 + Q * q2)) out 0 = (if acc then nth (f + nf * (q1 + Q * q2)) c 0 else 0) + T2 K A B (at' a) f q1 q2.
  Proof using.
    intros H1 H2 Hf Hq1 Hq2. rewrite (swept_at _ _ _ _ _ _ _ _ (f + nf * q1) q2 _ H2) by (nia || done). f_equal. unfold T2. apply rsum_ext. intros k Hk. f_equal.
    rewrite (swept_at _ _ _ _ _ _ _ _ (k + K * f) q1 _ H1) by (nia || done). cbv iota. rewrite Rplus_0_l. done.
  Qed.
  Lemma three_stages K Q nf A B C a b u c w d out acc f q1 q2 q3 : swept K (nf * (K * K)) Q A a false b u -> swept K (nf * Q * K) Q B u false c w -> swept K (nf * (Q * Q)) Q C w acc d out ->
    (f < nf)%nat -> (q1 < Q)%nat -> (q2 < Q)%nat -> (q3 < Q)%nat ->
    nth (f + nf * (q1 + Q * (q2 + Q * q3))) out 0 = (if acc then nth (f + nf * (q1 + Q * (q2 + Q * q3))) d 0 else 0) + T3 K A B C (at' a) f q1 q2 q3.
  Proof using.
    intros H1 H2 H3 Hf Hq1 Hq2 Hq3. assert (Hn2 : (f + nf * (q1 + Q * q2) < nf * (Q * Q))%nat) by (assert (q1 + Q * q2 < Q * Q)%nat by nia; nia).
    rewrite (swept_at _ _ _ _ _ _ _ _ (f + nf * (q1 + Q * q2)) q3 _ H3) by (done || ring). f_equal. unfold T3. apply rsum_ext. intros b3 Hb3. f_equal.
    assert (Hn1 : (b3 + K * (f + nf * q1) < nf * Q * K)%nat) by (assert (f + nf * q1 < nf * Q)%nat by nia; nia).
    rewrite (swept_at _ _ _ _ _ _ _ _ (b3 + K * (f + nf * q1)) q2 _ H2) by (done || ring). cbv iota. rewrite Rplus_0_l. apply rsum_ext. intros b2 Hb2. f_equal.
    assert (Hn0 : (b2 + K * (b3 + K * f) < nf * (K * K))%nat) by (assert (b3 + K * f < nf * K)%nat by nia; nia).
    rewrite (swept_at _ _ _ _ _ _ _ _ (b2 + K * (b3 + K * f)) q1 _ H1) by (done || ring). cbv iota. by rewrite Rplus_0_l.
  Qed.
  Lemma backQuad_ok nf fill (l0 l1 l2 l3 r : list R) : fill l1 = Ok r ->
    Forall (fun l => buf_size nb nq nf 2 <= length l)%nat [l0; r; l2; l3] ->
    exists o0 o1 o2 o3, sumFactBackQuad nb nq Im Dm oe nf fill [l0; l1; l2; l3] = Ok [o0; o1; o2; o3] /\ length o0 = length l0 /\ length o1 = length r /\ length o2 = length l2 /\
      forall f q1 q2, (f < nf)%nat -> (q1 < nq)%nat -> (q2 < nq)%nat -> let i := (f + nf * (q1 + nq * q2))%nat in
        nth i o0 0 = T2 nb Im Im (at' r) f q1 q2 /\ nth i o1 0 = T2 nb Dm Im (at' r) f q1 q2 /\ nth i o2 0 = T2 nb Im Dm (at' r) f q1 q2.
  Proof using Hoe.
    intros Hfill Hlen. rewrite !Forall_cons in Hlen. destruct Hlen as (L0 & L1 & L2 & L3 & _).
    assert (S : forall a b, (a = nb \/ a = nq)%nat -> (b = nb \/ b = nq)%nat -> (nf * (a * b) <= buf_size nb nq nf 2)%nat) by (apply size2).
    pose proof (S nb nb ltac:(lia) ltac:(lia)) as S1. pose proof (S nb nq ltac:(lia) ltac:(lia)) as S2. pose proof (S nq nq ltac:(lia) ltac:(lia)) as S3.
    assert (E0 : (nf * nb = nf * nq ^ 0 * nb ^ (2 - 1 - 0))%nat) by (cbn; ring). assert (E1 : (nf * nq = nf * nq ^ 1 * nb ^ (2 - 1 - 1))%nat) by (cbn; ring).
    unfold sumFactBackQuad, itp, dif. rewrite (rd_ok [l0; l1; l2; l3] 1 l1 eq_refl), bind_ok, Hfill, bind_ok, wr_ok by (cbn; lia). rewrite bind_ok. cbn [insert list_insert alter list_alter].
    destruct (back_ok nf 2 0 false 1 3 [l0; r; l2; l3] r l3 _ eq_refl eq_refl E0) as (t1 & R1 & N1 & W1); [nia|nia|]. rewrite R1, bind_ok. cbn [insert list_insert alter list_alter].
    destruct (back_ok nf 2 1 true 3 2 [l0; r; l2; t1] t1 l2 _ eq_refl eq_refl E1) as (o2 & R2 & N2 & W2); [nia|nia|]. rewrite R2, bind_ok. cbn [insert list_insert alter list_alter].
    destruct (back_ok nf 2 1 false 3 0 [l0; r; o2; t1] t1 l0 _ eq_refl eq_refl E1) as (o0 & R3 & N3 & W3); [nia|nia|]. rewrite R3, bind_ok. cbn [insert list_insert alter list_alter].
    destruct (back_ok nf 2 0 true 1 3 [o0; r; o2; t1] r t1 _ eq_refl eq_refl E0) as (t2 & R4 & N4 & W4); [nia|nia|]. rewrite R4, bind_ok. cbn [insert list_insert alter list_alter].
    destruct (back_ok nf 2 1 false 3 1 [o0; r; o2; t2] t2 r _ eq_refl eq_refl E1) as (o1 & R5 & N5 & W5); [nia|nia|]. rewrite R5. cbn [insert list_insert alter list_alter].
    exists o0, o1, o2, t2. split; [done|]. split; [done|]. split; [done|]. split; [done|]. intros f q1 q2 Hf H1 H2. cbv zeta.
    rewrite (two_stages nb nq nf _ _ _ _ _ _ _ _ f q1 q2 W1 W3 Hf H1 H2), (two_stages nb nq nf _ _ _ _ _ _ _ _ f q1 q2 W4 W5 Hf H1 H2), (two_stages nb nq nf _ _ _ _ _ _ _ _ f q1 q2 W1 W2 Hf H1 H2). rewrite !Rplus_0_l. done.
  Qed.
  Lemma backHex_ok nf fill (l0 l1 l2 l3 l4 r : list R) : fill l3 = Ok r ->
    Forall (fun l => buf_size nb nq nf 3 <= length l)%nat [l0; l1; l2; r; l4] ->
    exists o0 o1 o2 o3 o4, sumFactBackHex nb nq Im Dm oe nf fill [l0; l1; l2; l3; l4] = Ok [o0; o1; o2; o3; o4] /\ length o0 = length l0 /\ length o1 = length l1 /\ length o2 = length l2 /\ length o3 = length r /\
      forall f q1 q2 q3, (f < nf)%nat -> (q1 < nq)%nat -> (q2 < nq)%nat -> (q3 < nq)%nat -> let i := (f + nf * (q1 + nq * (q2 + nq * q3)))%nat in
        nth i o0 0 = T3 nb Im Im Im (at' r) f q1 q2 q3 /\ nth i o1 0 = T3 nb Dm Im Im (at' r) f q1 q2 q3 /\ nth i o2 0 = T3 nb Im Dm Im (at' r) f q1 q2 q3 /\ nth i o3 0 = T3 nb Im Im Dm (at' r) f q1 q2 q3.
  Proof using Hoe.
    intros Hfill Hlen. rewrite !Forall_cons in Hlen. destruct Hlen as (L0 & L1 & L2 & L3 & L4 & _).
    assert (S : forall a b c, (a = nb \/ a = nq)%nat -> (b = nb \/ b = nq)%nat -> (c = nb \/ c = nq)%nat -> (nf * (a * b * c) <= buf_size nb nq nf 3)%nat) by (apply size3).
    pose proof (S nb nb nb ltac:(lia) ltac:(lia) ltac:(lia)) as S1. pose proof (S nb nb nq ltac:(lia) ltac:(lia) ltac:(lia)) as S2. pose proof (S nb nq nq ltac:(lia) ltac:(lia) ltac:(lia)) as S3. pose proof (S nq nq nq ltac:(lia) ltac:(lia) ltac:(lia)) as S4. clear S.
    assert (E0 : (nf * (nb * nb) = nf * nq ^ 0 * nb ^ (3 - 1 - 0))%nat) by (cbn; ring). assert (E1 : (nf * nq * nb = nf * nq ^ 1 * nb ^ (3 - 1 - 1))%nat) by (cbn; ring). assert (E2 : (nf * (nq * nq) = nf * nq ^ 2 * nb ^ (3 - 1 - 2))%nat) by (cbn; ring).
    assert (B0 : (nb * (nf * (nb * nb)) <= buf_size nb nq nf 3)%nat) by lia. assert (B1 : (nf * (nb * nb) * nq <= buf_size nb nq nf 3)%nat) by lia.
    assert (B2 : (nb * (nf * nq * nb) <= buf_size nb nq nf 3)%nat) by lia. assert (B3 : (nf * nq * nb * nq <= buf_size nb nq nf 3)%nat) by lia.
    assert (B4 : (nb * (nf * (nq * nq)) <= buf_size nb nq nf 3)%nat) by lia. assert (B5 : (nf * (nq * nq) * nq <= buf_size nb nq nf 3)%nat) by lia. clear S1 S2 S3 S4.
    set (BS := buf_size nb nq nf 3) in *.
    unfold sumFactBackHex, itp, dif. rewrite (rd_ok [l0; l1; l2; l3; l4] 3 l3 eq_refl), bind_ok, Hfill, bind_ok, wr_ok by (cbn; lia). rewrite bind_ok. cbn [insert list_insert alter list_alter].
    destruct (back_ok nf 3 0 false 3 0 [l0; l1; l2; r; l4] r l0 _ eq_refl eq_refl E0) as (a0 & R1 & N1 & W1); [lia|lia|]. rewrite R1, bind_ok. cbn [insert list_insert alter list_alter].
    destruct (back_ok nf 3 0 true 3 1 [a0; l1; l2; r; l4] r l1 _ eq_refl eq_refl E0) as (a1 & R2 & N2 & W2); [lia|lia|]. rewrite R2, bind_ok. cbn [insert list_insert alter list_alter].
    destruct (back_ok nf 3 1 false 1 3 [a0; a1; l2; r; l4] a1 r _ eq_refl eq_refl E1) as (a3 & R3 & N3 & W3); [lia|lia|]. rewrite R3, bind_ok. cbn [insert list_insert alter list_alter].
    destruct (back_ok nf 3 2 false 3 1 [a0; a1; l2; a3; l4] a3 a1 _ eq_refl eq_refl E2) as (o1 & R4 & N4 & W4); [lia|lia|]. rewrite R4, bind_ok. cbn [insert list_insert alter list_alter].
    destruct (back_ok nf 3 1 true 0 3 [a0; o1; l2; a3; l4] a0 a3 _ eq_refl eq_refl E1) as (b3 & R5 & N5 & W5); [lia|lia|]. rewrite R5, bind_ok. cbn [insert list_insert alter list_alter].
    destruct (back_ok nf 3 2 false 3 2 [a0; o1; l2; b3; l4] b3 l2 _ eq_refl eq_refl E2) as (o2 & R6 & N6 & W6); [lia|lia|]. rewrite R6, bind_ok. cbn [insert list_insert alter list_alter].
    destruct (back_ok nf 3 1 false 0 4 [a0; o1; o2; b3; l4] a0 l4 _ eq_refl eq_refl E1) as (t & R7 & N7 & W7); [lia|lia|]. rewrite R7, bind_ok. cbn [insert list_insert alter list_alter].
    destruct (back_ok nf 3 2 false 4 0 [a0; o1; o2; b3; t] t a0 _ eq_refl eq_refl E2) as (o0 & R8 & N8 & W8); [lia|lia|]. rewrite R8, bind_ok. cbn [insert list_insert alter list_alter].
    destruct (back_ok nf 3 2 true 4 3 [o0; o1; o2; b3; t] t b3 _ eq_refl eq_refl E2) as (o3 & R9 & N9 & W9); [lia|lia|]. rewrite R9. cbn [insert list_insert alter list_alter].
    exists o0, o1, o2, o3, t. split; [done|]. split; [lia|]. split; [lia|]. split; [lia|]. split; [lia|]. intros f q1 q2 q3 Hf H1 H2 H3. cbv zeta.
    rewrite (three_stages nb nq nf _ _ _ _ _ _ _ _ _ _ _ f q1 q2 q3 W1 W7 W8 Hf H1 H2 H3), (three_stages nb nq nf _ _ _ _ _ _ _ _ _ _ _ f q1 q2 q3 W2 W3 W4 Hf H1 H2 H3),
      (three_stages nb nq nf _ _ _ _ _ _ _ _ _ _ _ f q1 q2 q3 W1 W5 W6 Hf H1 H2 H3), (three_stages nb nq nf _ _ _ _ _ _ _ _ _ _ _ f q1 q2 q3 W1 W7 W9 Hf H1 H2 H3). rewrite !Rplus_0_l. done.
  Qed.

  Notation It := (fun q b => Im b q). Notation Dt := (fun q b => Dm b q).
  Lemma forwardQuad_ok nf (l0 l1 l2 l3 : list R) : Forall (fun l => buf_size nb nq nf 2 <= length l)%nat [l0; l1; l2; l3] ->
    exists o0 os, sumFactForwardQuad nb nq Im Dm oe nf [l0; l1; l2; l3] = Ok (o0 :: os) /\ length o0 = length l0 /\
      forall f b1 b2, (f < nf)%nat -> (b1 < nb)%nat -> (b2 < nb)%nat ->
        nth (f + nf * (b1 + nb * b2)) o0 0 = T2 nq It It (at' l0) f b1 b2 + T2 nq Dt It (at' l1) f b1 b2 + T2 nq It Dt (at' l2) f b1 b2.
  Proof using Hoe.
    intros Hlen. rewrite !Forall_cons in Hlen. destruct Hlen as (L0 & L1 & L2 & L3 & _).
    assert (S : forall a b, (a = nb \/ a = nq)%nat -> (b = nb \/ b = nq)%nat -> (nf * (a * b) <= buf_size nb nq nf 2)%nat) by (apply size2).
    pose proof (S nb nb ltac:(lia) ltac:(lia)) as S1. pose proof (S nb nq ltac:(lia) ltac:(lia)) as S2. pose proof (S nq nq ltac:(lia) ltac:(lia)) as S3. clear S.
    assert (E0 : (nf * nq = nf * nb ^ 0 * nq ^ (2 - 1 - 0))%nat) by (cbn; ring). assert (E1 : (nf * nb = nf * nb ^ 1 * nq ^ (2 - 1 - 1))%nat) by (cbn; ring).
    unfold sumFactForwardQuad, itp, dif.
    destruct (forward_ok nf 2 0 false 0 3 [l0; l1; l2; l3] l0 l3 _ eq_refl eq_refl E0) as (t1 & R1 & N1 & W1); [nia|nia|]. rewrite R1, bind_ok. cbn [insert list_insert alter list_alter].
    destruct (forward_ok nf 2 0 true 1 3 [l0; l1; l2; t1] l1 t1 _ eq_refl eq_refl E0) as (t2 & R2 & N2 & W2); [nia|nia|]. rewrite R2, bind_ok. cbn [insert list_insert alter list_alter].
    destruct (forward_ok nf 2 1 false 3 0 [l0; l1; l2; t2] t2 l0 _ eq_refl eq_refl E1) as (a0 & R3 & N3 & W3); [nia|nia|]. rewrite R3, bind_ok. cbn [insert list_insert alter list_alter].
    destruct (forward_ok nf 2 0 false 2 3 [a0; l1; l2; t2] l2 t2 _ eq_refl eq_refl E0) as (t3 & R4 & N4 & W4); [nia|nia|]. rewrite R4, bind_ok. cbn [insert list_insert alter list_alter].
    destruct (forward_ok nf 2 1 true 3 0 [a0; l1; l2; t3] t3 a0 _ eq_refl eq_refl E1) as (o0 & R5 & N5 & W5); [nia|nia|]. rewrite R5. cbn [insert list_insert alter list_alter].
    exists o0, [l1; l2; t3]. split; [done|]. split; [lia|]. intros f b1 b2 Hf H1 H2.
    rewrite (two_stages nq nb nf _ _ _ _ _ _ _ _ f b1 b2 W4 W5 Hf H1 H2). f_equal. cbv iota.
    rewrite (swept_at _ _ _ _ _ _ _ _ (f + nf * b1) b2 _ W3) by (nia || ring). cbv iota. rewrite Rplus_0_l. unfold T2. rewrite <- rsum_plus. apply rsum_ext. intros q2 Hq2. rewrite <- Rmult_plus_distr_r. f_equal.
    rewrite (swept_at _ _ _ _ _ _ _ _ (q2 + nq * f) b1 _ W2) by (nia || ring). cbv iota. rewrite (swept_at _ _ _ _ _ _ _ _ (q2 + nq * f) b1 _ W1) by (nia || ring). cbv iota. by rewrite Rplus_0_l.
  Qed.
  Lemma T3_plus K A B C r A' r' f x y z g : (forall b2 b3, (b2 < K)%nat -> (b3 < K)%nat -> g b2 b3 = rsum K (fun b1 => r (b1 + K * (b2 + K * (b3 + K * f)))%nat * A b1 x) + rsum K (fun b1 => r' (b1 + K * (b2 + K * (b3 + K * f)))%nat * A' b1 x)) ->
    rsum K (fun b3 => rsum K (fun b2 => g b2 b3 * B b2 y) * C b3 z) = T3 K A B C r f x y z + T3 K A' B C r' f x y z.
  Proof using. intros H. unfold T3. rewrite <- rsum_plus. apply rsum_ext. intros b3 H3. rewrite <- Rmult_plus_distr_r. f_equal. rewrite <- rsum_plus. apply rsum_ext. intros b2 H2. rewrite <- Rmult_plus_distr_r. f_equal. by apply H. Qed.
  Lemma forwardHex_ok nf (l0 l1 l2 l3 l4 : list R) : Forall (fun l => buf_size nb nq nf 3 <= length l)%nat [l0; l1; l2; l3; l4] ->
    exists o0 os, sumFactForwardHex nb nq Im Dm oe nf [l0; l1; l2; l3; l4] = Ok (o0 :: os) /\ length o0 = length l0 /\
      forall f b1 b2 b3, (f < nf)%nat -> (b1 < nb)%nat -> (b2 < nb)%nat -> (b3 < nb)%nat ->
        nth (f + nf * (b1 + nb * (b2 + nb * b3))) o0 0 = T3 nq It It It (at' l0) f b1 b2 b3 + T3 nq Dt It It (at' l1) f b1 b2 b3 + T3 nq It Dt It (at' l2) f b1 b2 b3 + T3 nq It It Dt (at' l3) f b1 b2 b3.
  Proof using Hoe.
    intros Hlen. rewrite !Forall_cons in Hlen. destruct Hlen as (L0 & L1 & L2 & L3 & L4 & _).
    assert (S : forall a b c, (a = nb \/ a = nq)%nat -> (b = nb \/ b = nq)%nat -> (c = nb \/ c = nq)%nat -> (nf * (a * b * c) <= buf_size nb nq nf 3)%nat) by (apply size3).
    pose proof (S nb nb nb ltac:(lia) ltac:(lia) ltac:(lia)) as S1. pose proof (S nb nb nq ltac:(lia) ltac:(lia) ltac:(lia)) as S2. pose proof (S nb nq nq ltac:(lia) ltac:(lia) ltac:(lia)) as S3. pose proof (S nq nq nq ltac:(lia) ltac:(lia) ltac:(lia)) as S4. clear S.
    assert (E0 : (nf * (nq * nq) = nf * nb ^ 0 * nq ^ (3 - 1 - 0))%nat) by (cbn; ring). assert (E1 : (nf * nb * nq = nf * nb ^ 1 * nq ^ (3 - 1 - 1))%nat) by (cbn; ring). assert (E2 : (nf * (nb * nb) = nf * nb ^ 2 * nq ^ (3 - 1 - 2))%nat) by (cbn; ring).
    assert (B0 : (nq * (nf * (nq * nq)) <= buf_size nb nq nf 3)%nat) by lia. assert (B1 : (nf * (nq * nq) * nb <= buf_size nb nq nf 3)%nat) by lia.
    assert (B2 : (nq * (nf * nb * nq) <= buf_size nb nq nf 3)%nat) by lia. assert (B3 : (nf * nb * nq * nb <= buf_size nb nq nf 3)%nat) by lia.
    assert (B4 : (nq * (nf * (nb * nb)) <= buf_size nb nq nf 3)%nat) by lia. assert (B5 : (nf * (nb * nb) * nb <= buf_size nb nq nf 3)%nat) by lia. clear S1 S2 S3 S4.
    set (BS := buf_size nb nq nf 3) in *. unfold sumFactForwardHex, itp, dif.
    destruct (forward_ok nf 3 0 false 0 4 [l0; l1; l2; l3; l4] l0 l4 _ eq_refl eq_refl E0) as (t1 & R1 & N1 & W1); [lia|lia|]. rewrite R1, bind_ok. cbn [insert list_insert alter list_alter].
    destruct (forward_ok nf 3 0 true 1 4 [l0; l1; l2; l3; t1] l1 t1 _ eq_refl eq_refl E0) as (t2 & R2 & N2 & W2); [lia|lia|]. rewrite R2, bind_ok. cbn [insert list_insert alter list_alter].
    destruct (forward_ok nf 3 1 false 4 1 [l0; l1; l2; l3; t2] t2 l1 _ eq_refl eq_refl E1) as (a1 & R3 & N3 & W3); [lia|lia|]. rewrite R3, bind_ok. cbn [insert list_insert alter list_alter].
    destruct (forward_ok nf 3 0 false 2 4 [l0; a1; l2; l3; t2] l2 t2 _ eq_refl eq_refl E0) as (t3 & R4 & N4 & W4); [lia|lia|]. rewrite R4, bind_ok. cbn [insert list_insert alter list_alter].
    destruct (forward_ok nf 3 1 true 4 1 [l0; a1; l2; l3; t3] t3 a1 _ eq_refl eq_refl E1) as (b1' & R5 & N5 & W5); [lia|lia|]. rewrite R5, bind_ok. cbn [insert list_insert alter list_alter].
    destruct (forward_ok nf 3 2 false 1 0 [l0; b1'; l2; l3; t3] b1' l0 _ eq_refl eq_refl E2) as (a0 & R6 & N6 & W6); [lia|lia|]. rewrite R6, bind_ok. cbn [insert list_insert alter list_alter].
    destruct (forward_ok nf 3 0 false 3 1 [a0; b1'; l2; l3; t3] l3 b1' _ eq_refl eq_refl E0) as (c1 & R7 & N7 & W7); [lia|lia|]. rewrite R7, bind_ok. cbn [insert list_insert alter list_alter].
    destruct (forward_ok nf 3 1 false 1 3 [a0; c1; l2; l3; t3] c1 l3 _ eq_refl eq_refl E1) as (a3 & R8 & N8 & W8); [lia|lia|]. rewrite R8, bind_ok. cbn [insert list_insert alter list_alter].
    destruct (forward_ok nf 3 2 true 3 0 [a0; c1; l2; a3; t3] a3 a0 _ eq_refl eq_refl E2) as (o0 & R9 & N9 & W9); [lia|lia|]. rewrite R9. cbn [insert list_insert alter list_alter].
    exists o0, [c1; l2; a3; t3]. split; [done|]. split; [lia|]. intros f b1 b2 b3 Hf H1 H2 H3.
    rewrite (three_stages nq nb nf _ _ _ _ _ _ _ _ _ _ _ f b1 b2 b3 W7 W8 W9 Hf H1 H2 H3). f_equal. cbv iota.
    assert (Hn2 : (f + nf * (b1 + nb * b2) < nf * (nb * nb))%nat) by (assert (b1 + nb * b2 < nb * nb)%nat by nia; nia).
    rewrite (swept_at _ _ _ _ _ _ _ _ (f + nf * (b1 + nb * b2)) b3 _ W6) by (done || ring). cbv iota. rewrite Rplus_0_l.
    rewrite <- (T3_plus nq It It It (at' l0) Dt (at' l1) f b1 b2 b3 (fun q2 q3 => nth (q2 + nq * (q3 + nq * (f + nf * b1))) t2 0)).
    2:{ intros q2 q3 Hq2 Hq3. cbv beta. assert (Hn0 : (q2 + nq * (q3 + nq * f) < nf * (nq * nq))%nat) by (assert (q3 + nq * f < nf * nq)%nat by nia; nia).
        rewrite (swept_at _ _ _ _ _ _ _ _ (q2 + nq * (q3 + nq * f)) b1 _ W2) by (done || ring). cbv iota. rewrite (swept_at _ _ _ _ _ _ _ _ (q2 + nq * (q3 + nq * f)) b1 _ W1) by (done || ring). cbv iota. by rewrite Rplus_0_l. }
    unfold T3. rewrite <- rsum_plus. apply rsum_ext. intros q3 Hq3. rewrite <- Rmult_plus_distr_r. f_equal.
    assert (Hn1 : (q3 + nq * (f + nf * b1) < nf * nb * nq)%nat) by (assert (f + nf * b1 < nf * nb)%nat by nia; nia).
    rewrite (swept_at _ _ _ _ _ _ _ _ (q3 + nq * (f + nf * b1)) b2 _ W5) by (done || ring). cbv iota. rewrite (swept_at _ _ _ _ _ _ _ _ (q3 + nq * (f + nf * b1)) b2 _ W3) by (done || ring). cbv iota. rewrite Rplus_0_l. f_equal.
    apply rsum_ext. intros q2 Hq2. f_equal. assert (Hn0 : (q2 + nq * (q3 + nq * f) < nf * (nq * nq))%nat) by (assert (q3 + nq * f < nf * nq)%nat by nia; nia).
    rewrite (swept_at _ _ _ _ _ _ _ _ (q2 + nq * (q3 + nq * f)) b1 _ W4) by (done || ring). cbv iota. by rewrite Rplus_0_l.
  Qed.
End transforms.
