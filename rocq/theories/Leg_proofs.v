From Coq Require Import Reals Lra.
From Verif Require Import Base Elem_model Poly_model Poly_spec Poly_proofs Poly2_proofs Poly3_proofs Basis_model Basis_spec Basis_proofs.
Local Open Scope R_scope.

(** ** Products and choice *)
Fixpoint rpr (n : nat) (f : nat -> R) : R := match n with O => 1 | S n => rpr n f * f n end.
Lemma rpr_sign n f i : (i <= n)%nat -> (forall k, (k < i)%nat -> 0 < f k) -> (forall k, (i <= k < n)%nat -> f k < 0) -> 0 < (-1) ^ (n - i) * rpr n f.
Proof.
  induction n as [|n IH]; intros Hi Hp Hm; [replace (0 - i)%nat with O by lia; cbn; lra|]. cbn [rpr]. destruct (decide (i = S n)) as [->|Hne].
  - rewrite Nat.sub_diag. cbn. clear IH Hm. rewrite Rmult_1_l. apply Rmult_lt_0_compat; [|apply Hp; lia].
    clear Hi. assert (H : forall m, (m <= n)%nat -> 0 < rpr m f). { induction m as [|m IH]; intros Hmn; cbn; [lra|]. apply Rmult_lt_0_compat; [apply IH; lia|apply Hp; lia]. } by apply H.
  - replace (S n - i)%nat with (S (n - i)) by lia. cbn [Rpow_def.pow]. specialize (IH ltac:(lia) Hp ltac:(intros; apply Hm; lia)). pose proof (Hm n ltac:(lia)) as Hn.
    replace (-1 * (-1) ^ (n - i) * (rpr n f * f n)) with ((-1) ^ (n - i) * rpr n f * - f n) by ring. apply Rmult_lt_0_compat; lra.
Qed.
Lemma rprod_rpr n z x : rprod (map z (seq 0 n)) x = rpr n (fun k => x - z k).
Proof. induction n as [|n IH]; [done|]. rewrite seq_S, map_app, rprod_app, IH. cbn. lra. Qed.
Lemma choose (Q : nat -> R -> Prop) m : (forall j, (j < m)%nat -> exists v, Q j v) -> exists f, forall j, (j < m)%nat -> Q j (f j).
Proof.
  induction m as [|m IH]; intros H; [exists (fun _ => 0); intros; lia|]. destruct IH as [f Hf]; [intros; apply H; lia|]. destruct (H m) as [v Hv]; [lia|].
  exists (fun j => if decide (j = m) then v else f j). intros j Hj. destruct (decide (j = m)) as [->|]; [done|]. apply Hf. lia.
Qed.
Lemma factor c zs : length c = S (length zs) -> NoDup zs -> (forall z, z ∈ zs -> poly c z = 0) -> exists k, forall x, poly c x = k * rprod zs x.
Proof.
  revert c. induction zs as [|z zs IH]; intros c Hl Hnd Hz.
  - destruct c as [|a [|b c]]; try done. exists a. intros x. cbn. lra.
  - apply NoDup_cons in Hnd as [Hin Hnd]. destruct (divide_root c z) as (q & Hq & Hx). assert (H0 : poly c z = 0) by (apply Hz; left). destruct (IH q) as [k Hk].
    + cbn in Hl. lia.
    + done.
    + intros y Hy. assert (Hc : poly c y = 0) by (apply Hz; by right). rewrite Hx, H0 in Hc. destruct (Rmult_integral (y - z) (poly q y)) as [He|He]; [lra| |done]. exfalso. apply Hin. replace z with y by lra. done.
    + exists k. intros x. rewrite Hx, H0, Hk. cbn. lra.
Qed.
Definition incr (n : nat) (z : nat -> R) : Prop := forall i, (S i < n)%nat -> z i < z (S i).
Lemma incr_lt n z i j : incr n z -> (i < j < n)%nat -> z i < z j.
Proof. intros H [Hij Hj]. induction j as [|j IH]; [lia|]. destruct (decide (i = j)) as [->|]; [by apply H|]. apply (Rlt_trans _ (z j)); [apply IH; lia|by apply H]. Qed.
Lemma incr_ascending n z : incr n z -> ascending (map z (seq 0 n)).
Proof.
  intros H i j a b Hi Hj Hij. change (map z (seq 0 n)) with (z <$> seq 0 n) in *. rewrite list_lookup_fmap in Hi, Hj. apply fmap_Some in Hi as (i' & Hi & ->). apply fmap_Some in Hj as (j' & Hj & ->).
  apply lookup_seq in Hi as [-> Hi]. apply lookup_seq in Hj as [-> Hj]. apply (incr_lt n); [done|lia].
Qed.
Lemma ascending_nodup l : ascending l -> NoDup l.
Proof.
  intros H. apply NoDup_alt. intros i j x Hi Hj. destruct (Nat.lt_trichotomy i j) as [Hl|[He|Hl]]; [|done|].
  - pose proof (H _ _ _ _ Hi Hj Hl). lra.
  - pose proof (H _ _ _ _ Hj Hi Hl). lra.
Qed.

(** ** The zeros of Legendre polynomials *)
Lemma legendre_at_m1 n : legendre n (-1) = (-1) ^ n.
Proof.
  cut (legendre n (-1) = (-1) ^ n /\ legendre (S n) (-1) = (-1) ^ S n); [by intros [? _]|]. induction n as [|n [IH1 IH2]]; [split; [done|rewrite legendre_1; cbn; lra]|]. split; [done|].
  rewrite legendre_SS, IH1, IH2. pose proof (pos_INR n). cbn [Rpow_def.pow]. field. lra.
Qed.
Lemma legendre_poly n : exists l, length l = S n /\ forall x, poly l x = legendre n x.
Proof. destruct (legendre_ok n) as (l & _ & Hl & He). exists l. split; [done|]. intros x. by rewrite <- evaluate_poly. Qed.
Lemma legendre_continuity n : continuity (legendre n).
Proof.
  destruct (legendre_poly n) as (l & Hl & He). apply derivable_continuous. intros x. exists (poly (dl l) x). eapply derivable_pt_lim_ext; [exact He|]. apply dl_ok.
Qed.
Lemma legendre_factor n z : incr n z -> (forall i, (i < n)%nat -> -1 < z i < 1 /\ legendre n (z i) = 0) -> exists k, 0 < k /\ forall x, legendre n x = k * rpr n (fun i => x - z i).
Proof.
  intros Hi Hz. destruct (legendre_poly n) as (l & Hl & He). destruct (factor l (map z (seq 0 n))) as [k Hk].
  - by rewrite map_length, seq_length.
  - apply ascending_nodup. by apply incr_ascending.
  - intros y Hy. apply (elem_of_list_fmap z) in Hy as (i & -> & Hin). apply elem_of_seq in Hin. rewrite He. apply Hz. lia.
  - assert (Hk' : forall x, legendre n x = k * rpr n (fun i => x - z i)) by (intros x; rewrite <- He, Hk, rprod_rpr; done). exists k. split; [|done].
    pose proof (Hk' 1) as H1. rewrite legendre_at_1 in H1. pose proof (rpr_sign n (fun i => 1 - z i) n ltac:(lia)) as Hp. rewrite Nat.sub_diag in Hp. cbn [Rpow_def.pow] in Hp.
    assert (0 < 1 * rpr n (fun i => 1 - z i)) as Hpos. { apply Hp; [intros j Hj; destruct (Hz j Hj); lra|intros; lia]. }
    rewrite Rmult_1_l in Hpos. apply (Rmult_lt_reg_r (rpr n (fun i => 1 - z i))); [done|]. lra.
Qed.
Lemma m1_sq n : (-1) ^ n * (-1) ^ n = 1.
Proof. rewrite <- Rpow_mult_distr. replace (-1 * -1) with 1 by lra. apply pow1. Qed.
Lemma zero_between f a b s : continuity f -> a < b -> 0 < s * f a -> 0 < - s * f b -> exists v, a < v < b /\ f v = 0.
Proof.
  intros Hc Hab Ha Hb. destruct (IVT_cor f a b Hc) as (v & Hv & Hz); [lra| |].
  - assert (0 < (s * s) * - (f a * f b)) as Hp by (replace (s * s * - (f a * f b)) with (s * f a * (- s * f b)) by ring; by apply Rmult_lt_0_compat). assert (0 <= s * s) by (apply Rle_0_sqr). nra.
  - exists v. split; [|done]. split.
    + destruct (Req_dec v a) as [->|]; [rewrite Hz in Ha; lra|lra].
    + destruct (Req_dec v b) as [->|]; [rewrite Hz in Hb; lra|lra].
Qed.
Lemma legendre_zeros2 n : exists z w,
  incr n z /\ (forall i, (i < n)%nat -> -1 < z i < 1 /\ legendre n (z i) = 0) /\
  incr (S n) w /\ (forall i, (i < S n)%nat -> -1 < w i < 1 /\ legendre (S n) (w i) = 0) /\
  (forall i, (i < n)%nat -> w i < z i < w (S i)).
Proof.
  induction n as [|n (z & w & Hiz & Hz & Hiw & Hw & Hzw)].
  - exists (fun _ => 0), (fun _ => 0). split; [intros i Hi; lia|]. split; [intros; lia|]. split; [intros i Hi; lia|]. split; [|intros; lia]. intros i Hi. rewrite legendre_1. lra.
  - destruct (legendre_factor n z Hiz Hz) as (k & Hk & Hf). pose proof (pos_INR n) as HposN.
    assert (Hsign : forall i, (i <= n)%nat -> 0 < (-1) ^ (n - i) * legendre n (w i)).
    { intros i Hi. rewrite Hf. replace ((-1) ^ (n - i) * (k * rpr n (fun j => w i - z j))) with (k * ((-1) ^ (n - i) * rpr n (fun j => w i - z j))) by ring. apply Rmult_lt_0_compat; [done|]. apply rpr_sign; [done| |].
      - intros j Hj. pose proof (Hzw j ltac:(lia)) as [_ H]. destruct (decide (S j = i)) as [<-|]; [lra|]. pose proof (incr_lt (S n) w (S j) i Hiw ltac:(lia)). lra.
      - intros j Hj. pose proof (Hzw j ltac:(lia)) as [H _]. destruct (decide (i = j)) as [->|]; [lra|]. pose proof (incr_lt (S n) w i j Hiw ltac:(lia)). lra. }
    set (e := fun j => if decide (j = O) then -1 else if decide (j = S (S n)) then 1 else w (j - 1)%nat).
    assert (He : forall j, (j <= S (S n))%nat -> 0 < (-1) ^ (S (S n) - j) * legendre (S (S n)) (e j)).
    { intros j Hj. unfold e. destruct (decide (j = O)) as [->|]; [rewrite legendre_at_m1, Nat.sub_0_r, m1_sq; lra|]. destruct (decide (j = S (S n))) as [->|]; [rewrite legendre_at_1, Nat.sub_diag; cbn; lra|].
      destruct j as [|j]; [lia|]. replace (S j - 1)%nat with j by lia. rewrite legendre_SS. destruct (Hw j ltac:(lia)) as [_ ->]. specialize (Hsign j ltac:(lia)). replace (S (S n) - S j)%nat with (S (n - j)) by lia. cbn [Rpow_def.pow].
      replace (-1 * (-1) ^ (n - j) * (((2 * INR n + 3) * w j * 0 - (INR n + 1) * legendre n (w j)) / (INR n + 2))) with ((INR n + 1) / (INR n + 2) * ((-1) ^ (n - j) * legendre n (w j))) by (field; lra).
      apply Rmult_lt_0_compat; [|done]. apply Rdiv_lt_0_compat; lra. }
    assert (Hinc : forall j, (j < S (S n))%nat -> e j < e (S j)).
    { intros j Hj. unfold e. destruct (decide (j = O)) as [->|].
      - destruct (decide (1 = O)%nat); [lia|]. destruct (decide (1 = S (S n))%nat); [lia|]. cbn. destruct (Hw O ltac:(lia)). lra.
      - destruct (decide (j = S (S n))); [lia|]. destruct (decide (S j = O)); [lia|]. destruct (decide (S j = S (S n))) as [E|].
        + destruct (Hw (j - 1)%nat ltac:(lia)). lra.
        + destruct j as [|j]; [lia|]. replace (S j - 1)%nat with j by lia. replace (S (S j) - 1)%nat with (S j) by lia. apply Hiw. lia. }
    destruct (choose (fun j v => e j < v < e (S j) /\ legendre (S (S n)) v = 0) (S (S n))) as [v Hv].
    { intros j Hj. apply (zero_between _ _ _ ((-1) ^ (S (S n) - j))); [apply legendre_continuity|by apply Hinc|apply He; lia|].
      specialize (He (S j) ltac:(lia)). replace (S (S n) - j)%nat with (S (S (S n) - S j)) by lia. cbn [Rpow_def.pow]. lra. }
    assert (Hev : forall i, (i <= n)%nat -> e (S i) = w i). { intros i Hi. unfold e. destruct (decide _); [lia|]. destruct (decide _); [lia|]. f_equal. lia. }
    assert (Hlo : forall j, (j <= S (S n))%nat -> -1 <= e j <= 1). { intros j Hj. unfold e. destruct (decide _); [lra|]. destruct (decide _); [lra|]. destruct (Hw (j - 1)%nat ltac:(lia)). lra. }
    exists w, v. split; [done|]. split; [done|]. split; [|split].
    + intros i Hi. destruct (Hv i ltac:(lia)) as [[_ H1] _]. destruct (Hv (S i) ltac:(lia)) as [[H2 _] _]. lra.
    + intros i Hi. destruct (Hv i Hi) as [H1 H2]. split; [|done]. pose proof (Hlo i ltac:(lia)). pose proof (Hlo (S i) ltac:(lia)). lra.
    + intros i Hi. rewrite <- Hev by lia. destruct (Hv i ltac:(lia)) as [H1 _]. destruct (Hv (S i) ltac:(lia)) as [H2 _]. lra.
Qed.
Lemma legendre_zeros n : exists z, incr n z /\ (forall i, (i < n)%nat -> -1 < z i < 1 /\ legendre n (z i) = 0).
Proof. destruct (legendre_zeros2 n) as (z & w & H1 & H2 & _). by exists z. Qed.
(** Between them lie the zeros of the derivative. *)
Lemma lobatto_zeros n d : (forall x, derivable_pt_lim (legendre (S n)) x (d x)) -> exists z, incr n z /\ forall i, (i < n)%nat -> -1 < z i < 1 /\ d (z i) = 0.
Proof.
  intros Hd. destruct (legendre_zeros (S n)) as (z & Hi & Hz).
  destruct (choose (fun j v => z j < v < z (S j) /\ d v = 0) n) as [v Hv].
  - intros j Hj. destruct (MVT_cor2 (legendre (S n)) d (z j) (z (S j))) as (v & He & Hv); [apply Hi; lia|intros; apply Hd|]. exists v. split; [done|].
    destruct (Hz j ltac:(lia)) as [_ H1]. destruct (Hz (S j) ltac:(lia)) as [_ H2]. rewrite H1, H2 in He. assert (0 = d v * (z (S j) - z j)) as He' by lra. symmetry in He'. apply Rmult_integral in He' as [?|?]; lra.
  - exists v. split.
    + intros i Hi'. destruct (Hv i ltac:(lia)) as [[_ H1] _]. destruct (Hv (S i) ltac:(lia)) as [[H2 _] _]. lra.
    + intros i Hi'. destruct (Hv i ltac:(lia)) as [H1 H2]. destruct (Hz i ltac:(lia)) as [? _]. destruct (Hz (S i) ltac:(lia)) as [? _]. split; [lra|done].
Qed.
(** A sorted list of n numbers with all of n distinct numbers in it. *)
Lemma all_zeros n z (roots : list R) (Q : R -> Prop) : incr n z -> (forall i, (i < n)%nat -> Q (z i)) -> length roots = n -> (forall x, Q x -> x ∈ roots) ->
  roots ≡ₚ map z (seq 0 n) /\ NoDup roots /\ forall x, Q x <-> x ∈ roots.
Proof.
  intros Hi Hq Hl Hin. assert (Hnd : NoDup (map z (seq 0 n))) by (apply ascending_nodup; by apply incr_ascending).
  assert (Hp : map z (seq 0 n) ≡ₚ roots).
  { apply submseteq_Permutation_length_le; [rewrite map_length, seq_length; lia|]. apply NoDup_submseteq; [done|]. intros x Hx. apply (elem_of_list_fmap z) in Hx as (i & -> & Hx). apply elem_of_seq in Hx. apply Hin, Hq. lia. }
  split; [by symmetry|]. split; [by rewrite <- Hp|]. intros x. split; [apply Hin|]. rewrite <- Hp. intros Hx. apply (elem_of_list_fmap z) in Hx as (i & -> & Hx). apply elem_of_seq in Hx. apply Hq. lia.
Qed.
