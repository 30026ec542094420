From Coq Require Import Reals Lra.
From Verif Require Import Base Elem_model Poly_model Poly_spec Poly_proofs Basis_model Basis_proofs Gauss_model Geom_model Geom_proofs LocalSys_model SumFact_model.
Local Open Scope R_scope.

Notation at' := (fun (l : list R) i => nth i l 0).
Lemma rd_nth0 (l : list R) i : (i < length l)%nat -> rd l i = Ok (nth i l 0).
Proof. intros H. destruct (lookup_lt_is_Some_2 l i H) as [x Hx]. unfold rd. rewrite Hx. f_equal. symmetry. by apply nth_lookup_Some. Qed.
Lemma cell_inj (N n n' q q' : nat) : (n < N)%nat -> (n' < N)%nat -> (n + N * q = n' + N * q')%nat -> n = n' /\ q = q'.
Proof. intros H H' E. assert (q = q') by nia. subst. split; [lia|done]. Qed.

Lemma bind_ext {A B} (r r' : res A) (f g : A -> res B) : r = r' -> (forall x, f x = g x) -> (r ≫= f) = (r' ≫= g).
Proof. intros <- H. destruct r as [x| |]; [apply H|done|done]. Qed.

Lemma fe_ext {A S} (f f' : A -> S -> res S) l s : (forall x s, x ∈ l -> f x s = f' x s) -> for_each f l s = for_each f' l s.
Proof.
  revert s. induction l as [|x l IH]; intros s H; [done|]. cbn [for_each]. rewrite H by left. apply bind_ext; [done|]. intros s'. apply IH. intros y t Hy. apply H. by right.
Qed.

(** ** Buffers written entry by entry *)
Section writes.
  Context (len : nat) (old new : nat -> R).
  Definition P (S : nat -> Prop) (out : list R) : Prop :=
    length out = len /\ (forall i, S i -> (i < len)%nat -> nth i out 0 = new i) /\ (forall i, ~ S i -> (i < len)%nat -> nth i out 0 = old i).
  Definition writes (f : list R -> res (list R)) (C : nat -> Prop) : Prop :=
    forall S out, (forall i, C i -> ~ S i) -> P S out -> exists out', f out = Ok out' /\ P (fun i => S i \/ C i) out'.
  Lemma P_ext S S' out : (forall i, S i <-> S' i) -> P S out -> P S' out.
  Proof. intros H (H1 & H2 & H3). split; [done|]. split; intros i Hi; [apply H2; by apply H|apply H3; by rewrite H]. Qed.
  Lemma writes_ext f C C' : (forall i, C i <-> C' i) -> writes f C -> writes f C'.
  Proof.
    intros H Hw S out Hd HP. destruct (Hw S out) as (out' & E & HP'); [intros i Hi; apply Hd; by apply H|done|]. exists out'. split; [done|].
    eapply P_ext; [|exact HP']. intros i. cbn. rewrite H. done.
  Qed.
  Lemma writes_eq f g C : (forall out, f out = g out) -> writes f C -> writes g C.
  Proof. intros H Hw S out Hd HP. rewrite <- H. by apply Hw. Qed.
  Lemma writes_seq f g C C' : writes f C -> writes g C' -> (forall i, C i -> ~ C' i) -> writes (fun out => out ← f out; g out) (fun i => C i \/ C' i).
  Proof.
    intros Hf Hg Hd S out HS HP. destruct (Hf S out) as (o1 & E1 & P1); [intros i Hi; apply HS; by left|done|].
    destruct (Hg (fun i => S i \/ C i) o1) as (o2 & E2 & P2); [|exact P1|]. { intros i Hi [H|H]; [|by apply (Hd i)]. apply (HS i); [by right|done]. }
    exists o2. split; [by rewrite E1, bind_ok|]. eapply P_ext; [|exact P2]. intros i. cbn. tauto.
  Qed.
  Lemma writes_ok : writes (fun out => Ok out) (fun _ => False).
  Proof. intros S out _ HP. exists out. split; [done|]. eapply P_ext; [|exact HP]. intros; cbn; tauto. Qed.
  Lemma writes_for {A} (f : A -> list R -> res (list R)) (C : A -> nat -> Prop) l :
    NoDup l -> (forall a, a ∈ l -> writes (f a) (C a)) -> (forall a b i, a ∈ l -> b ∈ l -> C a i -> C b i -> a = b) ->
    writes (for_each f l) (fun i => exists a, a ∈ l /\ C a i).
  Proof.
    induction l as [|a l IH]; intros Hnd Hw Hd.
    - eapply writes_ext; [|exact writes_ok]. intros i. split; [done|]. intros (a & Ha & _). by apply elem_of_nil in Ha.
    - apply NoDup_cons in Hnd. destruct Hnd as [Ha Hnd]. eapply (writes_ext _ (fun i => C a i \/ exists b, b ∈ l /\ C b i)).
      { intros i. split; [intros [H|(b & Hb & H)]; [exists a; split; [left|done]|exists b; split; [by right|done]]|intros (b & Hb & H); apply elem_of_cons in Hb; destruct Hb as [-> |Hb]; [by left|right; by exists b]]. }
      cbn [for_each]. apply (writes_seq (f a) (for_each f l)); [apply Hw; left|apply IH; [done|intros b Hb; apply Hw; by right|intros b c i Hb Hc; apply Hd; by right]|].
      intros i Hi (b & Hb & H). assert (a = b) by (apply (Hd a b i); [left|by right|done|done]). by subst.
  Qed.
  Lemma writes_combine acc i v : (i < len)%nat -> new i = (if acc : bool then old i + v else v) -> writes (fun out => combine acc out i v) (fun j => j = i).
  Proof.
    intros Hi Hn S out HS (Hl & H1 & H2). assert (Hlt : (i < length out)%nat) by lia. unfold combine. rewrite rd_nth0, bind_ok, wr_ok by done. eexists. split; [done|].
    split; [by rewrite insert_length|]. assert (Hno : ~ S i) by by apply HS. rewrite (H2 i Hno Hi).
    assert (Hg : forall (v' : R) j, (j < len)%nat -> nth j (<[i:=v']> out) 0 = if decide (j = i) then v' else nth j out 0).
    { intros v' j Hj. apply nth_lookup_Some. case_decide; [subst; by apply list_lookup_insert|]. rewrite list_lookup_insert_ne by done. destruct (lookup_lt_is_Some_2 out j) as [w Hw]; [lia|]. rewrite Hw. f_equal. symmetry. by apply nth_lookup_Some. }
    split; intros j Hj Hjl; rewrite Hg by done; case_decide; subst; [by rewrite Hn| |tauto|].
    - apply H1; [tauto|done].
    - apply H2; [tauto|done].
  Qed.
End writes.

(** ** One sweep *)
Section sweep.
  Context (K N Q : nat) (M : mat) (inb : list R) (Hin : (K * N <= length inb)%nat).
  Notation v k n := (nth (k + K * n) inb 0).
  Definition val (n q : nat) : R := rsum K (fun k => nth (k + K * n) inb 0 * M k q).
  Context (acc : bool) (outb : list R) (Hout : (N * Q <= length outb)%nat).
  Notation old := (fun i => nth i outb 0).
  Definition new (i : nat) : R := (if acc then nth i outb 0 else 0) + val (i mod N) (i / N).
  Notation writes := (writes (length outb) old new).
  Lemma new_at n q : (n < N)%nat -> new (n + N * q) = (if acc then nth (n + N * q) outb 0 else 0) + val n q.
  Proof using Hin Hout.
    intros H. unfold new. replace ((n + N * q) `mod` N)%nat with n; [replace ((n + N * q) / N)%nat with q; [done|]|].
    - rewrite Nat.mul_comm, Nat.div_add by lia. rewrite Nat.div_small by lia. lia.
    - rewrite Nat.mul_comm, Nat.mod_add by lia. by rewrite Nat.mod_small.
  Qed.
  Lemma cell_lt n q : (n < N)%nat -> (q < Q)%nat -> (n + N * q < length outb)%nat.
  Proof using Hin Hout. intros. nia. Qed.
  Lemma writes_cell n q x : (n < N)%nat -> (q < Q)%nat -> x = val n q -> writes (fun out => combine acc out (n + N * q) x) (fun j => j = (n + N * q)%nat).
  Proof using Hin Hout. intros Hn Hq ->. apply writes_combine; [by apply cell_lt|]. rewrite new_at by done. destruct acc; lra. Qed.
  (** What a sweep has to do. *)
  Definition swept (out : list R) : Prop :=
    length out = length outb /\ forall n q, (n < N)%nat -> (q < Q)%nat -> nth (n + N * q) out 0 = (if acc then nth (n + N * q) outb 0 else 0) + val n q.
  Lemma writes_swept f : writes f (fun i => exists n q, (n < N)%nat /\ (q < Q)%nat /\ i = (n + N * q)%nat) -> exists out, f outb = Ok out /\ swept out.
  Proof using Hin Hout.
    intros H. destruct (H (fun _ => False) outb) as (out & E & Hl & Hnew & _); [tauto|by split|]. exists out. split; [done|]. split; [done|].
    intros n q Hn Hq. rewrite <- new_at by done. apply Hnew; [right; by exists n, q|by apply cell_lt].
  Qed.
  Lemma in_lt k n : (k < K)%nat -> (n < N)%nat -> (k + K * n < length inb)%nat.
  Proof using Hin Hout. intros. nia. Qed.
  Lemma product_ok n q : (n < N)%nat -> for_each (fun k s => x ← rd inb (k + K * n)%nat; Ok (s + x * M k q)) (seq 0 K) 0 = Ok (val n q).
  Proof using Hin Hout.
    intros Hn. unfold val. pose proof (in_lt) as Hlt. clear Hin. assert (Hk : forall m, (m <= K)%nat -> for_each (fun k s => x ← rd inb (k + K * n)%nat; Ok (s + x * M k q)) (seq 0 m) 0 = Ok (rsum m (fun k => v k n * M k q))).
    { induction m as [|m IH]; intros Hm; [done|]. rewrite seq_S, for_each_app, IH by lia. rewrite bind_ok. cbn [for_each]. rewrite rd_nth0 by (apply Hlt; lia). rewrite !bind_ok. done. }
    by apply Hk.
  Qed.
  Lemma standard_ok : exists out, sweepStandard acc K N Q M inb outb = Ok out /\ swept out.
  Proof using Hin Hout.
    apply writes_swept. unfold sweepStandard.
    eapply (writes_ext _ _ _ _ (fun i => exists q, q ∈ seq 0 Q /\ exists n, n ∈ seq 0 N /\ i = (n + N * q)%nat)).
    { intros i. split; [intros (q & Hq & n & Hn & ->); apply elem_of_seq in Hq, Hn; exists n, q; repeat split; lia|intros (n & q & Hn & Hq & ->); exists q; split; [apply elem_of_seq; lia|]; exists n; split; [apply elem_of_seq; lia|done]]. }
    apply (writes_for _ _ _ (fun q out => for_each _ (seq 0 N) out) (fun q i => exists n, n ∈ seq 0 N /\ i = (n + N * q)%nat)); [apply NoDup_seq| |].
    - intros q Hq. apply elem_of_seq in Hq. apply (writes_for _ _ _ _ (fun n i => i = (n + N * q)%nat)); [apply NoDup_seq| |intros; lia].
      intros n Hn. apply elem_of_seq in Hn. eapply writes_eq; [|apply (writes_cell n q _ ltac:(lia) ltac:(lia) eq_refl)]. intros out. cbv beta. rewrite product_ok by lia. by rewrite bind_ok.
    - intros q q' i _ _ (n & Hn & ->) (n' & Hn' & E). apply elem_of_seq in Hn, Hn'. apply (cell_inj N n n' q q'); lia.
  Qed.

  (** *** Odd and even parts *)
  Lemma rsum_reverse m f : rsum m f = rsum m (fun k => f (m - 1 - k)%nat).
  Proof using Hin Hout.
    induction m as [|m IH]; [done|]. change (rsum (S m) f) with (rsum m f + f m). rewrite IH.
    assert (E : forall m (g : nat -> R), rsum (S m) g = g O + rsum m (fun k => g (S k))). { clear. intros m. induction m as [|m IH]; intros g; [cbn; lra|]. change (rsum (S (S m)) g) with (rsum (S m) g + g (S m)). rewrite IH. cbn. lra. }
    rewrite (E m). rewrite Rplus_comm. f_equal; [f_equal; lia|]. apply rsum_ext. intros k Hk. f_equal. lia.
  Qed.
  Lemma rsum_fold m f : rsum m f = rsum (m / 2) (fun k => f k + f (m - 1 - k)%nat) + (if (m / 2 <? (m + 1) / 2)%nat then f (m / 2)%nat else 0).
  Proof using Hin Hout.
    set (h := (m / 2)%nat).
    assert (Hsplit : forall a b (g : nat -> R), rsum (a + b) g = rsum a g + rsum b (fun k => g (a + k)%nat)).
    { intros a b g. induction b as [|b IH]; [rewrite Nat.add_0_r; cbn; lra|]. rewrite Nat.add_succ_r. cbn [rsum]. rewrite IH. lra. }
    assert (Hm : (m = h + h \/ m = h + S h)%nat) by (pose proof (Nat.div_mod m 2 ltac:(lia)); pose proof (Nat.mod_upper_bound m 2 ltac:(lia)); unfold h; lia).
    assert (Hr : rsum h (fun k => f k + f (m - 1 - k)%nat) = rsum h f + rsum h (fun k => f (m - h + k)%nat)).
    { rewrite rsum_plus. f_equal. rewrite rsum_reverse. apply rsum_ext. intros k Hk. f_equal. lia. }
    rewrite Hr. destruct Hm as [Hm|Hm].
    - replace ((m + 1) / 2)%nat with h by (apply (Nat.div_unique _ 2 _ 1); lia). rewrite Nat.ltb_irrefl. rewrite Hm at 1. rewrite Hsplit. rewrite Rplus_0_r. f_equal. apply rsum_ext. intros k Hk. f_equal. lia.
    - replace ((m + 1) / 2)%nat with (S h) by (apply (Nat.div_unique _ 2 _ 0); lia). replace (h <? S h)%nat with true by (symmetry; apply Nat.ltb_lt; lia).
      rewrite Hm at 1. replace (h + S h)%nat with (S h + h)%nat by lia. rewrite Hsplit. cbn [rsum]. replace (m - h)%nat with (S h) by lia. lra.
  Qed.
  Definition E_ (n : nat) : list R := map (fun r => / 2 * (v r n + v (K - r - 1) n)) (seq 0 (K / 2)) ++ (if (K / 2 <? (K + 1) / 2)%nat then [v (K / 2) n] else []).
  Definition O_ (n : nat) : list R := map (fun r => / 2 * (v r n - v (K - r - 1) n)) (seq 0 (K / 2)).
  Lemma makeEO_ok n : (n < N)%nat -> makeEO K inb n = Ok (E_ n, O_ n).
  Proof using Hin Hout.
    intros Hn. pose proof in_lt as Hlt. unfold makeEO.
    rewrite (map_res_ok _ (fun r => (/ 2 * (v r n + v (K - r - 1) n), / 2 * (v r n - v (K - r - 1) n)))).
    - rewrite bind_ok. unfold E_, O_. destruct (Nat.ltb_spec (K / 2) ((K + 1) / 2)) as [H|H].
      + rewrite rd_nth0, !bind_ok; [by rewrite !map_map|]. apply Hlt; [|done].
        pose proof (Nat.div_mod (K + 1) 2 ltac:(lia)). pose proof (Nat.div_mod K 2 ltac:(lia)). pose proof (Nat.mod_upper_bound K 2 ltac:(lia)). lia.
      + by rewrite bind_ok, !map_map.
    - intros r Hr. apply elem_of_seq in Hr. pose proof (Nat.div_mod K 2 ltac:(lia)). rewrite !rd_nth0 by (apply Hlt; lia). by rewrite !bind_ok.
  Qed.
  Definition e_ (n c : nat) : R := row_times (E_ n) (psiPlus K M) c.
  Definition o_ (n c : nat) : R := row_times (O_ n) (psiMinus K M) c.
  Lemma e_ok n c : e_ n c = rsum (K / 2) (fun k => / 2 * (v k n + v (K - 1 - k) n) * (M k c + M (K - 1 - k)%nat c)) + (if (K / 2 <? (K + 1) / 2)%nat then v (K / 2) n * M (K / 2)%nat c else 0).
  Proof using Hin Hout.
    unfold e_, row_times. rewrite dot_rsum. unfold E_. rewrite app_length, map_length, seq_length.
    assert (Hh : forall l, rsum (K / 2) (fun k => nth k (map (fun r => / 2 * (v r n + v (K - r - 1) n)) (seq 0 (K / 2)) ++ l) 0 * psiPlus K M k c) = rsum (K / 2) (fun k => / 2 * (v k n + v (K - 1 - k) n) * (M k c + M (K - 1 - k)%nat c))).
    { intros l. apply rsum_ext. intros k Hk. rewrite app_nth1 by (by rewrite map_length, seq_length). rewrite (nth_indep _ 0 ((fun r => / 2 * (v r n + v (K - r - 1) n)) O)) by (by rewrite map_length, seq_length).
      rewrite (map_nth (fun r => / 2 * (v r n + v (K - r - 1) n))), seq_nth by done. cbn [plus]. unfold psiPlus. destruct (Nat.ltb_spec k (K / 2)); [|lia]. by replace (K - k - 1)%nat with (K - 1 - k)%nat by lia. }
    destruct (K / 2 <? (K + 1) / 2)%nat; cbn [length].
    - rewrite Nat.add_1_r. cbn [rsum]. rewrite Hh. f_equal. rewrite app_nth2 by (rewrite map_length, seq_length; lia). rewrite map_length, seq_length, Nat.sub_diag. cbn [nth]. unfold psiPlus. by rewrite Nat.ltb_irrefl.
    - rewrite Nat.add_0_r, Hh. lra.
  Qed.
  Lemma o_ok n c : o_ n c = rsum (K / 2) (fun k => / 2 * (v k n - v (K - 1 - k) n) * (M k c - M (K - 1 - k)%nat c)).
  Proof using Hin Hout.
    unfold o_, row_times. rewrite dot_rsum. unfold O_. rewrite map_length, seq_length. apply rsum_ext. intros k Hk.
    rewrite (nth_indep _ 0 ((fun r => / 2 * (v r n - v (K - r - 1) n)) O)) by (by rewrite map_length, seq_length).
    rewrite (map_nth (fun r => / 2 * (v r n - v (K - r - 1) n))), seq_nth by done. cbn [plus]. unfold psiMinus. by replace (K - k - 1)%nat with (K - 1 - k)%nat by lia.
  Qed.
  Lemma parts_plus n c : val n c = e_ n c + o_ n c.
  Proof using Hin Hout.
    unfold val. rewrite rsum_fold, e_ok, o_ok. destruct (K / 2 <? (K + 1) / 2)%nat.
    - match goal with |- _ = ?a + ?b + ?c => replace (a + b + c) with (a + c + b) by lra end. f_equal. rewrite <- rsum_plus. apply rsum_ext. intros k Hk. lra.
    - rewrite !Rplus_0_r. rewrite <- rsum_plus. apply rsum_ext. intros k Hk. lra.
  Qed.
  Lemma parts_minus n c : rsum K (fun k => v k n * M (K - 1 - k)%nat c) = e_ n c - o_ n c.
  Proof using Hin Hout.
    rewrite rsum_fold, e_ok, o_ok.
    assert (Hr : forall (f g h : nat -> R) m, (forall k, (k < m)%nat -> f k = g k - h k) -> rsum m f = rsum m g - rsum m h). { clear. intros f g h m. induction m as [|m IH]; intros H; [cbn; lra|]. cbn [rsum]. rewrite IH by (intros k Hk; apply H; lia). rewrite H by lia. lra. }
    rewrite (Hr _ (fun k => / 2 * (v k n + v (K - 1 - k) n) * (M k c + M (K - 1 - k)%nat c)) (fun k => / 2 * (v k n - v (K - 1 - k) n) * (M k c - M (K - 1 - k)%nat c))).
    - destruct (Nat.ltb_spec (K / 2) ((K + 1) / 2)) as [H|H]; [|lra]. replace (K - 1 - K / 2)%nat with (K / 2)%nat; [lra|].
      pose proof (Nat.div_mod (K + 1) 2 ltac:(lia)). pose proof (Nat.div_mod K 2 ltac:(lia)). pose proof (Nat.mod_upper_bound K 2 ltac:(lia)). lia.
    - intros k Hk. pose proof (Nat.div_mod K 2 ltac:(lia)). replace (K - 1 - (K - 1 - k))%nat with k by lia. lra.
  Qed.
  Context (der : bool) (Hsym : forall k q, (k < K)%nat -> (q < Q)%nat -> M (K - 1 - k)%nat (Q - 1 - q)%nat = (if der then -1 else 1) * M k q).
  Lemma mirrored n q : (q < Q)%nat -> val n (Q - 1 - q) = (if der then -1 else 1) * (e_ n q - o_ n q).
  Proof using Hin Hout Hsym.
    intros Hq. rewrite <- parts_minus. rewrite <- rsum_scal. unfold val. apply rsum_ext. intros k Hk.
    pose proof (Hsym (K - 1 - k) q ltac:(lia) Hq) as H. replace (K - 1 - (K - 1 - k))%nat with k in H by lia. rewrite H. lra.
  Qed.
  Lemma half_lt m c : (c < m / 2)%nat -> (c < m /\ m - c - 1 < m /\ c <> m - c - 1)%nat.
  Proof using Hin Hout Hsym. intros H. pose proof (Nat.div_mod m 2 ltac:(lia)). pose proof (Nat.mod_upper_bound m 2 ltac:(lia)). lia. Qed.
  Lemma block_ok c0 size : (c0 + size <= N)%nat -> writes (oddEvenBlock der acc K N Q M inb c0 size) (fun i => exists r q, (r < size)%nat /\ (q < Q)%nat /\ i = (c0 + r + N * q)%nat).
  Proof using Hin Hout Hsym.
    intros Hc. unfold oddEvenBlock.
    assert (Heo : map_res (makeEO K inb) (seq c0 size) = Ok (map (fun n => (E_ n, O_ n)) (seq c0 size))). { apply map_res_ok. intros n Hn. apply elem_of_seq in Hn. apply makeEO_ok. lia. }
    set (first := if der then o_ else e_). set (second := if der then e_ else o_).
    assert (Hnth : forall r, (r < size)%nat -> nth r (map (fun n => (E_ n, O_ n)) (seq c0 size)) ([], []) = (E_ (c0 + r), O_ (c0 + r))).
    { intros r Hr. rewrite (nth_indep _ _ ((fun n => (E_ n, O_ n)) O)) by (by rewrite map_length, seq_length). rewrite (map_nth (fun n => (E_ n, O_ n))). by rewrite seq_nth. }
    assert (Hp : forall n q, val n q = first n q + second n q) by (intros n q; rewrite parts_plus; unfold first, second; destruct der; lra).
    assert (Hm : forall n q, (q < Q)%nat -> val n (Q - 1 - q) = first n q - second n q) by (intros n q Hq; rewrite mirrored by done; unfold first, second; destruct der; lra).
    eapply (writes_eq _ _ _ (fun out => out ← for_each (fun c out => for_each (fun r out =>
        out ← combine acc out (c0 + r + N * c)%nat (first (c0 + r)%nat c + second (c0 + r)%nat c);
        combine acc out (c0 + r + N * (Q - c - 1))%nat (first (c0 + r)%nat c - second (c0 + r)%nat c)) (seq 0 size) out) (seq 0 (Q / 2)) out;
      if (Q / 2 <? (Q + 1) / 2)%nat then for_each (fun r out => combine acc out (c0 + r + N * (Q / 2))%nat (first (c0 + r)%nat (Q / 2)%nat)) (seq 0 size) out else Ok out)).
    { intros out. rewrite Heo, bind_ok. cbv zeta. apply bind_ext.
      - apply fe_ext. intros c s Hcc. apply fe_ext. intros r s' Hr. apply elem_of_seq in Hr. unfold first, second. destruct der; rewrite !Hnth by lia; done.
      - intros o. destruct (Nat.ltb_spec (Q / 2) ((Q + 1) / 2)) as [H|H]; [|done]. apply fe_ext. intros r s Hr. apply elem_of_seq in Hr. unfold first, second. destruct der; rewrite !Hnth by lia; cbn [fst snd]; do 2 f_equal;
          unfold o_, e_; f_equal; pose proof (Nat.div_mod (Q + 1) 2 ltac:(lia)); pose proof (Nat.div_mod Q 2 ltac:(lia)); pose proof (Nat.mod_upper_bound Q 2 ltac:(lia)); lia. }
    eapply (writes_ext _ _ _ _ (fun i => (exists c, c ∈ seq 0 (Q / 2) /\ exists r, r ∈ seq 0 size /\ (i = (c0 + r + N * c)%nat \/ i = (c0 + r + N * (Q - c - 1))%nat)) \/
      ((Q / 2 < (Q + 1) / 2)%nat /\ exists r, r ∈ seq 0 size /\ i = (c0 + r + N * (Q / 2))%nat))).
    { intros i. pose proof (Nat.div_mod Q 2 ltac:(lia)). pose proof (Nat.mod_upper_bound Q 2 ltac:(lia)). pose proof (Nat.div_mod (Q + 1) 2 ltac:(lia)). pose proof (Nat.mod_upper_bound (Q + 1) 2 ltac:(lia)). split.
      - intros [(c & Hcc & r & Hr & Hi)|(Hh & r & Hr & ->)].
        + apply elem_of_seq in Hcc, Hr. destruct Hi as [-> | ->]; [exists r, c|exists r, (Q - c - 1)%nat]; repeat split; lia.
        + apply elem_of_seq in Hr. exists r, (Q / 2)%nat. repeat split; lia.
      - intros (r & q & Hr & Hq & ->). destruct (decide (q < Q / 2)%nat); [|destruct (decide (Q - q - 1 < Q / 2)%nat)].
        + left. exists q. split; [apply elem_of_seq; lia|]. exists r. split; [apply elem_of_seq; lia|by left].
        + left. exists (Q - q - 1)%nat. split; [apply elem_of_seq; lia|]. exists r. split; [apply elem_of_seq; lia|]. right. do 2 f_equal. lia.
        + right. split; [lia|]. exists r. split; [apply elem_of_seq; lia|]. do 2 f_equal. lia. }
    apply (writes_seq _ _ _ _ (fun o => if (Q / 2 <? (Q + 1) / 2)%nat then _ else Ok o)).
    - apply (writes_for _ _ _ (fun c out => for_each _ (seq 0 size) out) (fun c i => exists r, r ∈ seq 0 size /\ (i = (c0 + r + N * c)%nat \/ i = (c0 + r + N * (Q - c - 1))%nat))); [apply NoDup_seq| |].
      + intros c Hcc. apply elem_of_seq in Hcc. destruct (half_lt Q c ltac:(lia)) as (Hc1 & Hc2 & Hc3).
        apply (writes_for _ _ _ _ (fun r i => i = (c0 + r + N * c)%nat \/ i = (c0 + r + N * (Q - c - 1))%nat)); [apply NoDup_seq| |].
        * intros r Hr. apply elem_of_seq in Hr. apply (writes_seq _ _ _ (fun out => combine acc out _ _)); [apply writes_cell; [lia|done|by rewrite Hp]| |].
          -- apply writes_cell; [lia|done|]. replace (Q - c - 1)%nat with (Q - 1 - c)%nat by lia. by rewrite Hm.
          -- intros i -> E. apply cell_inj in E; lia.
        * intros r r' i Hr Hr' Hi Hi'. apply elem_of_seq in Hr, Hr'. destruct Hi as [Hi|Hi], Hi' as [Hi'|Hi']; rewrite Hi in Hi'; apply cell_inj in Hi'; lia.
      + intros c c' i Hc1 Hc2 (r & Hr & Hi) (r' & Hr' & Hi'). apply elem_of_seq in Hc1, Hc2, Hr, Hr'. pose proof (half_lt Q c ltac:(lia)). pose proof (half_lt Q c' ltac:(lia)).
        destruct Hi as [Hi|Hi], Hi' as [Hi'|Hi']; rewrite Hi in Hi'; apply cell_inj in Hi'; try lia; pose proof (Nat.div_mod Q 2 ltac:(lia)); pose proof (Nat.mod_upper_bound Q 2 ltac:(lia)); lia.
    - destruct (Nat.ltb_spec (Q / 2) ((Q + 1) / 2)) as [H|H].
      + pose proof (Nat.div_mod Q 2 ltac:(lia)). pose proof (Nat.mod_upper_bound Q 2 ltac:(lia)). pose proof (Nat.div_mod (Q + 1) 2 ltac:(lia)).
        eapply (writes_ext _ _ _ _ (fun i => exists r, r ∈ seq 0 size /\ i = (c0 + r + N * (Q / 2))%nat)); [intros i; tauto|].
        apply (writes_for _ _ _ _ (fun r i => i = (c0 + r + N * (Q / 2))%nat)); [apply NoDup_seq| |intros; lia].
        intros r Hr. apply elem_of_seq in Hr. apply writes_cell; [lia|lia|]. pose proof (Hm (c0 + r)%nat (Q / 2)%nat ltac:(lia)) as Hmm. replace (Q - 1 - Q / 2)%nat with (Q / 2)%nat in Hmm by lia. pose proof (Hp (c0 + r)%nat (Q / 2)%nat). lra.
      + eapply (writes_ext _ _ _ _ (fun _ => False)); [intros i; split; [done|]; intros [H' _]; lia|]. apply writes_ok.
    - intros i (c & Hcc & r & Hr & Hi) (Hh & r' & Hr' & Hi'). apply elem_of_seq in Hcc, Hr, Hr'. pose proof (half_lt Q c ltac:(lia)). pose proof (Nat.div_mod Q 2 ltac:(lia)). pose proof (Nat.mod_upper_bound Q 2 ltac:(lia)). pose proof (Nat.div_mod (Q + 1) 2 ltac:(lia)).
      destruct Hi as [Hi|Hi]; rewrite Hi in Hi'; apply cell_inj in Hi'; lia.
  Qed.
  Lemma oddeven_ok bs : (0 < bs)%nat -> exists out, sweepOddEven bs der acc K N Q M inb outb = Ok out /\ swept out.
  Proof using Hin Hout Hsym.
    intros Hbs. apply (writes_swept (sweepOddEven bs der acc K N Q M inb)). pose proof (Nat.div_mod N bs ltac:(lia)) as HN. pose proof (Nat.mod_upper_bound N bs ltac:(lia)) as Hr. set (b := (N / bs)%nat) in *. set (m := (N mod bs)%nat) in *.
    eapply (writes_ext _ _ _ _ (fun i => (exists k, k ∈ seq 0 b /\ exists r q, (r < bs)%nat /\ (q < Q)%nat /\ i = (k * bs + r + N * q)%nat) \/ exists r q, (r < m)%nat /\ (q < Q)%nat /\ i = (N - m + r + N * q)%nat)).
    { intros i. split.
      - intros [(k & Hk & r & q & Hr' & Hq & ->)|(r & q & Hr' & Hq & ->)]; [apply elem_of_seq in Hk; exists (k * bs + r)%nat, q|exists (N - m + r)%nat, q]; repeat split; nia.
      - intros (n & q & Hn & Hq & ->). destruct (decide (n < b * bs)%nat).
        + left. exists (n / bs)%nat. split; [apply elem_of_seq; split; [lia|apply Nat.div_lt_upper_bound; lia]|]. exists (n mod bs)%nat, q. split; [apply Nat.mod_upper_bound; lia|]. split; [done|]. pose proof (Nat.div_mod n bs ltac:(lia)). lia.
        + right. exists (n - b * bs)%nat, q. split; [nia|]. split; [done|]. nia. }
    unfold sweepOddEven. fold b m. apply (writes_seq _ _ _ (fun out => for_each _ (seq 0 b) out) (fun out => if (0 <? m)%nat then _ out else Ok out)).
    - apply (writes_for _ _ _ (fun k out => oddEvenBlock der acc K N Q M inb (k * bs) bs out) (fun k i => exists r q, (r < bs)%nat /\ (q < Q)%nat /\ i = (k * bs + r + N * q)%nat)); [apply NoDup_seq| |].
      + intros k Hk. apply elem_of_seq in Hk. apply block_ok. nia.
      + intros k k' i Hk Hk' (r & q & H1 & H2 & ->) (r' & q' & H1' & H2' & E). apply elem_of_seq in Hk, Hk'. apply cell_inj in E; [|nia|nia]. nia.
    - destruct (Nat.ltb_spec 0 m); [apply block_ok; lia|]. eapply (writes_ext _ _ _ _ (fun _ => False)); [intros i; split; [done|]; intros (r & q & H' & _); lia|]. apply writes_ok.
    - intros i (k & Hk & r & q & H1 & H2 & ->) (r' & q' & H1' & H2' & E). apply elem_of_seq in Hk. apply cell_inj in E; nia.
  Qed.
End sweep.
(** The matrix is (anti)symmetric, as the odd-even variant assumes. *)
Definition mirror (der : bool) (K Q : nat) (M : mat) : Prop := forall k q, (k < K)%nat -> (q < Q)%nat -> M (K - 1 - k)%nat (Q - 1 - q)%nat = (if der then -1 else 1) * M k q.
Lemma sweep_ok K N Q M inb acc outb der oe : (K * N <= length inb)%nat -> (N * Q <= length outb)%nat -> (forall bs, oe = Some bs -> (0 < bs)%nat /\ mirror der K Q M) ->
  exists out, sweep oe der acc K N Q M inb outb = Ok out /\ swept K N Q M inb acc outb out.
Proof. intros H1 H2 H. destruct oe as [bs|]; [destruct (H bs eq_refl); by apply oddeven_ok|by apply standard_ok]. Qed.
