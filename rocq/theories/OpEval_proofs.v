(** C72: the batches of columns, the diagonal and the right-hand side. *)
From Coq Require Import Ring Ring_theory.
From Verif Require Import Base StdAlgo Cond_spec Cond3_proofs LocalSys_model LocalSys_spec LocalSys_proofs OpEval_model OpEval_spec.
Local Arguments Nat.mul : simpl never.
Local Arguments Nat.add : simpl never.
Local Arguments Nat.sub : simpl never.

Lemma block_true row col h w i j : block_at row col h w i j = true <-> (row <= i < row + h /\ col <= j < col + w).
Proof. unfold block_at. rewrite !andb_true_iff, !Nat.leb_le, !Nat.ltb_lt. lia. Qed.
Lemma block_false row col h w i j : block_at row col h w i j = false <-> ~ (row <= i < row + h /\ col <= j < col + w).
Proof. rewrite <- block_true. destruct (block_at row col h w i j); split; congruence || done. Qed.
Lemma seg_true a h i : (a <=? i) && (i <? a + h) = true <-> a <= i < a + h.
Proof. rewrite andb_true_iff, Nat.leb_le, Nat.ltb_lt. lia. Qed.
Lemma seg_false a h i : (a <=? i) && (i <? a + h) = false <-> ~ a <= i < a + h.
Proof. rewrite <- seg_true. destruct ((a <=? i) && (i <? a + h)); split; congruence || done. Qed.
Section proofs.
  Context {F : Type} (zero one : F) (add mul sub : F -> F -> F) (opp : F -> F) (Rth : ring_theory zero one add mul sub opp (@eq F)).
  Add Ring Fring : Rth.
  Notation mat := (nat -> nat -> F).
  Notation Sig := (Sig zero add).
  Notation total := (total zero add).
  Infix "+!" := add (at level 50, left associativity).
  Infix "*!" := mul (at level 40, left associativity).
  Context (nb nu us upb : nat) (Hupb : 0 < upb) (Hus : 0 < us).
  Notation n := (psize nb nu).
  Notation applied := (applied zero add mul nu).
  Notation Sig_add := (Sig_add zero one add mul sub opp Rth).
  Notation Sig_app := (Sig_app zero one add mul sub opp Rth).
  Notation Sig_mul_l := (Sig_mul_l zero one add mul sub opp Rth).
  Notation Sig_mul_r := (Sig_mul_r zero one add mul sub opp Rth).
  Notation Sig_swap := (Sig_swap zero one add mul sub opp Rth).
  Notation Sig_0 := (Sig_0 zero one add mul sub opp Rth).
  Lemma tot {A} (l : list A) f : total l f = Sig l f.
  Proof. clear. induction l as [|a l IH]; [done|]. cbn. by rewrite IH. Qed.
  Lemma applied_split u a0 ops i e : u_ops u = a0 :: ops ->
    applied u i e = u_vals u (i / nu) *! a0 e (i mod nu) +! Sig (seq 0 (length ops)) (fun d => match ops !! d with Some a => u_ders u d (i / nu) *! a e (i mod nu) | None => zero end).
  Proof using Rth Hus Hupb.
    intros Eo. unfold LocalSys_spec.applied. rewrite tot, Eo. cbn [length]. rewrite <- cons_seq, Sig_cons. cbn [lookup list_lookup]. f_equal. rewrite <- seq_shift, Sig_map. apply Sig_ext. done.
  Qed.
  Lemma index_split b i : i < nu -> (b * nu + i) / nu = b /\ (b * nu + i) mod nu = i.
  Proof. intros Hi. split; symmetry; [apply (Nat.div_unique _ _ _ i)|apply (Nat.mod_unique _ _ b)]; lia. Qed.
  Lemma opCol_ok u b eq : u_ops u <> [] -> exists c, opCol add mul u b eq = Ok c /\ forall i, i < nu -> c i = applied u (b * nu + i) eq.
  Proof using Rth Hus Hupb.
    intros Ho. unfold opCol. destruct (u_ops u) as [|a0 ops] eqn:Eo; [done|]. cbn [length]. replace (S (length ops) - 1) with (length ops) by lia. change (rd (a0 :: ops) 0) with (Ok a0). rewrite bind_ok.
    assert (H : forall m c, m <= length ops -> exists c', for_each (fun d (c : nat -> F) => a ← rd (a0 :: ops) (S d); Ok (fun i => c i +! a eq i *! u_ders u d b)) (seq 0 m) c = Ok c' /\
      forall i, c' i = c i +! Sig (seq 0 m) (fun d => match ops !! d with Some a => u_ders u d b *! a eq i | None => zero end)).
    { intros m c. induction m as [|m IH]; intros Hm; [exists c; split; [done|]; intros i; cbn [seq]; rewrite Sig_nil; ring|].
      destruct (IH ltac:(lia)) as (c' & E & Hc). rewrite seq_S, for_each_app, E, bind_ok. cbn [for_each]. rewrite Nat.add_0_l. destruct (lookup_lt_is_Some_2 ops m ltac:(lia)) as [a Ha]. rewrite (rd_ok (a0 :: ops) (S m) a Ha), !bind_ok.
      eexists. split; [reflexivity|]. intros i. cbv beta. rewrite Hc, Sig_app, Sig_cons, Sig_nil, Ha. ring. }
    destruct (H (length ops) (fun i => a0 eq i *! u_vals u b) ltac:(lia)) as (c & E & Hc). exists c. split; [exact E|]. intros i Hi. rewrite Hc, (applied_split _ _ _ _ _ Eo). destruct (index_split b i Hi) as [-> ->]. f_equal. ring.
  Qed.
  Lemma cols_ok u (m : mat) col k : u_ops u <> [] -> col < us * upb -> forall eq, k <= nb -> exists m', for_each (fun b m => c ← opCol add mul u b eq; block_set n (us * upb) m (b * nu) col nu 1 (fun i _ => c i)) (seq 0 k) m = Ok m' /\
      (forall i, i < k * nu -> m' i col = applied u i eq) /\ (forall i c, c <> col -> m' i c = m i c).
  Proof using Rth Hus Hupb.
    intros Ho Hcol eq. induction k as [|k IH]; intros Hk; [exists m; split; [done|]; split; [intros; lia|done]|].
    destruct (IH ltac:(lia)) as (m1 & E & H1 & H2). rewrite seq_S, for_each_app, E, bind_ok, Nat.add_0_l. cbn [for_each].
    destruct (opCol_ok u k eq Ho) as (c & Ec & Hc). rewrite Ec, bind_ok. unfold block_set. assert (Hrow : k * nu + nu <= n) by (unfold psize; nia).
    rewrite (proj2 (Nat.leb_le _ _) Hrow), (proj2 (Nat.leb_le (col + 1) _)) by lia. cbn [andb]. rewrite bind_ok. eexists. split; [reflexivity|]. split.
    - intros i Hi. destruct (decide (i < k * nu)) as [Hlt|Hge].
      + rewrite (proj2 (block_false _ _ _ _ _ _)) by lia. by apply H1.
      + rewrite Nat.mul_succ_l in Hi. rewrite (proj2 (block_true _ _ _ _ _ _)) by lia. rewrite Hc by lia. f_equal. lia.
    - intros i c' Hne. rewrite (proj2 (block_false _ _ _ _ _ _)) by lia. by apply H2.
  Qed.
  Lemma eqs_ok u (m : mat) cols k : u_ops u <> [] -> cols + us <= us * upb -> k <= us -> exists m', for_each (fun eq m => for_each (fun b m => c ← opCol add mul u b eq; block_set n (us * upb) m (b * nu) (cols + eq) nu 1 (fun i _ => c i)) (seq 0 nb) m) (seq 0 k) m = Ok m' /\
      (forall i eq, i < n -> eq < k -> m' i (cols + eq) = applied u i eq) /\ (forall i c, c < cols -> m' i c = m i c).
  Proof using Rth Hus Hupb.
    intros Ho Hc. induction k as [|k IH]; intros Hk; [exists m; split; [done|]; split; [intros; lia|done]|].
    destruct (IH ltac:(lia)) as (m1 & E & H1 & H2). rewrite seq_S, for_each_app, E, bind_ok, Nat.add_0_l. cbn [for_each].
    destruct (cols_ok u m1 (cols + k) nb Ho ltac:(lia) k ltac:(lia)) as (m2 & E2 & H3 & H4). rewrite E2, bind_ok. exists m2. split; [done|]. split.
    - intros i eq Hi He. destruct (decide (eq = k)) as [->|Hne]; [by apply H3|]. rewrite H4 by lia. apply H1; lia.
    - intros i c Hlt. rewrite H4 by lia. by apply H2.
  Qed.
  (** What the filled columns contribute to y. *)
  Definition held (m : mat) (w : nat -> F) (cols : nat) (x : mat) (i r : nat) : F :=
    Sig (seq 0 cols) (fun c => m i c *! (Sig (seq 0 n) (fun j => m j c *! x j r) *! w c)).
  Definition part (u : lupdate) (x : mat) (i r : nat) : F := u_w u *! Sig (seq 0 us) (fun e => applied u i e *! Sig (seq 0 n) (fun j => applied u j e *! x j r)).
  Lemma shift_seq a m : seq a m = map (fun e => a + e) (seq 0 m).
  Proof. clear. apply list_eq. intros k. rewrite (list_lookup_fmap (fun e => a + e)). destruct (decide (k < m)); [rewrite !lookup_seq_lt by done; cbn; f_equal; lia|rewrite !lookup_ge_None_2 by (rewrite ?seq_length; lia); done]. Qed.
  Record oinv (x : mat) (nc : nat) (l : list lupdate) (st : oeval * mat) : Prop := {
    o_cols : exists q, e_cols st.1 = q * us /\ q < upb;
    o_val : forall i r, i < n -> r < nc -> st.2 i r +! held (e_mat st.1) (e_w st.1) (e_cols st.1) x i r = Sig l (fun u => part u x i r) }.
  Lemma fill_ok u s : u_ops u <> [] -> e_cols s + us <= us * upb -> exists s', fillBatch add mul nb nu us upb u s = Ok s' /\ e_cols s' = e_cols s + us /\
    forall x i r, i < n -> held (e_mat s') (e_w s') (e_cols s') x i r = held (e_mat s) (e_w s) (e_cols s) x i r +! part u x i r.
  Proof using Rth Hus Hupb.
    intros Ho Hc. unfold fillBatch. destruct (eqs_ok u (e_mat s) (e_cols s) us Ho Hc ltac:(lia)) as (m & E & H1 & H2). rewrite E, bind_ok, (proj2 (Nat.leb_le _ _) Hc).
    eexists. split; [reflexivity|]. cbn [e_cols e_mat e_w]. split; [done|]. intros x i r Hi. unfold held. rewrite seq_app, Sig_app. f_equal.
    - apply Sig_ext. intros c Hin. apply elem_of_seq in Hin. rewrite H2 by lia. rewrite (proj2 (seg_false _ _ _)) by lia. f_equal. f_equal. apply Sig_ext. intros j _. rewrite H2 by lia. done.
    - rewrite Nat.add_0_l. unfold part. rewrite Sig_mul_l. replace (seq (e_cols s) us) with (map (fun e => e_cols s + e) (seq 0 us)) by (symmetry; apply shift_seq). rewrite Sig_map.
      apply Sig_ext. intros e He. apply elem_of_seq in He. rewrite H1 by lia. rewrite (proj2 (seg_true _ _ _)) by lia.
      transitivity (u_w u *! (applied u i e *! Sig (seq 0 n) (fun j => m j (e_cols s + e) *! x j r))); [ring|]. f_equal. f_equal. apply Sig_ext. intros j Hj. apply elem_of_seq in Hj. rewrite H1 by lia. done.
  Qed.
  Lemma op_update_ok u x nc l st : u_ops u <> [] -> oinv x nc l st -> exists st', op_update zero add mul nb nu us upb nc x u st = Ok st' /\ oinv x nc (l ++ [u]) st'.
  Proof using Rth Hus Hupb.
    intros Ho [(q & Hq & Hlt) Hv]. unfold op_update. destruct (fill_ok u st.1 Ho ltac:(nia)) as (s' & E & Hc & Hh). rewrite E, bind_ok. eexists. split; [reflexivity|].
    assert (Hn : forall i r, i < n -> r < nc -> st.2 i r +! held (e_mat s') (e_w s') (e_cols s') x i r = Sig (l ++ [u]) (fun u => part u x i r)).
    { intros i r Hi Hr. rewrite Hh by done. rewrite Sig_app, Sig_cons, Sig_nil, <- Hv by done. ring. }
    destruct (Nat.eqb_spec (e_cols s') (us * upb)) as [Ef|Ef].
    - constructor; cbn [flushImpl fst snd e_cols e_mat e_w]; [exists 0; lia|]. intros i r Hi Hr. rewrite (proj2 (Nat.ltb_lt _ _) Hr). rewrite <- Hn by done. unfold held at 1. cbn [seq]. rewrite Sig_nil, Ef. unfold held. unfold LocalSys_model.lsum. unfold Cond_spec.Sig. ring.
    - constructor; cbn [fst snd]; [exists (S q); nia|done].
  Qed.
  Lemma op_points_ok x nc us' : forall l st, Forall (fun u => u_ops u <> []) us' -> oinv x nc l st -> exists st', op_points zero add mul nb nu us upb nc x (map Some us') st = Ok (st', true) /\ oinv x nc (l ++ us') st'.
  Proof using Rth Hus Hupb.
    induction us' as [|u us' IH]; intros l st Hu Hi; cbn [map op_points]; [exists st; by rewrite app_nil_r|].
    apply Forall_cons in Hu as [Ho Hu]. destruct (op_update_ok u x nc l st Ho Hi) as (s1 & E & Hi1). rewrite E, bind_ok. destruct (IH _ _ Hu Hi1) as (s2 & E2 & Hi2). exists s2. split; [done|]. by rewrite <- app_assoc in Hi2.
  Qed.
  Lemma parts_matrix l x i r : Sig l (fun u => part u x i r) = total (seq 0 n) (fun j => expected_mat zero add mul nu us l i j *! x j r).
  Proof using Rth Hus Hupb.
    rewrite tot. unfold expected_mat. erewrite (Sig_ext _ _ (seq 0 n)); [|intros j _; rewrite tot, Sig_mul_r; reflexivity]. rewrite Sig_swap. apply Sig_ext. intros u _. unfold part. rewrite Sig_mul_l.
    transitivity (Sig (seq 0 us) (fun e => Sig (seq 0 n) (fun j => u_w u *! (applied u i e *! (applied u j e *! x j r))))).
    - apply Sig_ext. intros e _. by rewrite !Sig_mul_l.
    - rewrite Sig_swap. apply Sig_ext. intros j _. rewrite tot, Sig_mul_l, Sig_mul_r. apply Sig_ext. intros e _. ring.
  Qed.
  Lemma evaluate_ok us' x nc s : Forall (fun u => u_ops u <> []) us' -> e_cols s = 0 ->
    exists s' y, evaluateLocalOperator zero add mul nb nu us upb nc x (map Some us') s = Ok (s', Some y) /\ e_cols s' = 0 /\ times_matrix zero add mul nu us n nc us' x y.
  Proof using Rth Hus Hupb.
    intros Hu Hc. unfold evaluateLocalOperator. destruct (op_points_ok x nc us' [] (s, fun _ _ => zero) Hu) as (st & E & [_ Hv]).
    { constructor; cbn [fst snd]; [exists 0; lia|]. intros i r _ _. rewrite Hc. unfold held. cbn [seq]. rewrite !Sig_nil. ring. }
    rewrite E, bind_ok. cbv zeta. eexists _, _. split; [reflexivity|]. split; [done|]. intros i r Hi Hr. cbn [app] in Hv. rewrite <- parts_matrix, <- (Hv i r Hi Hr). cbn [finalize flushImpl snd fst]. rewrite (proj2 (Nat.ltb_lt _ _) Hr). done.
  Qed.
  Lemma evaluations_ok els : forall s, Forall (fun e : list lupdate * nat * mat => Forall (fun u => u_ops u <> []) e.1.1) els -> e_cols s = 0 ->
    exists rs, evaluations zero add mul nb nu us upb (map (fun e => (map Some e.1.1, e.1.2, e.2)) els) s = Ok rs /\
      Forall2 (fun e r => exists y, r = Some y /\ times_matrix zero add mul nu us n e.1.2 e.1.1 e.2 y) els rs.
  Proof using Rth Hus Hupb.
    induction els as [|[[l nc] x] els IH]; intros s He Hc; cbn [map evaluations]; [by exists []|]. cbn [fst snd].
    apply Forall_cons in He as [He Hes]. destruct (evaluate_ok l x nc s He Hc) as (s' & y & E & Hc' & Hy). rewrite E, bind_ok. destruct (IH s' Hes Hc') as (rs & Er & Hf). rewrite Er, bind_ok. eexists. split; [reflexivity|]. constructor; [by exists y|done].
  Qed.

  (** ** The diagonal and the right-hand side *)
  Context (nr : nat).
  Lemma trans_ok u b : u_ops u <> [] -> exists m, computeATrans add mul u b = Ok m /\ forall i e, i < nu -> m i e = applied u (b * nu + i) e.
  Proof using Rth Hus Hupb.
    intros Ho. unfold computeATrans. destruct (u_ops u) as [|a0 ops] eqn:Eo; [done|]. cbn [length]. replace (S (length ops) - 1) with (length ops) by lia. change (rd (a0 :: ops) 0) with (Ok a0). rewrite bind_ok.
    set (f := fun d (m : mat) => _ : res mat).
    destruct (loop_sum zero one add mul sub opp Rth f (fun d i e => match ops !! d with Some a => u_ders u d b *! a e i | None => zero end) (seq 0 (length ops)) (fun i e => a0 e i *! u_vals u b)) as (m & E & Hm).
    { intros d m Hd. apply elem_of_seq in Hd. destruct (lookup_lt_is_Some_2 ops d ltac:(lia)) as [a Ha]. rewrite Ha. unfold f. rewrite (rd_ok (a0 :: ops) (S d) a Ha), bind_ok. eexists. split; [reflexivity|]. intros. cbv beta. ring. }
    exists m. split; [done|]. intros i e Hi. rewrite Hm, (applied_split _ _ _ _ _ Eo). destruct (index_split b i Hi) as [-> ->]. f_equal. ring.
  Qed.
  Lemma ublock_ok u At b st : (forall i e, i < nu -> At i e = applied u (b * nu + i) e) -> b < nb -> exists st', update_block zero add mul nb nu us nr u At b st = Ok st' /\
    (forall i, b * nu <= i < b * nu + nu -> st'.1 i = st.1 i +! u_w u *! Sig (seq 0 us) (fun e => applied u i e *! applied u i e)) /\ (forall i, ~ b * nu <= i < b * nu + nu -> st'.1 i = st.1 i) /\
    (forall i r, b * nu <= i < b * nu + nu -> r < nr -> st'.2 i r = st.2 i r +! u_w u *! Sig (seq 0 us) (fun e => applied u i e *! u_rhs u e r)) /\ (forall i r, ~ b * nu <= i < b * nu + nu -> st'.2 i r = st.2 i r).
  Proof using Rth Hus Hupb.
    intros HA Hb. unfold update_block, block_add. assert (Hrow : b * nu + nu <= n) by (unfold psize; nia). rewrite (proj2 (Nat.leb_le _ _) Hrow), (proj2 (Nat.leb_le (0 + nr) nr)) by lia. cbn [andb]. rewrite bind_ok.
    eexists. split; [reflexivity|]. cbn [fst snd]. split; [|split; [|split]].
    - intros i Hi. rewrite (proj2 (seg_true _ _ _)) by lia. f_equal. rewrite (ARmul_comm (Rth_ARth (Eqsth F) (Eq_ext add mul opp) Rth)). f_equal. apply Sig_ext. intros e _. rewrite !HA by lia. replace (b * nu + (i - b * nu)) with i by lia. done.
    - intros i Hi. rewrite (proj2 (seg_false _ _ _)) by lia. done.
    - intros i r Hi Hr. rewrite (proj2 (block_true _ _ _ _ _ _)) by lia. f_equal. rewrite (ARmul_comm (Rth_ARth (Eqsth F) (Eq_ext add mul opp) Rth)). f_equal. apply Sig_ext. intros e _. rewrite !HA by lia. replace (b * nu + (i - b * nu)) with i by lia. by replace (r - 0) with r by lia.
    - intros i r Hi. rewrite (proj2 (block_false _ _ _ _ _ _)) by lia. done.
  Qed.
  Definition after (u : lupdate) (k : nat) (st st' : (nat -> F) * mat) : Prop :=
    (forall i, i < k * nu -> st'.1 i = st.1 i +! u_w u *! Sig (seq 0 us) (fun e => applied u i e *! applied u i e)) /\ (forall i, k * nu <= i -> st'.1 i = st.1 i) /\
    (forall i r, i < k * nu -> r < nr -> st'.2 i r = st.2 i r +! u_w u *! Sig (seq 0 us) (fun e => applied u i e *! u_rhs u e r)) /\ (forall i r, k * nu <= i -> st'.2 i r = st.2 i r).
  Lemma after_0 u st : after u 0 st st.
  Proof. split; [intros; lia|]. split; [done|]. split; [intros; lia|done]. Qed.
  Lemma after_S u k st st1 st' :
    (forall i, k * nu <= i < k * nu + nu -> st'.1 i = st1.1 i +! u_w u *! Sig (seq 0 us) (fun e => applied u i e *! applied u i e)) -> (forall i, ~ k * nu <= i < k * nu + nu -> st'.1 i = st1.1 i) ->
    (forall i r, k * nu <= i < k * nu + nu -> r < nr -> st'.2 i r = st1.2 i r +! u_w u *! Sig (seq 0 us) (fun e => applied u i e *! u_rhs u e r)) -> (forall i r, ~ k * nu <= i < k * nu + nu -> st'.2 i r = st1.2 i r) ->
    after u k st st1 -> after u (S k) st st'.
  Proof.
    intros H1 H2 H3 H4 (A1 & A2 & A3 & A4). split; [|split; [|split]].
    - intros i Hi. destruct (decide (i < k * nu)) as [Hlt|Hge]; [rewrite H2 by lia; by apply A1|]. rewrite H1 by lia. by rewrite A2 by lia.
    - intros i Hi. rewrite H2 by lia. apply A2. lia.
    - intros i r Hi Hr. destruct (decide (i < k * nu)) as [Hlt|Hge]; [rewrite H4 by lia; by apply A3|]. rewrite H3 by lia. by rewrite A4 by lia.
    - intros i r Hi. rewrite H4 by lia. apply A4. lia.
  Qed.
  Lemma plain_ok u st k : u_ops u <> [] -> k <= nb -> exists st', for_each (fun b st => At ← computeATrans add mul u b; update_block zero add mul nb nu us nr u At b st) (seq 0 k) st = Ok st' /\ after u k st st'.
  Proof using Rth Hus Hupb.
    intros Ho. induction k as [|k IH]; intros Hk; [exists st; split; [done|apply after_0]|]. destruct (IH ltac:(lia)) as (st1 & E & H1). rewrite seq_S, for_each_app, E, bind_ok, Nat.add_0_l. cbn [for_each].
    destruct (trans_ok u k Ho) as (At & EA & HA). rewrite EA, bind_ok. destruct (ublock_ok u At k st1 HA ltac:(lia)) as (st2 & E2 & B1 & B2 & B3 & B4). rewrite E2, bind_ok. exists st2. split; [done|]. by apply (after_S u k st st1).
  Qed.
  Lemma full_ok u st um0 k : u_ops u <> [] -> k <= nb -> exists st' um, for_each (fun b (stm : (nat -> F) * mat * mat) => At ← computeATrans add mul u b; st ← update_block zero add mul nb nu us nr u At b stm.1; um ← block_set n us stm.2 (b * nu) 0 nu us At; Ok (st, um)) (seq 0 k) (st, um0) = Ok (st', um) /\
    after u k st st' /\ forall i e, i < k * nu -> e < us -> um i e = applied u i e.
  Proof using Rth Hus Hupb.
    intros Ho. induction k as [|k IH]; intros Hk; [exists st, um0; split; [done|]; split; [apply after_0|intros; lia]|]. destruct (IH ltac:(lia)) as (st1 & um1 & E & H1 & H2). rewrite seq_S, for_each_app, E, bind_ok, Nat.add_0_l. cbn [for_each fst snd].
    destruct (trans_ok u k Ho) as (At & EA & HA). rewrite EA, bind_ok. destruct (ublock_ok u At k st1 HA ltac:(lia)) as (st2 & E2 & B1 & B2 & B3 & B4). rewrite E2, bind_ok.
    unfold block_set. assert (Hrow : k * nu + nu <= n) by (unfold psize; nia). rewrite (proj2 (Nat.leb_le _ _) Hrow), (proj2 (Nat.leb_le (0 + us) us)) by lia. cbn [andb]. rewrite !bind_ok.
    eexists st2, _. split; [reflexivity|]. split; [by apply (after_S u k st st1)|]. intros i e Hi He. destruct (decide (i < k * nu)) as [Hlt|Hge].
    - rewrite (proj2 (block_false _ _ _ _ _ _)) by lia. by apply H2.
    - rewrite Nat.mul_succ_l in Hi. rewrite (proj2 (block_true _ _ _ _ _ _)) by lia. rewrite HA by lia. f_equal; lia.
  Qed.
  Definition diag_part (u : lupdate) (i : nat) : F := u_w u *! Sig (seq 0 us) (fun e => applied u i e *! applied u i e).
  Definition rhs_part (u : lupdate) (inds : list nat) (vals : mat) (i r : nat) : F :=
    u_w u *! Sig (seq 0 us) (fun e => applied u i e *! u_rhs u e r) +! opp (Sig (seq 0 (length inds)) (fun k => u_w u *! Sig (seq 0 us) (fun e => applied u i e *! applied u (nth k inds 0) e) *! vals k r)).
  Lemma point_ok u inds vals st : u_ops u <> [] -> Forall (fun d => d < n) inds -> exists st', precomputeDiagRhsImpl zero add mul sub nb nu us nr u inds vals st = Ok st' /\
    (forall i, i < n -> st'.1 i = st.1 i +! diag_part u i) /\ (forall i r, i < n -> r < nr -> st'.2 i r = st.2 i r +! rhs_part u inds vals i r).
  Proof using Rth Hus Hupb.
    intros Ho Hi. unfold precomputeDiagRhsImpl. destruct (decide (inds = [])) as [->|Hne].
    - destruct (plain_ok u st nb Ho ltac:(lia)) as (st' & E & A1 & _ & A3 & _). exists st'. split; [done|]. split; [exact A1|]. intros i r Hin Hr. rewrite A3 by done. unfold rhs_part. cbn [length seq]. rewrite Sig_nil. ring.
    - destruct (full_ok u st (fun _ _ => zero) nb Ho ltac:(lia)) as (st' & um & E & (A1 & _ & A3 & _) & Hu). rewrite E, bind_ok.
      assert (Hf : forallb (fun d => d <? n) inds = true). { apply forallb_forall. intros d Hd. apply Nat.ltb_lt. apply (proj1 (List.Forall_forall _ _) Hi d Hd). }
      rewrite Hf. eexists. split; [reflexivity|]. cbn [fst snd]. split; [exact A1|]. intros i r Hin Hr. rewrite A3 by done. unfold rhs_part.
      rewrite (Rsub_def Rth). rewrite <- !(Radd_assoc Rth). f_equal. f_equal. f_equal. unfold LocalSys_model.lsum.
      transitivity (Sig (seq 0 us) (fun e => Sig (seq 0 (length inds)) (fun k => u_w u *! (applied u i e *! applied u (nth k inds 0) e) *! vals k r))).
      + apply Sig_ext. intros e He. apply elem_of_seq in He. rewrite Hu by (done || lia). fold (Cond_spec.Sig zero add (seq 0 (length inds)) (fun k => um (nth k inds 0) e *! vals k r)). rewrite Sig_mul_r, Sig_mul_l. apply Sig_ext. intros k Hk. apply elem_of_seq in Hk.
        rewrite Hu; [ring| |lia]. destruct (lookup_lt_is_Some_2 inds k ltac:(lia)) as [d Hd]. rewrite (nth_lookup_Some _ _ 0 _ Hd). exact (Forall_lookup_1 _ _ _ _ Hi Hd).
      + rewrite Sig_swap. apply Sig_ext. intros k _. rewrite Sig_mul_l, Sig_mul_r. done.
  Qed.
  Lemma precompute_sum l inds vals : Forall (fun u => u_ops u <> []) l -> Forall (fun d => d < n) inds -> forall st, exists st', for_each (fun u st => precomputeDiagRhsImpl zero add mul sub nb nu us nr u inds vals st) l st = Ok st' /\
    (forall i, i < n -> st'.1 i = st.1 i +! Sig l (fun u => diag_part u i)) /\ (forall i r, i < n -> r < nr -> st'.2 i r = st.2 i r +! Sig l (fun u => rhs_part u inds vals i r)).
  Proof using Rth Hus Hupb.
    intros Hl Hi. induction l as [|u l IH]; intros st; cbn [for_each]; [exists st; split; [done|]; split; intros; rewrite Sig_nil; ring|].
    apply Forall_cons in Hl as [Ho Hl]. destruct (point_ok u inds vals st Ho Hi) as (st1 & E & H1 & H2). rewrite E, bind_ok. destruct (IH Hl st1) as (st2 & E2 & H3 & H4). exists st2. split; [done|].
    split; [intros i Hin; rewrite H3, H1, Sig_cons by done; ring|intros i r Hin Hr; rewrite H4, H2, Sig_cons by done; ring].
  Qed.
  Lemma precompute_ok l inds vals : Forall (fun u => u_ops u <> []) l -> Forall (fun d => d < n) inds -> exists d rhs, precompute zero add mul sub nb nu us nr l inds vals = Ok (d, rhs) /\
    (forall i, i < n -> d i = expected_mat zero add mul nu us l i i) /\ reduced_rhs zero add mul sub nu us n nr l inds vals rhs.
  Proof using Rth Hus Hupb.
    intros Hl Hi. unfold precompute. destruct (precompute_sum l inds vals Hl Hi (fun _ => zero, fun _ _ => zero)) as ([d rhs] & E & H1 & H2). exists d, rhs. split; [done|]. cbn [fst snd] in *. split.
    - intros i Hin. rewrite H1 by done. unfold expected_mat. rewrite tot. rewrite (Radd_0_l Rth). apply Sig_ext. intros u _. unfold diag_part. by rewrite tot.
    - intros i r Hin Hr. rewrite H2 by done. rewrite (Radd_0_l Rth), (Rsub_def Rth). unfold rhs_part. rewrite Sig_add. unfold expected_rhs, expected_mat. rewrite !tot. f_equal; [apply Sig_ext; intros u _; by rewrite tot|].
      rewrite <- (Sig_opp zero one add mul sub opp Rth). f_equal. rewrite Sig_swap. apply Sig_ext. intros k _. rewrite tot, Sig_mul_r. apply Sig_ext. intros u _. by rewrite tot.
  Qed.
End proofs.
