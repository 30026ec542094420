(** C44: the batches. *)
From Coq Require Import Ring Ring_theory.
From Verif Require Import Base StdAlgo Cond_spec Cond3_proofs LocalSys_model LocalSys_spec.
Local Arguments Nat.mul : simpl never.
Local Arguments Nat.add : simpl never.
Local Arguments Nat.sub : simpl never.

Lemma roundup_pos a b : 0 < a -> 0 < b -> 0 < intDivRoundUp a b.
Proof.
  intros Ha Hb. unfold intDivRoundUp. destruct (Nat.eqb_spec (a mod b) 0) as [E|E]; [|lia].
  destruct (decide (a / b = 0)) as [E'|E']; [|lia]. pose proof (Nat.div_mod a b ltac:(lia)) as H. rewrite E, E', Nat.mul_0_r in H. lia.
Qed.
Section proofs.
  Context {F : Type} (zero one : F) (add mul sub : F -> F -> F) (opp : F -> F) (nonneg : F -> bool) (root : F -> F) (Rth : ring_theory zero one add mul sub opp (@eq F)).
  Add Ring Fring : Rth.
  Notation mat := (nat -> nat -> F).
  Notation Sig := (Sig zero add).
  Notation total := (total zero add).
  Infix "+!" := add (at level 50, left associativity).
  Infix "*!" := mul (at level 40, left associativity).
  Context (nb nu us upb nr : nat) (Hupb : 0 < upb).
  Notation n := (psize nb nu).
  Notation applied := (applied zero add mul nu).
  Notation Sig_add := (Sig_add zero one add mul sub opp Rth).
  Notation Sig_mul_l := (Sig_mul_l zero one add mul sub opp Rth).
  Notation Sig_mul_r := (Sig_mul_r zero one add mul sub opp Rth).
  Lemma total_Sig {A} (l : list A) f : total l f = Sig l f.
  Proof. clear. induction l as [|a l IH]; [done|]. cbn. by rewrite IH. Qed.
  Lemma lsum_Sig m f : lsum zero add m f = Sig (seq 0 m) f.
  Proof. done. Qed.
  Lemma block_ok u b : u_ops u <> [] -> exists m, makeBasisBlock add mul u b = Ok m /\ forall i e, i < nu -> m i e = applied u (b * nu + i) e.
  Proof using Rth Hupb.
    intros Ho. unfold makeBasisBlock. destruct (u_ops u) as [|a0 ops] eqn:Eo; [done|]. cbn [length]. replace (S (length ops) - 1) with (length ops) by lia. change (rd (a0 :: ops) 0) with (Ok a0). rewrite bind_ok.
    set (f := fun d (m : mat) => _ : res mat).
    destruct (loop_sum zero one add mul sub opp Rth f (fun d i e => match ops !! d with Some a => u_ders u d b *! a e i | None => zero end) (seq 0 (length ops)) (fun i e => u_vals u b *! a0 e i)) as (m & E & Hm).
    { intros d m Hd. apply elem_of_seq in Hd. destruct (lookup_lt_is_Some_2 ops d ltac:(lia)) as [a Ha]. rewrite Ha. unfold f. rewrite (rd_ok (a0 :: ops) (S d) a Ha), bind_ok. eexists. split; [reflexivity|]. done. }
    exists m. split; [done|]. intros i e Hi. rewrite Hm. unfold LocalSys_spec.applied. rewrite total_Sig, Eo. cbn [length]. rewrite <- cons_seq, Sig_cons. cbn [lookup list_lookup].
    assert (E1 : (b * nu + i) / nu = b) by (symmetry; apply (Nat.div_unique _ _ _ i); lia). assert (E2 : (b * nu + i) mod nu = i) by (symmetry; apply (Nat.mod_unique _ _ b); lia).
    rewrite E1, E2. f_equal. rewrite <- seq_shift, Sig_map. apply Sig_ext. intros d _. done.
  Qed.
  Notation update := (update zero one add mul opp nonneg root nb nu us upb nr).
  (** The loop over the basis functions. *)
  Lemma bases_ok u buf rhs q k : u_ops u <> [] -> q < upb -> k <= nb ->
    exists buf' rhs', for_each (fun b (st : mat * mat) =>
        block ← makeBasisBlock add mul u b;
        rhs ← block_add add n nr st.2 (b * nu) 0 nu nr (fun i r => lsum zero add us (fun e => block i e *! u_rhs u e r) *! u_w u);
        buf ← block_set n (us * upb) st.1 (b * nu) (q * us) nu us (fun i e => block i e *! root (u_w u));
        Ok (buf, rhs)) (seq 0 k) (buf, rhs) = Ok (buf', rhs') /\
      (forall i c, i < k * nu -> q * us <= c < q * us + us -> buf' i c = applied u i (c - q * us) *! root (u_w u)) /\
      (forall i c, ~ q * us <= c < q * us + us -> buf' i c = buf i c) /\
      (forall i r, i < k * nu -> r < nr -> rhs' i r = rhs i r +! u_w u *! Sig (seq 0 us) (fun e => applied u i e *! u_rhs u e r)) /\
      (forall i r, k * nu <= i -> rhs' i r = rhs i r).
  Proof using Rth Hupb.
    intros Ho Hq. induction k as [|k IH]; intros Hk.
    - exists buf, rhs. split; [done|]. split; [intros; lia|]. split; [done|]. split; [intros; lia|done].
    - destruct (IH ltac:(lia)) as (buf1 & rhs1 & E & H1 & H2 & H3 & H4). rewrite seq_S, for_each_app, E, bind_ok, Nat.add_0_l. cbn [for_each].
      destruct (block_ok u k Ho) as (bl & Eb & Hb). rewrite Eb, bind_ok. unfold block_add, block_set. cbn [fst snd].
      assert (Hrow : k * nu + nu <= n) by (unfold psize; nia). assert (Hcol : q * us + us <= us * upb) by nia.
      rewrite (proj2 (Nat.leb_le _ _) Hrow). rewrite (proj2 (Nat.leb_le (0 + nr) nr) ltac:(lia)). cbn [andb]. rewrite bind_ok. rewrite (proj2 (Nat.leb_le _ _) Hcol), bind_ok, bind_ok.
      eexists _, _. split; [reflexivity|].
      assert (Eat : forall row col h w i j, block_at row col h w i j = true <-> (row <= i < row + h /\ col <= j < col + w)).
      { intros. unfold block_at. rewrite !andb_true_iff, !Nat.leb_le, !Nat.ltb_lt. lia. }
      assert (Eaf : forall row col h w i j, block_at row col h w i j = false <-> ~ (row <= i < row + h /\ col <= j < col + w)).
      { intros. rewrite <- Eat. destruct (block_at row col h w i j); split; congruence || done. }
      split; [|split; [|split]].
      + intros i c Hi Hc. destruct (decide (i < k * nu)) as [Hlt|Hge].
        * rewrite (proj2 (Eaf _ _ _ _ _ _)) by lia. by apply H1.
        * rewrite Nat.mul_succ_l in Hi. rewrite (proj2 (Eat _ _ _ _ _ _)) by lia. rewrite Hb by lia. f_equal. f_equal; lia.
      + intros i c Hc. rewrite (proj2 (Eaf _ _ _ _ _ _)) by lia. by apply H2.
      + intros i r Hi Hr. destruct (decide (i < k * nu)) as [Hlt|Hge].
        * rewrite (proj2 (Eaf _ _ _ _ _ _)) by lia. by apply H3.
        * rewrite Nat.mul_succ_l in Hi. rewrite (proj2 (Eat _ _ _ _ _ _)) by lia. rewrite H4 by lia. f_equal. rewrite lsum_Sig. replace (r - 0) with r by lia.
          transitivity (Sig (seq 0 us) (fun e => applied u i e *! u_rhs u e r) *! u_w u); [|ring]. f_equal. apply Sig_ext. intros e _. f_equal. rewrite Hb by lia. f_equal. lia.
      + intros i r Hi. rewrite Nat.mul_succ_l in Hi. rewrite (proj2 (Eaf _ _ _ _ _ _)) by lia. apply H4. lia.
  Qed.
  Definition sq (buf : mat) (cols i j : nat) : F := Sig (seq 0 cols) (fun c => buf i c *! buf j c).
  (** The system that the state stands for, after the updates [l]. *)
  Record inv (l : list lupdate) (s : lsys) : Prop := {
    i_pos : s_npos s < upb; i_neg : s_nneg s < upb;
    i_mat : forall i j, i < n -> j <= i -> s_mat s i j +! sq (s_pos s) (s_npos s * us) i j +! opp (sq (s_neg s) (s_nneg s * us) i j) = expected_mat zero add mul nu us l i j;
    i_rhs : forall i r, i < n -> r < nr -> s_rhs s i r = expected_rhs zero add mul nu us l i r }.
  Definition root_ok (w : F) : Prop := root w *! root w = if nonneg w then w else opp w.
  Lemma expected_snoc l u i j : expected_mat zero add mul nu us (l ++ [u]) i j = expected_mat zero add mul nu us l i j +! u_w u *! Sig (seq 0 us) (fun e => applied u i e *! applied u j e).
  Proof using Rth Hupb. unfold expected_mat. rewrite !total_Sig. rewrite (Sig_app zero one add mul sub opp Rth), Sig_cons, Sig_nil, total_Sig. ring. Qed.
  Lemma expected_rhs_snoc l u i r : expected_rhs zero add mul nu us (l ++ [u]) i r = expected_rhs zero add mul nu us l i r +! u_w u *! Sig (seq 0 us) (fun e => applied u i e *! u_rhs u e r).
  Proof using Rth Hupb. unfold expected_rhs. rewrite !total_Sig. rewrite (Sig_app zero one add mul sub opp Rth), Sig_cons, Sig_nil, total_Sig. ring. Qed.
  Lemma sq_next u (buf buf' : mat) q i j : i < n -> j < n ->
    (forall i c, i < n -> q * us <= c < q * us + us -> buf' i c = applied u i (c - q * us) *! root (u_w u)) -> (forall i c, ~ q * us <= c < q * us + us -> buf' i c = buf i c) ->
    sq buf' (S q * us) i j = sq buf (q * us) i j +! root (u_w u) *! root (u_w u) *! Sig (seq 0 us) (fun e => applied u i e *! applied u j e).
  Proof using Rth Hupb.
    intros Hi Hj H1 H2. unfold sq. rewrite Nat.mul_succ_l, seq_app, (Sig_app zero one add mul sub opp Rth), Nat.add_0_l. f_equal.
    - apply Sig_ext. intros c Hc. apply elem_of_seq in Hc. rewrite !H2 by lia. done.
    - rewrite Sig_mul_l. replace (seq (q * us) us) with (map (fun e => q * us + e) (seq 0 us)) by (clear; generalize (q * us) as a; intros a; apply list_eq; intros k; rewrite (list_lookup_fmap (fun e => a + e)); destruct (decide (k < us)); [rewrite !lookup_seq_lt by done; cbn; f_equal; lia|rewrite !lookup_ge_None_2 by (rewrite ?seq_length; lia); done]).
      rewrite Sig_map. apply Sig_ext. intros e He. apply elem_of_seq in He. rewrite !H1 by lia. replace (q * us + e - q * us) with e by lia. ring.
  Qed.
  Lemma update_ok u l s : u_ops u <> [] -> root_ok (u_w u) -> inv l s -> exists s', update u s = Ok s' /\ inv (l ++ [u]) s'.
  Proof using Rth Hupb.
    intros Ho Hr [Ip In Im Ir]. unfold LocalSys_model.update. cbv zeta. unfold root_ok in Hr. destruct (nonneg (u_w u)) eqn:Ew.
    - destruct (bases_ok u (s_pos s) (s_rhs s) (s_npos s) nb Ho Ip ltac:(lia)) as (buf & rhs & E & H1 & H2 & H3 & _). rewrite E, bind_ok. clear E. change (nb * nu) with n in *.
      assert (Hm : forall i j, i < n -> j <= i -> s_mat s i j +! sq buf (S (s_npos s) * us) i j +! opp (sq (s_neg s) (s_nneg s * us) i j) = expected_mat zero add mul nu us (l ++ [u]) i j).
      { intros i j Hi Hj. rewrite (sq_next u (s_pos s)) by (done || lia). rewrite expected_snoc, <- Im by done. rewrite Hr. ring. }
      assert (Hrh : forall i r, i < n -> r < nr -> rhs i r = expected_rhs zero add mul nu us (l ++ [u]) i r) by (intros i r Hi Hrr; rewrite H3, Ir, expected_rhs_snoc by done; done).
      destruct (Nat.eqb_spec (S (s_npos s)) upb) as [Ef|Ef]; (eexists; split; [reflexivity|]); constructor; cbn [s_npos s_nneg s_mat s_pos s_neg s_rhs]; try done; try lia.
      intros i j Hi Hj. rewrite <- Hm by done. unfold rank_update. rewrite (proj2 (Nat.leb_le _ _) Hj). rewrite lsum_Sig. rewrite <- Ef, (Nat.mul_comm us). fold (sq buf (S (s_npos s) * us) i j). rewrite Nat.mul_0_l. unfold sq at 2. cbn [seq]. rewrite Sig_nil. ring.
    - destruct (bases_ok u (s_neg s) (s_rhs s) (s_nneg s) nb Ho In ltac:(lia)) as (buf & rhs & E & H1 & H2 & H3 & _). rewrite E, bind_ok. clear E. change (nb * nu) with n in *.
      assert (Hm : forall i j, i < n -> j <= i -> s_mat s i j +! sq (s_pos s) (s_npos s * us) i j +! opp (sq buf (S (s_nneg s) * us) i j) = expected_mat zero add mul nu us (l ++ [u]) i j).
      { intros i j Hi Hj. rewrite (sq_next u (s_neg s)) by (done || lia). rewrite expected_snoc, <- Im by done. rewrite Hr. ring. }
      assert (Hrh : forall i r, i < n -> r < nr -> rhs i r = expected_rhs zero add mul nu us (l ++ [u]) i r) by (intros i r Hi Hrr; rewrite H3, Ir, expected_rhs_snoc by done; done).
      destruct (Nat.eqb_spec (S (s_nneg s)) upb) as [Ef|Ef]; (eexists; split; [reflexivity|]); constructor; cbn [s_npos s_nneg s_mat s_pos s_neg s_rhs]; try done; try lia.
      intros i j Hi Hj. rewrite <- Hm by done. unfold rank_update. rewrite (proj2 (Nat.leb_le _ _) Hj). rewrite lsum_Sig. rewrite <- Ef, (Nat.mul_comm us). fold (sq buf (S (s_nneg s) * us) i j). rewrite Nat.mul_0_l. unfold sq at 3. cbn [seq]. rewrite Sig_nil. ring.
  Qed.
  Lemma points_ok us' : forall l s, Forall (fun u => u_ops u <> [] /\ root_ok (u_w u)) us' -> inv l s ->
    exists s', points zero one add mul opp nonneg root nb nu us upb nr (map Some us') s = Ok (s', true) /\ inv (l ++ us') s'.
  Proof using Rth Hupb.
    induction us' as [|u us' IH]; intros l s Hu Hi; cbn [map points]; [exists s; by rewrite app_nil_r|].
    apply Forall_cons in Hu as [[Ho Hr] Hu]. destruct (update_ok u l s Ho Hr Hi) as (s1 & E & Hi1). rewrite E, bind_ok. destruct (IH _ _ Hu Hi1) as (s2 & E2 & Hi2). exists s2. split; [done|]. by rewrite <- app_assoc in Hi2.
  Qed.
  Lemma flushBuf_at m buf q sign i j : j <= i -> flushBuf zero add mul us m buf q sign i j = m i j +! sign *! sq buf (q * us) i j.
  Proof using Rth Hupb.
    intros Hj. unfold flushBuf. destruct (Nat.ltb_spec 0 q) as [H|H].
    - unfold rank_update. by rewrite (proj2 (Nat.leb_le _ _) Hj).
    - replace q with 0 by lia. rewrite Nat.mul_0_l. unfold sq. cbn [seq]. rewrite Sig_nil. ring.
  Qed.
  Theorem element_ok us' s : Forall (fun u => u_ops u <> [] /\ root_ok (u_w u)) us' -> s_npos s = 0 -> s_nneg s = 0 ->
    exists s' sys, assembleLocalSystem zero one add mul opp nonneg root nb nu us upb nr (map Some us') s = Ok (s', Some sys) /\
      system_right zero add mul nu us n nr us' sys /\ s_npos s' = 0 /\ s_nneg s' = 0.
  Proof using Rth Hupb.
    intros Hu H1 H2. unfold assembleLocalSystem.
    destruct (points_ok us' [] (setZero zero s) Hu) as (s1 & E & [_ _ Im Ir]).
    { constructor; cbn [setZero s_npos s_nneg s_mat s_pos s_neg s_rhs]; [lia|lia| |done]. intros i j _ _. rewrite H1, H2, Nat.mul_0_l. unfold sq. cbn [seq]. rewrite Sig_nil. unfold expected_mat. cbn. ring. }
    rewrite E, bind_ok. cbv zeta. eexists _, _. split; [reflexivity|]. split; [|done]. cbn [app] in *.
    assert (Hm : forall i j, i < n -> j <= i -> s_mat (flush zero one add mul opp us s1) i j = expected_mat zero add mul nu us us' i j).
    { intros i j Hi Hj. rewrite <- Im by done. cbn [flush s_mat]. rewrite !flushBuf_at by done. ring. }
    split; cbn [fst snd getSystem s_mat s_rhs].
    - intros i j Hi Hj. destruct (Nat.leb_spec j i) as [Hle|Hgt]; [by apply Hm|]. rewrite Hm by lia. unfold expected_mat. rewrite !total_Sig. apply Sig_ext. intros u _. f_equal. rewrite !total_Sig. apply Sig_ext. intros e _. ring.
    - intros i r Hi Hr. by apply Ir.
  Qed.
  Theorem elements_ok els : forall s, Forall (Forall (fun u => u_ops u <> [] /\ root_ok (u_w u))) els -> s_npos s = 0 -> s_nneg s = 0 ->
    exists rs, elements zero one add mul opp nonneg root nb nu us upb nr (map (map Some) els) s = Ok rs /\ Forall2 (fun us' r => exists sys, r = Some sys /\ system_right zero add mul nu us n nr us' sys) els rs.
  Proof using Rth Hupb.
    induction els as [|e els IH]; intros s He H1 H2; cbn [map elements]; [by exists []|].
    apply Forall_cons in He as [He Hes]. destruct (element_ok e s He H1 H2) as (s' & sys & E & Hs & H1' & H2'). rewrite E, bind_ok. destruct (IH s' Hes H1' H2') as (rs & Er & Hf). rewrite Er, bind_ok. eexists. split; [reflexivity|]. constructor; [by exists sys|done].
  Qed.
End proofs.
