(** C83: programs with vectors. *)
From Verif Require Import Base CVec_model CVec_spec CVec_proofs CVec2_proofs.

Section programs.
  Context {T : Type}.
  Implicit Types (h : heap T) (l : list T).
  Lemma push_own_spare h vs ls i j v l x : world h vs ls -> vs !! i = Some v -> ls !! i = Some l -> l !! j = Some x -> m_capacity v <> m_size v ->
    exists h' vs', exec (PushOwn i j) (h, vs) = Ok (h', vs') /\ world h' vs' (<[i := l ++ [x]]> ls).
  Proof.
    intros W Hv Hl Hx Hs. assert (Ho : owns h v l) by (destruct W as (_ & W2 & _); by eapply W2). cbn [exec]. unfold update. cbn [fst snd]. rewrite (rd_ok _ _ _ Hv), bind_ok. unfold push_element. pose proof Ho as Ho'. unfold owns in Ho'. destruct (m_data v) as [p|] eqn:E; [|destruct Ho' as (_ & _ & ->); done].
    destruct Ho' as (H1 & H2 & H3). destruct (emplace_back_ok (load p j) x v l h Ho) as (h' & v' & -> & H4 & F); [done|intros _; eapply load_ok; [exact H1|by apply full_get]|]. rewrite bind_ok. eexists _, _. split; [done|]. by eapply world_update.
  Qed.
  Lemma push_own_full h vs ls i j v l x : world h vs ls -> vs !! i = Some v -> ls !! i = Some l -> l !! j = Some x -> m_capacity v = m_size v -> exec (PushOwn i j) (h, vs) = UB.
  Proof.
    intros W Hv Hl Hx Hs. assert (Ho : owns h v l) by (destruct W as (_ & W2 & _); by eapply W2). cbn [exec]. unfold update. cbn [fst snd]. rewrite (rd_ok _ _ _ Hv), bind_ok. unfold push_element. pose proof Ho as Ho'. unfold owns in Ho'. destruct (m_data v) as [p|] eqn:E; [|destruct Ho' as (_ & _ & ->); done].
    destruct Ho' as (H1 & H2 & H3). pose proof (lookup_lt_Some _ _ _ H1) as Hp. unfold emplace_back. rewrite Hs, Nat.eqb_refl. unfold grow.
    destruct (reallocate_ok (if m_capacity v =? 0 then 1 else 2 * m_capacity v) v l h Ho) as (h' & v' & Er & H4 & _ & _ & F); [destruct (Nat.eqb_spec (m_capacity v) 0); lia|].
    assert (Ed : m_data v' = Some (length h)). { unfold reallocate, allocate in Er. cbv zeta in Er. cbn [fst snd] in Er. apply bind_inv in Er as (h1 & _ & Er). apply bind_inv in Er as (h2 & _ & [= _ <-]). done. }
    rewrite Er, bind_ok. cbn [fst snd]. unfold load at 1. destruct F as (F1 & _ & F3 & _). destruct (lookup_lt_is_Some_2 h' p) as [b Hb]; [lia|]. rewrite (rd_ok _ _ _ Hb), bind_ok. destruct b as [c|]; [|done].
    destruct (F3 p c Hb) as [E'|[_ ?]]; [|congruence]. rewrite Ed in E'. injection E' as E'. lia.
  Qed.
  Lemma run_world (prog : list (op T)) h vs ls ls' : world h vs ls -> seq_run prog ls = Some ls' ->
    (exists h' vs', for_each exec prog (h, vs) = Ok (h', vs') /\ world h' vs' ls') \/
    (exists before i j after h1 vs1 v, prog = before ++ PushOwn i j :: after /\ for_each exec before (h, vs) = Ok (h1, vs1) /\ vs1 !! i = Some v /\ m_size v = m_capacity v /\ for_each exec prog (h, vs) = UB).
  Proof.
    revert h vs ls. induction prog as [|o prog IH]; intros h vs ls W Hr; cbn [seq_run for_each] in *; [injection Hr as <-; left; eauto|].
    destruct (seq_step o ls) as [ls1|] eqn:Es; [|done]. change (seq_run prog ls1 = Some ls') in Hr.
    assert (G : (exists h1 vs1, exec o (h, vs) = Ok (h1, vs1) /\ world h1 vs1 ls1) \/ (exists i j v, o = PushOwn i j /\ vs !! i = Some v /\ m_size v = m_capacity v /\ exec o (h, vs) = UB)).
    { destruct o as [| | | | | |i j| | |]; try (left; by eapply exec_ok). cbn [seq_step] in Es. destruct (ls !! i) as [l|] eqn:El; [|done]. cbn in Es. destruct (l !! j) as [x|] eqn:Ex; [|done]. injection Es as <-.
      destruct (world_get' h vs ls i l W El) as (v & Hv & Ho). destruct (decide (m_capacity v = m_size v)) as [E|E]; [right; exists i, j, v; split; [done|]; split; [done|]; split; [done|]; by eapply push_own_full|left; by eapply push_own_spare]. }
    destruct G as [(h1 & vs1 & E1 & W1)|(i & j & v & -> & Hv & Hc & E1)]; rewrite E1.
    - rewrite bind_ok. destruct (IH h1 vs1 ls1 W1 Hr) as [?|(before & i & j & after & h2 & vs2 & v & -> & H1 & H2 & H3 & H4)]; [by left|right]. exists (o :: before), i, j, after, h2, vs2, v. split; [done|]. cbn [for_each]. rewrite E1, bind_ok. done.
    - right. exists [], i, j, prog, h, vs, v. done.
  Qed.
  Lemma world_nil : world (T := T) [] [] [].
  Proof. split; [done|]. split; [done|]. split; [done|]. intros p c Hp. done. Qed.

  (** A program ends in undefined behaviour only by pushing an own element of a full vector;
      else its vectors are the sequences, and their destructors free every block once. *)
  Theorem vector_programs (prog : list (op T)) ls : seq_run prog [] = Some ls ->
    (exists h vs h', run prog = Ok (h, vs) /\ Forall2 (fun v l => read_all v h = Ok l /\ m_size v = length l) vs ls /\
      finish (h, vs) = Ok h' /\ Forall (fun b => b = None) h') \/
    (exists before i j after h vs v, prog = before ++ PushOwn i j :: after /\ run before = Ok (h, vs) /\
      vs !! i = Some v /\ m_size v = m_capacity v /\ run prog = UB).
  Proof.
    intros Hr. destruct (run_world prog [] [] [] ls world_nil Hr) as [(h & vs & E & W)|?]; [left|by right].
    destruct (finish_ok h vs ls W) as (h' & F1 & F2). exists h, vs, h'. split; [done|]. split; [|done]. apply Forall2_same_length_lookup_2; [apply W|]. intros i v l Hv Hl. destruct W as (_ & W2 & _). pose proof (W2 i v l Hv Hl) as Ho. split; [by apply read_ok|].
    unfold owns in Ho. destruct (m_data v); [tauto|]. destruct Ho as (-> & _ & ->). done.
  Qed.
  (** Missing: programs that push an own element. *)
  Theorem vector_sequence_partial (prog : list (op T)) ls : no_own prog -> seq_run prog [] = Some ls ->
    exists h vs h', run prog = Ok (h, vs) /\ Forall2 (fun v l => read_all v h = Ok l /\ m_size v = length l) vs ls /\
      finish (h, vs) = Ok h' /\ Forall (fun b => b = None) h'.
  Proof.
    intros Hn Hr. destruct (vector_programs prog ls Hr) as [?|(before & i & j & after & h & vs & v & -> & _)]; [done|]. apply Forall_app in Hn as [_ Hn]. by inversion Hn.
  Qed.
  (** With room for it, an own element can be pushed. *)
  Theorem vector_push_own_room (prog : list (op T)) ls i j h vs v ls' : seq_run prog [] = Some ls -> run prog = Ok (h, vs) -> vs !! i = Some v ->
    m_size v < m_capacity v -> seq_step (PushOwn i j) ls = Some ls' ->
    exists h' vs', run (prog ++ [PushOwn i j]) = Ok (h', vs') /\ Forall2 (fun v l => read_all v h' = Ok l) vs' ls'.
  Proof.
    intros Hr E Hv Hlt Hs. destruct (run_world prog [] [] [] ls world_nil Hr) as [(h0 & vs0 & E0 & W)|(? & ? & ? & ? & ? & ? & ? & _ & _ & _ & _ & E0)]; unfold run in E; rewrite E0 in E; [|done]. injection E as -> ->.
    cbn [seq_step] in Hs. destruct (ls !! i) as [l|] eqn:El; [|done]. cbn in Hs. destruct (l !! j) as [x|] eqn:Ex; [|done]. injection Hs as <-.
    destruct (push_own_spare h vs ls i j v l x W Hv El Ex) as (h' & vs' & E1 & W'); [lia|]. exists h', vs'. split; [unfold run; rewrite for_each_app, E0, bind_ok; cbn [for_each]; by rewrite E1, bind_ok|].
    apply Forall2_same_length_lookup_2; [apply W'|]. intros k w l' Hw Hl. apply read_ok. destruct W' as (_ & W2 & _). by eapply W2.
  Qed.
End programs.
(** A vector is not a sequence for the one who pushes an own element. *)
Theorem vector_push_own_refuted : ~ (forall (prog : list (op nat)) ls, seq_run prog [] = Some ls -> exists s, run prog = Ok s).
Proof. intros H. destruct (H [Values [1; 2; 3]; PushOwn 0 0] [[1; 2; 3; 1]] eq_refl) as [s Hs]. vm_compute in Hs. discriminate. Qed.

Definition sample : list (op nat) :=
  [Values [1; 2; 3]; Copy 0; Push 1 4; Pop 0; Move 1; Push 1 7; MoveAssign 0 2; Reserve 1 8; PushOwn 1 0; Fill 2 9; Clear 3; Push 2 5].
Example vector_programs_example :
  seq_run sample [] = Some [[1; 2; 3; 4]; [7; 7]; [5]; []] /\
  match run sample with
  | Ok (h, vs) => map (fun v => read_all v h) vs = [Ok [1; 2; 3; 4]; Ok [7; 7]; Ok [5]; Ok []] /\ finish (h, vs) = Ok (replicate (length h) None) /\ length h = 7
  | _ => False
  end.
Proof. vm_compute. done. Qed.
Example vector_no_own_example : no_own (take 8 sample) /\ seq_run (take 8 sample) [] = Some [[1; 2; 3; 4]; [7]; []].
Proof. split; [repeat constructor|done]. Qed.
Example vector_push_own_example : match run [Values [1; 2; 3]; Reserve 0 4] with Ok (_, [v]) => m_size v < m_capacity v | _ => False end /\ seq_step (PushOwn 0 1) [[1; 2; 3]] = Some [[1; 2; 3; 2]].
Proof. split; [vm_compute; lia|done]. Qed.

Print Assumptions vector_programs.
Print Assumptions vector_sequence_partial.
Print Assumptions vector_push_own_room.
Print Assumptions vector_push_own_refuted.
