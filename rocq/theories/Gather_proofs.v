From Verif Require Import Base StdAlgo Gather_model.
Local Arguments Nat.ltb : simpl never.
Local Arguments Nat.leb : simpl never.
Local Arguments Nat.eqb : simpl never.

Section proofs.
  Context {T : Type} (sync : bool) (datas : list (list T)).
  Let n := length datas.
  (** What remains after [Begin k] and the processing of k-1. *)
  Fixpoint tail (m k : nat) : list sg_act :=
    match m with
    | 0 => [Finish; Process k]
    | S m => Finish :: Begin (S k) :: Process k :: tail m (S k)
    end.
  Lemma body_tail m k :
    concat (map (fun r => [Finish; Begin r; Process (r - 1)]) (seq (S k) m)) ++ [Finish; Process (k + m)] = tail m k.
  Proof.
    revert k. induction m as [|m IH]; intros k; cbn [seq map concat app tail].
    - by rewrite Nat.add_0_r.
    - rewrite <- (IH (S k)). rewrite Nat.sub_0_r || idtac. replace (S k - 1) with k by lia.
      by replace (S k + m) with (k + S m) by lia.
  Qed.
  Lemma tail_ne m k : tail m k <> [].
  Proof. by destruct m. Qed.
  Definition gathered (k : nat) : list (nat * list T) := imap (fun r d => (r, d)) (take k datas).
  Lemma gathered_S k d : datas !! k = Some d -> gathered (S k) = gathered k ++ [(k, d)].
  Proof.
    intros Hd. unfold gathered. rewrite (take_S_r _ _ _ Hd), imap_app. cbn [imap].
    rewrite take_length_le; [by rewrite Nat.add_0_r|].
    apply lookup_lt_Some in Hd. lia.
  Qed.
  Lemma max_ge l i a : l !! i = Some a -> a <= foldr Nat.max 0 l.
  Proof.
    revert i. induction l as [|b l IH]; intros [|i] H; cbn in H; simplify_eq; cbn [foldr]; [lia|].
    apply IH in H. lia.
  Qed.

  (** [holds me buf k]: rank [me] can process the data of rank k out of buf. *)
  Definition holds (me : nat) (buf : list T) (k : nat) : Prop :=
    forall d, me <> k -> datas !! k = Some d -> take (length d) buf = d.
  Definition starts (k : nat) : list (nat * nat) := imap (fun r d => (r, length d)) (take k datas).
  Lemma starts_length k : k <= n -> length (starts k) = k.
  Proof. intros. unfold starts. rewrite imap_length, take_length. fold n. lia. Qed.
  Lemma starts_S k d : datas !! k = Some d -> starts (S k) = starts k ++ [(k, length d)].
  Proof.
    intros Hd. unfold starts. rewrite (take_S_r _ _ _ Hd), imap_app. cbn [imap].
    rewrite take_length_le; [by rewrite Nat.add_0_r|]. apply lookup_lt_Some in Hd. lia.
  Qed.
  Lemma starts_lookup k i : i < k -> k <= n -> exists d, datas !! i = Some d /\ starts k !! i = Some (i, length d).
  Proof.
    intros Hi Hk. destruct (lookup_lt_is_Some_2 datas i) as [d Hd]; [fold n; lia|].
    exists d. split; [done|]. unfold starts. rewrite list_lookup_imap, lookup_take by lia. by rewrite Hd.
  Qed.

  Inductive stage (me : nat) (x : sg_rank T) : Prop :=
  | StFirst : sg_prog x = Begin 0 :: tail (n - 1) 0 -> sg_started x = [] -> sg_pend x = Null -> sg_log x = [] -> stage me x
  | StBegun k : S k < n -> sg_prog x = Process k :: tail (n - S (S k)) (S k) ->
      sg_started x = starts (S (S k)) -> sg_pend x <> Null ->
      (sg_pend x = Complete -> holds me (sg_recv x) (S k)) ->
      holds me (sg_proc x) k -> sg_log x = gathered k -> stage me x
  | StWait k : k < n -> sg_prog x = tail (n - S k) k -> sg_started x = starts (S k) -> sg_pend x <> Null ->
      (sg_pend x = Complete -> holds me (sg_recv x) k) -> sg_log x = gathered k -> stage me x
  | StNext k : S k < n -> sg_prog x = Begin (S k) :: Process k :: tail (n - S (S k)) (S k) ->
      sg_started x = starts (S k) -> sg_pend x = Null -> holds me (sg_proc x) k -> sg_log x = gathered k -> stage me x
  | StLast k : n = S k -> sg_prog x = [Process k] -> sg_started x = starts (S k) -> sg_pend x = Null ->
      holds me (sg_proc x) k -> sg_log x = gathered k -> stage me x
  | StDone : sg_prog x = [] -> sg_started x = starts n -> sg_pend x = Null -> sg_log x = gathered n -> stage me x.

  Record inv1 (me : nat) (x : sg_rank T) : Prop := {
    i_stage : stage me x;
    i_sizes : sg_sizes x = sg_sizes_of datas me;
    i_recv : length (sg_recv x) = foldr Nat.max 0 (sg_sizes x);
    i_proc : length (sg_proc x) = foldr Nat.max 0 (sg_sizes x) }.
  Record inv (s : sg_state T) : Prop := {
    v_len : length (sg_ranks s) = n;
    v_ok : sg_bad s = false;
    v_rank : forall me x, sg_ranks s !! me = Some x -> inv1 me x }.

  Lemma init_inv fill fill' : 0 < n -> inv (sg_init datas fill fill').
  Proof.
    intros Hn. split; [cbn; by rewrite imap_length|done|].
    intros me x Hx. cbn in Hx. rewrite list_lookup_imap in Hx.
    destruct (datas !! me) as [d|] eqn:Hd; cbn in Hx; simplify_eq.
    split; cbn; [|done|by rewrite map_length, seq_length|by rewrite map_length, seq_length].
    apply StFirst; cbn; try done. unfold sg_body. cbn [app].
    fold n. rewrite <- (body_tail (n - 1) 0). by rewrite Nat.add_0_l.
  Qed.

  Lemma size_at me k d : me <> k -> datas !! k = Some d -> sg_sizes_of datas me !! k = Some (length d).
  Proof.
    intros Hne Hd. unfold sg_sizes_of. rewrite list_lookup_insert_ne by done.
    change (map length datas) with (length <$> datas). by rewrite list_lookup_fmap, Hd.
  Qed.

  Lemma run_inv1 me x a rest : inv1 me x -> me < n -> sg_prog x = a :: rest ->
    (a = Finish -> sg_pend x <> Active) ->
    exists x', sg_exec datas me a rest x = Ok x' /\ inv1 me x'.
  Proof.
    intros [Hst Hsz Hrl Hpl] Hme Hp Hw.
    destruct (lookup_lt_is_Some_2 datas me Hme) as [dme Hdme].
    assert (Hlen : forall root d, datas !! root = Some d ->
      (if me =? root then d ← rd datas me; Ok (length d)
       else s ← rd (sg_sizes x) root; if s <=? length (sg_recv x) then Ok s else UB) = Ok (length d)).
    { intros root d Hd. destruct (Nat.eqb_spec me root) as [->|Hne].
      - by rewrite (rd_ok _ _ _ Hd).
      - rewrite (rd_ok _ _ _ (eq_trans (f_equal (.!! root) Hsz) (size_at _ _ _ Hne Hd))).
        cbn. rewrite (proj2 (Nat.leb_le _ _)); [done|]. rewrite Hrl, Hsz.
        eapply max_ge, size_at; eauto. }
    assert (Hdat : forall k d, datas !! k = Some d -> holds me (sg_proc x) k ->
      (if me =? k then rd datas me else s ← rd (sg_sizes x) k; first (sg_proc x) s) = Ok d).
    { intros k d Hd Hh. destruct (Nat.eqb_spec me k) as [->|Hne].
      - by apply rd_ok.
      - rewrite (rd_ok _ _ _ (eq_trans (f_equal (.!! k) Hsz) (size_at _ _ _ Hne Hd))).
        cbn. unfold first. rewrite (proj2 (Nat.leb_le _ _)); [by rewrite (Hh d)|].
        rewrite Hpl, Hsz. eapply max_ge, size_at; eauto. }
    destruct Hst as [Hq Hs Hpe Hl|k Hk Hq Hs Hpe Hr Hpr Hl|k Hk Hq Hs Hpe Hr Hl|k Hk Hq Hs Hpe Hpr Hl|k Hk Hq Hs Hpe Hpr Hl|Hq Hs Hpe Hl];
      rewrite Hq in Hp.
    - injection Hp as <- <-. destruct (lookup_lt_is_Some_2 datas 0) as [d Hd]; [fold n; lia|].
      cbn [sg_exec]. rewrite (Hlen 0 d Hd). cbn. rewrite Hpe, Hs. eexists; split; [done|].
      split; cbn; [|done..]. apply (StWait _ _ 0); cbn; try done; [lia|by rewrite (starts_S 0 d Hd)].
    - injection Hp as <- <-. destruct (lookup_lt_is_Some_2 datas k) as [d Hd]; [fold n; lia|].
      cbn [sg_exec]. rewrite (Hdat k d Hd Hpr). cbn. eexists; split; [done|].
      split; cbn; [|done..]. apply (StWait _ _ (S k)); cbn; try done. by rewrite Hl, (gathered_S k d Hd).
    - destruct (n - S k) as [|m] eqn:Hm; cbn [tail] in Hp; injection Hp as <- <-; cbn [sg_exec];
        (eexists; split; [done|]; split; cbn; [|done..]).
      + apply (StLast _ _ k); cbn; try done; [lia|].
        apply Hr. destruct (sg_pend x); naive_solver.
      + apply (StNext _ _ k); cbn; try done; [lia|by replace (n - S (S k)) with m by lia|].
        apply Hr. destruct (sg_pend x); naive_solver.
    - injection Hp as <- <-. destruct (lookup_lt_is_Some_2 datas (S k)) as [d Hd]; [fold n; lia|].
      cbn [sg_exec]. rewrite (Hlen (S k) d Hd). cbn. rewrite Hpe, Hs. eexists; split; [done|].
      split; cbn; [|done..]. apply (StBegun _ _ k); cbn; try done. by rewrite (starts_S (S k) d Hd).
    - injection Hp as <- <-. destruct (lookup_lt_is_Some_2 datas k) as [d Hd]; [fold n; lia|].
      cbn [sg_exec]. rewrite (Hdat k d Hd Hpr). cbn. eexists; split; [done|].
      split; cbn; [|done..]. apply StDone; cbn; try done; rewrite Hk; [done|].
      by rewrite Hl, (gathered_S k d Hd).
    - done.
  Qed.

  (** The number of broadcasts a rank has started determines its list. *)
  Lemma stage_started me x : 0 < n -> stage me x -> exists k, k <= n /\ sg_started x = starts k /\
    (sg_pend x <> Null -> 0 < k).
  Proof.
    intros Hn. destruct 1 as [Hq Hs Hpe Hl|k Hk Hq Hs Hpe Hr Hpr Hl|k Hk Hq Hs Hpe Hr Hl|k Hk Hq Hs Hpe Hpr Hl|k Hk Hq Hs Hpe Hpr Hl|Hq Hs Hpe Hl].
    - exists 0. split; [lia|]. split; [done|]. congruence.
    - exists (S (S k)). repeat split; try done; lia.
    - exists (S k). repeat split; try done; lia.
    - exists (S k). repeat split; try done; lia.
    - exists (S k). repeat split; try done; lia.
    - exists n. repeat split; done.
  Qed.

  Lemma take_inserts {A} (d buf : list A) : length d <= length buf -> take (length d) (list_inserts 0 d buf) = d.
  Proof.
    intros. apply list_eq. intros i. destruct (decide (i < length d)).
    - rewrite lookup_take by done. rewrite list_lookup_inserts by lia. by rewrite Nat.sub_0_r.
    - rewrite lookup_take_ge by lia. by rewrite lookup_ge_None_2 by lia.
  Qed.

  Lemma step_inv s s' : inv s -> sg_step sync datas s s' -> inv s'.
  Proof.
    intros Hi Hs. destruct Hi as [Hlen Hok Hr]. destruct Hs as [me x a rest Hx Hp Hw|me x root len y root' len' Hx Hpe Hls Hy Hst Hsy].
    - assert (Hme : me < n) by (rewrite <- Hlen; by eapply lookup_lt_Some).
      destruct (run_inv1 me x a rest (Hr _ _ Hx) Hme Hp Hw) as (x' & -> & Hx').
      split; cbn; [by rewrite insert_length|done|].
      intros me' z Hz. apply list_lookup_insert_Some in Hz.
      destruct Hz as [(<- & <- & _)|(Hne & Hz)]; [done|by apply Hr].
    - assert (Hme : me < n) by (rewrite <- Hlen; by eapply lookup_lt_Some).
      assert (Hn : 0 < n) by lia.
      pose proof (Hr _ _ Hx) as [Hst1 Hsz Hrl Hpl]. pose proof (Hr _ _ Hy) as [Hst2 _ _ _].
      destruct (stage_started _ _ Hn Hst1) as (k & Hk & Hks & Hk0). specialize (Hk0 ltac:(congruence)).
      destruct k as [|k]; [lia|].
      destruct (stage_started _ _ Hn Hst2) as (k2 & Hk2 & Hks2 & _).
      destruct (starts_lookup (S k) k) as (d & Hd & _); [lia|lia|].
      assert (root = k /\ len = length d) as [-> ->].
      { unfold last_start in Hls. rewrite Hks, (starts_S k d Hd), last_snoc in Hls. by simplify_eq. }
      rewrite Hks, (starts_length (S k)) in Hst by lia. rewrite Hks2 in Hst.
      assert (k < k2) as Hkk.
      { apply lookup_lt_Some in Hst. rewrite starts_length in Hst by lia. lia. }
      destruct (starts_lookup k2 k Hkk Hk2) as (d' & Hd' & Hl'). rewrite Hd in Hd'. injection Hd' as <-.
      replace (S k - 1) with k in Hst by lia. rewrite Hl' in Hst. injection Hst as <- <-.
      rewrite !Nat.eqb_refl. rewrite Hok.
      split; cbn; [by rewrite insert_length|done|].
      intros me' z Hz. apply list_lookup_insert_Some in Hz.
      destruct Hz as [(<- & <- & _)|(Hne & Hz)]; [|by apply Hr].
      rewrite Hd. change (default [] (Some d)) with d.
      set (rb := if me =? k then sg_recv x else list_inserts 0 d (sg_recv x)).
      assert (Hrb : length rb = length (sg_recv x)) by (unfold rb; destruct (me =? k); rewrite ?inserts_length; done).
      assert (Hh : holds me rb k).
      { intros d1 Hne Hd1. rewrite Hd in Hd1. injection Hd1 as <-. unfold rb.
        rewrite (proj2 (Nat.eqb_neq _ _) Hne). apply take_inserts.
        rewrite Hrl, Hsz. by eapply max_ge, size_at. }
      clearbody rb.
      split; cbn; [|done|by rewrite Hrb|done].
      destruct Hst1 as [Hq Hs Hpe' Hl|j Hj Hq Hs Hpe' Hr1 Hpr Hl|j Hj Hq Hs Hpe' Hr1 Hl|j Hj Hq Hs Hpe' Hpr Hl|j Hj Hq Hs Hpe' Hpr Hl|Hq Hs Hpe' Hl]; try congruence.
      + assert (S j = k). { rewrite Hks in Hs. apply (f_equal length) in Hs. rewrite !starts_length in Hs by lia. lia. }
        subst k. apply (StBegun _ _ j); cbn; try done.
      + assert (j = k). { rewrite Hks in Hs. apply (f_equal length) in Hs. rewrite !starts_length in Hs by lia. lia. }
        subst k. apply (StWait _ _ j); cbn; try done.
  Qed.

  Lemma steps_inv s s' : inv s -> rtc (sg_step sync datas) s s' -> inv s'.
  Proof. intros Hi. induction 1; [done|]. eauto using step_inv. Qed.

  Lemma done_log s : inv s -> sg_done s -> map sg_log (sg_ranks s) = replicate n (gathered n) /\ sg_bad s = false.
  Proof.
    intros [Hlen Hok Hr] Hd. split; [|done]. apply list_eq. intros me.
    change (map sg_log (sg_ranks s)) with (sg_log <$> sg_ranks s). rewrite list_lookup_fmap.
    destruct (sg_ranks s !! me) as [x|] eqn:Hx; cbn.
    - rewrite lookup_replicate_2 by (rewrite <- Hlen; by eapply lookup_lt_Some).
      pose proof (Forall_lookup_1 _ _ _ _ Hd Hx) as Hp. cbn in Hp.
      destruct (Hr _ _ Hx) as [Hst _ _ _].
      destruct Hst as [Hq|k Hk Hq|k Hk Hq|k Hk Hq|k Hk Hq|Hq Hs Hpe' Hl]; try congruence.
      rewrite Hp in Hq. by destruct (tail_ne _ _ (eq_sym Hq)).
    - symmetry. apply lookup_replicate_None. apply lookup_ge_None in Hx. lia.
  Qed.

  (** A rank that can run, or waits for an active request. *)
  Lemma can_run me x : inv1 me x -> me < n ->
    sg_prog x = [] \/ (exists a rest, sg_prog x = a :: rest /\ (a = Finish -> sg_pend x <> Active)) \/
    (exists k d, datas !! k = Some d /\ sg_pend x = Active /\ sg_started x = starts (S k)).
  Proof.
    intros [Hst _ _ _] Hme.
    destruct Hst as [Hq|k Hk Hq|k Hk Hq Hs Hpe|k Hk Hq|k Hk Hq|Hq]; eauto 8; try (right; left; eexists _, _; split; [done|done]).
    destruct (sg_pend x) eqn:Hp; [done| |].
    - right; right. destruct (lookup_lt_is_Some_2 datas k) as [d Hd]; [fold n; lia|]. eauto.
    - right; left. destruct (n - S k); cbn in Hq; eexists _, _; (split; [exact Hq|done]).
  Qed.

  Lemma progress s : inv s -> sg_done s \/ exists s', sg_step sync datas s s'.
  Proof.
    intros Hi. destruct Hi as [Hlen Hok Hr].
    destruct (decide (sg_done s)) as [|Hnd]; [by left|right].
    (* a rank with the fewest broadcasts among the unfinished ones *)
    set (P := fun me => exists x, sg_ranks s !! me = Some x /\ sg_prog x <> []).
    assert (Hex : exists me x, sg_ranks s !! me = Some x /\ sg_prog x <> [] /\
       forall me' x', sg_ranks s !! me' = Some x' -> length (sg_started x) <= length (sg_started x')).
    { assert (Hmin : forall l : list (sg_rank T), l <> [] -> exists i x, l !! i = Some x /\
         forall i' x', l !! i' = Some x' -> length (sg_started x) <= length (sg_started x')).
      { clear. induction l as [|y l IH]; [done|]. intros _. destruct l as [|z l].
        - exists 0, y. split; [done|]. intros [|i'] x' H; cbn in H; simplify_eq. lia.
        - destruct IH as (i & x & Hx & Hm); [done|].
          destruct (decide (length (sg_started x) <= length (sg_started y))).
          + exists (S i), x. split; [done|]. intros [|i'] x' H; cbn in H; simplify_eq; eauto.
          + exists 0, y. split; [done|]. intros [|i'] x' H; [cbn in H; simplify_eq; lia|].
            apply (Hm i') in H. lia. }
      assert (sg_ranks s <> []) as Hne. { intros E. apply Hnd. unfold sg_done. rewrite E. constructor. }
      destruct (Hmin _ Hne) as (i & x & Hx & Hm).
      destruct (decide (sg_prog x = [])) as [Hp|Hp]; [|by exists i, x].
      (* everybody has started n broadcasts; take any unfinished rank *)
      apply not_Forall_Exists in Hnd; [|apply _]. apply Exists_exists in Hnd as (z & Hz & Hzp).
      apply elem_of_list_lookup in Hz as (j & Hj). exists j, z. split; [done|]. split; [done|].
      assert (i < n) by (rewrite <- Hlen; by eapply lookup_lt_Some).
      assert (length (sg_started x) = n) as Hxn.
      { destruct (Hr _ _ Hx) as [Hst _ _ _].
        destruct Hst as [Hq|k Hk Hq|k Hk Hq|k Hk Hq|k Hk Hq|Hq Hs Hpe' Hl]; try congruence.
        - rewrite Hp in Hq. by destruct (tail_ne _ _ (eq_sym Hq)).
        - rewrite Hs. by apply starts_length. }
      intros me' x' Hx'. apply Hm in Hx'.
      destruct (Hr _ _ Hj) as [Hst _ _ _].
      apply stage_started in Hst as (k & Hk & -> & _); [|lia]. rewrite starts_length by lia. lia. }
    clear P. destruct Hex as (me & x & Hx & Hp & Hm).
    assert (Hme : me < n) by (rewrite <- Hlen; by eapply lookup_lt_Some).
    destruct (can_run me x (Hr _ _ Hx) Hme) as [?|[(a & rest & Ha & Hw)|(k & d & Hd & Hpe & Hs)]]; [done| |].
    - eexists. by eapply sg_run.
    - assert (k < n) by (by apply lookup_lt_Some in Hd).
      destruct (lookup_lt_is_Some_2 (sg_ranks s) k) as [y Hy]; [lia|].
      assert (length (sg_started x) = S k) as Hsl by (rewrite Hs; apply starts_length; lia).
      destruct (lookup_lt_is_Some_2 (sg_started y) k) as [[r' l'] Hyk].
      { apply Hm in Hy. lia. }
      eexists. eapply (sg_complete _ _ _ me x k (length d) y r' l'); eauto.
      + unfold last_start. by rewrite Hs, (starts_S k d Hd), last_snoc.
      + rewrite Hsl. by replace (S k - 1) with k by lia.
      + intros _. apply Forall_lookup. intros i z Hz. by eapply Hm.
  Qed.

  (** Termination. *)
  Definition weight (x : sg_rank T) : nat := 2 * length (sg_prog x) + match sg_pend x with Active => 1 | _ => 0 end.
  Definition total (s : sg_state T) : nat := sum (map weight (sg_ranks s)).
  Lemma sum_insert (l : list nat) i a b : l !! i = Some a -> b < a -> sum (<[i := b]> l) < sum l.
  Proof.
    intros H Hb. rewrite insert_take_drop by (by eapply lookup_lt_Some).
    rewrite <- (take_drop_middle l i a H) at 3. rewrite !sum_app, !sum_cons. lia.
  Qed.
  Lemma map_insert {A} (f : A -> nat) l i x : map f (<[i := x]> l) = <[i := f x]> (map f l).
  Proof. revert i. induction l as [|y l IH]; intros [|i]; cbn; try done. f_equal. apply IH. Qed.
  Lemma step_total s s' : inv s -> sg_step sync datas s s' -> total s' < total s.
  Proof.
    intros Hi Hs. destruct Hi as [Hlen Hok Hr]. destruct Hs as [me x a rest Hx Hp Hw|me x root len y root' len' Hx Hpe Hls Hy Hst Hsy].
    - assert (Hme : me < n) by (rewrite <- Hlen; by eapply lookup_lt_Some).
      destruct (run_inv1 me x a rest (Hr _ _ Hx) Hme Hp Hw) as (x' & E & Hx'). rewrite E.
      unfold total; cbn. rewrite map_insert. eapply sum_insert.
      + change (map weight (sg_ranks s)) with (weight <$> sg_ranks s). by rewrite list_lookup_fmap, Hx.
      + unfold weight. rewrite Hp.
        assert (sg_prog x' = rest).
        { destruct a; cbn [sg_exec] in E; repeat (apply bind_inv in E as (? & _ & E)); [destruct (sg_pend x)| |]; by simplify_eq. }
        rewrite H. cbn [List.length]. destruct (sg_pend x'), (sg_pend x); lia.
    - unfold total; cbn. rewrite map_insert. eapply sum_insert.
      + change (map weight (sg_ranks s)) with (weight <$> sg_ranks s). by rewrite list_lookup_fmap, Hx.
      + unfold weight; cbn. rewrite Hpe. lia.
  Qed.
  Lemma nsteps_total k s s' : inv s -> nsteps (sg_step sync datas) k s s' -> k + total s' <= total s.
  Proof.
    intros Hi H. induction H as [|k s1 s2 s3 H1 H2 IH]; [lia|].
    pose proof (step_total _ _ Hi H1). specialize (IH (step_inv _ _ Hi H1)). lia.
  Qed.

  Lemma can_finish s : inv s -> exists s', rtc (sg_step sync datas) s s' /\ sg_done s'.
  Proof.
    remember (total s) as m eqn:Hm. revert s Hm. induction (lt_wf m) as [m _ IH]. intros s -> Hi.
    destruct (progress s Hi) as [|(s' & Hs)]; [eauto using rtc_refl|].
    destruct (IH (total s') (step_total _ _ Hi Hs) s' eq_refl (step_inv _ _ Hi Hs)) as (s'' & H1 & H2).
    exists s''. split; [by eapply rtc_l|done].
  Qed.
  Lemma gather_main fill fill' s : 0 < n -> rtc (sg_step sync datas) (sg_init datas fill fill') s ->
    sg_bad s = false /\
    (sg_done s \/ exists s', sg_step sync datas s s') /\
    (sg_done s -> map sg_log (sg_ranks s) = replicate n (imap (fun r d => (r, d)) datas)).
  Proof.
    intros Hn Hs. pose proof (steps_inv _ _ (init_inv fill fill' Hn) Hs) as Hi.
    split; [apply Hi|]. split; [by apply progress|].
    intros Hd. destruct (done_log s Hi Hd) as [-> _]. unfold gathered. by rewrite take_ge by (fold n; lia).
  Qed.
  Lemma gather_end fill fill' s : 0 < n -> rtc (sg_step sync datas) (sg_init datas fill fill') s ->
    exists s', rtc (sg_step sync datas) s s' /\ sg_done s'.
  Proof. intros Hn Hs. eapply can_finish, steps_inv; eauto using init_inv. Qed.
  Lemma gather_bound fill fill' : 0 < n -> exists b, forall k s,
    nsteps (sg_step sync datas) k (sg_init datas fill fill') s -> k <= b.
  Proof. intros Hn. exists (total (sg_init datas fill fill')). intros k s Hs. pose proof (nsteps_total _ _ _ (init_inv fill fill' Hn) Hs). lia. Qed.
End proofs.
