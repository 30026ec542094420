(** Insertion, halving and rehashing keep the table in order. *)
From Verif Require Import Base Robin_model Robin_proofs Robin2_proofs.

Section steps.
  Context {K V : Type} `{EqDecision K} (hash : nat -> K -> nat).
  Notation table := (@table K V).
  Notation nbuf t := (with_buffer (t_mask t + 1)).
  Notation wf := (wf hash).
  Notation path t k := (pth (home hash t) (home_info hash t) (t_inc t) k).

  Lemma max_mono a b : a <= b -> max_allowed a <= max_allowed b.
  Proof. intros H. unfold max_allowed. apply Nat.div_le_mono; lia. Qed.
  Lemma max_pos n : 8 <= n -> 6 <= max_allowed n.
  Proof. intros H. apply (max_mono 8 n H). Qed.
  Lemma wf_fields (t t' : table) : wf t -> t_mult t' = t_mult t -> t_mask t' = t_mask t -> t_inc t' = t_inc t -> t_shift t' = t_shift t ->
    length (t_info t') = length (t_info t) -> length (t_vals t') = length (t_vals t) ->
    shape (home hash t) (home_info hash t) (t_mask t + 1) (nbuf t) (t_inc t) (fun i => t_info t' !!! i) (fun i => t_vals t' !!! i) ->
    (t_max t' = 0 \/ (t_max t' = max_allowed (t_mask t + 1) /\ forall i, t_info t' !!! i + t_inc t <= 255)) ->
    (exists l, NoDup l /\ length l = t_num t' /\ forall k, k ∈ l <-> exists i v, t_vals t' !!! i = Some (k, v)) -> t_num t' <= max_allowed (t_mask t + 1) -> wf t'.
  Proof.
    intros [A1 A2 A3 A4 A5 A6 A7 A8 A9] E1 E2 E3 E4 E5 E6 S M L Hn. split; rewrite ?E2, ?E3, ?E4; try done; try congruence.
    unfold home, home_info in *. rewrite E1, E2, E3, E4. exact S.
  Qed.

  (** With steps of 2 the info of a key is bounded by the number of keys. *)
  Lemma info_bound (t : table) i : wf t -> t_inc t = 2 -> t_info t !!! i <= 2 * t_num t + 1.
  Proof.
    intros W Hi. pose proof (w_shape _ t W) as S. destruct (w_size _ t W) as (l & Hnd & Hlen & Hl). destruct (Nat.le_gt_cases 2 (t_info t !!! i)) as [Hb|Hb]; [|lia].
    destruct (big_some _ _ _ _ _ _ _ i S Hb) as [HiN [[k v] Ex]]. cbv beta in Ex. destruct (s_pos _ _ _ _ _ _ _ S i k v Ex) as [P1 P2]. cbv beta in P2. pose proof (s_hi _ _ _ _ _ _ _ S k) as [_ Hh].
    assert (Hlt : i - home hash t k < t_num t).
    { set (f := fun j => match t_vals t !!! j with Some n => n.1 | None => k end).
      assert (Hx : forall j, home hash t k <= j <= i -> exists n, t_vals t !!! j = Some n).
      { intros j Hj. pose proof (chain _ _ _ _ _ _ _ i k v j S Ex Hj) as Hc. cbv beta in Hc. pose proof (path_ge hash t W k j) as Hp. destruct (big_some _ _ _ _ _ _ _ j S) as [_ [n Hn]]; [cbv beta; lia|]. by exists n. }
      assert (Hnd' : NoDup (map f (seq (home hash t k) (i - home hash t k + 1)))).
      { apply NoDup_fmap_2_strong; [|apply NoDup_seq]. intros a b Ha Hb' E. apply elem_of_seq in Ha, Hb'. destruct (Hx a) as [[ka va] Ea]; [lia|]. destruct (Hx b) as [[kb vb] Eb]; [lia|]. unfold f in E. rewrite Ea, Eb in E. cbn [fst] in E. subst. exact (s_uniq _ _ _ _ _ _ _ S _ _ _ _ _ Ea Eb). }
      assert (Hs : map f (seq (home hash t k) (i - home hash t k + 1)) ⊆ l). { intros x Hx'. apply elem_of_list_fmap in Hx' as (j & -> & Hj). apply elem_of_seq in Hj. destruct (Hx j) as [[kj vj] Ej]; [lia|]. apply Hl. exists j, vj. unfold f. by rewrite Ej. }
      pose proof (submseteq_length _ _ (NoDup_submseteq _ _ Hnd' Hs)) as Hle. rewrite map_length, seq_length in Hle. lia. }
    rewrite P2, Hi in *. lia.
  Qed.
  (** The table is not at its limits. *)
  Definition calm (t : table) : Prop := t_inc t = 2 -> t_max t <> 0.

  Lemma place_ok (t : table) k v p : wf t -> (forall i w, t_vals t !!! i <> Some (k, w)) -> home hash t k <= p <= nbuf t -> t_info t !!! p < path t k p ->
    (forall j, home hash t k <= j < p -> path t k j <= t_info t !!! j) -> t_max t <> 0 -> t_num t < max_allowed (t_mask t + 1) ->
    exists t2 fresh t', open_spot t (path t k p) p = Ok (t2, fresh) /\ put_node t2 fresh p (k, v) = Ok t' /\ wf t' /\ t_mask t' = t_mask t /\ t_mult t' = t_mult t /\ t_num t' = t_num t + 1 /\ (t_num t' <= 126 -> calm t') /\
      forall k' v', has t' k' v' <-> (k' = k /\ v' = v) \/ has t k' v'.
  Proof.
    intros W Ha Hp Hlt Hc Hm Hnum. pose proof (w_shape _ t W) as S. destruct (w_max _ t W) as [?|[Em B]]; [done|]. destruct (w_size _ t W) as (l & Hnd & Hlen & Hl).
    pose proof (w_li _ t W) as Li. pose proof (w_lv _ t W) as Lv.
    destruct (buffer_spot _ _ _ _ _ _ _ l S eq_refl Hnd Hl) as (e0 & He0 & E0); [rewrite Hlen; exact Hnum|].
    assert (Hpe : p <= e0). { destruct (Nat.le_gt_cases p e0) as [|Hg]; [done|]. pose proof (home_lt hash t k). specialize (Hc e0). rewrite E0 in Hc. pose proof (path_ge hash t W k e0). lia. }
    destruct (find_empty_ok (t_info t) (length (t_info t)) p e0) as (e & F1 & F2 & F3 & F4); [lia|done|lia|].
    pose proof (insert_shape _ _ _ _ _ _ _ k v p e S Ha (proj1 Hp) Hc Hlt ltac:(lia) F3 F4 B) as S'.
    assert (H255 : path t k p <= 255). { pose proof (s_byte _ _ _ _ _ _ _ S' p) as H. unfold ins_I in H. by rewrite decide_True in H by done. }
    assert (Hsome : forall j, p <= j < e -> is_Some (t_vals t !!! j)). { intros j Hj. destruct (t_vals t !!! j) eqn:E; [done|]. apply (s_occ _ _ _ _ _ _ _ S) in E; [|lia]. by destruct (F4 j Hj). }
    assert (Hnone : t_vals t !!! e = None) by (apply (s_occ _ _ _ _ _ _ _ S); [lia|done]).
    cut (exists t2 fresh t', open_spot t (path t k p) p = Ok (t2, fresh) /\ put_node t2 fresh p (k, v) = Ok t' /\
      t_mult t' = t_mult t /\ t_mask t' = t_mask t /\ t_inc t' = t_inc t /\ t_shift t' = t_shift t /\ t_num t' = t_num t + 1 /\
      length (t_info t') = length (t_info t) /\ length (t_vals t') = length (t_vals t) /\
      (forall j, t_info t' !!! j = ins_I (home hash t) (home_info hash t) (t_inc t) (fun i => t_info t !!! i) k p e j) /\
      (forall j, t_vals t' !!! j = ins_X (fun i => t_vals t !!! i) (k, v) p e j) /\
      ((t_max t' = 0 /\ exists j, 255 < t_info t' !!! j + t_inc t) \/ (t_max t' = t_max t /\ forall j, t_info t' !!! j + t_inc t <= 255))).
    { intros (t2 & fresh & t' & H1 & H2 & C1 & C2 & C3 & C4 & C5 & C6 & C7 & C8 & C9 & C10). exists t2, fresh, t'. split; [done|]. split; [done|].
      assert (Hh : forall k' v', has t' k' v' <-> (k' = k /\ v' = v) \/ has t k' v').
      { intros k' v'. unfold has. split.
        - intros [j Hj]. rewrite C9 in Hj. unfold ins_X in Hj. case_decide; [left; injection Hj as <- <-; done|]. right. case_decide; eauto.
        - intros [[-> ->]|[j Hj]]; [exists p; rewrite C9; unfold ins_X; by rewrite decide_True|].
          assert (j <> e) by congruence. destruct (decide (p <= j < e)) as [D|D]; [exists (j + 1)|exists j]; rewrite C9; unfold ins_X.
          + rewrite decide_False, decide_True by lia. by replace (j + 1 - 1) with j by lia.
          + assert (j <> p) by lia. rewrite !decide_False by lia. done. }
      cut (wf t').
      { intros W'. split; [done|]. split; [done|]. split; [done|]. split; [done|]. split; [|done]. intros H126 Hi2 H0. destruct C10 as [[_ [j Hj]]|[C10 _]]; [|congruence]. pose proof (info_bound t' j W' Hi2). lia. }
      apply (wf_fields t t'); try done.
      - by eapply shape_ext.
      - rewrite <- Em. destruct C10 as [[? _]|?]; [by left|by right].
      - exists (k :: l). split; [apply NoDup_cons; split; [|done]; rewrite Hl; intros (i & w & Hi); by eapply Ha|]. split; [cbn [length]; lia|]. intros k'. rewrite elem_of_cons, Hl. split.
        + intros [->|(i & w & Hi)]; [destruct (proj2 (Hh k v)) as [j Hj]; [by left|]; eauto|]. destruct (proj2 (Hh k' w)) as [j Hj]; [right; by exists i|]. eauto.
        + intros (i & w & Hi). destruct (proj1 (Hh k' w)) as [[-> _]|[j Hj]]; [by exists i|by left|]. right. eauto.
      - lia. }
    unfold open_spot. cbv zeta. cbn [t_info t_max t_vals t_num t_mask t_inc t_shift t_mult]. rewrite F1, bind_ok. set (mx := if 255 <? path t k p + t_inc t then 0 else t_max t).
    assert (Hmx : (mx = 0 /\ 255 < path t k p + t_inc t) \/ (mx = t_max t /\ path t k p + t_inc t <= 255)). { unfold mx. destruct (Nat.ltb_spec 255 (path t k p + t_inc t)); [by left|by right]. }
    destruct (Nat.eqb_spec e p) as [->|Hne].
    - rewrite bind_ok. cbn [t_info t_max t_vals t_num t_mask t_inc t_shift t_mult]. rewrite wr_ok, bind_ok by lia. eexists _, _, _. split; [done|]. unfold put_node, construct. cbn [t_info t_max t_vals t_num t_mask t_inc t_shift t_mult]. rewrite rd_total, bind_ok, Hnone, wr_ok, bind_ok by lia.
      split; [done|]. cbn [t_info t_max t_vals t_num t_mask t_inc t_shift t_mult]. rewrite !insert_length. repeat (split; [done|]). rewrite Nat.mod_small by lia. split; [|split].
      + intros j. rewrite total_insert by lia. unfold ins_I. case_decide; [done|]. by rewrite decide_False by lia.
      + intros j. rewrite total_insert by lia. unfold ins_X. case_decide; [done|]. by rewrite decide_False by lia.
      + destruct Hmx as [[? Hx]|[? ?]]; [left; split; [done|]; exists p; rewrite total_insert, decide_True by (done || lia); done|]. right. split; [done|]. intros j. rewrite total_insert by lia. case_decide; [done|apply B].
    - unfold shiftUp. cbn [t_info t_max t_vals t_num t_mask t_inc t_shift t_mult]. rewrite rd_total, bind_ok by lia. unfold construct at 1. rewrite rd_total, bind_ok, Hnone by lia. destruct (Hsome (e - 1)) as [y Ey]; [lia|]. rewrite Ey, wr_ok, bind_ok by lia.
      destruct (up_vals_ok (e - 1 - p) p (<[e := Some y]> (t_vals t))) as (vals' & U1 & U2 & U3); [rewrite insert_length; lia|intros j Hj; rewrite total_insert, decide_False by lia; apply Hsome; lia|]. replace (p + (e - 1 - p)) with (e - 1) in U1, U3 by lia. rewrite U1, bind_ok. rewrite insert_length in U2.
      destruct (up_info_ok (t_inc t) (e - p) p (t_info t) mx) as (info' & mx' & G1 & G2 & G3 & G4); [lia|done|]. replace (p + (e - p)) with e in G1, G3 by lia. rewrite G1, !bind_ok. cbn [t_info t_max t_vals t_num t_mask t_inc t_shift t_mult fst snd]. rewrite wr_ok, bind_ok by lia.
      eexists _, _, _. split; [done|]. unfold put_node, assign. cbn [t_info t_max t_vals t_num t_mask t_inc t_shift t_mult]. rewrite rd_total, bind_ok by lia.
      assert (exists z, vals' !!! p = Some z) as [z Ez]. { rewrite U3, decide_False, total_insert, decide_False by lia. apply Hsome. lia. } rewrite Ez, wr_ok, bind_ok by lia.
      split; [done|]. cbn [t_info t_max t_vals t_num t_mask t_inc t_shift t_mult]. rewrite !insert_length. repeat (split; [done|]). rewrite Nat.mod_small by lia. split; [|split].
      + intros j. rewrite total_insert by lia. unfold ins_I. case_decide; [done|]. apply G3.
      + intros j. rewrite total_insert by lia. unfold ins_X. case_decide; [done|]. rewrite U3, !total_insert by lia. destruct (decide (p < j <= e)) as [D|D].
        * destruct (decide (j = e)) as [->|]; [rewrite decide_False by lia; done|]. rewrite decide_True, decide_False by lia. done.
        * rewrite !decide_False by lia. done.
      + destruct Hmx as [[Hm0 Hx]|[Hm0 Hx]], G4 as [[G4 G5]|[G4 G5]].
        { left. split; [done|]. exists p. rewrite total_insert, decide_True by (done || lia). done. }
        { left. split; [congruence|]. exists p. rewrite total_insert, decide_True by (done || lia). done. }
        { left. split; [done|]. destruct G5 as [G5|(j & Hj & G5)]; [congruence|]. exists j. rewrite total_insert, decide_False by lia. done. }
        right. split; [congruence|]. intros j. rewrite total_insert by lia. case_decide; [done|done].
  Qed.

  Lemma increase_info_ok (t : table) : wf t -> (try_increase_info t = Ok (t, false) /\ t_inc t = 2) \/
    exists t', try_increase_info t = Ok (t', true) /\ wf t' /\ t_max t' <> 0 /\ t_mask t' = t_mask t /\ t_num t' = t_num t /\ t_mult t' = t_mult t /\ t_vals t' = t_vals t.
  Proof.
    intros W. pose proof W as [A1 A2 A3 A4 A5 A6 A7 A8 A9]. unfold try_increase_info. destruct (Nat.leb_spec (t_inc t) 2) as [Hi|Hi]; [left; split; [done|]; pose proof (s_inc _ _ _ _ _ _ _ A6); lia|]. right. cbv zeta.
    set (N := nbuf t) in *. set (c := 8 * ((N + 7) / 8)).
    assert (Hc : N <= c <= N + 7). { unfold c. pose proof (Nat.div_mod_eq (N + 7) 8). pose proof (Nat.mod_upper_bound (N + 7) 8). lia. }
    rewrite (proj2 (Nat.ltb_ge _ _)) by lia. set (info := map (fun b => b / 2) (take c (t_info t)) ++ drop c (t_info t)).
    assert (Hlen : length info = N + 8). { unfold info. rewrite app_length, map_length, take_length, drop_length. lia. }
    rewrite wr_ok, bind_ok by lia. eexists. split; [done|]. cbn [t_info t_max t_vals t_num t_mask t_inc t_shift t_mult].
    assert (Hinfo : forall i, info !!! i = if decide (i < c) then (t_info t !!! i) / 2 else t_info t !!! i).
    { intros i. unfold info. rewrite !list_lookup_total_alt. case_decide as D.
      - rewrite lookup_app_l by (rewrite map_length, take_length; lia). rewrite list_lookup_fmap, lookup_take by lia. destruct (t_info t !! i) eqn:E; [done|]. apply lookup_ge_None in E. lia.
      - rewrite lookup_app_r by (rewrite map_length, take_length; lia). rewrite map_length, take_length, lookup_drop. do 2 f_equal. lia. }
    assert (Hs : t_shift t <= 3). { destruct (decide (t_shift t = 4)) as [E|]; [|lia]. rewrite E in A5. cbn in A5. lia. }
    assert (E2 : t_inc t = 2 * 2 ^ (5 - (t_shift t + 1))). { rewrite A5. replace (5 - t_shift t) with (S (5 - (t_shift t + 1))) by lia. by rewrite Nat.pow_succ_r'. }
    assert (Ed : t_inc t / 2 = 2 ^ (5 - (t_shift t + 1))). { rewrite E2, Nat.mul_comm. by apply Nat.div_mul. }
    pose proof (inc_range (t_shift t + 1) ltac:(lia)) as Hr.
    pose proof (s_sent _ _ _ _ _ _ _ A6) as Hsent. pose proof (s_pad _ _ _ _ _ _ _ A6) as Hpad. cbv beta in Hsent, Hpad.
    assert (J : forall i, i < N -> <[N := 1]> info !!! i = (t_info t !!! i) / 2). { intros i Hl. rewrite total_insert, decide_False, Hinfo, decide_True by lia. done. }
    assert (JN : <[N := 1]> info !!! N = 1). { rewrite total_insert, decide_True by (done || lia). done. }
    assert (JP : forall i, N < i -> <[N := 1]> info !!! i = 0). { intros i Hl. rewrite total_insert, decide_False, Hinfo by lia. fold N in Hpad. rewrite Hpad by done. by case_decide. }
    assert (Hhi : forall k, t_inc t / 2 + Nat.shiftr (Nat.land (hash (t_mult t) k) 31) (t_shift t + 1) = home_info hash t k / 2).
    { intros k. unfold home_info. rewrite !Nat.shiftr_div_pow2, Nat.pow_add_r, <- Nat.div_div by (try apply Nat.pow_nonzero; done). rewrite Ed, E2, (Nat.mul_comm 2). by rewrite Nat.div_add_l. }
    split; [|pose proof (max_pos (t_mask t + 1)); repeat split; lia].
    split; cbn [t_info t_max t_vals t_num t_mask t_inc t_shift t_mult]; try done.
    - by rewrite insert_length.
    - lia.
    - rewrite Ed. unfold home, home_info. cbn [t_info t_max t_vals t_num t_mask t_inc t_shift t_mult]. rewrite E2 in A6.
      eapply (halve_shape _ (home_info hash t) _ _ _ _ (fun i => t_info t !!! i)); [lia|exact A6| |done|done|done]. intros k. rewrite <- Hhi, Ed. done.
    - right. split; [done|]. intros i. rewrite Ed. pose proof (s_byte _ _ _ _ _ _ _ A6 i) as Hb. cbv beta in Hb. assert (t_info t !!! i / 2 < 128) by (apply Nat.div_lt_upper_bound; lia).
      destruct (Nat.lt_trichotomy i N) as [Hl|[->|Hl]]; [rewrite J by done; lia|rewrite JN; lia|rewrite JP by done; lia].
  Qed.

  Lemma init_ok mult n : 8 <= n -> let t : table := initData mult n in wf t /\ t_mask t + 1 = n /\ t_num t = 0 /\ t_max t <> 0 /\ forall k v, ~ has t k v.
  Proof.
    intros Hn. cbv zeta. assert (En : n - 1 + 1 = n) by lia. set (N := with_buffer n).
    assert (X0 : forall i, (repeat None N : list (option (K * V))) !!! i = None). { intros i. rewrite list_lookup_total_alt. destruct (repeat None N !! i) eqn:E; [|done]. apply elem_of_list_lookup_2, elem_of_list_In, repeat_spec in E. by subst. }
    assert (I0 : forall i, (repeat 0 N ++ 1 :: repeat 0 7) !!! i = if decide (i = N) then 1 else 0).
    { intros i. rewrite list_lookup_total_alt. destruct (Nat.lt_ge_cases i N) as [Hl|Hl].
      - rewrite lookup_app_l by (rewrite repeat_length; done). rewrite decide_False by lia. destruct (repeat 0 N !! i) eqn:E; [|done]. apply elem_of_list_lookup_2, elem_of_list_In, repeat_spec in E. by subst.
      - rewrite lookup_app_r by (rewrite repeat_length; done). rewrite repeat_length. case_decide as D; [subst; by rewrite Nat.sub_diag|]. rewrite lookup_cons_ne_0 by lia. destruct (repeat 0 7 !! pred (i - N)) eqn:E; [|done]. apply elem_of_list_lookup_2, elem_of_list_In, repeat_spec in E. by subst. }
    split.
    - split; unfold initData; cbn [t_info t_max t_vals t_num t_mask t_inc t_shift t_mult]; rewrite ?En; fold N; try done; try lia.
      + rewrite app_length, repeat_length. cbn. lia.
      + by rewrite repeat_length.
      + assert (HN : n <= N) by apply buf_ge. split.
        * intros k. pose proof (home_lt hash (initData (V := V) mult n) k) as H. unfold initData in H. cbn [t_mask] in H. rewrite En in H. exact H.
        * done.
        * lia.
        * intros k. apply (home_info_lt hash (mk_table mult (repeat (@None (K * V)) N) (repeat 0 N ++ 1 :: repeat 0 7) 0 (n - 1) (max_allowed n) 32 0)); [cbn; lia|done].
        * by rewrite I0, decide_True by done.
        * intros i Hi. by rewrite I0, decide_False by lia.
        * intros i Hi. apply X0.
        * intros i Hi. rewrite I0, X0, decide_False by lia. done.
        * intros i k v. rewrite X0. done.
        * intros i. rewrite I0. case_decide; lia.
        * intros i. rewrite I0. case_decide; left; lia.
        * intros i j k v w. rewrite X0. done.
      + right. split; [done|]. intros i. rewrite I0. case_decide; lia.
      + exists []. split; [apply NoDup_nil_2|]. split; [done|]. intros k. split; [intros H; by apply elem_of_nil in H|]. intros (i & v & Hi). by rewrite X0 in Hi.
    - unfold initData. cbn [t_info t_max t_vals t_num t_mask t_inc t_shift t_mult]. split; [done|]. split; [done|]. split; [pose proof (max_pos n Hn); lia|]. intros k v [i Hi]. cbn [t_vals] in Hi. fold N in Hi. by rewrite X0 in Hi.
  Qed.

  Lemma insert_move_ok (t : table) k v : wf t -> (forall w, ~ has t k w) -> t_num t < max_allowed (t_mask t + 1) ->
    (insert_move hash (k, v) t = Throw /\ ~ calm t) \/ exists t', insert_move hash (k, v) t = Ok t' /\ wf t' /\ t_mask t' = t_mask t /\ t_num t' = t_num t + 1 /\ (t_num t' <= 126 -> calm t') /\ forall k' v', has t' k' v' <-> (k' = k /\ v' = v) \/ has t k' v'.
  Proof.
    intros W Ha Hn. unfold insert_move.
    assert (G : (t_max t =? 0 = true /\ try_increase_info t = Ok (t, false) /\ ~ calm t) \/ exists t1, (if t_max t =? 0 then tb ← try_increase_info t; if (tb.2 : bool) then Ok tb.1 else Throw else Ok t) = Ok t1 /\ wf t1 /\ t_max t1 <> 0 /\ t_mask t1 = t_mask t /\ t_num t1 = t_num t /\ t_vals t1 = t_vals t).
    { destruct (Nat.eqb_spec (t_max t) 0) as [E|E].
      - destruct (increase_info_ok t W) as [[-> Hi2]|(t' & -> & H1 & H2 & H3 & H4 & H5 & H6)]; [left; split; [done|]; split; [done|]; intros Hcalm; by apply Hcalm|]. right. rewrite bind_ok. cbn [fst snd]. exists t'. done.
      - right. exists t. done. }
    destruct G as [(-> & -> & Hnc)|(t1 & -> & W1 & Hm & E1 & E2 & E3)]; [left; split; [reflexivity|done]|]. right. rewrite bind_ok. cbn [fst snd].
    destruct (skip_le_ok hash t1 W1 k (length (t_info t1)) (home hash t1 k)) as (p & Hs & Hp & Hlt & Hc); [pose proof (h_le hash t1 k); lia|rewrite (w_li _ t1 W1); lia|intros; lia|].
    rewrite pth_0 in Hs. rewrite Hs, bind_ok. cbn [fst snd].
    destruct (place_ok t1 k v p W1) as (t2 & fr & t' & H1 & H2 & H3 & H4 & H5 & H7 & H8 & H6); [|done|done|done|done|rewrite E1, E2; done|].
    - intros i w Hi. apply (Ha w). exists i. by rewrite <- E3.
    - rewrite H1, bind_ok. cbn [fst snd]. exists t'. split; [done|]. split; [done|]. split; [congruence|]. split; [congruence|]. split; [done|]. intros k' v'. rewrite H6. unfold has. by rewrite E3.
  Qed.
End steps.
