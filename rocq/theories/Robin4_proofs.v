(** The operations of the hash table. *)
From Verif Require Import Base Robin_model Robin_proofs Robin2_proofs Robin3_proofs.

Section operations.
  Context {K V : Type} `{EqDecision K} (hash : nat -> K -> nat).
  Notation table := (@table K V).
  Notation nbuf t := (with_buffer (t_mask t + 1)).
  Notation wf := (wf hash).
  Notation path t k := (pth (home hash t) (home_info hash t) (t_inc t) k).
  Definition same (t t' : table) : Prop := forall k v, has t' k v <-> has t k v.
  (** The result of a step that may throw, but only if [c]. *)
  Definition throws_or {A} (c : Prop) (r : res A) (P : A -> Prop) : Prop := (r = Throw /\ c) \/ exists a, r = Ok a /\ P a.
  Lemma throws_bind {A B} (c c' : Prop) (r : res A) (f : A -> res B) P Q : throws_or c r P -> (c -> c') -> (forall a, P a -> throws_or c' (f a) Q) -> throws_or c' (r ≫= f) Q.
  Proof. intros [[-> Hc]|(a & -> & Ha)] H' H; [left; split; [done|by apply H']|]. rewrite bind_ok. by apply H. Qed.
  Lemma same_num (t t' : table) : wf t -> wf t' -> same t t' -> t_num t' = t_num t.
  Proof.
    intros W W' S. destruct (w_size _ t W) as (l & L1 & <- & L3), (w_size _ t' W') as (l' & L1' & <- & L3'). apply Permutation_length. apply NoDup_Permutation; [done|done|]. intros k. rewrite L3, L3'. split; intros (i & v & Hi); (destruct (S k v) as [S1 S2]; unfold has in S1, S2); [destruct S1 as [j Hj]|destruct S2 as [j Hj]]; eauto.
  Qed.

  Lemma rehash_ok (t : table) mult n : wf t -> 8 <= n -> t_num t <= max_allowed n -> throws_or (126 < t_num t) (rehash hash t mult n) (fun t' => wf t' /\ same t t' /\ t_mask t' + 1 = n /\ (t_num t <= 126 -> calm t')).
  Proof.
    intros W Hn Hnum. unfold rehash. cbv zeta. pose proof (buf_ge (t_mask t + 1)) as Hb. pose proof (w_mask _ t W) as Hmk. rewrite (proj2 (Nat.leb_gt _ _)) by lia.
    destruct (init_ok (V := V) hash mult n Hn) as (W0 & M0 & _ & X0 & H0). set (N := nbuf t) in *. set (t0 := initData mult n) in *.
    assert (G : forall m i t', i + m = N -> wf t' -> t_mask t' + 1 = n -> (t_num t <= 126 -> calm t') -> (forall k v, has t' k v <-> exists j, j < i /\ t_vals t !!! j = Some (k, v)) ->
      throws_or (126 < t_num t) (for_each (fun i t' => o ← rd (t_info t) i; if o =? 0 then Ok t' else x ← rd (t_vals t) i; match x with Some nd => insert_move hash nd t' | None => UB end) (seq i m) t') (fun t' => wf t' /\ same t t' /\ t_mask t' + 1 = n /\ (t_num t <= 126 -> calm t'))).
    { induction m as [|m IH]; intros i t' Hi W' M' Cm C; cbn [seq for_each].
      - right. exists t'. split; [done|]. split; [done|]. split; [|done]. intros k v. rewrite C. split; [intros (j & _ & Hj); by exists j|]. intros [j Hj]. exists j. split; [|done]. replace i with N by lia. apply (some_lt _ _ _ _ _ _ _ _ _ (w_shape _ t W) Hj).
      - rewrite (rd_total (t_info t) i), bind_ok by (rewrite (w_li _ t W); fold N; lia). pose proof (s_occ _ _ _ _ _ _ _ (w_shape _ t W) i) as Ho. cbv beta in Ho. fold N in Ho. specialize (Ho ltac:(lia)).
        destruct (Nat.eqb_spec (t_info t !!! i) 0) as [E|E].
        + rewrite bind_ok. apply IH; [lia|done|done|done|]. intros k v. rewrite C. split; intros (j & Hj & Hx); exists j; (split; [|done]); [lia|]. assert (j <> i); [|lia]. intros ->. apply Ho in E. congruence.
        + rewrite (rd_total (t_vals t) i), bind_ok by (rewrite (w_lv _ t W); fold N; lia). destruct (t_vals t !!! i) as [[k v]|] eqn:Ex; [|by destruct E; apply Ho].
          assert (Ha : forall w, ~ has t' k w). { intros w Hw. apply C in Hw as (j & Hj & Hx). pose proof (s_uniq _ _ _ _ _ _ _ (w_shape _ t W) _ _ _ _ _ Ex Hx). lia. }
          assert (Hle : t_num t' + 1 <= t_num t).
          { destruct (w_size _ t W) as (l & L1 & L2 & L3). destruct (w_size _ t' W') as (l' & L1' & L2' & L3').
            assert (Hsub : k :: l' ⊆ l). { intros a. rewrite elem_of_cons, L3. intros [->|Hin]; [eauto|]. apply L3' in Hin as (j & w & Hj). assert (has t' a w) as Hh by by exists j. apply C in Hh as (j' & _ & Hj'). eauto. }
            assert (NoDup (k :: l')). { apply NoDup_cons. split; [|done]. rewrite L3'. intros (j & w & Hj). apply (Ha w). by exists j. }
            pose proof (submseteq_length (k :: l') l (NoDup_submseteq _ _ ltac:(done) Hsub)) as Hle. cbn [length] in Hle. lia. }
          eapply throws_bind; [apply (insert_move_ok hash t' k v W' Ha)|intros Hnc; destruct (Nat.lt_ge_cases 126 (t_num t)); [done|by destruct Hnc; apply Cm]|].
          * rewrite M'. lia.
          * intros t2 (W2 & M2 & N2 & Cm2 & C2). apply IH; [lia|done|congruence|intros H126; apply Cm2; lia|]. intros k' v'. rewrite C2, C. split.
            -- intros [[-> ->]|(j & Hj & Hx)]; [exists i|exists j]; (split; [lia|done]).
            -- intros (j & Hj & Hx). destruct (decide (j = i)) as [->|]; [left; rewrite Ex in Hx; by injection Hx as -> ->|right; exists j; split; [lia|done]]. }
    apply G; [lia|done|done|intros _ _; done|]. intros k v. split; [intros Hh; by destruct (H0 k v)|]. intros (j & Hj & _). lia.
  Qed.

  (** A table is in order or was never allocated. *)
  Definition good (t : table) : Prop := wf t \/ t = empty_table.
  Lemma empty_has k v : ~ has (empty_table : table) k v.
  Proof. intros [i Hi]. by destruct i. Qed.
  Lemma empty_home k : home hash (empty_table : table) k = 0.
  Proof. unfold home. cbn [empty_table t_mask]. apply Nat.land_0_r. Qed.
  Lemma empty_info k : exists i, home_info hash (empty_table : table) k = S i.
  Proof. unfold home_info. cbn [empty_table t_inc]. by eexists. Qed.
  Lemma empty_find k : find hash (empty_table : table) k = Ok None.
  Proof. unfold find, findIdx. rewrite empty_home. destruct (empty_info k) as [i ->]. reflexivity. Qed.

  Lemma max_double n : 8 <= n -> max_allowed n + 1 <= max_allowed (n * 2).
  Proof. intros Hn. unfold max_allowed. replace (n * 2 * 80) with (n * 80 + n * 80) by lia. pose proof (Nat.div_mod_eq (n * 80) 100). apply Nat.div_le_lower_bound; [lia|]. pose proof (max_pos n Hn) as Hp. unfold max_allowed in Hp. lia. Qed.
  (** Rounds until a table with few keys has room. *)
  Definition need (t : table) : nat := if t_num t <? t_max t then 1 else if t_num t <? max_allowed (t_mask t + 1) then 2 else 3.
  Lemma need_le (t : table) : wf t -> t_max t <> 0 -> t_num t < max_allowed (t_mask t + 1) -> need t = 1.
  Proof. intros W H0 Hl. unfold need. destruct (w_max _ t W) as [?|[-> _]]; [done|]. by rewrite (proj2 (Nat.ltb_lt _ _)). Qed.
  Lemma increase_size_ok t : good t -> t_max t <= t_num t -> throws_or (126 < t_num t) (increase_size hash t) (fun t' => wf t' /\ same t t' /\ t_num t' = t_num t /\ (t_num t <= 126 -> calm t -> calm t' /\ need t' < need t)).
  Proof.
    intros [W| ->] Hmx.
    - unfold increase_size. pose proof (w_mask _ t W) as Hmk. rewrite (proj2 (Nat.eqb_neq _ _)) by lia. cbv zeta. pose proof (w_le _ t W) as Hle.
      set (m := max_allowed (t_mask t + 1)) in *.
      assert (Hre : (t_num t < m -> ~ calm t) -> throws_or (126 < t_num t) (if t_num t * 2 <? m then rehash hash t (t_mult t + 1) (t_mask t + 1) else rehash hash t (t_mult t) ((t_mask t + 1) * 2)) (fun t' => wf t' /\ same t t' /\ t_num t' = t_num t /\ (t_num t <= 126 -> calm t -> calm t' /\ need t' < need t))).
      { intros Hnc. pose proof (max_double (t_mask t + 1) ltac:(lia)) as Hd. fold m in Hd.
        assert (Hg : forall mult n, 8 <= n -> m <= max_allowed n -> (m <= t_num t -> m < max_allowed n) -> throws_or (126 < t_num t) (rehash hash t mult n) (fun t' => wf t' /\ same t t' /\ t_num t' = t_num t /\ (t_num t <= 126 -> calm t -> calm t' /\ need t' < need t))).
        { intros mult n Hn Hm Hm'. destruct (rehash_ok t mult n W Hn) as [?|(t' & E & A & B & C & D)]; [lia|by left|]. right. exists t'. pose proof (same_num t t' W A B) as En. split; [done|]. split; [done|]. split; [done|]. split; [done|]. intros H126 Hca. split; [by apply D|].
          destruct (Nat.lt_ge_cases (t_num t) m) as [Hl|Hl]; [by destruct (Hnc Hl)|]. unfold need. rewrite C, En. fold m. rewrite (proj2 (Nat.ltb_ge _ (t_max t)) Hmx), (proj2 (Nat.ltb_ge _ m) Hl). pose proof (Hm' Hl). rewrite (proj2 (Nat.ltb_lt _ (max_allowed n))) by lia. case_match; lia. }
        pose proof (max_pos (t_mask t + 1) ltac:(lia)) as H6. fold m in H6. destruct (Nat.ltb_spec (t_num t * 2) m); apply Hg; lia. }
      destruct (Nat.ltb_spec (t_num t) m) as [Hl|Hl]; [|apply Hre; lia].
      destruct (increase_info_ok hash t W) as [[-> Hi2]|(t' & -> & H1 & H2 & H3 & H4 & H5 & H6)]; rewrite bind_ok; cbn [fst snd].
      + apply Hre. intros _ Hc. apply (Hc Hi2). destruct (w_max _ t W) as [?|[Hq _]]; [done|]. fold m in Hq. lia.
      + right. exists t'. split; [done|]. split; [done|]. split; [intros k v; unfold has; by rewrite H6|]. split; [done|]. intros _ _. split; [by intros _|]. rewrite (need_le t' H1 H2) by (rewrite H3, H4; done). unfold need. rewrite (proj2 (Nat.ltb_ge _ (t_max t)) Hmx). destruct (t_num t <? _); lia.
    - right. exists (initData 0 8). split; [done|]. destruct (init_ok (V := V) hash 0 8) as (H1 & _ & _ & _ & H2); [lia|]. split; [done|]. split; [intros k v; split; intros H; [by destruct (H2 k v)|by destruct (empty_has k v)]|]. split; [done|]. intros _ _. split; [done|]. vm_compute. lia.
  Qed.

  (** insertKeyPrepareEmptySpot finds the key or a place in a table with the same contents. *)
  Lemma prepare_ok n v : forall (t : table) k, good t -> throws_or (125 < t_num t \/ ~ calm t \/ n < need t) (prepare hash n t k) (fun r => exists t1, wf t1 /\ same t t1 /\ (t_num t <= 125 -> calm t -> calm t1) /\
    ((exists idx w, r = (t1, idx, key_found) /\ t_vals t1 !!! idx = Some (k, w)) \/
     (exists p t2 (fresh : bool) t', r = (t2, p, if fresh then new_node else overwrite_node) /\ put_node t2 fresh p (k, v) = Ok t' /\ wf t' /\ (forall w, ~ has t1 k w) /\
        (t_num t <= 125 -> calm t') /\ forall k' v', has t' k' v' <-> (k' = k /\ v' = v) \/ has t1 k' v'))).
  Proof.
    induction n as [|n IH]; intros t k G; cbn [prepare]; [left; split; [done|]; right; right; unfold need; repeat case_match; lia|].
    assert (Hstep : t_max t <= t_num t -> good t -> throws_or (125 < t_num t \/ ~ calm t \/ S n < need t) (t' ← increase_size hash t; prepare hash n t' k) (fun r => exists t1, wf t1 /\ same t t1 /\ (t_num t <= 125 -> calm t -> calm t1) /\
    ((exists idx w, r = (t1, idx, key_found) /\ t_vals t1 !!! idx = Some (k, w)) \/
     (exists p t2 (fresh : bool) t', r = (t2, p, if fresh then new_node else overwrite_node) /\ put_node t2 fresh p (k, v) = Ok t' /\ wf t' /\ (forall w, ~ has t1 k w) /\
        (t_num t <= 125 -> calm t') /\ forall k' v', has t' k' v' <-> (k' = k /\ v' = v) \/ has t1 k' v')))).
    { intros Hx G'. eapply throws_bind; [by apply increase_size_ok|intros ?; left; lia|]. intros t' (W' & S' & N' & C'). destruct (IH t' k (or_introl W')) as [[-> Hc]|(r & -> & t1 & W1 & S1 & Ca1 & H1)].
      - left. split; [done|]. destruct (Nat.lt_ge_cases 125 (t_num t)) as [|Hle]; [by left|right]. destruct (decide (t_inc t = 2 /\ t_max t = 0)) as [[D1 D2]|D]; [left; intros Hca; by apply Hca|]. right. assert (Hca : calm t) by (intros D1 D2; by apply D). destruct (C' ltac:(lia) Hca) as [C1 C2]. destruct Hc as [?|[?|?]]; [lia|done|lia].
      - right. exists r. split; [done|]. exists t1. split; [done|]. split; [intros a b; etransitivity; [apply S1|apply S']|]. split; [intros Hle Hca; apply Ca1; [lia|apply C'; [lia|done]]|]. rewrite N' in H1. done. }
    pose proof G as G0. destruct G as [W| ->].
    - destruct (skip_lt_ok hash t W k (length (t_info t)) (home hash t k)) as (p & Hs & Hp & Hle & Hc); [pose proof (h_le hash t k); lia|rewrite (w_li _ t W); lia|intros; lia|].
      rewrite pth_0 in Hs. rewrite Hs, bind_ok. cbn [fst snd].
      destruct (match_loop_ok hash t W k (length (t_info t)) p) as (r & Hr & Hm); [lia|rewrite (w_li _ t W); lia|done|intros j Hj; pose proof (Hc j Hj); lia| |].
      { intros j w Hj E. destruct (s_pos _ _ _ _ _ _ _ (w_shape _ t W) j k w E) as [H1 H2]. pose proof (Hc j ltac:(lia)) as H3. cbv beta in H2. fold (path t k j) in H2. lia. }
      rewrite Hr, bind_ok. destruct r as [i|q].
      + right. eexists. split; [done|]. exists t. split; [done|]. split; [done|]. split; [done|]. left. destruct Hm as [w Hw]. by exists i, w.
      + destruct Hm as (p' & -> & Hp' & Hlt & Hc' & Ha). cbn [fst snd]. destruct (Nat.leb_spec (t_max t) (t_num t)) as [Hx|Hx].
        * by apply Hstep.
        * right. destruct (w_max _ t W) as [?|[Em _]]; [lia|].
          destruct (place_ok hash t k v p' W Ha Hp' Hlt Hc') as (t2 & fr & t' & H1 & H2 & H3 & H4 & H5 & H7 & H8 & H6); [lia|lia|]. rewrite H1, bind_ok. cbn [fst snd]. eexists. split; [done|]. exists t. split; [done|]. split; [done|]. split; [done|]. right. exists p', t2, fr, t'. split; [done|]. split; [done|]. split; [done|]. split; [intros w [i Hi]; by eapply Ha|]. split; [intros ?; apply H8; lia|done].
    - rewrite empty_home. destruct (empty_info k) as [i Hi]. rewrite Hi.
      specialize (Hstep ltac:(done) ltac:(by right)). exact Hstep.
  Qed.

  (** Assignment to the value of a node. *)
  Lemma assign_wf (t : table) idx k w v : wf t -> t_vals t !!! idx = Some (k, w) ->
    let t' := mk_table (t_mult t) (<[idx := Some (k, v)]> (t_vals t)) (t_info t) (t_num t) (t_mask t) (t_max t) (t_inc t) (t_shift t) in
    wf t' /\ forall k' v', has t' k' v' <-> (k' = k /\ v' = v) \/ (k' <> k /\ has t k' v').
  Proof.
    intros W E. cbv zeta. pose proof (w_shape _ t W) as S. pose proof (some_lt _ _ _ _ _ _ _ _ _ S E) as Hl. pose proof (w_lv _ t W) as Lv.
    assert (X' : forall j, <[idx := Some (k, v)]> (t_vals t) !!! j = if decide (j = idx) then Some (k, v) else t_vals t !!! j) by (intros j; apply total_insert; lia).
    assert (Hk : forall j k' v', <[idx := Some (k, v)]> (t_vals t) !!! j = Some (k', v') -> exists u, t_vals t !!! j = Some (k', u)). { intros j k' v'. rewrite X'. case_decide; [intros [= <- <-]; subst; eauto|eauto]. }
    assert (Hk' : forall j k' u, t_vals t !!! j = Some (k', u) -> exists v', <[idx := Some (k, v)]> (t_vals t) !!! j = Some (k', v')). { intros j k' u Hj. rewrite X'. case_decide; [subst; rewrite E in Hj; injection Hj as <- <-; eauto|eauto]. }
    split.
    - apply (wf_fields hash t); cbn [t_info t_max t_vals t_num t_mask t_inc t_shift t_mult]; try done; try apply W.
      + by rewrite insert_length.
      + destruct S as [A1 A2 A3 A4 A5 A6 A7 A8 A9 A10 A11 A12]. split; try done.
        * intros i Hi. rewrite X', decide_False by lia. by apply A7.
        * intros i Hi. rewrite X'. case_decide; [subst|by apply A8]. rewrite A8 by done. rewrite E. done.
        * intros i k' v' Hi. apply Hk in Hi as [u Hu]. by eapply A9.
        * intros i j k' v' w' Hi Hj. apply Hk in Hi as [u Hu]. apply Hk in Hj as [u' Hu']. by eapply A12.
      + destruct (w_size _ t W) as (l & L1 & L2 & L3). exists l. split; [done|]. split; [done|]. intros k'. rewrite L3. split; intros (i & u & Hi); [apply Hk' in Hi as [? ?]|apply Hk in Hi as [? ?]]; eauto.
    - intros k' v'. unfold has. cbn [t_vals]. split.
      + intros [j Hj]. rewrite X' in Hj. case_decide as D; [left; by injection Hj as <- <-|]. right. split; [|by exists j]. intros ->. pose proof (s_uniq _ _ _ _ _ _ _ S _ _ _ _ _ Hj E). done.
      + intros [[-> ->]|[Hn [j Hj]]]; [exists idx; by rewrite X', decide_True|]. exists j. rewrite X', decide_False; [done|]. intros ->. rewrite E in Hj. by injection Hj as <- <-.
  Qed.

  Lemma insert_ok over k v t : good t -> throws_or (125 < t_num t \/ ~ calm t) (insert hash over k v t) (fun t' => wf t' /\ (t_num t <= 125 -> calm t -> calm t') /\
    forall k' v', has t' k' v' <-> if decide (k' = k) then (v' = v /\ (over = true \/ forall w, ~ has t k w)) \/ (over = false /\ has t k v') else has t k' v').
  Proof.
    intros G. unfold insert. eapply throws_bind; [apply (prepare_ok 256 v t k G)|intros [?|[?|Hn]]; [by left|by right|]; exfalso; revert Hn; unfold need; repeat case_match; lia|]. intros r (t1 & W1 & S1 & Ca1 & H). destruct H as [(idx & w & -> & Hw)|(p & t2 & fr & t' & -> & H1 & H2 & Ha & Ca & H3)].
    - cbn [fst snd]. assert (Hh : has t k w) by (apply S1; by exists idx). destruct over.
      + rewrite rd_total, bind_ok, Hw by (rewrite (w_lv _ t1 W1); apply (some_lt _ _ _ _ _ _ _ _ _ (w_shape _ t1 W1) Hw)). cbn [fst]. rewrite wr_ok, bind_ok by (rewrite (w_lv _ t1 W1); apply (some_lt _ _ _ _ _ _ _ _ _ (w_shape _ t1 W1) Hw)).
        right. eexists. split; [done|]. destruct (assign_wf t1 _ k w v W1 Hw) as [A B]. split; [exact A|]. split; [exact Ca1|]. intros k' v'. rewrite B, (S1 k' v'). case_decide as D; [subst|]; split.
        * intros [[_ ->]|[? _]]; [left; split; [done|by left]|done].
        * intros [[-> _]|[? _]]; [by left|done].
        * intros [[? _]|[_ ?]]; done.
        * intros ?. by right.
      + right. exists t1. split; [done|]. split; [done|]. split; [done|]. intros k' v'. rewrite (S1 k' v'). case_decide as D; [subst|done]. split; [intros ?; by right|]. intros [[_ [?|Hn]]|[_ ?]]; [done|by destruct (Hn w)|done].
    - right. exists t'. split; [by destruct fr|]. split; [done|]. split; [intros ? _; by apply Ca|]. intros k' v'. rewrite H3, (S1 k' v'). assert (Hn : forall w, ~ has t k w) by (intros w Hw; apply (Ha w); by apply S1). case_decide as D; [subst|]; split.
      + intros [[_ ->]|Hh]; [left; split; [done|by right]|by destruct (Hn v')].
      + intros [[-> _]|[_ Hh]]; [by left|by destruct (Hn v')].
      + intros [[? _]|?]; done.
      + intros ?. by right.
  Qed.

  (** shiftDown. *)
  Lemma down_ok inc N fuel : forall info (vals : list (option (K * V))) idx, 0 < inc -> idx < N -> N < length info -> length vals = N -> info !!! N < 2 * inc -> (forall j, info !!! j <= 255) ->
    is_Some (vals !!! idx) -> (forall j, idx < j < N -> 2 * inc <= info !!! j -> is_Some (vals !!! j)) -> N - idx <= fuel ->
    exists q info' vals', down fuel inc info vals idx = Ok (info', vals') /\ idx <= q < N /\ (forall j, idx < j <= q -> 2 * inc <= info !!! j) /\ info !!! (q + 1) < 2 * inc /\
      length info' = length info /\ length vals' = length vals /\
      (forall j, info' !!! j = era_I inc (fun i => info !!! i) idx q j) /\ (forall j, vals' !!! j = era_X (fun i => vals !!! i) idx q j).
  Proof.
    induction fuel as [|fuel IH]; intros info vals idx H0 Hi HN Lv Hs Hb Hx Hsome Hf; [lia|]. cbn [down]. rewrite (rd_total info (idx + 1)), bind_ok by lia. destruct (Nat.leb_spec (2 * inc) (info !!! (idx + 1))) as [Hle|Hlt].
    - assert (idx + 1 < N). { destruct (decide (idx + 1 = N)) as [E|]; [|lia]. rewrite E in Hle. lia. }
      pose proof (Hb (idx + 1)) as Hb1. rewrite (wr_ok info), bind_ok, (rd_total vals (idx + 1)), bind_ok by lia. unfold assign. rewrite rd_total, bind_ok by lia. destruct Hx as [x Ex]. destruct (Hsome (idx + 1)) as [y Ey]; [lia|done|]. rewrite Ex, Ey, wr_ok, bind_ok by lia. rewrite Nat.mod_small by lia.
      destruct (IH (<[idx := info !!! (idx + 1) - inc]> info) (<[idx := Some y]> vals) (idx + 1)) as (q & info' & vals' & H1 & H2 & H3 & H4 & H5 & H6 & H7 & H8); rewrite ?insert_length; try done; try lia.
      + rewrite total_insert, decide_False by lia. done.
      + intros j. rewrite total_insert by lia. case_decide; [lia|apply Hb].
      + rewrite total_insert, decide_False by lia. by rewrite Ey.
      + intros j Hj. rewrite !total_insert, !decide_False by lia. apply Hsome. lia.
      + rewrite insert_length in H5. rewrite insert_length in H6. exists q, info', vals'. split; [done|]. split; [lia|].
        split; [intros j Hj; destruct (decide (j = idx + 1)) as [->|]; [done|]; pose proof (H3 j ltac:(lia)) as H3'; rewrite total_insert, decide_False in H3' by lia; done|].
        split; [rewrite total_insert, decide_False in H4 by lia; done|]. split; [done|]. split; [done|]. split; intros j; [rewrite H7; unfold era_I|rewrite H8; unfold era_X].
        * rewrite !total_insert by lia. repeat case_decide; try lia; subst; try done; by rewrite Ey.
        * rewrite !total_insert by lia. repeat case_decide; try lia; subst; try done; by rewrite Ey.
    - rewrite (wr_ok info), bind_ok, (rd_total vals idx), bind_ok by lia. destruct Hx as [x Ex]. rewrite Ex, wr_ok, bind_ok by lia. eexists idx, _, _. split; [done|]. split; [lia|]. split; [intros; lia|]. split; [done|]. rewrite !insert_length. split; [done|]. split; [done|]. split; intros j; rewrite total_insert by lia; unfold era_I, era_X; (case_decide; [done|]); rewrite decide_False by lia; done.
  Qed.

  Lemma erase_ok k t : good t -> exists t', erase hash k t = Ok t' /\ good t' /\ (calm t -> calm t') /\ forall k' v', has t' k' v' <-> k' <> k /\ has t k' v'.
  Proof.
    intros [W| ->].
    - pose proof (w_shape _ t W) as S. unfold erase. destruct (erase_loop_ok hash t W k (length (t_info t)) (home hash t k)) as (r & Hr & Hm); [pose proof (h_le hash t k); lia|rewrite (w_li _ t W); lia|intros j v; by apply before_home|].
      rewrite pth_0 in Hr. rewrite Hr, bind_ok. destruct r as [i|].
      + destruct Hm as [v E]. pose proof (some_lt _ _ _ _ _ _ _ _ _ S E) as Hi. pose proof (s_inc _ _ _ _ _ _ _ S) as Hinc.
        destruct (down_ok (t_inc t) (nbuf t) (length (t_info t)) (t_info t) (t_vals t) i) as (q & info' & vals' & H1 & H2 & H3 & H4 & H5 & H6 & H7 & H8); [lia|done|rewrite (w_li _ t W); lia|apply W| | |by rewrite E| |rewrite (w_li _ t W); lia|].
        * pose proof (s_sent _ _ _ _ _ _ _ S) as Hs. cbv beta in Hs. rewrite Hs. lia.
        * apply (s_byte _ _ _ _ _ _ _ S).
        * intros j Hj Hb. destruct (big_some _ _ _ _ _ _ _ j S) as [_ [x Hx]]; [lia|]. by rewrite Hx.
        * rewrite H1, bind_ok. cbn [fst snd]. eexists. split; [done|]. pose proof (erase_shape _ _ _ _ _ _ _ i q S H2 H3 H4) as S'.
          set (t' := mk_table _ _ _ _ _ _ _ _).
          assert (Hh : forall k' v', has t' k' v' <-> k' <> k /\ has t k' v').
          { intros k' v'. unfold has. cbn [t' t_vals]. split.
            - intros [j Hj]. rewrite H8 in Hj. unfold era_X in Hj. case_decide; [done|]. case_decide; (split; [intros ->; pose proof (s_uniq _ _ _ _ _ _ _ S _ _ _ _ _ Hj E); lia|eauto]).
            - intros [Hn [j Hj]]. assert (j <> i). { intros ->. rewrite E in Hj. by injection Hj as <- <-. } destruct (decide (i < j <= q)) as [D|D]; [exists (j - 1)|exists j]; rewrite H8; unfold era_X.
              + rewrite decide_False, decide_True by lia. by replace (j - 1 + 1) with j by lia.
              + rewrite !decide_False by lia. done. }
          split; [|split; [done|done]]. left. destruct (w_size _ t W) as (l & L1 & L2 & L3). assert (Hkl : k ∈ l) by (apply L3; eauto). apply elem_of_Permutation in Hkl as [l' Hl']. pose proof (Permutation_length Hl') as Hlen. cbn [length] in Hlen. rewrite Hl' in L1. apply NoDup_cons in L1 as [Hnk Hnd].
          apply (wf_fields hash t t' W); try done; cbn [t' t_info t_max t_vals t_num t_mask t_inc t_shift t_mult]; try done.
          -- by eapply shape_ext.
          -- destruct (w_max _ t W) as [?|[? B]]; [by left|right; split; [done|]]. intros j. rewrite H7. unfold era_I. case_decide; [lia|]. case_decide; [pose proof (B (j + 1)); lia|apply B].
          -- exists l'. split; [done|]. split; [lia|]. intros a. split.
             ++ intros Ha. assert (a ∈ l) as Hal by (rewrite Hl'; by right). apply L3 in Hal as (j & w & Hj). destruct (proj2 (Hh a w)) as [j' Hj']; [split; [intros ->; done|by exists j]|]. eauto.
             ++ intros (j & w & Hj). destruct (proj1 (Hh a w)) as [Hn [j' Hj']]; [by exists j|]. assert (a ∈ l) as Hal by (apply L3; eauto). rewrite Hl' in Hal. apply elem_of_cons in Hal as [?|?]; done.
          -- pose proof (w_le _ t W). lia.
      + exists t. split; [done|]. split; [by left|]. split; [done|]. intros k' v'. split; [|by intros [_ ?]]. intros Hh. split; [|done]. intros ->. destruct Hh as [i Hi]. by eapply Hm.
    - exists empty_table. unfold erase. rewrite empty_home. destruct (empty_info k) as [i ->]. split; [reflexivity|]. split; [by right|]. split; [done|]. intros k' v'. split; [intros H; by destruct (empty_has k' v')|intros [_ ?]; done].
  Qed.

  Lemma clear_ok t : good t -> exists t', clear t = Ok t' /\ good t' /\ (calm t -> calm t') /\ forall k v, ~ has t' k v.
  Proof.
    intros [W| ->]; [|exists empty_table; split; [done|]; split; [by right|]; split; [done|]; apply empty_has]. unfold clear. destruct (Nat.eqb_spec (t_num t) 0) as [E|E].
    - exists t. split; [done|]. split; [by left|]. split; [done|]. destruct (w_size _ t W) as (l & L1 & L2 & L3). intros k v [i Hi]. rewrite E in L2. apply length_zero_iff_nil in L2 as ->. apply (elem_of_nil k). apply L3. eauto.
    - cbv zeta. set (N := nbuf t). rewrite wr_ok, bind_ok by (rewrite repeat_length; lia). eexists. split; [done|].
      destruct (init_ok (V := V) hash (t_mult t) (t_mask t + 1)) as (W0 & M0 & N0 & X0 & H0); [pose proof (w_mask _ t W); lia|].
      assert (Ei : <[N := 1]> (repeat 0 (N + 8)) = repeat 0 N ++ 1 :: repeat 0 7). { rewrite repeat_app. rewrite insert_app_r_alt by (rewrite repeat_length; lia). by rewrite repeat_length, Nat.sub_diag. }
      assert (Ev : map (fun _ => None) (t_vals t) = repeat (@None (K * V)) N). { pose proof (w_lv _ t W) as Lv. fold N in Lv. rewrite <- Lv. clear. induction (t_vals t) as [|a l IH]; [done|]. cbn. by f_equal. }
      rewrite Ei, Ev. unfold initData in W0, H0. fold N in W0, H0. replace (t_mask t + 1 - 1) with (t_mask t) in W0, H0 by lia. split; [left|split; [done|done]].
      destruct W0 as [A1 A2 A3 A4 A5 A6 A7 A8 A9]. split; try done. cbn [t_info t_max t_vals t_num t_mask t_inc t_shift t_mult] in *. destruct (w_max _ t W) as [?|[? _]]; [by left|right]. destruct A7 as [A7|[_ A7]]; [cbn [t_max] in A7; pose proof (max_pos (t_mask t + 1)); pose proof (w_mask _ t W); lia|done].
  Qed.

  Lemma grow_ok fuel c : forall n, 8 <= n -> c < max_allowed n + fuel -> 8 <= grow_size fuel c n /\ c <= max_allowed (grow_size fuel c n).
  Proof.
    induction fuel as [|fuel IH]; intros n Hn Hc; cbn [grow_size]; [lia|]. destruct (Nat.ltb_spec (max_allowed n) c) as [Hl|Hl]; [|done]. apply IH; [lia|].
    pose proof (max_double n Hn). lia.
  Qed.
  Lemma reserve_ok c t : good t -> throws_or (126 < t_num t) (reserve hash c t) (fun t' => good t' /\ (t_num t <= 126 -> calm t -> calm t') /\ same t t').
  Proof.
    intros G. unfold reserve. cbv zeta. set (m := Nat.max c (t_num t)). destruct (grow_ok (S m) m 8) as [H1 H2]; [lia|lia|]. set (n := grow_size (S m) m 8) in *. destruct (Nat.ltb_spec (t_mask t + 1) n) as [Hl|Hl]; [|right; exists t; done].
    destruct G as [W| ->].
    - destruct (rehash_ok t (t_mult t) n W H1) as [[-> ?]|(t' & -> & A & B & C & D)]; [lia|by left|]. right. exists t'. split; [done|]. split; [by left|]. split; [intros ? _; by apply D|done].
    - right. unfold rehash. cbn [empty_table t_mask]. change (with_buffer (0 + 1) <=? 1) with true. cbv iota zeta. eexists. split; [done|]. destruct (init_ok (V := V) hash (t_mult (empty_table : table)) n H1) as (A & _ & _ & _ & B). split; [left; exact A|]. split; [done|]. intros k v. split; intros Hh; [by destruct (B k v)|by destruct (empty_has k v)].
  Qed.
  Lemma find_good t k : good t -> exists r, find hash t k = Ok r /\ forall v, r = Some v <-> has t k v.
  Proof. intros [W| ->]; [by apply find_ok|]. exists None. split; [apply empty_find|]. intros v. split; [done|]. intros H. by destruct (empty_has k v). Qed.
End operations.
