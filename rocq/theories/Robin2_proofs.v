(** The loops of the hash table on a table whose slots are in order. *)
From Verif Require Import Base Robin_model Robin_proofs.

Lemma rd_total {A} `{Inhabited A} (l : list A) i : i < length l -> rd l i = Ok (l !!! i).
Proof. intros Hi. apply rd_ok. by apply list_lookup_lookup_total_lt. Qed.
Lemma land_le a b : Nat.land a b <= b.
Proof. apply Nat.ldiff_le. apply Nat.bits_inj. intros m. rewrite Nat.ldiff_spec, Nat.land_spec, Nat.bits_0. by destruct (Nat.testbit a m), (Nat.testbit b m). Qed.
Lemma total_insert {A} `{Inhabited A} (l : list A) i j x : i < length l -> <[i := x]> l !!! j = if decide (j = i) then x else l !!! j.
Proof. intros Hi. case_decide as E; [subst; by apply list_lookup_total_insert|by apply list_lookup_total_insert_ne]. Qed.
Lemma total_ge {A} `{Inhabited A} (l : list A) i : length l <= i -> l !!! i = inhabitant.
Proof. intros Hi. rewrite list_lookup_total_alt, lookup_ge_None_2 by done. done. Qed.

Lemma shape_ext {K V} (hm hi : K -> nat) n N inc I I' (X X' : nat -> option (K * V)) : (forall i, I' i = I i) -> (forall i, X' i = X i) -> shape hm hi n N inc I X -> shape hm hi n N inc I' X'.
Proof.
  intros E F [A1 A2 A3 A4 A5 A6 A7 A8 A9 A10 A11 A12]. split; try done.
  - by rewrite E.
  - intros i Hi. rewrite E. by apply A6.
  - intros i Hi. rewrite F. by apply A7.
  - intros i Hi. rewrite E, F. by apply A8.
  - intros i k v H. rewrite F in H. rewrite E. by eapply A9.
  - intros i. rewrite E. apply A10.
  - intros i. rewrite !E. apply A11.
  - intros i j k v w Hx Hy. rewrite F in Hx, Hy. by eapply A12.
Qed.

Section loops.
  Context {K V : Type} `{EqDecision K} (hash : nat -> K -> nat).
  Notation table := (@table K V).
  Notation nbuf t := (with_buffer (t_mask t + 1)).
  Definition has (t : table) (k : K) (v : V) : Prop := exists i, t_vals t !!! i = Some (k, v).
  Notation tshape t := (shape (home hash t) (home_info hash t) (t_mask t + 1) (nbuf t) (t_inc t) (fun i => t_info t !!! i) (fun i => t_vals t !!! i)).
  Record wf (t : table) : Prop := {
    w_mask : 7 <= t_mask t;
    w_li : length (t_info t) = nbuf t + 8;
    w_lv : length (t_vals t) = nbuf t;
    w_shift : t_shift t <= 4;
    w_inc : t_inc t = 2 ^ (5 - t_shift t);
    w_shape : tshape t;
    w_max : t_max t = 0 \/ (t_max t = max_allowed (t_mask t + 1) /\ forall i, t_info t !!! i + t_inc t <= 255);
    w_size : exists l, NoDup l /\ length l = t_num t /\ forall k, k ∈ l <-> exists i v, t_vals t !!! i = Some (k, v);
    w_le : t_num t <= max_allowed (t_mask t + 1) }.

  Lemma home_lt (t : table) k : home hash t k < t_mask t + 1.
  Proof. unfold home. pose proof (land_le (Nat.shiftr (hash (t_mult t) k) 5) (t_mask t)). lia. Qed.
  Lemma home_info_lt (t : table) k : t_shift t <= 4 -> t_inc t = 2 ^ (5 - t_shift t) -> t_inc t <= home_info hash t k < 2 * t_inc t.
  Proof.
    intros H1 H2. unfold home_info. split; [lia|]. change 31 with (Nat.ones 5). rewrite Nat.land_ones, Nat.shiftr_div_pow2.
    assert (Nat.modulo (hash (t_mult t) k) (2 ^ 5) / 2 ^ t_shift t < t_inc t); [|lia].
    apply Nat.div_lt_upper_bound; [apply Nat.pow_nonzero; lia|]. rewrite H2, <- Nat.pow_add_r. replace (t_shift t + (5 - t_shift t)) with 5 by lia. apply Nat.mod_upper_bound. by apply Nat.pow_nonzero.
  Qed.
  Lemma inc_range s : s <= 4 -> 2 <= 2 ^ (5 - s) <= 32.
  Proof. intros H. destruct s as [|[|[|[|[|]]]]]; cbn; lia. Qed.
  Lemma buf_ge n : n <= with_buffer n.
  Proof. unfold with_buffer. lia. Qed.

  Section one.
  Context (t : table) (W : wf t) (k : K).
  Notation I i := (t_info t !!! i).
  Notation X i := (t_vals t !!! i).
  Notation N := (nbuf t).
  Notation inc := (t_inc t).
  Notation path := (pth (home hash t) (home_info hash t) inc k).
  Notation h := (home hash t k).
  Let S := w_shape t W.
  Lemma h_le : h < N.
  Proof. pose proof (home_lt t k). pose proof (buf_ge (t_mask t + 1)). lia. Qed.
  Lemma path_ge j : 2 <= path j.
  Proof. pose proof (pth_ge _ _ _ _ _ k j _ _ S). pose proof (s_inc _ _ _ _ _ _ _ S). lia. Qed.
  Lemma end_lt i : N <= i -> I i < 2.
  Proof. intros H. destruct (decide (i = N)) as [->|]; [rewrite (s_sent _ _ _ _ _ _ _ S); lia|rewrite (s_pad _ _ _ _ _ _ _ S); lia]. Qed.
  Lemma path_S j : h <= j -> path (j + 1) = path j + inc.
  Proof. intros H. rewrite Nat.add_1_r. by apply pth_S. Qed.
  Lemma key_is_ok idx n : X idx = Some n -> key_is t idx k = Ok (bool_decide (k = n.1)).
  Proof. intros E. unfold key_is. rewrite rd_total, bind_ok, E; [done|]. rewrite (w_lv t W). by eapply some_lt. Qed.
  Lemma hit_ok idx : h <= idx -> idx < length (t_info t) -> exists b : bool, hit t (path idx) idx k = Ok b /\ if b then exists v, X idx = Some (k, v) else forall v, X idx <> Some (k, v).
  Proof.
    intros Hh Hi. unfold hit. rewrite rd_total, bind_ok by done. destruct (Nat.eqb_spec (path idx) (I idx)) as [E|E].
    - destruct (big_some _ _ _ _ _ _ _ idx S) as [Hl [[k' v] Ex]]; [rewrite <- E; apply path_ge|]. rewrite (key_is_ok idx (k', v) Ex). cbn [fst]. case_bool_decide as Ek; eexists; (split; [done|]); [subst; by exists v|]. intros w Hw. rewrite Ex in Hw. injection Hw as -> ->. done.
    - exists false. split; [done|]. intros v Ex. destruct (s_pos _ _ _ _ _ _ _ S idx k v Ex) as [_ Ei]. done.
  Qed.
  Lemma stop_absent p : h <= p -> I p < path p -> (forall j v, j < p -> X j <> Some (k, v)) -> forall i v, X i <> Some (k, v).
  Proof.
    intros Hp Hlt Hno i v E. destruct (Nat.lt_ge_cases i p) as [Hl|Hl]; [by eapply Hno|]. pose proof (chain _ _ _ _ _ _ _ i k v p S E). lia.
  Qed.
  Lemma before_home j v : j < h -> X j <> Some (k, v).
  Proof. intros Hj E. destruct (s_pos _ _ _ _ _ _ _ S j k v E). lia. Qed.

  Lemma find_loop_ok fuel : forall idx, h <= idx <= N -> N - idx < fuel -> (forall j v, j < idx -> X j <> Some (k, v)) ->
    exists r, find_loop fuel t k (path idx) idx = Ok r /\ match r with Some i => exists v, X i = Some (k, v) | None => forall i v, X i <> Some (k, v) end.
  Proof.
    pose proof (w_li t W) as Hli. induction fuel as [|fuel IH]; intros idx Hi Hf Hno; [lia|]. cbn [find_loop].
    destruct (hit_ok idx) as (b & -> & Hb); [lia|lia|]. rewrite bind_ok. destruct b; [eexists; split; [done|done]|].
    rewrite <- !path_S by lia. destruct (hit_ok (idx + 1)) as (b & -> & Hb'); [lia|lia|]. rewrite bind_ok. destruct b; [eexists; split; [done|done]|].
    rewrite rd_total by lia. rewrite bind_ok. replace (idx + 2) with (idx + 1 + 1) by lia.
    assert (Hno' : forall j v, j < idx + 1 + 1 -> X j <> Some (k, v)). { intros j v Hj. assert (j < idx \/ j = idx \/ j = idx + 1) as [?|[->| ->]] by lia; auto. }
    destruct (Nat.leb_spec (path (idx + 1 + 1)) (I (idx + 1 + 1))) as [Hle|Hlt].
    - assert (idx + 1 + 1 < N). { destruct (Nat.lt_ge_cases (idx + 1 + 1) N) as [|Hg]; [done|]. pose proof (end_lt _ Hg). pose proof (path_ge (idx + 1 + 1)). lia. }
      apply IH; [lia|lia|done].
    - eexists. split; [done|]. cbv beta iota. apply (stop_absent (idx + 1 + 1)); [lia|done|done].
  Qed.
  Lemma findIdx_ok : exists r, findIdx hash t k = Ok r /\ match r with Some i => exists v, X i = Some (k, v) | None => forall i v, X i <> Some (k, v) end.
  Proof. unfold findIdx. rewrite <- (pth_0 (home hash t) (home_info hash t) inc). pose proof h_le. apply find_loop_ok; [lia|rewrite (w_li t W); lia|]. intros j v. apply before_home. Qed.
  Lemma find_ok : exists r, find hash t k = Ok r /\ forall v, r = Some v <-> has t k v.
  Proof.
    unfold find. destruct findIdx_ok as (r & -> & Hr). rewrite bind_ok. destruct r as [i|].
    - destruct Hr as [v E]. rewrite rd_total, bind_ok, E by (rewrite (w_lv t W); by eapply some_lt). eexists. split; [done|]. cbn [snd]. intros w. split; [intros [= <-]; by exists i|]. intros [j Hj]. pose proof (s_uniq _ _ _ _ _ _ _ S i j k v w E Hj) as <-. congruence.
    - eexists. split; [done|]. intros v. split; [done|]. intros [i Hi]. by destruct (Hr i v).
  Qed.
  Lemma erase_loop_ok fuel : forall idx, h <= idx <= N -> N - idx < fuel -> (forall j v, j < idx -> X j <> Some (k, v)) ->
    exists r, erase_loop fuel t k (path idx) idx = Ok r /\ match r with Some i => exists v, X i = Some (k, v) | None => forall i v, X i <> Some (k, v) end.
  Proof.
    pose proof (w_li t W) as Hli. induction fuel as [|fuel IH]; intros idx Hi Hf Hno; [lia|]. cbn [erase_loop].
    destruct (hit_ok idx) as (b & -> & Hb); [lia|lia|]. rewrite bind_ok. destruct b; [eexists; split; [done|done]|].
    rewrite <- !path_S by lia. rewrite rd_total by lia. rewrite bind_ok.
    assert (Hno' : forall j v, j < idx + 1 -> X j <> Some (k, v)). { intros j v Hj. assert (j < idx \/ j = idx) as [?| ->] by lia; auto. }
    destruct (Nat.leb_spec (path (idx + 1)) (I (idx + 1))) as [Hle|Hlt].
    - assert (idx + 1 < N). { destruct (Nat.lt_ge_cases (idx + 1) N) as [|Hg]; [done|]. pose proof (end_lt _ Hg). pose proof (path_ge (idx + 1)). lia. }
      apply IH; [lia|lia|done].
    - eexists. split; [done|]. cbv beta iota. apply (stop_absent (idx + 1)); [lia|done|done].
  Qed.

  Lemma skip_lt_ok fuel : forall idx, h <= idx <= N -> N - idx < fuel -> (forall j, h <= j < idx -> path j < I j) ->
    exists p, skip_lt fuel inc (t_info t) (path idx) idx = Ok (path p, p) /\ h <= p <= N /\ I p <= path p /\ forall j, h <= j < p -> path j < I j.
  Proof.
    pose proof (w_li t W) as Hli. induction fuel as [|fuel IH]; intros idx Hi Hf Hb; [lia|]. cbn [skip_lt]. rewrite rd_total, bind_ok by lia.
    destruct (Nat.ltb_spec (path idx) (I idx)) as [Hl|Hl]; [|by exists idx].
    assert (idx < N). { destruct (Nat.lt_ge_cases idx N) as [|Hg]; [lia|]. pose proof (end_lt _ Hg). pose proof (path_ge idx). lia. }
    rewrite <- path_S by lia. apply IH; [lia|lia|intros j Hj; destruct (decide (j = idx)) as [->|]; [done|apply Hb; lia]].
  Qed.
  Lemma skip_le_ok fuel : forall idx, h <= idx <= N -> N - idx < fuel -> (forall j, h <= j < idx -> path j <= I j) ->
    exists p, skip_le fuel inc (t_info t) (path idx) idx = Ok (path p, p) /\ h <= p <= N /\ I p < path p /\ forall j, h <= j < p -> path j <= I j.
  Proof.
    pose proof (w_li t W) as Hli. induction fuel as [|fuel IH]; intros idx Hi Hf Hb; [lia|]. cbn [skip_le]. rewrite rd_total, bind_ok by lia.
    destruct (Nat.leb_spec (path idx) (I idx)) as [Hl|Hl]; [|by exists idx].
    assert (idx < N). { destruct (Nat.lt_ge_cases idx N) as [|Hg]; [lia|]. pose proof (end_lt _ Hg). pose proof (path_ge idx). lia. }
    rewrite <- path_S by lia. apply IH; [lia|lia|intros j Hj; destruct (decide (j = idx)) as [->|]; [done|apply Hb; lia]].
  Qed.
  Lemma match_loop_ok fuel : forall idx, h <= idx <= N -> N - idx < fuel -> I idx <= path idx -> (forall j, h <= j < idx -> path j <= I j) -> (forall j v, j < idx -> X j <> Some (k, v)) ->
    exists r, match_loop fuel t k (path idx) idx = Ok r /\
      match r with
      | inl i => exists v, X i = Some (k, v)
      | inr q => exists p, q = (path p, p) /\ h <= p <= N /\ I p < path p /\ (forall j, h <= j < p -> path j <= I j) /\ forall i v, X i <> Some (k, v)
      end.
  Proof.
    pose proof (w_li t W) as Hli. induction fuel as [|fuel IH]; intros idx Hi Hf Hle Hb Hno; [lia|]. cbn [match_loop]. rewrite rd_total, bind_ok by lia.
    destruct (Nat.eqb_spec (path idx) (I idx)) as [E|E].
    - destruct (big_some _ _ _ _ _ _ _ idx S) as [Hl [[k' v] Ex]]; [rewrite <- E; apply path_ge|]. rewrite (key_is_ok idx (k', v) Ex), bind_ok. cbn [fst].
      case_bool_decide as Ek; [subst k'; eexists; split; [done|]; by exists v|]. rewrite <- path_S by lia. apply IH; [lia|lia| |intros j Hj; destruct (decide (j = idx)) as [->|]; [lia|apply Hb; lia]|].
      + rewrite path_S by lia. rewrite Nat.add_1_r. destruct (s_ord _ _ _ _ _ _ _ S idx) as [H|H]; [|lia]. pose proof (pth_ge _ _ _ _ _ k idx _ _ S). lia.
      + intros j w Hj. destruct (decide (j = idx)) as [->|]; [|apply Hno; lia]. rewrite Ex. intros [= -> ->]. done.
    - eexists. split; [done|]. exists idx. split; [done|]. split; [lia|]. split; [lia|]. split; [done|]. apply (stop_absent idx); [lia|lia|done].
  Qed.
  End one.

  Lemma find_empty_ok info fuel : forall idx e0, idx <= e0 < length info -> info !!! e0 = 0 -> e0 - idx < fuel ->
    exists e, find_empty fuel info idx = Ok e /\ idx <= e <= e0 /\ info !!! e = 0 /\ forall j, idx <= j < e -> info !!! j <> 0.
  Proof.
    induction fuel as [|fuel IH]; intros idx e0 He E Hf; [lia|]. cbn [find_empty]. rewrite rd_total, bind_ok by lia. destruct (Nat.eqb_spec (info !!! idx) 0) as [E0|E0].
    - exists idx. split; [done|]. split; [lia|]. split; [done|]. intros; lia.
    - assert (idx <> e0) by (intros ->; done). destruct (IH (idx + 1) e0) as (e & H1 & H2 & H3 & H4); [lia|done|lia|]. exists e. split; [done|]. split; [lia|]. split; [done|]. intros j Hj. destruct (decide (j = idx)) as [->|]; [done|]. apply H4. lia.
  Qed.
  Lemma up_vals_ok cnt : forall ins (vals : list (option (K * V))), ins + cnt < length vals -> (forall j, ins <= j <= ins + cnt -> is_Some (vals !!! j)) ->
    exists vals', up_vals cnt (ins + cnt) vals = Ok vals' /\ length vals' = length vals /\ forall j, vals' !!! j = if decide (ins < j <= ins + cnt) then vals !!! (j - 1) else vals !!! j.
  Proof.
    induction cnt as [|cnt IH]; intros ins vals Hl Hs; cbn [up_vals].
    - exists vals. repeat split. intros j. rewrite decide_False by lia. done.
    - rewrite rd_total, bind_ok by lia. unfold assign. rewrite rd_total, bind_ok by lia. destruct (Hs (ins + S cnt)) as [x Ex]; [lia|]. destruct (Hs (ins + S cnt - 1)) as [y Ey]; [lia|]. rewrite Ex, Ey, wr_ok, bind_ok by lia.
      replace (ins + S cnt - 1) with (ins + cnt) in * by lia. destruct (IH ins (<[ins + S cnt := Some y]> vals)) as (vals' & H1 & H2 & H3); [rewrite insert_length; lia| |].
      + intros j Hj. rewrite total_insert by lia. rewrite decide_False by lia. apply Hs. lia.
      + exists vals'. split; [done|]. rewrite insert_length in H2. split; [done|]. intros j. rewrite H3, !total_insert by lia. destruct (decide (j = ins + S cnt)) as [->|Hn].
        * rewrite (decide_False (P := ins < ins + S cnt <= ins + cnt)) by lia. rewrite decide_True by lia. rewrite <- Ey. f_equal. lia.
        * destruct (decide (ins < j <= ins + cnt)) as [D|D]; [rewrite decide_False, decide_True by lia; done|rewrite decide_False by lia; done].
  Qed.
  Lemma up_info_ok inc cnt : forall ins info mx, ins + cnt < length info -> (forall j, info !!! j + inc <= 255) ->
    exists info' mx', up_info inc cnt (ins + cnt) info mx = Ok (info', mx') /\ length info' = length info /\
      (forall j, info' !!! j = if decide (ins < j <= ins + cnt) then info !!! (j - 1) + inc else info !!! j) /\
      ((mx' = 0 /\ (mx = 0 \/ exists j, ins < j <= ins + cnt /\ 255 < info' !!! j + inc)) \/ (mx' = mx /\ forall j, info' !!! j + inc <= 255)).
  Proof.
    intros ins info mx Hl Hb.
    assert (G : forall cnt info1 mx, ins + cnt < length info1 -> (forall j, j <= ins + cnt -> info1 !!! j = info !!! j) ->
      exists info' mx', up_info inc cnt (ins + cnt) info1 mx = Ok (info', mx') /\ length info' = length info1 /\
        (forall j, info' !!! j = if decide (ins < j <= ins + cnt) then info !!! (j - 1) + inc else info1 !!! j) /\
        ((mx' = 0 /\ (mx = 0 \/ exists j, ins < j <= ins + cnt /\ 255 < info' !!! j + inc)) \/ (mx' = mx /\ forall j, ins < j <= ins + cnt -> info' !!! j + inc <= 255))).
    { clear cnt mx Hl. induction cnt as [|cnt IH]; intros info1 mx Hl He; cbn [up_info].
      - exists info1, mx. repeat split; [|right; split; [done|intros; lia]]. intros j. rewrite decide_False by lia. done.
      - rewrite rd_total, bind_ok by lia. rewrite wr_ok, bind_ok by lia. rewrite rd_total by (rewrite insert_length; lia). rewrite bind_ok, total_insert, decide_True by (done || lia). replace (ins + S cnt - 1) with (ins + cnt) in * by lia.
        rewrite (He (ins + cnt)) by lia. pose proof (Hb (ins + cnt)) as B. rewrite Nat.mod_small by lia. set (b := info !!! (ins + cnt) + inc) in *.
        destruct (IH (<[ins + S cnt := b]> info1) (if 255 <? b + inc then 0 else mx)) as (info' & mx' & H1 & H2 & H3 & H4); [rewrite insert_length; lia| |].
        + intros j Hj. rewrite total_insert, decide_False by lia. apply He. lia.
        + exists info', mx'. split; [done|]. rewrite insert_length in H2. split; [done|].
          assert (H3' : forall j, info' !!! j = if decide (ins < j <= ins + S cnt) then info !!! (j - 1) + inc else info1 !!! j).
          { intros j. rewrite H3, total_insert by lia. destruct (decide (j = ins + S cnt)) as [->|Hn].
            - rewrite (decide_False (P := ins < ins + S cnt <= ins + cnt)), decide_True by lia. unfold b. do 2 f_equal. lia.
            - destruct (decide (ins < j <= ins + cnt)) as [D|D]; [rewrite decide_True by lia; done|rewrite decide_False by lia; done]. }
          split; [done|]. assert (Hb' : info' !!! (ins + S cnt) = b). { rewrite H3', decide_True by lia. replace (ins + S cnt - 1) with (ins + cnt) by lia. done. }
          destruct (Nat.ltb_spec 255 (b + inc)) as [Hlt|Hlt]; destruct H4 as [[H4 H5]|[H4 H5]].
          { left. split; [done|]. right. exists (ins + S cnt). rewrite Hb'. split; [lia|done]. }
          { left. split; [done|]. right. exists (ins + S cnt). rewrite Hb'. split; [lia|done]. }
          { left. split; [done|]. destruct H5 as [H5|(j & Hj & H5)]; [by left|]. right. exists j. split; [lia|done]. } right. split; [done|]. intros j Hj. destruct (decide (j = ins + S cnt)) as [->|]; [|apply H5; lia]. rewrite H3', decide_True by lia. replace (ins + S cnt - 1) with (ins + cnt) by lia. done. }
    destruct (G cnt info mx Hl) as (info' & mx' & H1 & H2 & H3 & H4); [done|]. exists info', mx'. split; [done|]. split; [done|]. split; [done|]. destruct H4 as [H4|[H4 H5]]; [by left|]. right. split; [done|]. intros j. destruct (decide (ins < j <= ins + cnt)) as [D|D]; [by apply H5|]. rewrite H3, decide_False by done. apply Hb.
  Qed.
End loops.
