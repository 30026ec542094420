(** Iteration over the hash table. *)
From Verif Require Import Base Robin_model Robin_proofs Robin2_proofs Robin3_proofs Robin4_proofs.

Section iteration.
  Context {K V : Type} `{EqDecision K} (hash : nat -> K -> nat).
  Notation table := (@table K V).
  Notation nbuf t := (with_buffer (t_mask t + 1)).
  Notation wf := (wf hash).
  Lemma fast_forward_ok info N fuel : forall idx, length info = N + 8 -> info !!! N <> 0 -> idx <= N -> N - idx < fuel ->
    exists j, fast_forward fuel info idx = Ok j /\ idx <= j <= N /\ info !!! j <> 0 /\ forall i, idx <= i < j -> info !!! i = 0.
  Proof.
    induction fuel as [|fuel IH]; intros idx Hl HN Hi Hf; [lia|]. cbn [fast_forward]. rewrite (proj2 (Nat.ltb_ge _ _)) by lia.
    assert (Hlk : forall d, d < 8 -> take 8 (drop idx info) !! d = Some (info !!! (idx + d))). { intros d Hd. rewrite lookup_take, lookup_drop by done. apply list_lookup_lookup_total_lt. lia. }
    destruct (list_find _ _) as [[d b]|] eqn:E.
    - apply list_find_Some in E as (E1 & E2 & E3). assert (Hd : d < 8). { apply lookup_lt_Some in E1. rewrite take_length in E1. lia. } rewrite Hlk in E1 by done. injection E1 as E1. cbn [fst]. exists (idx + d).
      assert (Hz : forall i, idx <= i < idx + d -> info !!! i = 0). { intros i Hi'. destruct (decide (info !!! i = 0)) as [|Hn]; [done|]. destruct (E3 (i - idx) (info !!! i)); [|lia|done]. rewrite Hlk by lia. do 2 f_equal. lia. }
      split; [done|]. split; [|split; [congruence|done]]. destruct (Nat.le_gt_cases (idx + d) N) as [|Hg]; [lia|]. rewrite (Hz N) in HN by lia. done.
    - apply list_find_None in E. rewrite Forall_forall in E. assert (Hz : forall i, idx <= i < idx + 8 -> info !!! i = 0).
      { intros i Hi'. destruct (decide (info !!! i = 0)) as [|Hn]; [done|]. destruct (E (info !!! i)); [|done]. apply elem_of_list_lookup. exists (i - idx). rewrite Hlk by lia. do 2 f_equal. lia. }
      assert (idx + 8 <= N). { destruct (Nat.le_gt_cases (idx + 8) N) as [|Hg]; [done|]. rewrite (Hz N) in HN by lia. done. }
      destruct (IH (idx + 8)) as (j & H1 & H2 & H3 & H4); [done|done|done|lia|]. exists j. split; [done|]. split; [lia|]. split; [done|]. intros i Hi'. destruct (Nat.lt_ge_cases i (idx + 8)); [apply Hz; lia|apply H4; lia].
  Qed.
  Lemma omap_none {A B} (f : A -> option B) l : (forall a, a ∈ l -> f a = None) -> omap f l = [].
  Proof. induction l as [|a l IH]; intros H; [done|]. cbn. rewrite (H a) by by left. apply IH. intros b Hb. apply H. by right. Qed.
  Lemma iterate_ok (t : table) fuel : wf t -> forall idx, idx <= nbuf t -> (idx < nbuf t -> t_info t !!! idx <> 0) -> nbuf t - idx < fuel ->
    iterate fuel t idx = Ok (omap (fun i => t_vals t !!! i) (seq idx (nbuf t - idx))).
  Proof.
    intros W. pose proof (w_shape _ t W) as S. pose proof (w_lv _ t W) as Lv. pose proof (w_li _ t W) as Li. induction fuel as [|fuel IH]; intros idx Hi Hn Hf; [lia|]. cbn [iterate]. rewrite Lv. destruct (Nat.eqb_spec idx (nbuf t)) as [->|Hne]; [by rewrite Nat.sub_diag|].
    rewrite rd_total, bind_ok by lia. destruct (t_vals t !!! idx) as [n|] eqn:E; [|apply (s_occ _ _ _ _ _ _ _ S) in E; [|lia]; by destruct Hn; [lia|]].
    destruct (fast_forward_ok (t_info t) (nbuf t) (length (t_info t)) (idx + 1)) as (j & -> & H2 & H3 & H4); [done|by rewrite (s_sent _ _ _ _ _ _ _ S)|lia|lia|]. rewrite bind_ok, IH by (done || lia). rewrite bind_ok. f_equal.
    replace (nbuf t - idx) with (Datatypes.S ((j - (idx + 1)) + (nbuf t - j))) by lia. cbn [seq omap list_omap]. rewrite E. f_equal. rewrite seq_app, omap_app. rewrite (omap_none _ (seq (Datatypes.S idx) (j - (idx + 1)))); [cbn; by replace (idx + (j - (idx + 1))) with (j - 1) by lia; replace (Datatypes.S (j - 1)) with j by lia|].
    intros i Hin. apply elem_of_seq in Hin. apply (s_occ _ _ _ _ _ _ _ S); [lia|]. apply H4. lia.
  Qed.
  Lemma elements_ok (t : table) : good hash t -> exists l, elements t = Ok l /\ NoDup l.*1 /\ forall k v, (k, v) ∈ l <-> has t k v.
  Proof.
    intros [W| ->]; [|exists []; split; [done|]; split; [apply NoDup_nil_2|]; intros k v; split; [intros H; by apply elem_of_nil in H|intros H; by destruct (empty_has k v)]].
    pose proof (w_shape _ t W) as S. pose proof (w_lv _ t W) as Lv. pose proof (w_li _ t W) as Li. set (L := omap (fun i => t_vals t !!! i) (seq 0 (nbuf t))).
    assert (HL : forall k v, (k, v) ∈ L <-> has t k v). { intros k v. unfold L. rewrite elem_of_list_omap. split; [intros (i & _ & Hi); by exists i|]. intros [i Hi]. exists i. split; [|done]. apply elem_of_seq. pose proof (some_lt _ _ _ _ _ _ _ _ _ S Hi). lia. }
    exists L. split; [|split; [|done]].
    - unfold elements. rewrite Lv. destruct (Nat.eqb_spec (t_num t) 0) as [E|E].
      + rewrite bind_ok, (iterate_ok t _ W) by lia. f_equal. rewrite Nat.sub_diag. cbn. symmetry. destruct (w_size _ t W) as (ks & L1 & L2 & L3). rewrite E in L2. apply length_zero_iff_nil in L2 as ->. destruct L as [|[k v] L'] eqn:EL; [done|]. destruct (proj1 (HL k v)) as [i Hi]; [by left|]. exfalso. apply (elem_of_nil k). apply L3. eauto.
      + destruct (fast_forward_ok (t_info t) (nbuf t) (length (t_info t)) 0) as (j & -> & H2 & H3 & H4); [done|by rewrite (s_sent _ _ _ _ _ _ _ S)|lia|lia|]. rewrite bind_ok, (iterate_ok t _ W) by (done || lia). f_equal. unfold L. replace (nbuf t) with (j + (nbuf t - j)) at 2 by lia. rewrite seq_app, omap_app. rewrite (omap_none _ (seq 0 j)); [done|]. intros i Hin. apply elem_of_seq in Hin. apply (s_occ _ _ _ _ _ _ _ S); [lia|]. apply H4. lia.
    - unfold L. generalize (NoDup_seq 0 (nbuf t)). generalize (seq 0 (nbuf t)) as l. clear L HL. induction l as [|i l IH]; intros Hnd; [apply NoDup_nil_2|]. apply NoDup_cons in Hnd as [Hn Hnd]. cbn [omap list_omap]. destruct (t_vals t !!! i) as [[k v]|] eqn:E; [|by apply IH]. cbn [fmap list_fmap fst]. apply NoDup_cons. split; [|by apply IH].
      intros Hin. apply elem_of_list_fmap in Hin as ([k' v'] & -> & Hin). cbn [fst] in E. apply elem_of_list_omap in Hin as (j & Hj & Ej). pose proof (s_uniq _ _ _ _ _ _ _ S _ _ _ _ _ E Ej) as <-. done.
  Qed.
End iteration.
