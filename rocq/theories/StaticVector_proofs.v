From Verif Require Import Base StaticVector_model StaticVector_spec.
Local Arguments Nat.ltb : simpl never.
Local Arguments Nat.leb : simpl never.
Local Arguments Nat.eqb : simpl never.

Section proofs.
  Context {A : Type}.
  (** The vector holds [l], and all slots are alive. *)
  Record repr (cap : nat) (s : svec A) (l : list A) : Prop := {
    rp_cap : length (sv_data s) = cap;
    rp_len : sv_size s = length l;
    rp_fit : length l <= cap;
    rp_alive : Forall is_Some (sv_data s);
    rp_val : forall i x, l !! i = Some x -> sv_data s !! i = Some (Some x) }.

  Lemma slot_set_ok (d : list (option A)) i x : Forall is_Some d -> i < length d ->
    slot_set d i x = Ok (<[i := Some x]> d) /\ Forall is_Some (<[i := Some x]> d).
  Proof.
    intros Ha Hi. unfold slot_set. destruct (lookup_lt_is_Some_2 d i Hi) as [o Ho]. rewrite Ho.
    destruct (Forall_lookup_1 _ _ _ _ Ha Ho) as [y ->]. split; [done|]. apply Forall_insert; [done|eauto].
  Qed.
  Lemma push_ok cap s l x : repr cap s l -> length l < cap ->
    exists s', push_back s x = Ok s' /\ repr cap s' (l ++ [x]).
  Proof.
    intros [Hc Hl Hf Ha Hv] Hlt. unfold push_back.
    replace (sv_size s <? length (sv_data s)) with true by (symmetry; apply Nat.ltb_lt; lia).
    destruct (slot_set_ok (sv_data s) (sv_size s) x Ha ltac:(lia)) as [-> Ha']. cbn [mbind res_bind].
    eexists. split; [done|]. split; cbn [sv_data sv_size]; rewrite ?insert_length, ?app_length; cbn [List.length]; [lia|lia|lia|done|].
    intros i y Hy. destruct (decide (i = sv_size s)) as [->|Hn].
    - rewrite list_lookup_insert by lia. rewrite Hl, list_lookup_middle in Hy; [congruence|done].
    - rewrite list_lookup_insert_ne by done. apply Hv.
      pose proof (lookup_lt_Some _ _ _ Hy) as Hlt'. rewrite app_length in Hlt'. cbn in Hlt'.
      rewrite lookup_app_l in Hy; [done|lia].
  Qed.
  Lemma destroy_ok (d : list (option A)) i : Forall is_Some d -> i < length d -> slot_destroy true d i = Ok d.
  Proof.
    intros Ha Hi. unfold slot_destroy. destruct (lookup_lt_is_Some_2 d i Hi) as [o Ho]. rewrite Ho.
    by destruct (Forall_lookup_1 _ _ _ _ Ha Ho) as [y ->].
  Qed.
  Lemma destroys_ok (d : list (option A)) is : Forall is_Some d -> Forall (fun i => i < length d) is ->
    for_each (fun i d => slot_destroy true d i) is d = Ok d.
  Proof. intros Ha. induction 1 as [|i is Hi _ IH]; [done|]. cbn [for_each]. rewrite destroy_ok by done. exact IH. Qed.
  Lemma moves_ok (d : list (option A)) first last n : Forall is_Some d -> first <= last -> last + n <= length d ->
    exists d', for_each (fun k d => x ← slot_get d (last + k); slot_set d (first + k) x) (seq 0 n) d = Ok d' /\
      length d' = length d /\ Forall is_Some d' /\
      (forall i, i < first -> d' !! i = d !! i) /\ (forall k, k < n -> d' !! (first + k) = d !! (last + k)) /\
      (forall i, first + n <= i -> d' !! i = d !! i).
  Proof.
    intros Ha Hfl. induction n as [|n IH]; intros Hn.
    - exists d. split; [done|]. split; [done|]. split; [done|]. split; [done|]. split; [intros; lia|done].
    - destruct IH as (d' & E & Hlen & Ha' & H1 & H2 & H3); [lia|]. rewrite seq_S, for_each_app, E. cbn [mbind res_bind for_each].
      rewrite Nat.add_0_l. unfold slot_get. rewrite H3 by lia.
      destruct (lookup_lt_is_Some_2 d (last + n)) as [o Ho]; [lia|]. rewrite Ho. cbn [mbind res_bind].
      destruct (Forall_lookup_1 _ _ _ _ Ha Ho) as [x ->]. cbn [mbind res_bind].
      destruct (slot_set_ok d' (first + n) x Ha' ltac:(lia)) as [-> Ha'']. eexists. split; [done|].
      rewrite insert_length. split; [done|]. split; [done|]. split; [|split].
      + intros i Hi. rewrite list_lookup_insert_ne by lia. by apply H1.
      + intros k Hk. destruct (decide (k = n)) as [->|].
        * rewrite list_lookup_insert by lia. by rewrite Ho.
        * rewrite list_lookup_insert_ne by lia. apply H2. lia.
      + intros i Hi. rewrite list_lookup_insert_ne by lia. apply H3. lia.
  Qed.
  Lemma erase_ok cap s l f e : repr cap s l -> f <= e <= length l -> f < e \/ e = length l ->
    exists s', erase true s f e = Ok (s', e) /\ repr cap s' (take f l ++ drop e l).
  Proof.
    intros [Hc Hl Hf Ha Hv] Hr Ho. unfold erase.
    replace ((f <=? e) && (e <=? sv_size s) && ((f <? e) || (e =? sv_size s))) with true.
    2: { symmetry. rewrite !andb_true_iff, orb_true_iff, !Nat.leb_le, Nat.ltb_lt, Nat.eqb_eq. lia. }
    destruct (moves_ok (sv_data s) f e (sv_size s - e) Ha ltac:(lia) ltac:(lia)) as (d' & -> & Hlen & Ha' & H1 & H2 & H3).
    cbn [mbind res_bind]. rewrite destroys_ok; [|done|].
    2: { apply Forall_forall. intros i ?%elem_of_seq. lia. }
    cbn [mbind res_bind]. eexists. split; [done|].
    assert (Hlr : length (take f l ++ drop e l) = length l - (e - f)) by (rewrite app_length, take_length, drop_length; lia).
    split; cbn [sv_data sv_size]; rewrite ?Hlr; [lia|lia|lia|done|].
    intros i x Hx. destruct (decide (i < f)).
    - rewrite H1 by done. apply Hv. rewrite lookup_app_l in Hx by (rewrite take_length; lia). by rewrite lookup_take in Hx by done.
    - rewrite lookup_app_r in Hx by (rewrite take_length; lia). rewrite take_length, lookup_drop in Hx.
      pose proof (lookup_lt_Some _ _ _ Hx). replace i with (f + (i - f)) by lia. rewrite H2 by lia.
      apply Hv. rewrite <- Hx. f_equal. lia.
  Qed.
  Lemma pop_ok cap s l : repr cap s l -> l <> [] -> exists s', pop_back true s = Ok s' /\ repr cap s' (take (length l - 1) l).
  Proof.
    intros [Hc Hl Hf Ha Hv] Hn. unfold pop_back. destruct (sv_size s) as [|n] eqn:E; [destruct l; [done|cbn in Hl; lia]|].
    rewrite destroy_ok by (try done; lia). cbn [mbind res_bind]. eexists. split; [done|].
    split; cbn [sv_data sv_size]; rewrite ?take_length; [lia|lia|lia|done|].
    intros i x Hx. apply Hv. apply lookup_take_Some in Hx. tauto.
  Qed.
  Lemma fill_ok (d : list (option A)) b n v : Forall is_Some d -> b + n <= length d ->
    exists d', for_each (fun i d => slot_set d i v) (seq b n) d = Ok d' /\ length d' = length d /\ Forall is_Some d' /\
      (forall i, i < b -> d' !! i = d !! i) /\ (forall i, b <= i < b + n -> d' !! i = Some (Some v)).
  Proof.
    intros Ha. induction n as [|n IH]; intros Hn.
    - exists d. split; [done|]. split; [done|]. split; [done|]. split; [done|intros; lia].
    - destruct IH as (d' & E & Hlen & Ha' & H1 & H2); [lia|]. rewrite seq_S, for_each_app, E. cbn [mbind res_bind for_each].
      destruct (slot_set_ok d' (b + n) v Ha' ltac:(lia)) as [-> Ha'']. eexists. split; [done|].
      rewrite insert_length. split; [done|]. split; [done|]. split.
      + intros i Hi. rewrite list_lookup_insert_ne by lia. by apply H1.
      + intros i Hi. destruct (decide (i = b + n)) as [->|].
        * rewrite list_lookup_insert by lia. done.
        * rewrite list_lookup_insert_ne by lia. apply H2. lia.
  Qed.
  Lemma resize_ok cap s l n v : repr cap s l -> n <= cap ->
    exists s', sv_resize true s n v = Ok s' /\ repr cap s' (take n l ++ replicate (n - length l) v).
  Proof.
    intros Hr Hn. pose proof Hr as [Hc Hl Hf Ha Hv]. unfold sv_resize. destruct (Nat.leb_spec n (sv_size s)) as [Hle|Hgt].
    - destruct (erase_ok cap s l (sv_size s - (sv_size s - n)) (sv_size s) Hr ltac:(lia) ltac:(lia)) as (s' & -> & Hr').
      cbn. exists s'. split; [done|]. replace (sv_size s - (sv_size s - n)) with n in Hr' by lia.
      rewrite drop_ge in Hr' by lia. replace (n - length l) with 0 by lia. exact Hr'.
    - destruct (fill_ok (sv_data s) (sv_size s) (n - sv_size s) v Ha ltac:(lia)) as (d' & -> & Hlen & Ha' & H1 & H2).
      cbn. eexists. split; [done|]. rewrite take_ge by lia.
      assert (Hlr : length (l ++ replicate (n - length l) v) = n) by (rewrite app_length, replicate_length; lia).
      split; cbn [sv_data sv_size]; rewrite ?Hlr; [lia|lia|lia|done|].
      intros i x Hx. apply lookup_app_Some in Hx as [Hx|[Hi Hx]].
      + pose proof (lookup_lt_Some _ _ _ Hx). rewrite H1 by lia. by apply Hv.
      + apply lookup_replicate in Hx as [-> Hx]. apply H2. lia.
  Qed.
  Lemma step_ok cap s l o l' : repr cap s l -> spec_step cap l o = Some l' -> exists s', sv_step true s o = Ok s' /\ repr cap s' l'.
  Proof.
    intros Hr. destruct o as [x| |f e|n v]; cbn [spec_step sv_step].
    - case_decide; [|done]. intros [= <-]. by apply push_ok.
    - intros H. destruct l as [|x l]; [done|]. injection H as <-. by apply (pop_ok cap s (x :: l)).
    - case_decide as H; [|done]. intros [= <-]. destruct (erase_ok cap s l f e Hr) as (s' & -> & H'); [tauto|tauto|]. eauto.
    - case_decide; [|done]. intros [= <-]. by apply resize_ok.
  Qed.
  Lemma run_ok cap ops s l l' : repr cap s l -> spec_run cap l ops = Some l' -> exists s', sv_run true s ops = Ok s' /\ repr cap s' l'.
  Proof.
    revert s l. induction ops as [|o ops IH]; intros s l Hr H; cbn in H.
    - injection H as <-. exists s. done.
    - destruct (spec_step cap l o) as [l1|] eqn:E; [|done]. destruct (step_ok cap s l o l1 Hr E) as (s1 & E1 & Hr1).
      unfold sv_run. cbn [for_each]. rewrite E1. cbn. by apply (IH s1 l1).
  Qed.
  Lemma new_ok (junk : list A) : repr (length junk) (sv_new junk) [].
  Proof.
    split; cbn; [by rewrite map_length|done|lia| |done]. apply Forall_forall. intros o Ho.
    apply elem_of_list_In, in_map_iff in Ho as (x & <- & _). eauto.
  Qed.
  Lemma read_ok cap s l : repr cap s l -> sv_read s = Ok l.
  Proof.
    intros [Hc Hl Hf Ha Hv]. unfold sv_read. rewrite Hl.
    assert (forall pre post, l = pre ++ post -> map_res (slot_get (sv_data s)) (seq (length pre) (length post)) = Ok post) as H.
    { intros pre post. revert pre. induction post as [|x post IH]; intros pre E; [done|]. cbn [seq List.length map_res].
      assert (slot_get (sv_data s) (length pre) = Ok x) as ->.
      { unfold slot_get. by rewrite (Hv (length pre) x) by (rewrite E; by apply list_lookup_middle). }
      cbn [mbind res_bind].
      specialize (IH (pre ++ [x])). rewrite <- app_assoc in IH. specialize (IH E).
      rewrite app_length in IH. cbn in IH. rewrite Nat.add_1_r in IH. rewrite IH. done. }
    exact (H [] l eq_refl).
  Qed.
  Lemma destructor_ok cap s l : repr cap s l -> sv_destructor s = Ok tt.
  Proof.
    intros [_ _ _ Ha _]. unfold sv_destructor. replace (forallb _ _) with true; [done|]. symmetry. apply forallb_forall.
    intros o Ho. rewrite Forall_forall in Ha. destruct (Ha o) as [x ->]; [by apply elem_of_list_In|done].
  Qed.
  Lemma push_full cap s l x : repr cap s l -> (push_back s x = Throw <-> length l = cap).
  Proof.
    intros Hr. split.
    - intros E. pose proof (rp_fit _ _ _ Hr). destruct (decide (length l < cap)) as [Hlt|]; [|lia].
      destruct (push_ok cap s l x Hr Hlt) as (s' & E' & _). congruence.
    - intros E. unfold push_back. destruct Hr. by replace (sv_size s <? length (sv_data s)) with false by (symmetry; apply Nat.ltb_ge; lia).
  Qed.
  Lemma of_range_ok (junk r : list A) :
    if decide (length r <= length junk) then exists s, sv_of_range junk r = Ok s /\ repr (length junk) s r
    else sv_of_range junk r = Throw.
  Proof.
    unfold sv_of_range.
    assert (H : forall post pre s, repr (length junk) s pre ->
      if decide (length (pre ++ post) <= length junk)
      then exists s', for_each (fun x s => push_back s x) post s = Ok s' /\ repr (length junk) s' (pre ++ post)
      else for_each (fun x s => push_back s x) post s = Throw).
    { induction post as [|x post IH]; intros pre s Hr; cbn [for_each].
      - rewrite app_nil_r. rewrite decide_True by apply (rp_fit _ _ _ Hr). eauto.
      - destruct (decide (length pre = length junk)) as [E|E].
        + rewrite (proj2 (push_full _ _ _ x Hr) E). rewrite decide_False; [done|]. rewrite app_length. cbn. lia.
        + pose proof (rp_fit _ _ _ Hr). destruct (push_ok _ _ _ x Hr ltac:(lia)) as (s' & -> & Hr'). cbn [mbind res_bind].
          specialize (IH (pre ++ [x]) s' Hr'). rewrite <- app_assoc in IH. exact IH. }
    exact (H r [] _ (new_ok junk)).
  Qed.
  Lemma of_sized_ok (junk r : list A) : length r <= length junk -> exists s, sv_of_sized junk r = Ok s /\ repr (length junk) s r.
  Proof.
    intros Hle. unfold sv_of_sized. destruct (new_ok junk) as [Hc _ _ Ha _]. cbn [sv_data sv_new] in Hc, Ha.
    assert (H : forall post pre d, length d = length junk -> Forall is_Some d -> length (pre ++ post) <= length junk ->
      (forall i x, pre !! i = Some x -> d !! i = Some (Some x)) ->
      exists d', for_each (fun (p : nat * A) d => slot_set d p.1 p.2) (zip (seq (length pre) (length post)) post) d = Ok d' /\
        length d' = length junk /\ Forall is_Some d' /\ forall i x, (pre ++ post) !! i = Some x -> d' !! i = Some (Some x)).
    { induction post as [|x post IH]; intros pre d Hd Had Hlen Hp; cbn [seq List.length zip zip_with for_each].
      - exists d. rewrite app_nil_r. done.
      - rewrite app_length in Hlen. cbn in Hlen. cbn [fst snd].
        destruct (slot_set_ok d (length pre) x Had ltac:(lia)) as [-> Had']. cbn [mbind res_bind].
        destruct (IH (pre ++ [x]) (<[length pre := Some x]> d)) as (d' & E & R).
        + by rewrite insert_length.
        + done.
        + rewrite <- app_assoc, app_length. cbn. lia.
        + intros i y Hy. destruct (decide (i = length pre)) as [->|Hn].
          * rewrite list_lookup_insert by lia. rewrite list_lookup_middle in Hy; [congruence|done].
          * rewrite list_lookup_insert_ne by done. apply Hp. pose proof (lookup_lt_Some _ _ _ Hy) as Hl. rewrite app_length in Hl. cbn in Hl.
            rewrite lookup_app_l in Hy; [done|lia].
        + rewrite <- app_assoc in R. rewrite app_length, Nat.add_1_r in E. exists d'. done. }
    destruct (H r [] (map Some junk) Hc Ha Hle ltac:(done)) as (d' & E & Hl' & Ha' & Hv). cbn [List.length app] in E, Hv.
    rewrite E. cbn [mbind res_bind].
    eexists. split; [done|]. by split.
  Qed.
End proofs.

Lemma true_inds_ok (junk : list nat) (a : list bool) : length junk = length a ->
  exists s l, getTrueInds junk a = Ok s /\ repr (length a) s l /\ l = List.filter (fun i => match a !! i with Some b => b | None => false end) (seq 0 (length a)).
Proof.
  intros Hj. unfold getTrueInds.
  assert (H : forall n, n <= length a -> exists s,
    for_each (fun i s => b ← rd a i; if (b : bool) then push_back s i else Ok s) (seq 0 n) (sv_new junk) = Ok s /\
    repr (length a) s (List.filter (fun i => match a !! i with Some b => b | None => false end) (seq 0 n))).
  { induction n as [|n IH]; intros Hn.
    - exists (sv_new junk). rewrite <- Hj. split; [done|apply new_ok].
    - destruct IH as (s & E & Hr); [lia|]. rewrite seq_S, for_each_app, E. cbn [mbind res_bind for_each]. rewrite Nat.add_0_l.
      destruct (lookup_lt_is_Some_2 a n ltac:(lia)) as [b Hb]. rewrite (rd_ok _ _ _ Hb). cbn [mbind res_bind].
      rewrite List.filter_app. cbn [List.filter]. rewrite Hb. destruct b.
      + assert (Hlt : length (List.filter (fun i => match a !! i with Some b => b | None => false end) (seq 0 n)) <= n).
        { rewrite <- (seq_length n 0) at 2. generalize (seq 0 n). induction l as [|x l IHl]; cbn; [lia|]. destruct (match a !! x with Some b => b | None => false end); cbn; lia. }
        destruct (push_ok _ _ _ n Hr ltac:(lia)) as (s' & -> & Hr'). exists s'. done.
      + rewrite app_nil_r. exists s. done. }
  destruct (H (length a) (le_n _)) as (s & E & Hr). eauto.
Qed.
