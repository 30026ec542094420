(** Where the elements of a collection are. *)
From Verif Require Import Base RefColl_model RefColl_spec.

Section where_.
  Context {T : Type} (BS : nat) (dflt : T) (HBS : BS <> 0).
  Notation heap := (list (list T)).
  Definition place (a i : nat) : nat * nat := (a + i / BS, i mod BS).
  Lemma place_inj a i j : place a i = place a j -> i = j.
  Proof. intros [= E1 E2]. rewrite (Nat.div_mod i BS HBS), (Nat.div_mod j BS HBS). nia. Qed.
  Record inv (other : heap) (k : nat) (h : heap) (c : coll) (l : list T) : Prop := {
    i_blocks : c_blocks c = seq (length other) k;
    i_size : c_size c = length l;
    i_room : length l <= k * BS;
    i_len : length h = length other + k;
    i_other : forall p b, other !! p = Some b -> h !! p = Some b;
    i_full : forall p, p < k -> exists b, h !! (length other + p) = Some b /\ length b = BS;
    i_elem : forall i x, l !! i = Some x -> load (place (length other) i) h = Ok x }.
  Lemma index_ok other k h c l i : inv other k h c l -> i < k * BS -> index BS c i = Ok (place (length other) i).
  Proof.
    intros I Hi. unfold index. rewrite (proj2 (Nat.eqb_neq _ _) HBS), (i_blocks _ _ _ _ _ I). assert (i / BS < k) by (apply Nat.div_lt_upper_bound; [done|lia]). rewrite (rd_ok _ _ (length other + i / BS)) by (by apply lookup_seq). rewrite bind_ok. done.
  Qed.
  Lemma load_app r (x : T) h b : load r h = Ok x -> load r (h ++ [b]) = Ok x.
  Proof. unfold load. intros E. apply bind_inv in E as (c & Hc & E). apply rd_inv in Hc. rewrite (rd_ok _ _ c) by (by apply lookup_app_l_Some). by rewrite bind_ok. Qed.
  Lemma grown other k h c l : inv other k h c l -> length l = k * BS -> inv other (S k) (grow BS dflt c h).1 (grow BS dflt c h).2 l.
  Proof.
    intros I E. destruct I as [I1 I2 I3 I5 I6 I7 I8]. unfold grow. cbn [fst snd]. split; cbn [c_blocks c_size].
    - rewrite I1, I5, seq_S. done.
    - done.
    - lia.
    - rewrite app_length. cbn. lia.
    - intros p b Hp. apply lookup_app_l_Some. by apply I6.
    - intros p Hp. destruct (decide (p = k)) as [->|Hn]; [|destruct (I7 p) as (b & Hb & Lb); [lia|]; exists b; split; [by apply lookup_app_l_Some|done]]. exists (replicate BS dflt). rewrite lookup_app_r by lia. rewrite I5, Nat.sub_diag. split; [done|apply replicate_length].
    - intros i x Hx. by apply load_app, I8.
  Qed.
  Lemma emplace_ok other k h c l arg x : inv other k h c l -> (forall b, arg (h ++ [b]) = Ok x) -> arg h = Ok x ->
    exists k' h' c', emplace BS dflt arg c h = Ok (h', c', place (length other) (length l)) /\ inv other k' h' c' (l ++ [x]).
  Proof.
    intros I Ha Hb. unfold emplace. rewrite (proj2 (Nat.eqb_neq _ _) HBS). cbv zeta.
    assert (G : exists k1 h1 c1, (if length (c_blocks c) <=? c_size c / BS then grow BS dflt c h else (h, c)) = (h1, c1) /\ inv other k1 h1 c1 l /\ length l < k1 * BS /\ arg h1 = Ok x).
    { pose proof I as [I1 I2 I3 I5 I6 I7 I8]. rewrite I1, I2, seq_length. destruct (Nat.leb_spec k (length l / BS)) as [Hle|Hlt].
      - pose proof (Nat.mul_div_le (length l) BS HBS). assert (E : length l = k * BS) by nia. exists (S k), (grow BS dflt c h).1, (grow BS dflt c h).2. split; [done|]. split; [by apply grown|]. split; [lia|]. apply Ha.
      - exists k, h, c. split; [done|]. split; [done|]. split; [|done]. pose proof (Nat.mul_succ_div_gt (length l) BS HBS). nia. }
    destruct G as (k1 & h1 & c1 & -> & I1 & Hlt & Hx). cbn [fst snd]. rewrite Hx, bind_ok. rewrite (i_size _ _ _ _ _ I), (index_ok _ _ _ _ _ (length l) I1 Hlt), bind_ok.
    pose proof I1 as [J1 J2 J3 J5 J6 J7 J8]. assert (Hp : length l / BS < k1) by (apply Nat.div_lt_upper_bound; [done|lia]). destruct (J7 _ Hp) as (b & Hbk & Lb).
    assert (Hm : length l mod BS < length b) by (rewrite Lb; by apply Nat.mod_upper_bound). unfold store, place at 1 2 3 4. cbn [fst snd]. rewrite (rd_ok _ _ _ Hbk), bind_ok, (wr_ok _ _ _ Hm), bind_ok, wr_ok by (by eapply lookup_lt_Some). rewrite bind_ok. cbn [c_size].
    set (h' := <[length other + length l / BS := <[length l mod BS := x]> b]> h1). set (c' := mk_coll (c_blocks c1) (length l + 1)).
    assert (I' : inv other k1 h' c' (l ++ [x])).
    { split; cbn [c' c_blocks c_size]; rewrite ?app_length; cbn [length]; try lia; try done.
      - unfold h'. by rewrite insert_length.
      - intros p b' Hp'. unfold h'. rewrite list_lookup_insert_ne; [by apply J6|]. apply lookup_lt_Some in Hp'. lia.
      - intros p Hpk. unfold h'. destruct (decide (p = length l / BS)) as [->|Hn].
        + exists (<[length l mod BS := x]> b). rewrite list_lookup_insert by (by eapply lookup_lt_Some). rewrite insert_length. done.
        + rewrite list_lookup_insert_ne by lia. by apply J7.
      - intros i y Hy. unfold load, place, h'. cbn [fst snd]. apply lookup_app_Some in Hy as [Hy|[Hge Hy]].
        + pose proof (J8 i y Hy) as E. pose proof (lookup_lt_Some _ _ _ Hy) as Hil. unfold load, place in E. cbn [fst snd] in E. apply bind_inv in E as (b2 & Hb2 & E). apply rd_inv in Hb2. apply rd_inv in E.
          destruct (decide (i / BS = length l / BS)) as [Ed|Hn].
          * rewrite Ed in Hb2 |- *. rewrite Hbk in Hb2. injection Hb2 as <-. rewrite (rd_ok _ _ (<[length l mod BS := x]> b)) by (apply list_lookup_insert; by eapply lookup_lt_Some). rewrite bind_ok. apply rd_ok. rewrite list_lookup_insert_ne; [done|]. intros Em.
            assert (i = length l) by (apply (place_inj 0); unfold place; congruence). lia.
          * rewrite (rd_ok _ _ b2) by (rewrite list_lookup_insert_ne by lia; done). rewrite bind_ok. by apply rd_ok.
        + apply list_lookup_singleton_Some in Hy as [Hi0 <-]. assert (i = length l) as -> by lia. rewrite (rd_ok _ _ (<[length l mod BS := x]> b)) by (apply list_lookup_insert; by eapply lookup_lt_Some). rewrite bind_ok. apply rd_ok. by apply list_lookup_insert. }
    exists k1, h', c'. split; [|done]. replace (length l + 1 - 1) with (length l) by lia. rewrite (index_ok _ _ _ _ _ (length l) I' Hlt), bind_ok. done.
  Qed.
  Lemma run_ok other prog : forall k h c l refs l', inv other k h c l -> refs = map (place (length other)) (seq 0 (length l)) -> pushed prog l = Some l' ->
    exists k' h' c', for_each (exec BS dflt) prog (h, c, refs) = Ok (h', c', map (place (length other)) (seq 0 (length l'))) /\ inv other k' h' c' l'.
  Proof.
    induction prog as [|o prog IH]; intros k h c l refs l' I Hr Hp; cbn [for_each pushed] in *; [injection Hp as <-; rewrite Hr; eauto|].
    assert (G : exists x k1 h1 c1, exec BS dflt o (h, c, refs) = Ok (h1, c1, refs ++ [place (length other) (length l)]) /\ inv other k1 h1 c1 (l ++ [x]) /\ pushed prog (l ++ [x]) = Some l').
    { destruct o as [x|j]; cbn [exec].
      - destruct (emplace_ok other k h c l (fun _ => Ok x) x I) as (k1 & h1 & c1 & -> & I1); [done|done|]. rewrite bind_ok. exists x, k1, h1, c1. done.
      - destruct (l !! j) as [x|] eqn:Ex; [|done]. assert (Hj : j < k * BS) by (apply lookup_lt_Some in Ex; pose proof (i_room _ _ _ _ _ I); lia). rewrite (index_ok _ _ _ _ _ j I Hj), bind_ok.
        destruct (emplace_ok other k h c l (load (place (length other) j)) x I) as (k1 & h1 & c1 & -> & I1); [intros b; apply load_app; by apply (i_elem _ _ _ _ _ I)|by apply (i_elem _ _ _ _ _ I)|]. rewrite bind_ok. exists x, k1, h1, c1. done. }
    destruct G as (x & k1 & h1 & c1 & -> & I1 & Hp1). rewrite bind_ok. apply (IH k1 h1 c1 (l ++ [x])); [done| |done]. rewrite Hr, app_length, seq_app, map_app. done.
  Qed.
  Lemma inv_nil other : inv other 0 other empty_coll [].
  Proof. split; cbn; try lia; try done. Qed.
  Lemma it_ok other k h c l i x : inv other k h c l -> l !! i = Some x -> it_load BS c h (Z.of_nat i) 0 = Ok x.
  Proof.
    intros I Hx. unfold it_load. rewrite Z.add_0_r, (proj2 (Z.ltb_ge _ _)), Nat2Z.id by lia. rewrite (index_ok _ _ _ _ _ i I); [rewrite bind_ok; by apply (i_elem _ _ _ _ _ I)|]. apply lookup_lt_Some in Hx. pose proof (i_room _ _ _ _ _ I). lia.
  Qed.
  Lemma walk_ok other k h c l : inv other k h c l -> forall r i, drop i l = r -> i <= length l -> walk BS (length r + 1) (Z.of_nat i) (Z.of_nat (length l)) c h = Ok r.
  Proof.
    intros I. induction r as [|x r IH]; intros i Hd Hi.
    - cbn [length Nat.add walk]. assert (i = length l) as ->. { apply (f_equal length) in Hd. rewrite drop_length in Hd. cbn in Hd. lia. } by rewrite Z.eqb_refl.
    - change (length (x :: r) + 1) with (S (length r + 1)). cbn [walk]. assert (Hx : l !! i = Some x) by (replace i with (i + 0) by lia; rewrite <- lookup_drop, Hd; done). pose proof (lookup_lt_Some _ _ _ Hx). rewrite (proj2 (Z.eqb_neq _ _)) by lia.
      rewrite (it_ok _ _ _ _ _ i x I Hx), bind_ok. cbn [pre_inc fst]. replace (Z.of_nat i + 1)%Z with (Z.of_nat (S i)) by lia. rewrite (IH (S i)); [done| |lia]. replace (S i) with (i + 1) by lia. by rewrite <- drop_drop, Hd.
  Qed.
End where_.
