(** The operations of vectors and their effect on the heap. *)
From Verif Require Import Base CVec_model CVec_spec CVec_proofs.

Section operations.
  Context {T : Type}.
  Notation heap := (heap T).
  Implicit Types (h : heap) (l : list T).
  (** The elements of a vector are [l]. *)
  Definition owns h (v : vec) l : Prop :=
    match m_data v with
    | None => m_size v = 0 /\ m_capacity v = 0 /\ l = []
    | Some p => h !! p = Some (Some (full l (m_capacity v - m_size v))) /\ m_size v = length l /\ m_size v <= m_capacity v
    end.
  (** From [h] to [h'] only the block of a vector changes, from [d] to [d']. *)
  Definition frame h h' (d d' : option nat) : Prop :=
    length h <= length h' /\ (forall p b, h !! p = Some b -> d <> Some p -> h' !! p = Some b) /\
    (forall p c, h' !! p = Some (Some c) -> d' = Some p \/ (h !! p = Some (Some c) /\ d <> Some p)) /\
    (forall p, d' = Some p -> d = Some p \/ length h <= p).
  Lemma frame_trans h h1 h2 d d1 d2 : frame h h1 d d1 -> frame h1 h2 d1 d2 -> frame h h2 d d2.
  Proof.
    intros (A1 & A2 & A3 & A4) (B1 & B2 & B3 & B4). split; [lia|]. split; [|split].
    - intros p b Hp Hd. apply B2; [by apply A2|]. intros E. destruct (A4 p E); [done|]. apply lookup_lt_Some in Hp. lia.
    - intros p c Hp. destruct (B3 p c Hp) as [?|[Hp1 Hd1]]; [by left|]. destruct (A3 p c Hp1); [done|by right].
    - intros p E. destruct (B4 p E) as [E1|?]; [by apply A4|right; lia].
  Qed.
  Lemma frame_id h d : (forall p, d = Some p -> h !! p <> None) -> frame h h d d.
  Proof. intros Hd. split; [done|]. split; [done|]. split; [|intros p E; by left]. intros p c Hp. destruct (decide (d = Some p)); [by left|by right]. Qed.
  Lemma frame_set h p b : frame h (<[p := b]> h) (Some p) (match b with Some _ => Some p | None => None end).
  Proof.
    split; [by rewrite insert_length|]. split; [|split].
    - intros q x Hq Hne. rewrite list_lookup_insert_ne by congruence. done.
    - intros q c Hq. destruct (decide (q = p)) as [->|Hn]; [|right; rewrite list_lookup_insert_ne in Hq by congruence; split; [done|congruence]].
      pose proof (lookup_lt_Some _ _ _ Hq) as Hl. rewrite insert_length in Hl. rewrite list_lookup_insert in Hq by done. injection Hq as ->. by left.
    - intros q E. left. destruct b; congruence.
  Qed.
  Lemma frame_new h c : frame h (h ++ [Some c]) None (Some (length h)).
  Proof.
    split; [rewrite app_length; lia|]. split; [|split].
    - intros p b Hp _. by apply lookup_app_l_Some.
    - intros p c' Hp. destruct (Nat.lt_trichotomy p (length h)) as [Hl|[->|Hl]]; [right; rewrite lookup_app_l in Hp by done; done|by left|]. apply lookup_lt_Some in Hp. rewrite app_length in Hp. cbn in Hp. lia.
    - intros p [= <-]. by right.
  Qed.
  Lemma insert_new h c c' : <[length h := c']> (h ++ [c]) = h ++ [c'].
  Proof. rewrite insert_app_r_alt by done. by rewrite Nat.sub_diag. Qed.
  Lemma lookup_new h (c : option (list (option T))) : (h ++ [c]) !! length h = Some c.
  Proof. rewrite lookup_app_r by done. by rewrite Nat.sub_diag. Qed.

  Lemma make_ok get l h : (forall i x c, l !! i = Some x -> get i (h ++ [Some c]) = Ok x) ->
    exists h' v, make (length l) get h = Ok (h', v) /\ owns h' v l /\ frame h h' None (m_data v).
  Proof.
    intros Hg. unfold make, allocate. cbv zeta. cbn [fst snd]. set (v := mk_vec (Some (length h)) (length l) (length l)).
    rewrite (construct_loop get v (length h) (length l) l eq_refl (le_n _) _ (lookup_new _ _)); [|intros i x c Hx; rewrite insert_new; by apply Hg].
    rewrite bind_ok, insert_new. eexists _, v. split; [done|]. split; [|apply frame_new]. unfold owns, v. cbn [m_data m_size m_capacity]. by rewrite lookup_new.
  Qed.
  Lemma clear_ok v l h : owns h v l -> exists h' v', clear v h = Ok (h', v') /\ owns h' v' [] /\ m_data v' = m_data v /\ frame h h' (m_data v) (m_data v').
  Proof.
    unfold owns, clear. destruct (m_data v) as [p|] eqn:E.
    - intros (H1 & H2 & H3). rewrite H2. rewrite (destroy_loop v p l _ h E H1), bind_ok. eexists _, _. split; [done|]. cbn [m_data m_size m_capacity].
      split; [|split; [done|apply (frame_set h p (Some _))]]. split; [|split; [done|lia]]. rewrite list_lookup_insert by (by eapply lookup_lt_Some). do 2 f_equal. rewrite full_nil. f_equal. lia.
    - intros (H1 & H2 & ->). rewrite H1. cbn [seq for_each]. rewrite bind_ok. eexists _, _. split; [done|]. cbn [m_data m_size m_capacity]. split; [done|]. split; [done|]. apply frame_id. done.
  Qed.
  Lemma deallocate_vec_ok v h : owns h v [] -> exists h', deallocate v h = Ok h' /\ frame h h' (m_data v) None.
  Proof.
    unfold owns, deallocate. destruct (m_data v) as [p|] eqn:E.
    - intros (H1 & H2 & H3). cbn [length] in H2. rewrite H2, Nat.sub_0_r, full_nil in H1. rewrite (deallocate_ok h p _ H1). eexists. split; [done|]. apply (frame_set h p None).
    - intros _. exists h. split; [done|]. by apply frame_id.
  Qed.
  Lemma destructor_ok v l h : owns h v l -> exists h', destructor v h = Ok h' /\ frame h h' (m_data v) None.
  Proof.
    intros H. unfold destructor. destruct (clear_ok v l h H) as (h1 & v1 & -> & H1 & E & F1). rewrite bind_ok. cbn [fst snd]. destruct (deallocate_vec_ok v1 h1 H1) as (h2 & -> & F2). exists h2. split; [done|]. by eapply frame_trans.
  Qed.
  Lemma reallocate_ok n v l h : owns h v l -> length l <= n ->
    exists h' v', reallocate n v h = Ok (h', v') /\ owns h' v' l /\ m_capacity v' = n /\ m_size v' = m_size v /\ frame h h' (m_data v) (m_data v').
  Proof.
    unfold owns at 1, reallocate, allocate. cbv zeta. cbn [fst snd]. destruct (m_data v) as [p|] eqn:E.
    - intros (H1 & H2 & H3) Hn. pose proof (lookup_lt_Some _ _ _ H1) as Hp. rewrite H2. set (v' := mk_vec (Some (length h)) (length l) n).
      rewrite (move_loop v' p (length h) l (m_capacity v - m_size v) n) by (done || lia || (rewrite lookup_app_l by done; done) || apply lookup_new). rewrite bind_ok, insert_new.
      rewrite (deallocate_ok _ p (m_capacity v)); [|rewrite list_lookup_insert by (rewrite app_length; lia); do 3 f_equal; lia]. rewrite bind_ok, list_insert_insert. eexists _, v'. split; [done|]. cbn [v' m_data m_size m_capacity]. split; [|split; [done|split; [done|]]].
      + unfold owns, v'. cbn [m_data m_size m_capacity]. rewrite list_lookup_insert_ne by lia. rewrite lookup_new. done.
      + split; [rewrite insert_length, app_length; lia|]. split; [|split].
        * intros q b Hq Hne. rewrite list_lookup_insert_ne by congruence. by apply lookup_app_l_Some.
        * intros q c Hq. destruct (decide (q = p)) as [->|Hn']; [rewrite list_lookup_insert in Hq by (rewrite app_length; lia); done|]. rewrite list_lookup_insert_ne in Hq by congruence.
          destruct (frame_new h (full l (n - length l))) as (_ & _ & F & _). destruct (F q c Hq) as [?|[? _]]; [by left|]. right. split; [done|congruence].
        * intros q [= <-]. by right.
    - intros (H1 & H2 & ->) Hn. rewrite H1. cbn [seq for_each]. rewrite !bind_ok. eexists _, _. split; [done|]. cbn [m_data m_size m_capacity]. split; [|split; [done|split; [done|apply frame_new]]].
      unfold owns. cbn [m_data m_size m_capacity]. rewrite lookup_new, Nat.sub_0_r. split; [done|]. cbn. split; [done|lia].
  Qed.
  Lemma emplace_back_ok arg x v l h : owns h v l -> (m_capacity v = m_size v -> forall h', arg h' = Ok x) -> (m_capacity v <> m_size v -> arg h = Ok x) ->
    exists h' v', emplace_back arg v h = Ok (h', v') /\ owns h' v' (l ++ [x]) /\ frame h h' (m_data v) (m_data v').
  Proof.
    intros H Ha Hb. unfold emplace_back.
    assert (G : exists h1 v1, (if m_capacity v =? m_size v then grow v h else Ok (h, v)) = Ok (h1, v1) /\ owns h1 v1 l /\ m_size v1 < m_capacity v1 /\ arg h1 = Ok x /\ frame h h1 (m_data v) (m_data v1)).
    { assert (Hs : m_size v = length l /\ m_size v <= m_capacity v). { unfold owns in H. destruct (m_data v); [tauto|]. destruct H as (? & ? & ->). cbn. lia. }
      destruct (Nat.eqb_spec (m_capacity v) (m_size v)) as [E|E].
      - unfold grow. destruct (reallocate_ok (if m_capacity v =? 0 then 1 else 2 * m_capacity v) v l h H) as (h1 & v1 & -> & H1 & H2 & H3 & F1); [destruct (Nat.eqb_spec (m_capacity v) 0); lia|]. exists h1, v1. split; [done|]. split; [done|]. split; [rewrite H2, H3; destruct (Nat.eqb_spec (m_capacity v) 0); lia|]. split; [by apply Ha|done].
      - exists h, v. split; [done|]. split; [done|]. split; [lia|]. split; [by apply Hb|]. apply frame_id. unfold owns in H. intros p Ep. rewrite Ep in H. destruct H as (-> & _). done. }
    destruct G as (h1 & v1 & -> & H1 & Hlt & Ea & F1). rewrite bind_ok. cbn [fst snd]. rewrite Ea, bind_ok. unfold construct. unfold owns in H1. destruct (m_data v1) as [p|] eqn:E; [|destruct H1 as (? & ? & _); lia].
    destruct H1 as (H1 & H2 & H3). rewrite (construct_at_ok h1 p _ (m_size v1) x H1) by (apply full_free; lia). rewrite bind_ok. rewrite (full_put l _ x (m_size v1)) by lia. eexists _, _. split; [done|]. cbn [m_data]. split.
    - unfold owns. cbn [m_data m_size m_capacity]. rewrite list_lookup_insert by (by eapply lookup_lt_Some). rewrite app_length. cbn. split; [do 3 f_equal; lia|]. split; lia.
    - eapply frame_trans; [exact F1|]. apply (frame_set h1 p (Some _)).
  Qed.
  Lemma pop_back_ok v l x h : owns h v (l ++ [x]) -> exists h' v', pop_back v h = Ok (h', v') /\ owns h' v' l /\ frame h h' (m_data v) (m_data v').
  Proof.
    unfold owns at 1, pop_back, destroy. destruct (m_data v) as [p|] eqn:E; [|intros (_ & _ & Hl); by destruct l].
    intros (H1 & H2 & H3). rewrite app_length in H2. cbn in H2. rewrite (proj2 (Nat.eqb_neq _ _)) by lia. assert (Es : m_size v - 1 = length l) by lia. rewrite Es.
    assert (Hf : full (l ++ [x]) (m_capacity v - m_size v) = map Some l ++ Some x :: replicate (m_capacity v - m_size v) None) by (unfold full; by rewrite map_app, <- app_assoc).
    rewrite Hf in H1. rewrite (destroy_at_ok h p _ (length l) x H1) by (rewrite lookup_app_r by (by rewrite map_length); by rewrite map_length, Nat.sub_diag). rewrite bind_ok. eexists _, _. split; [done|]. cbn [m_data]. split; [|apply (frame_set h p (Some _))].
    unfold owns. cbn [m_data m_size m_capacity]. rewrite list_lookup_insert by (by eapply lookup_lt_Some). split; [|split; [done|lia]]. rewrite insert_app_r_alt by (by rewrite map_length). rewrite map_length, Nat.sub_diag. cbn [insert list_insert]. unfold full. replace (m_capacity v - length l) with (S (m_capacity v - m_size v)) by lia. done.
  Qed.

  (** A heap with vectors: each has its elements, they share nothing and nothing is lost. *)
  Definition world h (vs : list vec) (ls : list (list T)) : Prop :=
    length vs = length ls /\ (forall i v l, vs !! i = Some v -> ls !! i = Some l -> owns h v l) /\
    (forall i j v w p, vs !! i = Some v -> vs !! j = Some w -> m_data v = Some p -> m_data w = Some p -> i = j) /\
    (forall p c, h !! p = Some (Some c) -> exists i v, vs !! i = Some v /\ m_data v = Some p).
  Lemma owns_block h v l p : owns h v l -> m_data v = Some p -> p < length h.
  Proof. unfold owns. intros H E. rewrite E in H. destruct H as (H & _). by eapply lookup_lt_Some. Qed.
  Lemma owns_frame h h' d d' v l : owns h v l -> frame h h' d d' -> (forall p, m_data v = Some p -> d <> Some p) -> owns h' v l.
  Proof. unfold owns. destruct (m_data v) as [p|]; [|done]. intros (H1 & H2) (_ & F & _) Hd. split; [|done]. apply F; [done|]. by apply Hd. Qed.
  Lemma world_get h vs ls i v : world h vs ls -> vs !! i = Some v -> exists l, ls !! i = Some l /\ owns h v l.
  Proof. intros (W1 & W2 & _) Hv. destruct (lookup_lt_is_Some_2 ls i) as [l Hl]; [rewrite <- W1; by eapply lookup_lt_Some|]. exists l. split; [done|]. by eapply W2. Qed.
  Lemma world_get' h vs ls i l : world h vs ls -> ls !! i = Some l -> exists v, vs !! i = Some v /\ owns h v l.
  Proof. intros (W1 & W2 & _) Hl. destruct (lookup_lt_is_Some_2 vs i) as [v Hv]; [rewrite W1; by eapply lookup_lt_Some|]. exists v. split; [done|]. by eapply W2. Qed.
  Lemma world_update h vs ls i v h' v' l' : world h vs ls -> vs !! i = Some v -> frame h h' (m_data v) (m_data v') -> owns h' v' l' -> world h' (<[i := v']> vs) (<[i := l']> ls).
  Proof.
    intros W Hv F Ho. pose proof W as (W1 & W2 & W3 & W4). pose proof (lookup_lt_Some _ _ _ Hv) as Hi. assert (Hi' : i < length ls) by lia. pose proof F as (F1 & F2 & F3 & F4).
    assert (X : forall j w, <[i := v']> vs !! j = Some w -> (j = i /\ w = v') \/ (j <> i /\ vs !! j = Some w)).
    { intros j w Hw. destruct (decide (j = i)) as [->|Hn]; [rewrite list_lookup_insert in Hw by done; left; split; congruence|]. rewrite list_lookup_insert_ne in Hw by congruence. by right. }
    assert (Hnew : forall j w p, j <> i -> vs !! j = Some w -> m_data v' = Some p -> m_data w = Some p -> False).
    { intros j w p Hn Hw E1 E2. destruct (F4 p E1) as [E|Hge]; [by destruct (Hn (W3 j i w v p Hw Hv E2 E))|]. destruct (world_get h vs ls j w W Hw) as (l & _ & Hl). pose proof (owns_block _ _ _ _ Hl E2). lia. }
    split; [by rewrite !insert_length|]. split; [|split].
    - intros j w l Hw Hl. destruct (X j w Hw) as [[-> ->]|[Hn Hw']]; [rewrite list_lookup_insert in Hl by done; congruence|]. rewrite list_lookup_insert_ne in Hl by congruence. eapply owns_frame; [by eapply W2|exact F|]. intros p Ep E. apply Hn. by eapply (W3 j i).
    - intros j k w w' p Hw Hw' E1 E2. destruct (X j w Hw) as [[-> ->]|[Hn Hj]], (X k w' Hw') as [[-> ->]|[Hn' Hk]]; [done|by destruct (Hnew k w' p)|by destruct (Hnew j w p)|by eapply W3].
    - intros p c Hp. destruct (F3 p c Hp) as [E|[Hp' Hd]]; [exists i, v'; rewrite list_lookup_insert by done; done|]. destruct (W4 p c Hp') as (k & w & Hk & Ek). exists k, w. split; [|done]. rewrite list_lookup_insert_ne; [done|]. intros <-. congruence.
  Qed.
  Lemma world_empty h vs ls : world h vs ls -> world h (vs ++ [empty_vec]) (ls ++ [[]]).
  Proof.
    intros (W1 & W2 & W3 & W4).
    assert (X : forall j w, (vs ++ [empty_vec]) !! j = Some w -> (j = length vs /\ w = empty_vec) \/ vs !! j = Some w).
    { intros j w Hw. destruct (Nat.lt_trichotomy j (length vs)) as [Hl|[->|Hl]]; [right; by rewrite lookup_app_l in Hw|left; rewrite lookup_app_r, Nat.sub_diag in Hw by done; split; [done|by injection Hw]|]. apply lookup_lt_Some in Hw. rewrite app_length in Hw. cbn in Hw. lia. }
    split; [rewrite !app_length; cbn; lia|]. split; [|split].
    - intros j w l Hw Hl. destruct (X j w Hw) as [[-> ->]|Hj]; [rewrite W1, lookup_app_r, Nat.sub_diag in Hl by done; injection Hl as <-; done|]. rewrite lookup_app_l in Hl by (rewrite <- W1; by eapply lookup_lt_Some). by eapply W2.
    - intros j k w w' p Hw Hw' E1 E2. destruct (X j w Hw) as [[-> ->]|Hj], (X k w' Hw') as [[-> ->]|Hk]; [done|done|done|by eapply W3].
    - intros p c Hp. destruct (W4 p c Hp) as (k & w & Hk & Ek). exists k, w. split; [by apply lookup_app_l_Some|done].
  Qed.
  Lemma world_add h vs ls h' v l : world h vs ls -> frame h h' None (m_data v) -> owns h' v l -> world h' (vs ++ [v]) (ls ++ [l]).
  Proof.
    intros W F Ho. pose proof (world_update h (vs ++ [empty_vec]) (ls ++ [[]]) (length vs) empty_vec h' v l (world_empty _ _ _ W)) as G.
    rewrite insert_app_r_alt, Nat.sub_diag in G by done. rewrite (insert_app_r_alt ls) in G by (by destruct W as [-> _]). replace (length vs - length ls) with 0 in G by (destruct W as [-> _]; lia). apply G; [|done|done]. rewrite lookup_app_r by done. by rewrite Nat.sub_diag.
  Qed.
  Lemma world_move h vs ls i j v w l : world h vs ls -> i <> j -> vs !! i = Some v -> m_data v = None -> vs !! j = Some w -> ls !! j = Some l ->
    world h (<[j := empty_vec]> (<[i := w]> vs)) (<[j := []]> (<[i := l]> ls)).
  Proof.
    intros (W1 & W2 & W3 & W4) Hn Hv Ev Hw Hl. pose proof (lookup_lt_Some _ _ _ Hv) as Hi. pose proof (lookup_lt_Some _ _ _ Hw) as Hj.
    assert (X : forall k u, <[j := empty_vec]> (<[i := w]> vs) !! k = Some u -> (k = j /\ u = empty_vec) \/ (k = i /\ u = w) \/ (k <> i /\ k <> j /\ vs !! k = Some u)).
    { intros k u Hu. destruct (decide (k = j)) as [->|Hnj]; [rewrite list_lookup_insert in Hu by (by rewrite insert_length); left; split; congruence|]. rewrite list_lookup_insert_ne in Hu by congruence.
      destruct (decide (k = i)) as [->|Hni]; [rewrite list_lookup_insert in Hu by done; right; left; split; congruence|]. rewrite list_lookup_insert_ne in Hu by congruence. by right; right. }
    split; [by rewrite !insert_length|]. split; [|split].
    - intros k u l' Hu Hl'. destruct (X k u Hu) as [[-> ->]|[[-> ->]|(Hni & Hnj & Hk)]].
      + rewrite list_lookup_insert in Hl' by (rewrite insert_length; lia). injection Hl' as <-. done.
      + rewrite list_lookup_insert_ne, list_lookup_insert in Hl' by (congruence || lia). injection Hl' as <-. by eapply W2.
      + rewrite !list_lookup_insert_ne in Hl' by congruence. by eapply W2.
    - intros k k' u u' p Hu Hu' E1 E2. destruct (X k u Hu) as [[-> ->]|[[-> ->]|(Hni & Hnj & Hk)]]; [done| |]; (destruct (X k' u' Hu') as [[-> ->]|[[-> ->]|(Hni' & Hnj' & Hk')]]; [done| |]); [done|by destruct (Hnj' (W3 k' j u' w p Hk' Hw E2 E1))|by destruct (Hnj (W3 k j u w p Hk Hw E1 E2))|by eapply W3].
    - intros p c Hp. destruct (W4 p c Hp) as (k & u & Hk & Ek). destruct (decide (k = j)) as [->|Hnj].
      + exists i, w. split; [|congruence]. rewrite list_lookup_insert_ne by congruence. by apply list_lookup_insert.
      + exists k, u. split; [|done]. rewrite list_lookup_insert_ne by congruence. rewrite list_lookup_insert_ne; [done|]. intros <-. congruence.
  Qed.

  Lemma update_ok f h vs ls i l l' : world h vs ls -> ls !! i = Some l -> (forall v, owns h v l -> exists h' v', f v h = Ok (h', v') /\ owns h' v' l' /\ frame h h' (m_data v) (m_data v')) ->
    exists h' vs', update f i (h, vs) = Ok (h', vs') /\ world h' vs' (<[i := l']> ls).
  Proof.
    intros W Hl Hf. destruct (world_get' h vs ls i l W Hl) as (v & Hv & Ho). destruct (Hf v Ho) as (h' & v' & E & H1 & F). unfold update. cbn [fst snd]. rewrite (rd_ok _ _ _ Hv), bind_ok, E, bind_ok. eexists _, _. split; [done|]. by eapply world_update.
  Qed.
  Lemma add_ok r h vs ls l : world h vs ls -> (exists h' v', r = Ok (h', v') /\ owns h' v' l /\ frame h h' None (m_data v')) -> exists h' vs', add r vs = Ok (h', vs') /\ world h' vs' (ls ++ [l]).
  Proof. intros W (h' & v' & -> & H1 & F). unfold add. rewrite bind_ok. eexists _, _. split; [done|]. by eapply world_add. Qed.
  Lemma exec_ok o h vs ls ls' : world h vs ls -> seq_step o ls = Some ls' -> match o with PushOwn _ _ => False | _ => True end -> exists h' vs', exec o (h, vs) = Ok (h', vs') /\ world h' vs' ls'.
  Proof.
    intros W Hs Hno. destruct o as [n x|l|i|i|i j|i x|i j|i|i|i n]; cbn [exec seq_step fst snd] in *.
    - injection Hs as <-. apply (add_ok _ h vs ls); [done|]. pose proof (make_ok (fun _ _ => Ok x) (replicate n x) h) as G. rewrite replicate_length in G. apply G. intros i y c Hy. apply lookup_replicate in Hy as [-> _]. done.
    - injection Hs as <-. apply (add_ok _ h vs ls); [done|]. unfold make_list. apply make_ok. intros i y c Hy. by apply rd_ok.
    - destruct (ls !! i) as [l|] eqn:El; [|done]. injection Hs as <-. destruct (world_get' h vs ls i l W El) as (w & Hw & Ho). rewrite (rd_ok _ _ _ Hw), bind_ok. apply (add_ok _ h vs ls); [done|]. unfold make_copy.
      unfold owns in Ho. destruct (m_data w) as [p|] eqn:E.
      + destruct Ho as (H1 & H2 & H3). rewrite H2. apply make_ok. intros k y c Hy. unfold get. rewrite E. eapply load_ok; [|by apply full_get]. by apply lookup_app_l_Some.
      + destruct Ho as (H1 & _ & ->). rewrite H1. apply (make_ok _ []). done.
    - destruct (ls !! i) as [l|] eqn:El; [|done]. injection Hs as <-. destruct (world_get' h vs ls i l W El) as (w & Hw & Ho). rewrite (rd_ok _ _ _ Hw), bind_ok. eexists _, _. split; [done|]. cbn [move_construct fst snd].
      pose proof (lookup_lt_Some _ _ _ Hw) as Hi. assert (E1 : length vs = length ls) by apply W.
      pose proof (world_move h (vs ++ [empty_vec]) (ls ++ [[]]) (length vs) i empty_vec w l (world_empty _ _ _ W)) as G.
      rewrite insert_app_r_alt, Nat.sub_diag in G by done. rewrite (insert_app_r_alt ls) in G by lia. replace (length vs - length ls) with 0 in G by lia. cbn [insert list_insert] in G. rewrite !insert_app_l in G by lia. apply G; [lia|rewrite lookup_app_r by done; by rewrite Nat.sub_diag|done|by apply lookup_app_l_Some|by apply lookup_app_l_Some].
    - destruct (ls !! i) as [l0|] eqn:Ei; [|done]. destruct (ls !! j) as [l|] eqn:Ej; [|done]. injection Hs as <-. destruct (world_get' h vs ls i l0 W Ei) as (v & Hv & Hvo). destruct (world_get' h vs ls j l W Ej) as (w & Hw & Ho).
      rewrite (rd_ok _ _ _ Hv), bind_ok, (rd_ok _ _ _ Hw), bind_ok. destruct (Nat.eqb_spec i j) as [->|Hn]; [rewrite decide_True by done; eauto|]. rewrite decide_False by done. unfold move_assign.
      destruct (clear_ok v l0 h Hvo) as (h1 & v1 & -> & H1 & E1 & F1). rewrite bind_ok. cbn [fst snd]. destruct (deallocate_vec_ok v1 h1 H1) as (h2 & -> & F2). rewrite !bind_ok. eexists _, _. split; [done|]. cbn [fst snd].
      assert (W2 : world h2 (<[i := empty_vec]> vs) (<[i := []]> ls)) by (apply (world_update h vs ls i v); [done|done|by eapply frame_trans|done]).
      pose proof (world_move h2 _ _ i j empty_vec w l W2 Hn) as G. rewrite !list_insert_insert in G. apply G; [apply list_lookup_insert; by eapply lookup_lt_Some|done|by rewrite list_lookup_insert_ne|by rewrite list_lookup_insert_ne].
    - destruct (ls !! i) as [l|] eqn:El; [|done]. injection Hs as <-. apply (update_ok _ h vs ls i l); [done|done|]. intros v Ho. unfold push_value. by apply emplace_back_ok.
    - done.
    - destruct (ls !! i) as [l|] eqn:El; [|done]. cbn in Hs. destruct (last l) as [x|] eqn:Ex; [|done]. injection Hs as <-. apply last_Some in Ex as [l0 ->]. rewrite removelast_last. apply (update_ok _ h vs ls i (l0 ++ [x])); [done|done|]. intros v Ho. by eapply pop_back_ok.
    - destruct (ls !! i) as [l|] eqn:El; [|done]. injection Hs as <-. apply (update_ok _ h vs ls i l); [done|done|]. intros v Ho. destruct (clear_ok v l h Ho) as (h' & v' & H1 & H2 & _ & H3). eauto.
    - destruct (ls !! i) as [l|] eqn:El; [|done]. injection Hs as <-. rewrite <- (list_insert_id ls i l El). apply (update_ok _ h vs ls i l); [done|done|]. intros v Ho. unfold reserve. destruct (Nat.ltb_spec (m_capacity v) n) as [Hlt|Hge].
      + destruct (reallocate_ok n v l h Ho) as (h' & v' & H1 & H2 & _ & _ & H3); [|eauto]. unfold owns in Ho. destruct (m_data v); [destruct Ho as (_ & ? & ?); lia|]. destruct Ho as (_ & _ & ->). cbn. lia.
      + exists h, v. split; [done|]. split; [done|]. apply frame_id. intros p Ep. unfold owns in Ho. rewrite Ep in Ho. destruct Ho as (-> & _). done.
  Qed.
  Lemma world_tail h v vs l ls h' : world h (v :: vs) (l :: ls) -> frame h h' (m_data v) None -> world h' vs ls.
  Proof.
    intros (W1 & W2 & W3 & W4) F. pose proof F as (F1 & F2 & F3 & F4). split; [by injection W1|]. split; [|split].
    - intros i w l' Hw Hl. eapply owns_frame; [by apply (W2 (S i) w l')|exact F|]. intros p Ep E. by pose proof (W3 (S i) 0 w v p Hw eq_refl Ep E).
    - intros i j w w' p Hw Hw' E1 E2. by pose proof (W3 (S i) (S j) w w' p Hw Hw' E1 E2) as [= ->].
    - intros p c Hp. destruct (F3 p c Hp) as [?|[Hp' Hd]]; [done|]. destruct (W4 p c Hp') as ([|k] & w & Hk & Ek); [cbn in Hk; congruence|]. by exists k, w.
  Qed.
  Lemma finish_ok h vs ls : world h vs ls -> exists h', finish (h, vs) = Ok h' /\ Forall (fun b => b = None) h'.
  Proof.
    unfold finish. cbn [fst snd]. revert h ls. induction vs as [|v vs IH]; intros h ls W; cbn [for_each].
    - exists h. split; [done|]. apply Forall_lookup. intros p [c|] Hp; [|done]. destruct W as (_ & _ & _ & W4). destruct (W4 p c Hp) as (k & w & Hk & _). done.
    - destruct ls as [|l ls]; [by destruct W|]. assert (Ho : owns h v l) by (destruct W as (_ & W2 & _); by apply (W2 0)). destruct (destructor_ok v l h Ho) as (h' & -> & F). rewrite bind_ok. apply (IH h' ls). by eapply world_tail.
  Qed.
  Lemma read_ok h v l : owns h v l -> read_all v h = Ok l.
  Proof.
    unfold owns, read_all, get. destruct (m_data v) as [p|]; [|intros (-> & _ & ->); done]. intros (H1 & -> & _).
    assert (G : forall r k, drop k l = r -> map_res (fun i => load p i h) (seq k (length r)) = Ok r); [|by apply G].
    induction r as [|x r IH]; intros k Hd; [done|]. cbn [length seq map_res]. assert (Hx : l !! k = Some x) by (replace k with (k + 0) by lia; rewrite <- lookup_drop, Hd; done).
    rewrite (load_ok _ _ _ _ _ H1 (full_get _ _ _ _ Hx)), bind_ok, IH; [done|]. replace (S k) with (k + 1) by lia. by rewrite <- drop_drop, Hd.
  Qed.
End operations.
