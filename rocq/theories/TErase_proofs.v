From Verif Require Import Base TErase_model TErase_spec.

Section proofs.
  Context {V : Type} (mv : V -> V).
  Notation theap := (list (option V)).
  Notation erased := (erased V).
  Notation tval := (tval V).
  Definition ptr (e : erased) : option nat := match special e, buf e with Some false, BPtr (Some p) => Some p | _, _ => None end.
  Definition refers (h : theap) (e : erased) (x : tval) : Prop :=
    match x with
    | VEmpty => special e = None /\ forall v, buf e <> BObj v
    | VSmall v => e = mk_te (Some true) (Some true) (BObj v)
    | VLarge None => e = mk_te (Some false) (Some false) (BPtr None)
    | VLarge (Some v) => exists p, e = mk_te (Some false) (Some false) (BPtr (Some p)) /\ h !! p = Some (Some v)
    end.
  Record good (h : theap) (os : list erased) (vs : list tval) : Prop := {
    g_len : length os = length vs;
    g_ref : forall i a v, os !! i = Some a -> vs !! i = Some v -> refers h a v;
    g_diff : forall i j a b p, os !! i = Some a -> os !! j = Some b -> ptr a = Some p -> ptr b = Some p -> i = j;
    g_live : forall p b, h !! p = Some (Some b) -> exists i a, os !! i = Some a /\ ptr a = Some p }.
  Lemma refers_block h a x p : refers h a x -> ptr a = Some p -> exists v, h !! p = Some (Some v).
  Proof.
    destruct x as [|v|[v|]]; cbn [refers].
    - intros [E _] P. unfold ptr in P. by rewrite E in P.
    - intros -> P. done.
    - intros (q & -> & Hq) P. injection P as <-. by exists v.
    - intros -> P. done.
  Qed.
  Lemma good_block h os vs i a p : good h os vs -> os !! i = Some a -> ptr a = Some p -> exists v, h !! p = Some (Some v).
  Proof.
    intros G Hi P. destruct (lookup_lt_is_Some_2 vs i) as [v Hv]; [rewrite <- (g_len _ _ _ G); by eapply lookup_lt_Some|].
    eapply refers_block; [by eapply (g_ref _ _ _ G)|done].
  Qed.
  Lemma refers_frame h h' a x : refers h a x -> (forall p v, ptr a = Some p -> h !! p = Some v -> h' !! p = Some v) -> refers h' a x.
  Proof.
    intros R F. destruct x as [|v|[v|]]; try exact R. destruct R as (p & -> & Hp). exists p. split; [done|]. by apply F.
  Qed.
  Lemma snoc_inv {A} (l : list A) x i y : (l ++ [x]) !! i = Some y -> (l !! i = Some y /\ i < length l) \/ (i = length l /\ y = x).
  Proof.
    intros H. apply lookup_app_Some in H as [H|[L H]]; [left; split; [done|by eapply lookup_lt_Some]|].
    apply list_lookup_singleton_Some in H as [Z <-]. right. split; [lia|done].
  Qed.
  (** One object more that has no block. *)
  Lemma good_plain h os vs e x : good h os vs -> refers h e x -> ptr e = None -> good h (os ++ [e]) (vs ++ [x]).
  Proof.
    intros [A B C D] R P. split.
    - rewrite (app_length os), (app_length vs), A. done.
    - intros i a v Ha Hv. apply snoc_inv in Ha as [[Ha L]|[-> ->]].
      + rewrite lookup_app_l in Hv by lia. by eapply B.
      + rewrite lookup_app_r, A, Nat.sub_diag in Hv by lia. injection Hv as <-. done.
    - intros i j a b p Hi Hj Pa Pb. apply snoc_inv in Hi as [[Hi _]|[_ ->]]; [|congruence]. apply snoc_inv in Hj as [[Hj _]|[_ ->]]; [|congruence]. by eapply C.
    - intros p b Hp. destruct (D p b Hp) as (i & a & Hi & Pa). exists i, a. split; [by apply lookup_app_l_Some|done].
  Qed.
  Lemma good_large h os vs v : good h os vs ->
    good (h ++ [Some v]) (os ++ [mk_te (Some false) (Some false) (BPtr (Some (length h)))]) (vs ++ [VLarge (Some v)]).
  Proof.
    intros G. assert (Bd : forall i a p, os !! i = Some a -> ptr a = Some p -> p < length h).
    { intros i a p Hi P. destruct (good_block h os vs i a p G Hi P) as (x & Hx). by eapply lookup_lt_Some. }
    destruct G as [A B C D]. split.
    - rewrite (app_length os), (app_length vs), A. done.
    - intros i a x Ha Hx. apply snoc_inv in Ha as [[Ha L]|[-> ->]].
      + rewrite lookup_app_l in Hx by lia. apply (refers_frame h); [by eapply B|]. intros p y _ Hy. by apply lookup_app_l_Some.
      + rewrite lookup_app_r, A, Nat.sub_diag in Hx by lia. injection Hx as <-. exists (length h). split; [done|]. rewrite lookup_app_r by done. by rewrite Nat.sub_diag.
    - intros i j a b p Hi Hj Pa Pb. apply snoc_inv in Hi as [[Hi _]|[-> ->]]; apply snoc_inv in Hj as [[Hj _]|[-> ->]].
      + by eapply C.
      + injection Pb as <-. pose proof (Bd _ _ _ Hi Pa). lia.
      + injection Pa as <-. pose proof (Bd _ _ _ Hj Pb). lia.
      + done.
    - intros p b Hp. apply snoc_inv in Hp as [[Hp _]|[-> _]].
      + destruct (D p b Hp) as (i & a & Hi & Pa). exists i, a. split; [by apply lookup_app_l_Some|done].
      + exists (length os). eexists. split; [rewrite lookup_app_r by done; by rewrite Nat.sub_diag|done].
  Qed.
  (** Destroying the target of one object. *)
  Lemma dtor_ok h os vs i a : good h os vs -> os !! i = Some a ->
    exists h' a', te_dtor a h = Ok (h', a') /\ (forall v, buf a' <> BObj v) /\
      (forall k b v, k <> i -> os !! k = Some b -> vs !! k = Some v -> refers h' b v) /\
      (forall p b, h' !! p = Some (Some b) -> exists k c, k <> i /\ os !! k = Some c /\ ptr c = Some p).
  Proof.
    intros G Hi. destruct (lookup_lt_is_Some_2 vs i) as [x Hx]; [rewrite <- (g_len _ _ _ G); by eapply lookup_lt_Some|].
    pose proof (g_ref _ _ _ G i a x Hi Hx) as R.
    assert (Same : ptr a = None -> (forall k b v, k <> i -> os !! k = Some b -> vs !! k = Some v -> refers h b v) /\
      (forall p b, h !! p = Some (Some b) -> exists k c, k <> i /\ os !! k = Some c /\ ptr c = Some p)).
    { intros P. split; [intros k b v _ Hb Hv; by eapply (g_ref _ _ _ G)|].
      intros q b Hq. destruct (g_live _ _ _ G q b Hq) as (k & c & Hk & Pc). exists k, c. split; [|done]. intros ->. congruence. }
    destruct x as [|v|[v|]]; cbn [refers] in R.
    - destruct R as [R1 R2]. unfold te_dtor. rewrite R1. exists h, a. split; [done|]. split; [done|]. apply Same. unfold ptr. by rewrite R1.
    - subst a. exists h, (mk_te (Some true) (Some true) BNone). split; [done|]. split; [done|]. by apply Same.
    - destruct R as (p & -> & Hp). unfold te_dtor. cbn [special buf te_destroy_target]. rewrite (rd_ok _ _ _ Hp), bind_ok.
      pose proof (lookup_lt_Some _ _ _ Hp) as Lp. rewrite (wr_ok h p None Lp), !bind_ok. cbn [fst snd]. eexists _, _. split; [done|]. split; [done|]. split.
      + intros k b u Hk Hb Hu. apply (refers_frame h); [by eapply (g_ref _ _ _ G)|]. intros q y Pq Hy.
        rewrite list_lookup_insert_ne; [done|]. intros <-. apply Hk. by eapply (g_diff _ _ _ G).
      + intros q b Hq. destruct (decide (p = q)) as [->|N]; [rewrite list_lookup_insert in Hq by done; done|].
        rewrite list_lookup_insert_ne in Hq by done. destruct (g_live _ _ _ G q b Hq) as (k & c & Hk & Pc).
        exists k, c. split; [|done]. intros ->. rewrite Hi in Hk. injection Hk as <-. injection Pc as ->. done.
    - subst a. exists h, (mk_te (Some false) (Some false) (BPtr None)). split; [done|]. split; [done|]. by apply Same.
  Qed.
  (** Moving a target. *)
  Lemma move_target_ok h e o x : refers h o x -> (forall v, buf e <> BObj v) ->
    exists e' o', te_move mv e o = Ok (e', o') /\ refers h e' x /\ refers h o' (left_over mv x) /\ ptr e' = ptr o /\ ptr o' = None.
  Proof.
    intros R N. unfold te_move. destruct x as [|v|[v|]]; cbn [refers] in R.
    - destruct R as [R1 R2]. rewrite R1. eexists _, _. split; [done|]. repeat split; cbn; try done; unfold ptr; by rewrite R1.
    - subst o. cbn [special buf te_move_target]. destruct (buf e) as [|w|q] eqn:E; [|by destruct (N w)|]; rewrite bind_ok; by eexists _, _.
    - destruct R as (p & -> & Hp). cbn [special buf te_move_target]. destruct (buf e) as [|w|q] eqn:E; [|by destruct (N w)|]; rewrite bind_ok; eexists _, _; (split; [done|]); repeat split; by exists p.
    - subst o. cbn [special buf te_move_target]. destruct (buf e) as [|w|q] eqn:E; [|by destruct (N w)|]; rewrite bind_ok; by eexists _, _.
  Qed.
  Lemma assign_ok h os vs i j w x : good h os vs -> vs !! i = Some w -> vs !! j = Some x ->
    exists h' os', te_assign mv i j (h, os) = Ok (h', os') /\ good h' os' (if decide (i = j) then vs else <[j := left_over mv x]> (<[i := x]> vs)).
  Proof.
    intros G Hi Hj. pose proof (g_len _ _ _ G) as L. pose proof (lookup_lt_Some _ _ _ Hi) as Li. pose proof (lookup_lt_Some _ _ _ Hj) as Lj.
    destruct (lookup_lt_is_Some_2 os i) as [a Ha]; [lia|]. destruct (lookup_lt_is_Some_2 os j) as [b Hb]; [lia|].
    unfold te_assign. cbn [fst snd]. rewrite (rd_ok _ _ _ Ha), bind_ok, (rd_ok _ _ _ Hb), bind_ok.
    case_decide as E; [subst j; rewrite Nat.eqb_refl; by exists h, os|]. rewrite (proj2 (Nat.eqb_neq i j) E).
    destruct (dtor_ok h os vs i a G Ha) as (h' & a' & -> & NB & R & Lv). rewrite bind_ok. cbn [fst snd].
    destruct (move_target_ok h' a' b x) as (e' & o' & -> & Re & Ro & Pe & Po); [by apply (R j); [congruence|done|done]|done|].
    rewrite bind_ok. cbn [fst snd]. eexists _, _. split; [done|].
    assert (X : forall k c, <[j := o']> (<[i := e']> os) !! k = Some c ->
      (k = j /\ c = o') \/ (k = i /\ k <> j /\ c = e') \/ (k <> i /\ k <> j /\ os !! k = Some c)).
    { intros k c Hc. destruct (decide (k = j)) as [->|Nj]; [left; rewrite list_lookup_insert in Hc by (rewrite insert_length; lia); split; congruence|].
      rewrite list_lookup_insert_ne in Hc by done. right. destruct (decide (k = i)) as [->|Ni]; [left; rewrite list_lookup_insert in Hc by lia; repeat split; congruence|].
      rewrite list_lookup_insert_ne in Hc by done. by right. }
    split.
    - rewrite (insert_length (<[i := e']> os)), (insert_length os), (insert_length (<[i := x]> vs)), (insert_length vs). exact L.
    - intros k c u Hc Hu. destruct (X k c Hc) as [[-> ->]|[(-> & Nj & ->)|(Ni & Nj & Hk)]].
      + rewrite list_lookup_insert in Hu by (rewrite insert_length; lia). injection Hu as <-. done.
      + rewrite list_lookup_insert_ne in Hu by done. rewrite list_lookup_insert in Hu by lia. injection Hu as <-. done.
      + rewrite list_lookup_insert_ne in Hu by done. rewrite list_lookup_insert_ne in Hu by done. by apply (R k c u).
    - intros k k' c d p Hk Hk' Pc Pd. destruct (X k _ Hk) as [[_ ->]|[(-> & Nj & ->)|(Ni & Nj & Hk1)]]; [congruence| |];
        destruct (X k' _ Hk') as [[_ ->]|[(-> & Nj' & ->)|(Ni' & Nj' & Hk1')]]; try congruence.
      + exfalso. apply Nj'. eapply (g_diff _ _ _ G); [exact Hk1'|exact Hb|exact Pd|congruence].
      + exfalso. apply Nj. eapply (g_diff _ _ _ G); [exact Hk1|exact Hb|exact Pc|congruence].
      + by eapply (g_diff _ _ _ G).
    - intros p y Hp. destruct (Lv p y Hp) as (k & c & Nk & Hk & Pc). destruct (decide (k = j)) as [->|Nj].
      + exists i, e'. split; [rewrite list_lookup_insert_ne by done; by rewrite list_lookup_insert by lia|congruence].
      + exists k, c. split; [rewrite list_lookup_insert_ne by done; by rewrite list_lookup_insert_ne by done|done].
  Qed.
  Lemma good_default h os vs : good h os vs -> good h (os ++ [te_default]) (vs ++ [VEmpty]).
  Proof. intros G. by apply good_plain. Qed.
  Lemma tstep_ok o h os vs vs' : good h os vs -> tvstep mv o vs = Some vs' -> exists h' os', tstep mv o (h, os) = Ok (h', os') /\ good h' os' vs'.
  Proof.
    intros G H. pose proof (g_len _ _ _ G) as L. destruct o as [|small v|i|i j]; cbn [tvstep tstep fst snd] in *.
    - injection H as <-. eexists _, _. split; [done|]. by apply good_default.
    - injection H as <-. eexists _, _. split; [done|]. destruct small; cbn; [by apply good_plain|by apply good_large].
    - destruct (vs !! i) as [x|] eqn:E; try done. injection H as <-. pose proof (lookup_lt_Some _ _ _ E) as Li.
      destruct (assign_ok h (os ++ [te_default]) (vs ++ [VEmpty]) (length os) i VEmpty x) as (h' & os' & X & G').
      + by apply good_default.
      + rewrite lookup_app_r by lia. by rewrite L, Nat.sub_diag.
      + by apply lookup_app_l_Some.
      + exists h', os'. split; [exact X|]. rewrite decide_False in G' by lia.
        rewrite (insert_app_r_alt vs) in G' by lia. rewrite L, Nat.sub_diag in G'. cbn in G'. by rewrite insert_app_l in G'.
    - destruct (vs !! i) as [w|] eqn:Ei; [|done]. destruct (vs !! j) as [x|] eqn:Ej; [|done].
      destruct (assign_ok h os vs i j w x G Ei Ej) as (h' & os' & X & G'). exists h', os'. split; [exact X|]. case_decide; by injection H as <-.
  Qed.
  Lemma tsteps_ok l : forall h os vs vs', good h os vs -> tvsteps mv l vs = Some vs' -> exists h' os', for_each (tstep mv) l (h, os) = Ok (h', os') /\ good h' os' vs'.
  Proof.
    induction l as [|o l IH]; intros h os vs vs' G H; cbn [tvsteps for_each] in *; [injection H as <-; eauto|].
    destruct (tvstep mv o vs) as [vs1|] eqn:E; [|done]. destruct (tstep_ok o h os vs vs1 G E) as (h1 & os1 & -> & G1). rewrite bind_ok. by apply (IH h1 os1 vs1).
  Qed.
  Lemma tdestroy_ok os : forall h vs, good h os vs -> exists h', for_each (fun e h => r ← te_dtor e h; Ok r.1) os h = Ok h' /\ forall p b, h' !! p <> Some (Some b).
  Proof.
    induction os as [|a os IH]; intros h vs G; cbn [for_each].
    - exists h. split; [done|]. intros p b Hp. destruct (g_live _ _ _ G p b Hp) as (i & n & Hi & _). by rewrite lookup_nil in Hi.
    - destruct vs as [|v vs]; [by pose proof (g_len _ _ _ G)|]. destruct (dtor_ok h (a :: os) (v :: vs) 0 a G eq_refl) as (h' & a' & -> & _ & R & Lv).
      rewrite !bind_ok. cbn [fst]. apply (IH h' vs). split.
      + pose proof (g_len _ _ _ G) as L. by injection L.
      + intros i b u Hb Hu. by apply (R (S i) b u).
      + intros i j b c p Hi Hj Pb Pc. by pose proof (g_diff _ _ _ G (S i) (S j) b c p Hi Hj Pb Pc) as [= ->].
      + intros p b Hp. destruct (Lv p b Hp) as ([|k] & c & Nk & Hk); [done|]. by exists k, c.
  Qed.
  Lemma call_ok h e x v : refers h e x -> target x = Some v -> te_call e h = Ok v.
  Proof.
    destruct x as [|u|[u|]]; cbn [refers target]; intros R [= <-].
    - by subst e.
    - destruct R as (p & -> & Hp). unfold te_call. cbn [invoker buf]. by rewrite (rd_ok _ _ _ Hp).
  Qed.
  Lemma good_empty : good [] [] [].
  Proof. split; [done|intros i a v H; by rewrite lookup_nil in H|intros i j a b p H; by rewrite lookup_nil in H|intros p b H; by rewrite lookup_nil in H]. Qed.
End proofs.
