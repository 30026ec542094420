(** Counting live blocks. *)
From Verif Require Import Base CVec_model CVec_proofs UPtr_model UPtr_spec.

Lemma unfreed_app {A} (h h' : list (option A)) : unfreed (h ++ h') = unfreed h + unfreed h'.
Proof. unfold unfreed. by rewrite filter_app, app_length. Qed.
Lemma unfreed_nil {A} : unfreed (@nil (option A)) = 0.
Proof. done. Qed.
Definition one {A} (b : option A) : nat := match b with Some _ => 1 | None => 0 end.
Lemma unfreed_cons {A} (b : option A) h : unfreed (b :: h) = one b + unfreed h.
Proof. unfold unfreed. destruct b as [a|]; [rewrite filter_cons_True by (by exists a); done|rewrite filter_cons_False by (intros [? ?]; done); done]. Qed.
Lemma unfreed_insert {A} (h : list (option A)) p b b' : h !! p = Some b -> unfreed (<[p := b']> h) + one b = unfreed h + one b'.
Proof.
  revert p. induction h as [|c h IH]; intros [|p] Hp; cbn in Hp; [done|done| |].
  - injection Hp as ->. cbn [insert list_insert]. rewrite !unfreed_cons. lia.
  - change (<[S p := b']> (c :: h)) with (c :: <[p := b']> h). rewrite !unfreed_cons. pose proof (IH p Hp). lia.
Qed.

Section pointers.
  Context {T : Type}.
  Notation heap := (list (option (list (option T)))).
  Definition refers (h : heap) (p : option nat) (v : option T) : Prop :=
    match p, v with Some p, Some x => h !! p = Some (Some [Some x]) | None, None => True | _, _ => False end.
  Record good (h : heap) (ps : list (option nat)) (vs : list (option T)) (k : nat) : Prop := {
    g_len : length ps = length vs;
    g_ref : forall i p v, ps !! i = Some p -> vs !! i = Some v -> refers h p v;
    g_diff : forall i j p, ps !! i = Some (Some p) -> ps !! j = Some (Some p) -> i = j;
    g_count : unfreed h = unfreed ps + k }.
  Lemma refers_one h p v : refers h p v -> one p = one v.
  Proof. by destruct p, v. Qed.
  Lemma lookup_snoc {A} (l : list A) (x y : A) i : (l ++ [x]) !! i = Some y -> l !! i = Some y \/ (i = length l /\ x = y).
  Proof. intros H. apply lookup_app_Some in H as [H|[Hl H]]; [by left|]. apply list_lookup_singleton_Some in H as [H ->]. right. split; [lia|done]. Qed.
  Lemma good_make h ps vs k x : good h ps vs k -> exists h' p, make_unique x h = Ok (h', p) /\ good h' (ps ++ [p]) (vs ++ [Some x]) k.
  Proof.
    intros [G1 G2 G3 G4]. unfold make_unique, allocate. cbv zeta. cbn [fst snd].
    assert (L : (h ++ [Some (replicate 1 (@None T))]) !! length h = Some (Some [None])) by (rewrite lookup_app_r by done; by rewrite Nat.sub_diag).
    rewrite (construct_at_ok _ _ _ 0 x L) by done. rewrite bind_ok. assert (E : <[length h := Some (<[0 := Some x]> [None])]> (h ++ [Some (replicate 1 (@None T))]) = h ++ [Some [Some x]]) by (rewrite insert_app_r_alt by done; by rewrite Nat.sub_diag).
    rewrite E. eexists _, _. split; [done|].
    assert (Hlt : forall i p, ps !! i = Some (Some p) -> p < length h). { intros i p Hi. destruct (lookup_lt_is_Some_2 vs i) as [v Hv]; [rewrite <- G1; by eapply lookup_lt_Some|]. pose proof (G2 i _ v Hi Hv) as R. destruct v; [|done]. by eapply lookup_lt_Some. }
    split.
    - rewrite !app_length. cbn. lia.
    - intros i p v Hp Hv. destruct (lookup_snoc ps _ _ _ Hp) as [Hp'|[-> <-]].
      + rewrite lookup_app_l in Hv by (rewrite <- G1; by eapply lookup_lt_Some). pose proof (G2 i p v Hp' Hv) as R. destruct p as [p|], v as [v|]; try done. cbn in *. by apply lookup_app_l_Some.
      + rewrite G1, lookup_app_r, Nat.sub_diag in Hv by done. injection Hv as <-. cbn. rewrite lookup_app_r by done. by rewrite Nat.sub_diag.
    - intros i j p Hi Hj. destruct (lookup_snoc ps _ _ _ Hi) as [Hi'|[-> [= <-]]], (lookup_snoc ps _ _ _ Hj) as [Hj'|[-> E2]]; [by eapply G3|injection E2 as <-; pose proof (Hlt _ _ Hi'); lia|pose proof (Hlt _ _ Hj'); lia|done].
    - rewrite (unfreed_app h), (unfreed_app ps), G4, !unfreed_cons, (@unfreed_nil nat), (@unfreed_nil (list (option T))). unfold one. lia.
  Qed.
  (** The pointers [ps'] are pointers of [ps] at other places. *)
  Lemma good_reindex (f : nat -> nat) h ps vs k ps' vs' k' : good h ps vs k -> length ps' = length vs' ->
    (forall i p v, ps' !! i = Some p -> vs' !! i = Some v -> (p = None /\ v = None) \/ (ps !! f i = Some p /\ vs !! f i = Some v)) ->
    (forall i j p q, ps' !! i = Some (Some p) -> ps' !! j = Some (Some q) -> f i = f j -> i = j) -> unfreed ps' + k' = unfreed ps + k -> good h ps' vs' k'.
  Proof.
    intros [G1 G2 G3 G4] Hl Hf Hinj Hc. split; [done| | |lia].
    - intros i p v Hp Hv. destruct (Hf i p v Hp Hv) as [[-> ->]|[Hp' Hv']]; [done|by eapply G2].
    - intros i j p Hi Hj. assert (X : forall i, ps' !! i = Some (Some p) -> ps !! f i = Some (Some p)). { intros i' Hi'. destruct (lookup_lt_is_Some_2 vs' i') as [v Hv]; [rewrite <- Hl; by eapply lookup_lt_Some|]. by destruct (Hf i' _ v Hi' Hv) as [[? _]|[? _]]. }
      eapply Hinj; [exact Hi|exact Hj|]. eapply G3; by apply X.
  Qed.
  Lemma good_move h ps vs k i p v : good h ps vs k -> ps !! i = Some p -> vs !! i = Some v -> good h (<[i := None]> ps ++ [p]) (<[i := None]> vs ++ [v]) k.
  Proof.
    intros G Hp Hv. pose proof (lookup_lt_Some _ _ _ Hp) as Hi. pose proof (g_len _ _ _ _ G) as GL.
    apply (good_reindex (fun x => if decide (x = length ps) then i else x) h ps vs k); [done|rewrite (app_length (<[i := None]> ps)), (app_length (<[i := None]> vs)), (insert_length ps), (insert_length vs); cbn [length]; lia| | |].
    - intros x q w Hq Hw. destruct (lookup_snoc _ _ _ _ Hq) as [Hq'|[-> <-]].
      + pose proof (lookup_lt_Some _ _ _ Hq') as Hx. rewrite insert_length in Hx. rewrite lookup_app_l in Hw by (rewrite insert_length; lia). destruct (decide (x = i)) as [->|Hn].
        * rewrite list_lookup_insert in Hq' by lia; rewrite list_lookup_insert in Hw by lia. left. split; congruence.
        * rewrite list_lookup_insert_ne in Hq' by congruence; rewrite list_lookup_insert_ne in Hw by congruence. right. rewrite decide_False by lia. done.
      + rewrite insert_length in Hw |- *. rewrite lookup_app_r, insert_length in Hw by (rewrite insert_length; lia). replace (length ps - length vs) with 0 in Hw by lia. injection Hw as <-. right. rewrite decide_True by done. done.
    - intros x y q r Hq Hr E. assert (X : forall x q, (<[i := None]> ps ++ [p]) !! x = Some (Some q) -> x <> i). { intros x' q' Hx' ->. rewrite lookup_app_l, list_lookup_insert in Hx' by (rewrite ?insert_length; lia). done. } pose proof (X x q Hq). pose proof (X y r Hr). repeat case_decide; lia.
    - rewrite unfreed_app. pose proof (unfreed_insert ps i p None Hp) as U. rewrite unfreed_cons, unfreed_nil. cbn [one] in U. lia.
  Qed.
  Lemma good_assign h ps vs k i j q old p v : good h ps vs k -> i <> j -> ps !! i = Some q -> vs !! i = Some old -> ps !! j = Some p -> vs !! j = Some v ->
    good h (<[j := None]> (<[i := p]> ps)) (<[j := None]> (<[i := v]> vs)) (k + one old).
  Proof.
    intros G Hn Hq Ho Hp Hv. pose proof (lookup_lt_Some _ _ _ Hq) as Hi. pose proof (lookup_lt_Some _ _ _ Hp) as Hj. pose proof (g_len _ _ _ _ G) as GL.
    apply (good_reindex (fun x => if decide (x = i) then j else x) h ps vs k); [done|rewrite (insert_length (<[i := p]> ps)), (insert_length (<[i := v]> vs)), (insert_length ps), (insert_length vs); done| | |].
    - intros x r w Hr Hw. destruct (decide (x = j)) as [->|Hxj]; [rewrite list_lookup_insert in Hr by (rewrite insert_length; lia); rewrite list_lookup_insert in Hw by (rewrite insert_length; lia); left; split; congruence|]. rewrite list_lookup_insert_ne in Hr by congruence; rewrite list_lookup_insert_ne in Hw by congruence. right.
      destruct (decide (x = i)) as [->|Hxi]; [rewrite list_lookup_insert in Hr by lia; rewrite list_lookup_insert in Hw by lia; split; congruence|]. rewrite list_lookup_insert_ne in Hr by congruence; rewrite list_lookup_insert_ne in Hw by congruence; done.
    - intros x y r r' Hr Hr' E. assert (X : forall x q, <[j := None]> (<[i := p]> ps) !! x = Some (Some q) -> x <> j). { intros x' q' Hx' ->. rewrite list_lookup_insert in Hx' by (rewrite insert_length; lia). done. } pose proof (X x r Hr). pose proof (X y r' Hr'). repeat case_decide; lia.
    - assert (Hp' : <[i := p]> ps !! j = Some p) by (by rewrite list_lookup_insert_ne). pose proof (unfreed_insert _ j p None Hp') as U1. pose proof (unfreed_insert ps i q p Hq) as U2. assert (one q = one old) by (eapply refers_one; by eapply (g_ref _ _ _ _ G)). cbn [one] in U1. lia.
  Qed.
  Lemma step_ok o h ps vs k s' : good h ps vs k -> moved o (vs, k) = Some s' -> exists h' ps', step o (h, ps) = Ok (h', ps') /\ good h' ps' s'.1 s'.2.
  Proof.
    intros G Hm. assert (X : forall i v, vs !! i = Some v -> exists p, ps !! i = Some p). { intros i v Hv. apply lookup_lt_is_Some_2. rewrite (g_len _ _ _ _ G). by eapply lookup_lt_Some. }
    destruct o as [x|i|i j]; cbn [moved step fst snd] in *.
    - injection Hm as <-. destruct (good_make h ps vs k x G) as (h' & p & -> & G'). rewrite bind_ok. eexists _, _. split; [done|]. done.
    - destruct (vs !! i) as [v|] eqn:Ev; [|done]. injection Hm as <-. destruct (X i v Ev) as [p Hp]. rewrite (rd_ok _ _ _ Hp), bind_ok. eexists _, _. split; [done|]. by apply good_move.
    - destruct (vs !! i) as [old|] eqn:Eo; [|done]. destruct (vs !! j) as [v|] eqn:Ev; [|done]. destruct (X i old Eo) as [q Hq]. destruct (X j v Ev) as [p Hp]. rewrite (rd_ok _ _ _ Hq), bind_ok, (rd_ok _ _ _ Hp), bind_ok. destruct (Nat.eqb_spec i j) as [->|Hn].
      + rewrite decide_True in Hm by done. injection Hm as <-. eexists _, _. split; [done|]. done.
      + rewrite decide_False in Hm by done. injection Hm as <-. eexists _, _. split; [done|]. by apply (good_assign h ps vs k i j q old p v).
  Qed.
  Lemma steps_ok l : forall h ps vs k s', good h ps vs k -> moves l (vs, k) = Some s' -> exists h' ps', for_each step l (h, ps) = Ok (h', ps') /\ good h' ps' s'.1 s'.2.
  Proof.
    induction l as [|o l IH]; intros h ps vs k s' G Hm; cbn [moves for_each] in *; [injection Hm as <-; eauto|]. destruct (moved o (vs, k)) as [[vs1 k1]|] eqn:E; [|done]. destruct (step_ok o h ps vs k _ G E) as (h1 & ps1 & -> & G1). rewrite bind_ok. by apply (IH h1 ps1 vs1 k1).
  Qed.
  Lemma destroy_ok ps : forall h vs k, good h ps vs k -> exists h', for_each destroy_ptr ps h = Ok h' /\ unfreed h' = k.
  Proof.
    induction ps as [|p ps IH]; intros h vs k G; cbn [for_each]; [exists h; split; [done|apply G]|]. pose proof G as [G1 G2 G3 G4]. destruct vs as [|v vs]; [done|].
    assert (D : exists h', destroy_ptr p h = Ok h' /\ good h' ps vs k); [|destruct D as (h' & -> & G'); rewrite bind_ok; by eapply IH].
    pose proof (G2 0 p v eq_refl eq_refl) as R. destruct p as [p|], v as [x|]; try done; cbn [destroy_ptr refers] in *.
    - rewrite (destroy_at_ok h p _ 0 x R) by done. rewrite bind_ok. cbn [insert list_insert]. pose proof (lookup_lt_Some _ _ _ R) as Hp. rewrite (deallocate_ok _ p 1) by (by apply list_lookup_insert). eexists. split; [done|]. rewrite list_insert_insert. split; [by injection G1| | |].
      + intros i q w Hq Hw. pose proof (G2 (S i) q w Hq Hw) as Rq. destruct q as [q|], w as [y|]; try done. cbn in *. rewrite list_lookup_insert_ne; [done|]. intros <-. by pose proof (G3 0 (S i) p eq_refl Hq).
      + intros i j q Hi Hj. by pose proof (G3 (S i) (S j) q Hi Hj) as [= ->].
      + pose proof (unfreed_insert h p _ None R) as U. rewrite unfreed_cons in G4. cbn [one] in *. lia.
    - exists h. split; [done|]. rewrite unfreed_cons in G4. split; [by injection G1|intros i q w Hq Hw; by apply (G2 (S i))|intros i j q Hi Hj; by pose proof (G3 (S i) (S j) q Hi Hj) as [= ->]|exact G4].
  Qed.
  Lemma good_nil : good [] [] [] 0.
  Proof. by split. Qed.
  Lemma deref_ok h x p : refers h p (Some x) -> deref p h = Ok x.
  Proof. destruct p as [p|]; [|done]. cbn. intros R. by apply (load_ok h p [Some x] 0 x). Qed.
End pointers.
