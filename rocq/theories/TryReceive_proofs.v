From Verif Require Import Base TryReceive_model.

Definition inside (p : pc) : bool :=
  match p with Chk2 | Tst _ | SetF | Rel _ => true | _ => false end.
Definition pending (s : tr_state) : nat :=
  match tr_holder s with
  | Some t => match tr_pcs s !! t with Some (Rel true) => 1 | _ => 0 end
  | None => 0
  end.
Record tr_inv (s : tr_state) : Prop := {
  ti_hold : forall t p, tr_pcs s !! t = Some p -> inside p = true <-> tr_holder s = Some t;
  ti_holder : forall t, tr_holder s = Some t -> is_Some (tr_pcs s !! t);
  ti_count : tr_trues s + pending s = if tr_flag s then 1 else 0;
  ti_work : forall t i, tr_pcs s !! t = Some (Tst i) -> tr_flag s = false /\ Forall (fun b => b = true) (take i (tr_arr s));
  ti_set : forall t, tr_pcs s !! t = Some SetF -> tr_flag s = false /\ all_arrived s;
  ti_flag : tr_flag s = true -> all_arrived s }.

Lemma tr_inv_init requests threads : tr_inv (tr_init requests threads).
Proof.
  assert (G : forall t p, tr_pcs (tr_init requests threads) !! t = Some p -> p = Idle).
  { intros t p H. cbn in H. apply lookup_replicate in H. apply H. }
  split; cbn.
  - intros t p H. rewrite (G _ _ H). cbn. split; discriminate.
  - discriminate.
  - reflexivity.
  - intros t i H. pose proof (G _ _ H). discriminate.
  - intros t H. pose proof (G _ _ H). discriminate.
  - discriminate.
Qed.
Lemma arrive_mono (l : list bool) i : Forall (fun b => b = true) l -> Forall (fun b => b = true) (<[i := true]> l).
Proof.
  intros H. rewrite Forall_lookup in H |- *. intros j x Hj. apply list_lookup_insert_Some in Hj.
  destruct Hj as [(_ & <- & _)|[_ Hj]]; eauto.
Qed.
Lemma arrive_take (l : list bool) i k : Forall (fun b => b = true) (take k l) -> Forall (fun b => b = true) (take k (<[i := true]> l)).
Proof.
  intros H. rewrite Forall_lookup in H |- *. intros j x Hj. apply lookup_take_Some in Hj. destruct Hj as [Hj Hk].
  apply list_lookup_insert_Some in Hj. destruct Hj as [(_ & <- & _)|[_ Hj]]; [reflexivity|].
  apply (H j). apply lookup_take_Some. auto.
Qed.

(** lookups after updating one thread *)
Lemma upd_cases (l : list pc) t p u q :
  <[t := p]> l !! u = Some q -> (u = t /\ q = p) \/ (u <> t /\ l !! u = Some q).
Proof. intros H. apply list_lookup_insert_Some in H. destruct H as [(-> & <- & _)|[H1 H2]]; auto. Qed.
Lemma upd_here (l : list pc) t p q : l !! t = Some q -> <[t := p]> l !! t = Some p.
Proof. intros H. apply list_lookup_insert. eapply lookup_lt_Some; eauto. Qed.

Lemma pend_ne s t p q : tr_pcs s !! t = Some q -> tr_holder s <> Some t ->
  match tr_holder s with Some u => match <[t := p]> (tr_pcs s) !! u with Some (Rel true) => 1 | _ => 0 end | None => 0 end
  = pending s.
Proof.
  intros Hq Hh. unfold pending. destruct (tr_holder s) as [u|]; [|reflexivity].
  rewrite list_lookup_insert_ne by congruence. reflexivity.
Qed.

Lemma tr_inv_step sp s s' : tr_inv s -> tr_step sp s s' -> tr_inv s'.
Proof.
  intros [I1 I1' I2 I3 I4 I5] H. destruct H as [i|t Ht|t Ht|t Ht Hn|t Ht Hb|t Ht|t i b Ht Hi|t i Ht Hi|t Ht|t b Ht].
  - split; cbn; auto.
    + intros t j Hp. destruct (I3 _ _ Hp). split; [assumption|apply arrive_take; assumption].
    + intros t Hp. destruct (I4 _ Hp). split; [assumption|apply arrive_mono; assumption].
    + intros Hf. apply arrive_mono, I5, Hf.
  - assert (Hh : tr_holder s <> Some t) by (intros E; apply (I1 _ _ Ht) in E; discriminate).
    split; cbn.
    + intros u p Hp. apply upd_cases in Hp. destruct Hp as [[-> ->]|[Hne Hp]]; [|apply I1; exact Hp].
      cbn. split; [discriminate|contradiction].
    + intros u Hu. destruct (I1' u Hu) as [q Hq]. rewrite list_lookup_insert_ne by congruence. eauto.
    + rewrite (pend_ne _ _ _ _ Ht Hh : pending {| tr_flag := _; tr_holder := _; tr_arr := _; tr_pcs := _; tr_trues := _; tr_late := _ |} = _). exact I2.
    + intros u j Hp. apply upd_cases in Hp. destruct Hp as [[_ E]|[_ Hp]]; [discriminate|eapply I3; eauto].
    + intros u Hp. apply upd_cases in Hp. destruct Hp as [[_ E]|[_ Hp]]; [discriminate|eapply I4; eauto].
    + exact I5.
  - assert (Hh : tr_holder s <> Some t) by (intros E; apply (I1 _ _ Ht) in E; discriminate).
    split; cbn.
    + intros u p Hp. apply upd_cases in Hp. destruct Hp as [[-> ->]|[Hne Hp]]; [|apply I1; exact Hp].
      destruct (tr_flag s); cbn; (split; [discriminate|contradiction]).
    + intros u Hu. destruct (I1' u Hu) as [q Hq]. rewrite list_lookup_insert_ne by congruence. eauto.
    + rewrite (pend_ne _ _ _ _ Ht Hh : pending (upd _ _ _) = _). exact I2.
    + intros u j Hp. apply upd_cases in Hp. destruct Hp as [[_ E]|[_ Hp]]; [destruct (tr_flag s); discriminate|eapply I3; eauto].
    + intros u Hp. apply upd_cases in Hp. destruct Hp as [[_ E]|[_ Hp]]; [destruct (tr_flag s); discriminate|eapply I4; eauto].
    + exact I5.
  - split; cbn.
    + intros u p Hp. apply upd_cases in Hp. destruct Hp as [[-> ->]|[Hne Hp]]; [cbn; tauto|].
      rewrite (I1 _ _ Hp), Hn. split; [discriminate|congruence].
    + intros u Hu. injection Hu as <-. rewrite (upd_here _ _ _ _ Ht). eauto.
    + unfold pending. cbn. rewrite (upd_here _ _ _ _ Ht). unfold pending in I2. rewrite Hn in I2. exact I2.
    + intros u j Hp. apply upd_cases in Hp. destruct Hp as [[_ E]|[_ Hp]]; [discriminate|eapply I3; eauto].
    + intros u Hp. apply upd_cases in Hp. destruct Hp as [[_ E]|[_ Hp]]; [discriminate|eapply I4; eauto].
    + exact I5.
  - assert (Hh : tr_holder s <> Some t) by (intros E; apply (I1 _ _ Ht) in E; discriminate).
    split; cbn.
    + intros u p Hp. apply upd_cases in Hp. destruct Hp as [[-> ->]|[Hne Hp]]; [|apply I1; exact Hp].
      cbn. split; [discriminate|contradiction].
    + intros u Hu. destruct (I1' u Hu) as [q Hq]. rewrite list_lookup_insert_ne by congruence. eauto.
    + rewrite (pend_ne _ _ _ _ Ht Hh : pending (upd _ _ _) = _). exact I2.
    + intros u j Hp. apply upd_cases in Hp. destruct Hp as [[_ E]|[_ Hp]]; [discriminate|eapply I3; eauto].
    + intros u Hp. apply upd_cases in Hp. destruct Hp as [[_ E]|[_ Hp]]; [discriminate|eapply I4; eauto].
    + exact I5.
  - assert (Hh : tr_holder s = Some t) by (apply (I1 _ _ Ht); reflexivity).
    unfold pending in I2. rewrite Hh, Ht in I2.
    split; cbn.
    + intros u p Hp. apply upd_cases in Hp. destruct Hp as [[-> ->]|[Hne Hp]]; [|apply I1; exact Hp].
      destruct (tr_flag s); cbn; tauto.
    + intros u Hu. assert (u = t) by congruence. subst. rewrite (upd_here _ _ _ _ Ht). eauto.
    + unfold pending. cbn. rewrite Hh, (upd_here _ _ _ _ Ht). destruct (tr_flag s); exact I2.
    + intros u j Hp. apply upd_cases in Hp. destruct Hp as [[_ E]|[_ Hp]]; [|eapply I3; eauto].
      destruct (tr_flag s); [discriminate|]. injection E as ->. split; [reflexivity|constructor].
    + intros u Hp. apply upd_cases in Hp. destruct Hp as [[_ E]|[_ Hp]]; [destruct (tr_flag s); discriminate|eapply I4; eauto].
    + exact I5.
  - assert (Hh : tr_holder s = Some t) by (apply (I1 _ _ Ht); reflexivity).
    unfold pending in I2. rewrite Hh, Ht in I2. destruct (I3 _ _ Ht) as [Hf Ha].
    split; cbn.
    + intros u p Hp. apply upd_cases in Hp. destruct Hp as [[-> ->]|[Hne Hp]]; [|apply I1; exact Hp].
      destruct b; cbn; tauto.
    + intros u Hu. assert (u = t) by congruence. subst. rewrite (upd_here _ _ _ _ Ht). eauto.
    + unfold pending. cbn. rewrite Hh, (upd_here _ _ _ _ Ht). destruct b; exact I2.
    + intros u j Hp. apply upd_cases in Hp. destruct Hp as [[_ E]|[_ Hp]]; [|eapply I3; eauto].
      destruct b; [|discriminate]. injection E as ->. split; [exact Hf|]. rewrite (take_S_r _ _ _ Hi).
      apply Forall_app. auto.
    + intros u Hp. apply upd_cases in Hp. destruct Hp as [[_ E]|[_ Hp]]; [destruct b; discriminate|eapply I4; eauto].
    + exact I5.
  - assert (Hh : tr_holder s = Some t) by (apply (I1 _ _ Ht); reflexivity).
    unfold pending in I2. rewrite Hh, Ht in I2. destruct (I3 _ _ Ht) as [Hf Ha].
    split; cbn.
    + intros u p Hp. apply upd_cases in Hp. destruct Hp as [[-> ->]|[Hne Hp]]; [|apply I1; exact Hp].
      cbn; tauto.
    + intros u Hu. assert (u = t) by congruence. subst. rewrite (upd_here _ _ _ _ Ht). eauto.
    + unfold pending. cbn. rewrite Hh, (upd_here _ _ _ _ Ht). exact I2.
    + intros u j Hp. apply upd_cases in Hp. destruct Hp as [[_ E]|[_ Hp]]; [discriminate|eapply I3; eauto].
    + intros u Hp. apply upd_cases in Hp. destruct Hp as [_|[_ Hp]]; [|eapply I4; eauto].
      split; [exact Hf|]. apply lookup_ge_None in Hi. rewrite take_ge in Ha by lia. exact Ha.
    + exact I5.
  - assert (Hh : tr_holder s = Some t) by (apply (I1 _ _ Ht); reflexivity).
    unfold pending in I2. rewrite Hh, Ht in I2. destruct (I4 _ Ht) as [Hf Ha]. rewrite Hf in I2.
    split; cbn.
    + intros u p Hp. apply upd_cases in Hp. destruct Hp as [[-> ->]|[Hne Hp]]; [|apply I1; exact Hp].
      cbn; tauto.
    + intros u Hu. assert (u = t) by congruence. subst. rewrite (upd_here _ _ _ _ Ht). eauto.
    + unfold pending. cbn. rewrite Hh, (upd_here _ _ _ _ Ht). lia.
    + intros u j Hp. apply upd_cases in Hp. destruct Hp as [[_ E]|[Hne Hp]]; [discriminate|].
      assert (tr_holder s = Some u) by (apply (I1 _ _ Hp); reflexivity). congruence.
    + intros u Hp. apply upd_cases in Hp. destruct Hp as [[_ E]|[Hne Hp]]; [discriminate|].
      assert (tr_holder s = Some u) by (apply (I1 _ _ Hp); reflexivity). congruence.
    + intros _. exact Ha.
  - assert (Hh : tr_holder s = Some t) by (apply (I1 _ _ Ht); reflexivity).
    unfold pending in I2. rewrite Hh, Ht in I2.
    split; cbn.
    + intros u p Hp. apply upd_cases in Hp. destruct Hp as [[-> ->]|[Hne Hp]]; [cbn; split; discriminate|].
      rewrite (I1 _ _ Hp). split; [congruence|discriminate].
    + discriminate.
    + unfold pending. cbn. destruct b; lia.
    + intros u j Hp. apply upd_cases in Hp. destruct Hp as [[_ E]|[_ Hp]]; [discriminate|eapply I3; eauto].
    + intros u Hp. apply upd_cases in Hp. destruct Hp as [[_ E]|[_ Hp]]; [discriminate|eapply I4; eauto].
    + exact I5.
Qed.

Lemma tr_reach sp requests threads s : rtc (tr_step sp) (tr_init requests threads) s -> tr_inv s.
Proof.
  intros H. pattern s. eapply rtc_ind_r; [|intros y z _ Hs Hi; eapply tr_inv_step; eauto|exact H].
  apply tr_inv_init.
Qed.
Lemma tr_once sp requests threads s :
  rtc (tr_step sp) (tr_init requests threads) s ->
  tr_trues s <= 1 /\ (tr_trues s = 1 -> all_arrived s).
Proof.
  intros H. destruct (tr_reach _ _ _ _ H) as [_ _ I2 _ _ I5]. destruct (tr_flag s); split; try lia.
  intros _. apply I5. reflexivity.
Qed.

(** Once a call started with everything arrived and nobody inside, completion
    has been or is about to be reported. *)
Record late_inv (s : tr_state) : Prop := {
  li_arr : all_arrived s;
  li_fail : tr_flag s = false -> forall t, tr_pcs s !! t <> Some (Rel false);
  li_live : tr_flag s = true \/ tr_holder s <> None \/ exists t, tr_pcs s !! t = Some Chk1 \/ tr_pcs s !! t = Some Lock }.

Lemma late_step s s' : tr_inv s -> (tr_late s = true -> late_inv s) -> tr_step false s s' ->
  tr_late s' = true -> late_inv s'.
Proof.
  intros [I1 I1' I2 I3 I4 I5] L H HL.
  destruct H as [i|t Ht|t Ht|t Ht Hn|t Ht Hb|t Ht|t i b Ht Hi|t i Ht Hi|t Ht|t b Ht]; cbn in HL.
  - destruct (L HL) as [A B C]. split; cbn; [apply arrive_mono; exact A|exact B|exact C].
  - apply orb_true_iff in HL. destruct HL as [HL|HL].
    + destruct (L HL) as [A B C]. split; cbn; [exact A| |].
      * intros Hf u Hu. apply upd_cases in Hu. destruct Hu as [[_ E]|[_ Hu]]; [discriminate|]. eapply B; eauto.
      * right. right. exists t. left. eapply upd_here; eauto.
    + apply bool_decide_eq_true in HL. destruct HL as [A B]. split; cbn; [exact A| |].
      * intros _ u Hu. apply upd_cases in Hu. destruct Hu as [[_ E]|[_ Hu]]; [discriminate|].
        unfold all_idle in B. rewrite Forall_lookup in B. specialize (B _ _ Hu). discriminate.
      * right. right. exists t. left. eapply upd_here; eauto.
  - destruct (L HL) as [A B C]. split; cbn; [exact A| |].
    + intros Hf u Hu. apply upd_cases in Hu. destruct Hu as [[_ E]|[_ Hu]]; [destruct (tr_flag s); discriminate|]. eapply B; eauto.
    + destruct (tr_flag s) eqn:Hf; [left; reflexivity|]. right. right. exists t. right. eapply upd_here; eauto.
  - destruct (L HL) as [A B C]. split; cbn; [exact A| |].
    + intros Hf u Hu. apply upd_cases in Hu. destruct Hu as [[_ E]|[_ Hu]]; [discriminate|]. eapply B; eauto.
    + right. left. discriminate.
  - destruct (L HL) as [A B C]. split; cbn; [exact A| |].
    + intros Hf u Hu. apply upd_cases in Hu. destruct Hu as [[_ E]|[_ Hu]]; [discriminate|]. eapply B; eauto.
    + destruct Hb as [Hb|Hb]; [right; left; exact Hb|discriminate].
  - destruct (L HL) as [A B C].
    assert (Hh : tr_holder s = Some t) by (apply (I1 _ _ Ht); reflexivity).
    split; cbn; [exact A| |].
    + intros Hf u Hu. apply upd_cases in Hu. rewrite Hf in Hu. destruct Hu as [[_ E]|[_ Hu]]; [discriminate|]. eapply B; eauto.
    + right. left. congruence.
  - destruct (L HL) as [A B C].
    assert (Hh : tr_holder s = Some t) by (apply (I1 _ _ Ht); reflexivity).
    assert (b = true) by (unfold all_arrived in A; rewrite Forall_lookup in A; eauto). subst b.
    split; cbn; [exact A| |].
    + intros Hf u Hu. apply upd_cases in Hu. destruct Hu as [[_ E]|[_ Hu]]; [discriminate|]. eapply B; eauto.
    + right. left. congruence.
  - destruct (L HL) as [A B C].
    assert (Hh : tr_holder s = Some t) by (apply (I1 _ _ Ht); reflexivity).
    split; cbn; [exact A| |].
    + intros Hf u Hu. apply upd_cases in Hu. destruct Hu as [[_ E]|[_ Hu]]; [discriminate|]. eapply B; eauto.
    + right. left. congruence.
  - destruct (L HL) as [A B C]. split; cbn; [exact A|discriminate|left; reflexivity].
  - destruct (L HL) as [A B C].
    assert (Hh : tr_holder s = Some t) by (apply (I1 _ _ Ht); reflexivity).
    split; cbn; [exact A| |].
    + intros Hf u Hu. apply upd_cases in Hu. destruct Hu as [[_ E]|[_ Hu]]; [discriminate|]. eapply B; eauto.
    + left. destruct b.
      * unfold pending in I2. rewrite Hh, Ht in I2. destruct (tr_flag s); [reflexivity|lia].
      * destruct (tr_flag s) eqn:Hf; [reflexivity|]. exfalso. eapply B; eauto.
Qed.
Lemma tr_reported requests threads s :
  rtc (tr_step false) (tr_init requests threads) s -> tr_late s = true -> all_idle s -> tr_trues s = 1.
Proof.
  intros H HL Hid.
  assert (G : tr_inv s /\ (tr_late s = true -> late_inv s)).
  { clear HL Hid. pattern s. eapply rtc_ind_r; [|intros y z _ Hs [Hi Hl]|exact H].
    - split; [apply tr_inv_init|]. discriminate.
    - split; [eapply tr_inv_step; eauto|]. eapply late_step; eauto. }
  destruct G as [I G]. destruct (G HL) as [A B C].
  unfold all_idle in Hid. rewrite Forall_lookup in Hid.
  assert (Hn : tr_holder s = None).
  { destruct (tr_holder s) as [t|] eqn:E; [|reflexivity]. exfalso. destruct (ti_holder _ I _ E) as [p Hp].
    pose proof (proj2 (ti_hold _ I _ _ Hp) E) as Hi. rewrite (Hid _ _ Hp) in Hi. discriminate. }
  assert (Hf : tr_flag s = true).
  { destruct C as [C|[C|(t & [C|C])]]; [exact C|congruence|..]; specialize (Hid _ _ C); discriminate. }
  pose proof (ti_count _ I) as Hc. unfold pending in Hc. rewrite Hn, Hf in Hc. lia.
Qed.
