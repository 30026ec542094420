From Verif Require Import Base Helpers_model WCache_model WCache_spec.

Section proofs.
  Context {K V : Type} `{EqDecision K}.
  Notation history := (list (K * V)).
  Definition occ (o : nat) (p : list (option nat)) : nat := length (filter (fun x => x = Some o) p).
  Lemma occ_app o p q : occ o (p ++ q) = occ o p + occ o q.
  Proof. unfold occ. by rewrite filter_app, app_length. Qed.
  Lemma occ_cons o x p : occ o (x :: p) = (if decide (x = Some o) then 1 else 0) + occ o p.
  Proof. unfold occ. case_decide; [by rewrite filter_cons_True by done|by rewrite filter_cons_False by done]. Qed.
  Lemma occ_zero o p : occ o p = 0 <-> ~ Some o ∈ p.
  Proof.
    induction p as [|x p IH]; [split; [intros _; apply not_elem_of_nil|done]|].
    rewrite occ_cons, elem_of_cons. case_decide as E; [split; [lia|intros X; exfalso; apply X; by left]|].
    cbn [Nat.add]. rewrite IH. split; [intros A [B|B]; [by symmetry in B|done]|tauto].
  Qed.
  Lemma occ_reset o p : forall i x, p !! i = Some x -> occ o (<[i := None]> p) + (if decide (x = Some o) then 1 else 0) = occ o p.
  Proof.
    induction p as [|y p IH]; intros [|i] x H; cbn in H; [done|done| |].
    - injection H as ->. change (<[0 := None]> (x :: p)) with (None :: p). rewrite !occ_cons. rewrite (decide_False (P := None = Some o)) by done. lia.
    - change (<[S i := None]> (y :: p)) with (y :: <[i := None]> p). rewrite !occ_cons. specialize (IH i x H). lia.
  Qed.
  Lemma find_assign (k : K) (o : nat) (m : list (K * nat)) (k' : K) : hm_find k' (insert_or_assign k o m) = if decide (k' = k) then Some o else hm_find k' m.
  Proof.
    induction m as [|[a b] m IH]; cbn [insert_or_assign hm_find]; [done|].
    destruct (decide (k = a)) as [->|N]; cbn [hm_find]; [by repeat case_decide|].
    rewrite IH. repeat case_decide; congruence.
  Qed.
  Record good (s : wstate K V) (h : history) (p : list (option nat)) : Prop := {
    g_held : held s = p;
    g_objs : length (objs s) = length h;
    g_obj : forall o k v, h !! o = Some (k, v) -> objs s !! o = Some (v, occ o p);
    g_ptr : forall o, Some o ∈ p -> o < length h;
    g_find : forall k o, hm_find k (m_cache s) = Some o <-> is_last h k o }.
  Lemma is_last_snoc (h : history) (k : K) (v : V) (k' : K) o : is_last (h ++ [(k, v)]) k' o <-> if decide (k' = k) then o = length h else is_last h k' o.
  Proof.
    case_decide as E.
    - subst k'. split.
      + intros [[w Hw] M]. specialize (M (length h) v). rewrite lookup_app_r, Nat.sub_diag in M by done. specialize (M eq_refl).
        apply lookup_lt_Some in Hw. rewrite app_length in Hw. cbn in Hw. lia.
      + intros ->. split; [exists v; rewrite lookup_app_r by done; by rewrite Nat.sub_diag|].
        intros j w Hj. apply lookup_lt_Some in Hj. rewrite app_length in Hj. cbn in Hj. lia.
    - assert (X : forall j w, (h ++ [(k, v)]) !! j = Some (k', w) <-> h !! j = Some (k', w)).
      { intros j w. split; [|intros Y; by apply lookup_app_l_Some]. intros Y. apply lookup_app_Some in Y as [Y|[_ Y]]; [done|].
        apply list_lookup_singleton_Some in Y as [_ Y]. congruence. }
      unfold is_last. split; intros [[w Hw] M]; (split; [exists w; by apply X|intros j u Hj; apply (M j u); by apply X]).
  Qed.
  Lemma obj_lookup s h p o : good s h p -> o < length h -> exists v, objs s !! o = Some (v, occ o p) /\ exists k, h !! o = Some (k, v).
  Proof. intros G L. destruct (lookup_lt_is_Some_2 h o L) as [[k v] H]. exists v. split; [by eapply (g_obj _ _ _ G)|by exists k]. Qed.

  (** A pointer to [o] more. *)
  Lemma good_share s h p o : good s h p -> o < length h ->
    exists l, share o (objs s) = Ok l /\ good (mk_ws (m_cache s) l (held s ++ [Some o])) h (p ++ [Some o]).
  Proof.
    intros G L. destruct (obj_lookup s h p o G L) as (v & Hv & k & Hk). unfold share.
    rewrite (rd_ok _ _ _ Hv), bind_ok. rewrite wr_ok by (by eapply lookup_lt_Some). eexists. split; [done|].
    destruct G as [A B C D E]. split; cbn [held objs m_cache fst snd].
    - by rewrite A.
    - by rewrite insert_length.
    - intros o' k' v' H'. rewrite occ_app, occ_cons. change (occ o' []) with 0. destruct (decide (o = o')) as [->|N].
      + rewrite list_lookup_insert by (by eapply lookup_lt_Some). rewrite decide_True by done. do 2 f_equal; [congruence|lia].
      + rewrite list_lookup_insert_ne by done. rewrite decide_False by congruence. rewrite (C o' k' v' H'). do 2 f_equal. lia.
    - intros o' H'. apply elem_of_app in H' as [H'|H']; [by apply D|]. apply elem_of_list_singleton in H'. congruence.
    - exact E.
  Qed.
  Lemma good_null s h p : good s h p -> good (mk_ws (m_cache s) (objs s) (held s ++ [None])) h (p ++ [None]).
  Proof.
    intros [A B C D E]. split; cbn [held objs m_cache]; [by rewrite A|done| | |done].
    - intros o k v H. rewrite occ_app. change (occ o [None]) with 0. rewrite Nat.add_0_r. by apply (C o k).
    - intros o H. apply elem_of_app in H as [H|H]; [by apply D|]. apply elem_of_list_singleton in H. done.
  Qed.
  Lemma wget_ok s h p k : good s h p -> exists r l, wget k s = Ok (l, r) /\ found h p k r /\ good (mk_ws (m_cache s) l (held s ++ [r])) h (p ++ [r]).
  Proof.
    intros G. unfold wget. destruct (hm_find k (m_cache s)) as [o|] eqn:F.
    - apply (g_find _ _ _ G) in F. pose proof F as [[v Hv] _]. pose proof (lookup_lt_Some _ _ _ Hv) as L.
      unfold lock. rewrite (rd_ok _ _ _ (g_obj _ _ _ G o k v Hv)), bind_ok. cbn [snd]. destruct (Nat.eqb_spec (occ o p) 0) as [Z|Z].
      + exists None, (objs s). split; [done|]. split; [|by apply good_null]. intros o' Ho'.
        replace o' with o; [by apply occ_zero|]. destruct F as [[u Hu] M], Ho' as [[w Hw] M'].
        pose proof (M o' w Hw). pose proof (M' o u Hu). lia.
      + destruct (good_share s h p o G L) as (l & -> & G'). exists (Some o), l. split; [done|]. split; [|exact G'].
        split; [exact F|]. destruct (decide (Some o ∈ p)) as [I|I]; [done|]. by apply occ_zero in I.
    - exists None, (objs s). split; [done|]. split; [|by apply good_null].
      intros o Ho. apply (g_find _ _ _ G) in Ho. congruence.
  Qed.
  Lemma good_emplace s h p k v : good s h p -> good (wemplace k v s) (h ++ [(k, v)]) (p ++ [Some (length h)]).
  Proof.
    intros [A B C D E]. unfold wemplace. split; cbn [held objs m_cache].
    - by rewrite A, B.
    - rewrite (app_length (objs s)), (app_length h), B. done.
    - intros o k' v' H. rewrite occ_app, occ_cons. change (occ o []) with 0. apply lookup_app_Some in H as [H|[L H]].
      + rewrite (lookup_app_l_Some _ _ _ _ (C o k' v' H)). apply lookup_lt_Some in H. rewrite decide_False by (intros [=]; lia). do 2 f_equal. lia.
      + apply list_lookup_singleton_Some in H as [Z H]. assert (o = length h) as -> by lia. injection H as -> ->.
        rewrite lookup_app_r by lia. rewrite B, Nat.sub_diag, decide_True by done. cbn. do 2 f_equal.
        assert (occ (length h) p = 0) as ->; [|done]. apply occ_zero. intros X. apply D in X. lia.
    - intros o H. rewrite app_length. cbn. apply elem_of_app in H as [H|H]; [apply D in H; lia|]. apply elem_of_list_singleton in H. injection H as ->. lia.
    - intros k' o. rewrite find_assign, is_last_snoc, B. case_decide; [split; congruence|apply E].
  Qed.
  Lemma good_reset s h p i o : good s h p -> p !! i = Some (Some o) ->
    exists l, release o (objs s) = Ok l /\ good (mk_ws (m_cache s) l (<[i := None]> (held s))) h (<[i := None]> p).
  Proof.
    intros G Hi. pose proof (elem_of_list_lookup_2 _ _ _ Hi) as I.
    destruct (obj_lookup s h p o G (g_ptr _ _ _ G o I)) as (v & Hv & k & Hk). unfold release.
    rewrite (rd_ok _ _ _ Hv), bind_ok. cbn [fst snd]. pose proof (occ_reset o p i _ Hi) as R. rewrite decide_True in R by done.
    rewrite <- R, Nat.add_1_r. rewrite wr_ok by (by eapply lookup_lt_Some). eexists. split; [done|].
    destruct G as [A B C D E]. split; cbn [held objs m_cache].
    - by rewrite A.
    - by rewrite insert_length.
    - intros o' k' v' H'. destruct (decide (o = o')) as [->|N].
      + rewrite list_lookup_insert by (by eapply lookup_lt_Some). do 2 f_equal. congruence.
      + rewrite list_lookup_insert_ne by done. rewrite (C o' k' v' H'). pose proof (occ_reset o' p i _ Hi) as R'.
        rewrite decide_False in R' by congruence. do 2 f_equal. lia.
    - intros o' H'. apply D. apply elem_of_list_lookup in H' as [j Hj]. destruct (decide (i = j)) as [->|N].
      + rewrite list_lookup_insert in Hj by (by eapply lookup_lt_Some). done.
      + rewrite list_lookup_insert_ne in Hj by done. by eapply elem_of_list_lookup_2.
    - exact E.
  Qed.
  Lemma wstep_ok o s h p l : good s h p -> names_ok (length p) (o :: l) ->
    exists s' h' p', wstep o s = Ok s' /\ effect o h p h' p' /\ good s' h' p' /\ names_ok (length p') l.
  Proof.
    intros G N. destruct o as [k v|k|i|i]; cbn [names_ok wstep effect] in *.
    - eexists _, _, _. split; [done|]. split; [done|]. split; [by apply good_emplace|]. rewrite app_length. cbn. by rewrite Nat.add_1_r.
    - destruct (wget_ok s h p k G) as (r & ol & -> & Fo & G'). rewrite bind_ok. cbn [fst snd]. eexists _, _, _. split; [done|].
      split; [split; [done|by exists r]|]. split; [exact G'|]. rewrite app_length. cbn. by rewrite Nat.add_1_r.
    - destruct N as [Li N]. destruct (lookup_lt_is_Some_2 p i Li) as [r Hr]. rewrite (g_held _ _ _ G), (rd_ok _ _ _ Hr), bind_ok.
      destruct r as [o|].
      + destruct (good_share s h p o G) as (ol & -> & G'); [apply (g_ptr _ _ _ G); by eapply elem_of_list_lookup_2|].
        rewrite bind_ok. rewrite (g_held _ _ _ G) in G'. eexists _, _, _. split; [done|]. split; [split; [done|by exists (Some o)]|].
        split; [exact G'|]. rewrite app_length. cbn. by rewrite Nat.add_1_r.
      + pose proof (good_null s h p G) as G'. rewrite (g_held _ _ _ G) in G'. eexists _, _, _. split; [done|]. split; [split; [done|by exists None]|].
        split; [exact G'|]. rewrite app_length. cbn. by rewrite Nat.add_1_r.
    - destruct N as [Li N]. destruct (lookup_lt_is_Some_2 p i Li) as [r Hr]. rewrite (g_held _ _ _ G), (rd_ok _ _ _ Hr), bind_ok.
      destruct r as [o|].
      + destruct (good_reset s h p i o G Hr) as (ol & -> & G'). rewrite bind_ok. rewrite (g_held _ _ _ G) in G'.
        eexists _, _, _. split; [done|]. split; [done|]. split; [exact G'|]. by rewrite insert_length.
      + eexists _, _, _. split; [done|]. split; [done|]. rewrite list_insert_id by done. done.
  Qed.
  Lemma wsteps_ok l : forall l0 s h p, history_of l0 h p -> good s h p -> names_ok (length p) l ->
    exists s' h' p', for_each wstep l s = Ok s' /\ history_of (l0 ++ l) h' p' /\ good s' h' p'.
  Proof.
    induction l as [|o l IH]; intros l0 s h p H G N; cbn [for_each].
    - exists s, h, p. rewrite app_nil_r. done.
    - destruct (wstep_ok o s h p l G N) as (s1 & h1 & p1 & -> & Ef & G1 & N1). rewrite bind_ok.
      destruct (IH (l0 ++ [o]) s1 h1 p1) as (s' & h' & p' & E & H' & G'); [by eapply history_snoc|done|done|].
      exists s', h', p'. split; [exact E|]. rewrite <- app_assoc in H'. done.
  Qed.
  Lemma good_empty : good (mk_ws [] [] []) [] [].
  Proof.
    split; cbn; [done|done| | |]; [intros o k v H; by rewrite lookup_nil in H|intros o H; by apply elem_of_nil in H|].
    intros k o. split; [done|]. intros [[v H] _]. by rewrite lookup_nil in H.
  Qed.
End proofs.
