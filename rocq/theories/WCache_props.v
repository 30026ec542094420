(** Property C90: the cache of weak pointers. *)
From Verif Require Import Base Helpers_model WCache_model WCache_spec WCache_proofs.

Section props.
  Context {K V : Type} `{EqDecision K}.
  Lemma last_exists (h : list (K * V)) k : (exists o, is_last h k o) <-> exists o v, h !! o = Some (k, v).
  Proof.
    split; [intros (o & [v Hv] & _); by exists o, v|]. induction h as [|[k' v'] h IH] using rev_ind.
    - intros (o & v & H). by rewrite lookup_nil in H.
    - intros (o & v & H). destruct (decide (k = k')) as [->|N].
      + exists (length h). rewrite is_last_snoc, decide_True by done. done.
      + destruct IH as [o' Ho'].
        * apply lookup_app_Some in H as [H|[_ H]]; [by exists o, v|]. apply list_lookup_singleton_Some in H as [_ H]. congruence.
        * exists o'. by rewrite is_last_snoc, decide_False.
  Qed.
  (** C90.  In every program, get gives the object that was last emplaced under the key if the
      program still holds a pointer to it, and null otherwise; a held pointer always refers to
      the value it was made with; an object exists exactly as long as a pointer to it is held;
      contains tells whether anything was ever emplaced under the key. *)
  Theorem weak_cache_programs (l : list (wop K V)) :
    names_ok 0 l ->
    exists s h p, wsteps l = Ok s /\ history_of l h p /\ held s = p /\
      (forall k, exists r l', wget k s = Ok (l', r) /\ found h p k r) /\
      (forall i o k v, p !! i = Some (Some o) -> h !! o = Some (k, v) -> value_of s i = Ok v) /\
      (forall o k v, h !! o = Some (k, v) -> exists n, objs s !! o = Some (v, n) /\ (n = 0 <-> ~ Some o ∈ p)) /\
      (forall k, contains s k = true <-> exists o v, h !! o = Some (k, v)).
  Proof.
    intros N. destruct (wsteps_ok l [] (mk_ws [] [] []) [] [] history_nil good_empty N) as (s & h & p & E & H & G).
    exists s, h, p. split; [exact E|]. split; [exact H|]. split; [apply G|]. split; [|split; [|split]].
    - intros k. destruct (wget_ok s h p k G) as (r & l' & W & F & _). by exists r, l'.
    - intros i o k v Hi Ho. unfold value_of. rewrite (g_held _ _ _ G), (rd_ok _ _ _ Hi), bind_ok.
      rewrite (rd_ok _ _ _ (g_obj _ _ _ G o k v Ho)), bind_ok. cbn [fst snd].
      destruct (Nat.eqb_spec (occ o p) 0) as [Z|_]; [|done]. apply occ_zero in Z. exfalso. apply Z. by eapply elem_of_list_lookup_2.
    - intros o k v Ho. exists (occ o p). split; [by apply (g_obj _ _ _ G o k v)|]. apply occ_zero.
    - intros k. rewrite <- last_exists. unfold contains. destruct (hm_find k (m_cache s)) as [o|] eqn:F.
      + split; [|done]. intros _. exists o. by apply (g_find _ _ _ G).
      + split; [done|]. intros [o Ho]. apply (g_find _ _ _ G) in Ho. congruence.
  Qed.
  (** Every pointer a program holds is null or stands for something emplaced. *)
  Theorem weak_cache_pointers (l : list (wop K V)) h p o : history_of l h p -> Some o ∈ p -> o < length h.
  Proof.
    intros H. revert o. induction H as [|l w h p h' p' H IH Ef]; intros o I; [by apply elem_of_nil in I|].
    destruct w as [k v|k|i|i]; cbn [effect] in Ef.
    - destruct Ef as [-> ->]. rewrite app_length. cbn. apply elem_of_app in I as [I|I]; [apply IH in I; lia|].
      apply elem_of_list_singleton in I. injection I as ->. lia.
    - destruct Ef as (-> & r & F & ->). apply elem_of_app in I as [I|I]; [by apply IH|].
      apply elem_of_list_singleton in I. subst r. by apply IH, F.
    - destruct Ef as (-> & r & Hr & ->). apply elem_of_app in I as [I|I]; [by apply IH|].
      apply elem_of_list_singleton in I. subst r. apply IH. by eapply elem_of_list_lookup_2.
    - destruct Ef as (-> & L & ->). apply elem_of_list_lookup in I as [j Hj]. destruct (decide (i = j)) as [->|N].
      + rewrite list_lookup_insert in Hj by done. done.
      + rewrite list_lookup_insert_ne in Hj by done. apply IH. by eapply elem_of_list_lookup_2.
  Qed.
End props.
(** contains does not mean that get gives something: entries stay when their object is gone. *)
Theorem weak_cache_contains_refuted :
  ~ forall (l : list (wop nat nat)) s k r, wsteps l = Ok s -> contains s k = true -> wget k s = Ok r -> r.2 <> None.
Proof.
  intros X. refine (X [Emplace 1 7; Reset 0] (mk_ws [(1, 0)] [(7, 0)] [None]) 1 ([(7, 0)], None) _ _ _ _); vm_compute; done.
Qed.

Example weak_cache_example :
  names_ok 0 [Emplace 1 7; Get 1; Emplace 2 8; Reset 0; Get 1; Emplace 1 9; Reset 3; Reset 2; Get 2; Get 1; Copy 1] /\
  match wsteps [Emplace 1 7; Get 1; Emplace 2 8; Reset 0; Get 1; Emplace 1 9; Reset 3; Reset 2; Get 2; Get 1; Copy 1] with
  | Ok s => held s = [None; Some 0; None; None; Some 2; None; Some 2; Some 0] /\ objs s = [(7, 2); (8, 0); (9, 2)] /\ value_of s 1 = Ok 7
  | _ => False
  end.
Proof. split; [cbn; lia|]. vm_compute. done. Qed.
Example weak_cache_pointers_example : history_of [Emplace 1 7; Reset 0] [(1, 7)] [None].
Proof.
  apply (history_snoc [Emplace 1 7] (Reset 0) [(1, 7)] [Some 0]); [|cbn; repeat split; lia].
  apply (history_snoc [] (Emplace 1 7) [] []); [constructor|done].
Qed.

Print Assumptions weak_cache_programs.
Print Assumptions weak_cache_pointers.
Print Assumptions weak_cache_contains_refuted.
