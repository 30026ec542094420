(** C85: the collection with stable references. *)
From Verif Require Import Base RefColl_model RefColl_spec RefColl_proofs.

(** The collection is the sequence of what was pushed; all references returned so far are
    different, are those of operator[], and read their elements; other blocks are not touched. *)
Theorem collection_stable {T} (BS : nat) (dflt : T) (other : list (list T)) prog l : BS <> 0 -> pushed prog [] = Some l ->
  exists h c refs, run BS dflt other prog = Ok (h, c, refs) /\ c_size c = length l /\ length refs = length l /\ NoDup refs /\
    (forall i x, l !! i = Some x -> exists r, refs !! i = Some r /\ index BS c i = Ok r /\ load r h = Ok x) /\
    (forall r, r ∈ refs -> length other <= r.1) /\ take (length other) h = other /\ elements BS c h = Ok l.
Proof.
  intros HBS Hp. destruct (run_ok BS dflt HBS other prog 0 other empty_coll [] [] l (inv_nil BS HBS other) eq_refl Hp) as (k & h & c & E & I).
  exists h, c, (map (place BS (length other)) (seq 0 (length l))). split; [exact E|]. split; [apply I|]. split; [by rewrite map_length, seq_length|]. split; [|split; [|split; [|split]]].
  - apply NoDup_fmap_2_strong; [|apply NoDup_seq]. intros i j _ _ Hij. by eapply place_inj.
  - intros i x Hx. pose proof (lookup_lt_Some _ _ _ Hx) as Hi. exists (place BS (length other) i). split; [rewrite list_lookup_fmap, lookup_seq_lt by done; done|]. split; [apply (index_ok BS HBS other k h c l); [done|pose proof (i_room _ _ _ _ _ _ I); lia]|by apply (i_elem _ _ _ _ _ _ I)].
  - intros r Hr. apply elem_of_list_fmap in Hr as (i & -> & _). unfold place. cbn. lia.
  - apply list_eq. intros p. destruct (decide (p < length other)) as [Hlt|Hge].
    + rewrite lookup_take by done. destruct (lookup_lt_is_Some_2 other p Hlt) as [b Hb]. rewrite Hb. by apply (i_other _ _ _ _ _ _ I).
    + rewrite lookup_take_ge by lia. symmetry. apply lookup_ge_None. lia.
  - unfold elements. rewrite (i_size _ _ _ _ _ _ I). apply (walk_ok BS HBS other k h c l I l 0); [done|lia].
Qed.
(** A reference stays the same and keeps its value while more is pushed. *)
Theorem collection_reference {T} (BS : nat) (dflt : T) (other : list (list T)) prog more l l' h c refs i r x : BS <> 0 ->
  pushed prog [] = Some l -> pushed (prog ++ more) [] = Some l' -> run BS dflt other prog = Ok (h, c, refs) -> refs !! i = Some r -> l !! i = Some x ->
  exists h' c' refs', run BS dflt other (prog ++ more) = Ok (h', c', refs') /\ index BS c' i = Ok r /\ load r h' = Ok x.
Proof.
  intros HBS Hp Hp' E Hr Hx. destruct (run_ok BS dflt HBS other prog 0 other empty_coll [] [] l (inv_nil BS HBS other) eq_refl Hp) as (k & h1 & c1 & E1 & I). unfold run in E. rewrite E1 in E. injection E as <- <- <-.
  assert (Hm : pushed more l = Some l'). { revert Hp Hp'. generalize (@nil T). clear. induction prog as [|[y|j] prog IH]; intros xs; cbn; [congruence|apply IH|]. destruct (xs !! j); [apply IH|done]. }
  destruct (run_ok BS dflt HBS other more k h1 c1 l _ l' I eq_refl Hm) as (k2 & h2 & c2 & E2 & I2).
  assert (Hl : l' !! i = Some x). { clear -Hm Hx. revert l Hm Hx. induction more as [|[y|j] more IH]; intros l Hm Hx; cbn in Hm; [by injection Hm as <-|eapply IH; [exact Hm|by apply lookup_app_l_Some]|]. destruct (l !! j); [|done]. eapply IH; [exact Hm|by apply lookup_app_l_Some]. }
  exists h2, c2, (map (place BS (length other)) (seq 0 (length l'))). split; [unfold run; rewrite for_each_app, E1, bind_ok; exact E2|].
  rewrite list_lookup_fmap, lookup_seq_lt in Hr by (by eapply lookup_lt_Some). injection Hr as <-. split; [apply (index_ok BS HBS other k2 h2 c2 l'); [done|pose proof (lookup_lt_Some _ _ _ Hl); pose proof (i_room _ _ _ _ _ _ I2); lia]|by apply (i_elem _ _ _ _ _ _ I2)].
Qed.
(** The postfix increment neither advances the iterator nor returns its old value. *)
Theorem collection_postfix_refuted : ~ (forall it, post_inc it = (it + 1, it)%Z) /\ forall it, (post_inc it).1 <> (it + 1)%Z /\ (post_inc it).2 <> it /\ (post_dec it).1 <> (it - 1)%Z /\ (post_dec it).2 <> it.
Proof. split; [intros H; discriminate (H 0%Z)|]. intros it. cbn. lia. Qed.

Example collection_example :
  pushed [Push 3; PushOwn 0; Push 4; PushOwn 2; Push 5] [] = Some [3; 3; 4; 4; 5] /\
  match run 2 0 [[8; 8; 8]] [Push 3; PushOwn 0; Push 4; PushOwn 2; Push 5] with
  | Ok (h, c, refs) => refs = [(1, 0); (1, 1); (2, 0); (2, 1); (3, 0)] /\ h = [[8; 8; 8]; [3; 3]; [4; 4]; [5; 0]] /\ elements 2 c h = Ok [3; 3; 4; 4; 5]
  | _ => False
  end.
Proof. vm_compute. done. Qed.

Print Assumptions collection_stable.
Print Assumptions collection_reference.
Print Assumptions collection_postfix_refuted.
