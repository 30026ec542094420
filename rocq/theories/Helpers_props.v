(** Properties C30, C31, C32: permutation helpers, index maps, checked casts. *)
From Verif Require Import Base StdAlgo Helpers_model Helpers_spec Helpers_proofs.

(** C30.  For every range and strict weak ordering, sortingPermutation returns
    a permutation of the positions; copying the range through it succeeds, puts
    element perm[i] at position i, and gives an ordered rearrangement. *)
Theorem sorting_permutation_sorts {A} std_sort (l : list A) (cmp : A -> A -> bool) :
  sorts_indices std_sort -> strict_weak cmp l ->
  let perm := sortingPermutation std_sort l cmp in
  perm ≡ₚ seq 0 (length l) /\
  exists out, copyPermuted l perm = Ok out /\ out ≡ₚ l /\ ordered cmp out /\
    forall i p, perm !! i = Some p -> out !! i = l !! p.
Proof. exact (sorting_perm_ok std_sort l cmp). Qed.
Print Assumptions sorting_permutation_sorts.

(** An insertion sort meets the contract of std::sort, so the hypothesis can be
    satisfied. *)
Fixpoint ins (cmp : nat -> nat -> bool) (x : nat) (l : list nat) : list nat :=
  match l with [] => [x] | y :: l => if cmp y x then y :: ins cmp x l else x :: y :: l end.
Definition isort (cmp : nat -> nat -> bool) : list nat -> list nat := foldr (ins cmp) [].
Lemma ins_perm cmp x l : ins cmp x l ≡ₚ x :: l.
Proof. induction l as [|y l IH]; cbn; [done|]. destruct (cmp y x); [|done]. rewrite IH. constructor. Qed.
Example isort_sorts : sorts_indices isort.
Proof.
  intros cmp l Hw. assert (Hp : isort cmp l ≡ₚ l).
  { clear. induction l as [|x l IH]; cbn; [done|]. by rewrite ins_perm, IH. }
  split; [done|].
  assert (Hss : StronglySorted (fun x y => cmp y x = false) (isort cmp l)).
  { clear Hp. induction l as [|x l IH]; [constructor|]. cbn [isort foldr]. fold (isort cmp l).
    assert (Hw' : strict_weak cmp l).
    { destruct Hw as [H1 H2 H3]. split; intros; [apply H1|eapply H2|eapply H3]; try done; by right. }
    specialize (IH Hw'). assert (Hp : isort cmp l ≡ₚ l).
    { clear. induction l as [|y l IH]; cbn; [done|]. by rewrite ins_perm, IH. }
    assert (Hin : forall y, y ∈ isort cmp l -> y ∈ l) by (intros y; by rewrite Hp).
    clear Hp Hw'. induction (isort cmp l) as [|y m IHm]; cbn [ins]; [repeat constructor|].
    apply StronglySorted_inv in IH as [IH1 IH2].
    assert (y ∈ l) as Hyl by (apply Hin; by left).
    assert (Hm : forall z, z ∈ m -> z ∈ l) by (intros z Hz; apply Hin; by right).
    destruct (cmp y x) eqn:E.
    - constructor; [by apply IHm|]. apply Forall_forall. intros z. rewrite ins_perm.
      intros [->|Hz]%elem_of_cons; [|by eapply (proj1 (Forall_forall _ _) IH2)].
      destruct (cmp x y) eqn:E2; [|done]. exfalso.
      pose proof (sw_trans _ _ Hw x y x ltac:(by left) ltac:(by right) ltac:(by left) E2 E) as H.
      rewrite (sw_irrefl _ _ Hw x ltac:(by left)) in H. done.
    - constructor; [constructor; done|]. constructor; [done|]. apply Forall_forall. intros z Hz.
      pose proof (proj1 (Forall_forall _ _) IH2 z Hz) as Hzy. cbn in Hzy.
      eapply (sw_incomp _ _ Hw z y x); [by right; apply Hm|by right|by left|done|done]. }
  clear -Hss. induction Hss as [|x m Hm IH Hx]; intros i j a b Hij Ha Hb; [done|].
  destruct i as [|i], j as [|j]; cbn in Ha, Hb; simplify_eq; try lia.
  - apply elem_of_list_lookup_2 in Hb. by apply (proj1 (Forall_forall _ _) Hx).
  - apply (IH i j); [lia|done|done].
Qed.
Example sorting_permutation_example :
  sortingPermutation isort [30; 10; 20; 10] Nat.ltb = [1; 3; 2; 0] /\
  copyPermuted [30; 10; 20; 10] [1; 3; 2; 0] = Ok [10; 10; 20; 30] /\ strict_weak Nat.ltb [30; 10; 20; 10].
Proof.
  split; [reflexivity|]. split; [reflexivity|]. split; intros *; [intros _|intros _ _ _|intros _ _ _];
    rewrite ?Nat.ltb_lt, ?Nat.ltb_ge; lia.
Qed.

(** matchingPermutation: for each element of the second range the position of
    the first match in the pattern, or the pattern's length if there is none. *)
Theorem matching_permutation_finds_first {A B} (pred : A -> B -> bool) pattern mtch i m :
  mtch !! i = Some m ->
  exists k, matchingPermutation pred pattern mtch !! i = Some k /\
    (forall j x, j < k -> pattern !! j = Some x -> pred x m = false) /\
    (k = length pattern \/ exists x, pattern !! k = Some x /\ pred x m = true).
Proof. exact (matching_ok pred pattern mtch i m). Qed.
Print Assumptions matching_permutation_finds_first.
Example matching_example : matchingPermutation Nat.eqb [5; 6; 7; 6] [6; 5; 9] = [1; 0; 4].
Proof. reflexivity. Qed.

(** sortRemoveDup: the strictly increasing list of the distinct elements; the
    array overload returns their number and leaves them in front, and
    getUniqueCopy returns them. *)
Theorem sort_remove_dup_distinct l :
  StronglySorted lt (sortRemoveDup l) /\ forall x, x ∈ sortRemoveDup l <-> x ∈ l.
Proof. exact (remove_dup_ok l). Qed.
Print Assumptions sort_remove_dup_distinct.
Theorem unique_copy_distinct junk l :
  getUniqueCopy junk l = sortRemoveDup l /\
  take (sortRemoveDupArray junk l).2 (sortRemoveDupArray junk l).1 = sortRemoveDup l /\
  length (sortRemoveDupArray junk l).1 = length l.
Proof. exact (unique_copy_ok junk l). Qed.
Print Assumptions unique_copy_distinct.
Example sort_remove_dup_example : sortRemoveDup [4; 1; 4; 2; 1] = [1; 2; 4].
Proof. vm_compute. reflexivity. Qed.

(** sortedUniqueElements is meant to do the same for a constant array, but it
    copies from the unsorted array: the result may be unsorted, or more elements
    are written than fit. *)
Theorem sorted_unique_elements_refuted :
  (exists l out, sortedUniqueElements l = Ok out /\ ~ Sorted Nat.le out) /\
  (exists l, sortedUniqueElements l = UB).
Proof.
  split; [|exists [1; 2; 1]; reflexivity]. exists [2; 1], [2; 1]. split; [reflexivity|].
  intros H. apply Sorted_inv in H as [_ H]. apply HdRel_inv in H. lia.
Qed.
Print Assumptions sorted_unique_elements_refuted.
(** Missing in comparison with the intended claim: unsorted arrays. *)
Theorem sorted_unique_elements_partial l :
  Sorted Nat.le l -> sortedUniqueElements l = Ok (sortRemoveDup l).
Proof. exact (sorted_unique_sorted l). Qed.
Print Assumptions sorted_unique_elements_partial.
Example sorted_unique_example : sortedUniqueElements [1; 1; 3] = Ok [1; 3].
Proof. reflexivity. Qed.

(** C31.  An index map returns the first position of every value of the range it
    was built from (the only one, if the values are distinct) and throws for
    every other value. *)
Theorem index_map_inverts {K} `{EqDecision K} (values : list K) (x : K) :
  (forall i, IndexMap_at (make_IndexMap values) x = Ok i <->
     (values !! i = Some x /\ forall j, j < i -> values !! j <> Some x)) /\
  (IndexMap_at (make_IndexMap values) x = Throw <-> x ∉ values).
Proof. exact (index_map_ok values x). Qed.
Print Assumptions index_map_inverts.
Theorem index_map_size_distinct {K} `{EqDecision K} (values : list K) :
  IndexMap_size (make_IndexMap values) = length (remove_dups values).
Proof. exact (index_map_size values). Qed.
Print Assumptions index_map_size_distinct.
(** Inverting a map whose values are distinct: v is mapped to k iff k was mapped
    to v, whatever the iteration order of the hash table (the order of [m]). *)
Theorem invert_map_inverts {K} `{EqDecision K} (m : list (K * K)) :
  NoDup m.*1 -> NoDup m.*2 ->
  forall k v, hm_find v (invertMap m) = Some k <-> hm_find k m = Some v.
Proof. exact (invert_ok m). Qed.
Print Assumptions invert_map_inverts.
Example index_map_example :
  IndexMap_at (make_IndexMap [7; 5; 9]) 9 = Ok 2 /\ IndexMap_at (make_IndexMap [7; 5; 9]) 8 = Throw /\
  invertMap [(1, 10); (2, 20)] = [(10, 1); (20, 2)].
Proof. split; [|split]; reflexivity. Qed.
Example invert_example_hyps : NoDup ([(1, 10); (2, 20)] : list (nat * nat)).*1 /\ NoDup ([(1, 10); (2, 20)] : list (nat * nat)).*2.
Proof. split; apply (bool_decide_unpack _); vm_compute; reflexivity. Qed.

(** C32.  Soundness of the checked cast between standard integer types: whatever
    it returns is the same number and representable. *)
Theorem exact_cast_sound from to x y :
  std_type from -> std_type to -> representable (i_signed from) (i_bits from) x ->
  exactIntegerCast from to x = Ok y ->
  y = x /\ representable (i_signed to) (i_bits to) x.
Proof. exact (fun Hf Ht Hx => proj1 (cast_lemma from to x Hf Ht Hx) y). Qed.
Print Assumptions exact_cast_sound.
(** It never runs into undefined behaviour. *)
Theorem exact_cast_no_ub from to x :
  std_type from -> std_type to -> representable (i_signed from) (i_bits from) x ->
  exactIntegerCast from to x <> UB.
Proof. exact (fun Hf Ht Hx => proj1 (proj2 (cast_lemma from to x Hf Ht Hx))). Qed.
Print Assumptions exact_cast_no_ub.
(** But it throws for representable values: -1 as 64-bit to 32-bit signed. *)
Definition int64 := {| i_signed := true; i_bits := 64 |}.
Definition int32 := {| i_signed := true; i_bits := 32 |}.
Definition uint32 := {| i_signed := false; i_bits := 32 |}.
Theorem exact_cast_complete_refuted :
  exists from to x, std_type from /\ std_type to /\
    representable (i_signed from) (i_bits from) x /\ representable (i_signed to) (i_bits to) x /\
    exactIntegerCast from to x = Throw.
Proof. exists int64, int32, (-1)%Z. repeat split; vm_compute; auto; discriminate. Qed.
Print Assumptions exact_cast_complete_refuted.
(** Missing: negative values when the target type has a smaller maximum. *)
Theorem exact_cast_complete_partial from to x :
  std_type from -> std_type to -> representable (i_signed from) (i_bits from) x ->
  representable (i_signed to) (i_bits to) x -> (0 <= x \/ imax from <= imax to)%Z ->
  exactIntegerCast from to x = Ok x.
Proof. exact (fun Hf Ht Hx => proj2 (proj2 (cast_lemma from to x Hf Ht Hx))). Qed.
Print Assumptions exact_cast_complete_partial.
Example exact_cast_example :
  exactIntegerCast int64 uint32 4294967295 = Ok 4294967295%Z /\ exactIntegerCast int64 uint32 4294967296 = Throw /\
  exactIntegerCast int64 uint32 (-1) = Throw /\ exactIntegerCast int32 int64 (-5) = Ok (-5)%Z.
Proof. repeat split; vm_compute; reflexivity. Qed.
