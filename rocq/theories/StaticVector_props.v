(** Property C46: fixed-capacity vectors. *)
From Verif Require Import Base StdAlgo StaticVector_model StaticVector_spec StaticVector_proofs.

(** C46.  For a trivially destructible element type, every history of
    operations allowed by the list contract runs without error from the empty
    vector, whatever the uninitialised storage holds; iterating the result reads
    the list the same history gives, size() is its length, and the vector can
    be destroyed. *)
Theorem static_vector_is_a_list {A} (junk : list A) (ops : list (sv_op A)) (l : list A) :
  spec_run (length junk) [] ops = Some l ->
  exists s, sv_run true (sv_new junk) ops = Ok s /\ sv_read s = Ok l /\ sv_size s = length l /\ sv_destructor s = Ok tt.
Proof.
  intros H. destruct (run_ok _ _ _ _ _ (new_ok junk) H) as (s & E & Hr). exists s.
  split; [done|]. split; [by eapply read_ok|]. split; [apply (rp_len _ _ _ Hr)|by eapply destructor_ok].
Qed.
Print Assumptions static_vector_is_a_list.
(** C46.  Pushing into the vector throws exactly when the capacity is used up. *)
Theorem static_vector_push_full {A} (junk : list A) (ops : list (sv_op A)) (l : list A) (s : svec A) (x : A) :
  spec_run (length junk) [] ops = Some l -> sv_run true (sv_new junk) ops = Ok s ->
  (push_back s x = Throw <-> length l = length junk).
Proof.
  intros H E. destruct (run_ok _ _ _ _ _ (new_ok junk) H) as (s' & E' & Hr). assert (s' = s) as -> by congruence.
  by apply push_full.
Qed.
Print Assumptions static_vector_push_full.
(** C46.  Construction from a range that fits gives its elements; a longer
    unsized range throws. *)
Theorem static_vector_from_range {A} (junk r : list A) :
  (length r <= length junk -> exists s, sv_of_range junk r = Ok s /\ sv_read s = Ok r) /\
  (length junk < length r -> sv_of_range junk r = Throw) /\
  (length r <= length junk -> exists s, sv_of_sized junk r = Ok s /\ sv_read s = Ok r).
Proof.
  pose proof (of_range_ok junk r) as H. split; [|split].
  - intros Hl. rewrite decide_True in H by done. destruct H as (s & E & Hr). exists s. split; [done|by eapply read_ok].
  - intros Hl. rewrite decide_False in H by lia. done.
  - intros Hl. destruct (of_sized_ok junk r Hl) as (s & E & Hr). exists s. split; [done|by eapply read_ok].
Qed.
Print Assumptions static_vector_from_range.
(** C46.  getTrueInds lists the set positions in ascending order. *)
Theorem true_inds_list_set_positions (junk : list nat) (a : list bool) : length junk = length a ->
  exists s l, getTrueInds junk a = Ok s /\ sv_read s = Ok l /\
    StronglySorted lt l /\ forall i, i ∈ l <-> a !! i = Some true.
Proof.
  intros Hj. destruct (true_inds_ok junk a Hj) as (s & l & E & Hr & ->). eexists s, _. split; [done|]. split; [by eapply read_ok|]. split.
  - generalize 0, (length a). intros b n. revert b. induction n as [|n IH]; intros b; cbn; [constructor|].
    destruct (a !! b) as [[]|]; [constructor; [apply IH|]|apply IH|apply IH].
    apply Forall_forall. intros x Hx. apply elem_of_list_In, filter_In in Hx as [Hx _]. apply elem_of_list_In, elem_of_seq in Hx. lia.
  - intros i. rewrite (elem_of_list_In (List.filter _ _)), filter_In, <- (elem_of_list_In (seq _ _)), elem_of_seq. split.
    + intros [_ H]. destruct (a !! i) as [[]|]; done.
    + intros H. rewrite H. apply lookup_lt_Some in H. split; [lia|done].
Qed.
Print Assumptions true_inds_list_set_positions.

(** C46.  Growing resize and construction from a sized range do not check the
    capacity: both write outside of the array. *)
Theorem static_vector_capacity_refuted : exists (junk : list nat) (n : nat) (r : list nat),
  sv_resize true (sv_new junk) n 0 = UB /\ sv_of_sized junk r = UB.
Proof. exists [0; 0], 3, [1; 2; 3]. done. Qed.
Print Assumptions static_vector_capacity_refuted.
(** C46.  erase returns the iterator [last] it was given instead of the position
    following the removed elements: erasing the first of three elements returns
    offset 1 where the following element is at offset 0. *)
Theorem static_vector_erase_result_refuted : exists (junk : list nat) (s s' : svec nat) (ret : nat),
  sv_run true (sv_new junk) [Push 1; Push 2; Push 3] = Ok s /\ erase true s 0 1 = Ok (s', ret) /\
  sv_read s' = Ok [2; 3] /\ ret <> 0.
Proof. eexists [0; 0; 0], _, _, _. split; [reflexivity|]. split; [reflexivity|]. split; [reflexivity|done]. Qed.
Print Assumptions static_vector_erase_result_refuted.
(** C46.  For an element type with a destructor, an element that was popped or
    erased is destroyed a second time by the array, and a push after a pop
    assigns to a destroyed object. *)
Theorem static_vector_lifetime_refuted : exists (junk : list nat) (s : svec nat),
  sv_run false (sv_new junk) [Push 1; Pop] = Ok s /\ sv_destructor s = UB /\
  sv_run false (sv_new junk) [Push 1; Pop; Push 2] = UB.
Proof. eexists [0; 0], _. split; [reflexivity|]. split; reflexivity. Qed.
Print Assumptions static_vector_lifetime_refuted.

Example static_vector_example : let ops := [Push 1; Push 2; Resize 4 7; Erase 1 3; Push 9; Pop; Push 5] in
  spec_run 5 [] ops = Some [1; 7; 5] /\
  (s ← sv_run true (sv_new [8; 8; 8; 8; 8]) ops; sv_read s) = Ok [1; 7; 5] /\
  (s ← getTrueInds [8; 8; 8; 8] [true; false; true; true]; sv_read s) = Ok [0; 2; 3].
Proof. split; [reflexivity|]. split; reflexivity. Qed.
