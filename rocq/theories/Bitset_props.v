(** C03, C04, C05, C06. *)
From Verif Require Import Base Bitset_model Bitset_spec Bitset_proofs.

(** C03: any history of calls with in-range positions, in which the bitset is
    never made smaller, runs without undefined behaviour and leaves a bitset
    that answers size, count, test, sub-view test and sub-view count exactly
    as a list of booleans subject to the same calls. *)
Theorem bitset_refines_bool_list :
  forall (n : nat) (ops : list op) (l : list bool),
    spec_run ops (replicate n false) = Some l ->
    no_shrink ops (replicate n false) ->
    exists s, run ops (make n) = Ok s /\ answers_like s l.
Proof. exact bitset_history_grow. Qed.
Print Assumptions bitset_refines_bool_list.
Example bitset_refines_example :
  let ops := [OSet 3; OSet 64; OFlip 69; OResize 200; OAssign 199 true; OSubFlip 60 4; OClear;
              OSubSet 60 70; OReset 3; OAssign 131 true] in
  exists l, spec_run ops (replicate 70 false) = Some l /\ no_shrink ops (replicate 70 false)
    /\ length l = 200 /\ count_true l = 2.
Proof. eexists. split; [vm_compute; reflexivity|]. vm_compute. repeat split; lia. Qed.

(** C04: in every state reachable by any history (shrinking included), counting
    the sub-range [b, e) gives the number of positions in it that test true. *)
Theorem bitset_subview_count :
  forall (n : nat) (ops : list op) (s : bitset) (b e : nat),
    run ops (make n) = Ok s -> b <= e <= size s ->
    sub_count b e s =
      Ok (length (List.filter (fun i => match test i s with Ok true => true | _ => false end)
                              (seq b (e - b)))).
Proof. exact subview_count_hist. Qed.
Print Assumptions bitset_subview_count.
Example bitset_subview_count_example :
  exists s, run [OSet 1; OSet 63; OSet 64; OSet 190] (make 200) = Ok s
    /\ 63 <= 191 <= size s /\ sub_count 63 191 s = Ok 3 /\ sub_count 63 190 s = Ok 2.
Proof. eexists. split; [vm_compute; reflexivity|]. vm_compute. repeat split; lia. Qed.

(** C05: threads applying atomic set/reset/flip.  From any bitset with contents
    [l], and for every interleaving, (1) no thread ever gets stuck (no
    undefined behaviour), and (2) when all threads are done the contents are
    those obtained by applying, flag by flag, the operations of one
    sequential history [h] that interleaves the threads. *)
Theorem bitset_atomic_linearizable :
  forall n ops l s ts ts' s',
    spec_run ops (replicate n false) = Some l -> cuts_only_clear ops (replicate n false) ->
    run ops (make n) = Ok s ->
    Forall (Forall (fun o => aop_pos o < length l)) ts ->
    rtc mstep (ts, s) (ts', s') ->
    (Forall (fun t => t = []) ts' \/ exists c, mstep (ts', s') c) /\
    (Forall (fun t => t = []) ts' ->
      exists h, merges ts h /\
        answers_like s' (imap (fun i b => foldl (fun b o => aop_fun o b) b
                                (List.filter (fun o => aop_pos o =? i) h)) l)).
Proof. exact atomic_main. Qed.
Print Assumptions bitset_atomic_linearizable.

(** Concurrent sets: a flag is true at the end iff it was true before or some
    thread set it; no update is lost and the schedule does not matter. *)
Theorem bitset_atomic_sets_never_lost :
  forall n ops l s ts ts' s',
    spec_run ops (replicate n false) = Some l -> cuts_only_clear ops (replicate n false) ->
    run ops (make n) = Ok s ->
    Forall (Forall (fun o => aop_pos o < length l)) ts ->
    Forall (Forall (fun o => exists p, o = ASet p)) ts ->
    rtc mstep (ts, s) (ts', s') -> Forall (fun t => t = []) ts' ->
    forall i b, l !! i = Some b ->
      exists v, test i s' = Ok v /\ (v = true <-> b = true \/ exists t, t ∈ ts /\ ASet i ∈ t).
Proof. exact atomic_sets. Qed.
Print Assumptions bitset_atomic_sets_never_lost.

(** Concurrent flips: the final flag is the initial one flipped as many times
    as all threads together flip it. *)
Theorem bitset_atomic_flips_never_lost :
  forall n ops l s ts ts' s',
    spec_run ops (replicate n false) = Some l -> cuts_only_clear ops (replicate n false) ->
    run ops (make n) = Ok s ->
    Forall (Forall (fun o => aop_pos o < length l)) ts ->
    Forall (Forall (fun o => exists p, o = AFlip p)) ts ->
    rtc mstep (ts, s) (ts', s') -> Forall (fun t => t = []) ts' ->
    forall i b, l !! i = Some b ->
      test i s' = Ok (xorb b (Nat.odd (length (List.filter (fun o => aop_pos o =? i) (concat ts))))).
Proof. exact atomic_flips. Qed.
Print Assumptions bitset_atomic_flips_never_lost.
(** Two threads, operations on the same word; they can run to the end. *)
Example bitset_atomic_example :
  exists s', rtc mstep ([[ASet 1; AFlip 3]; [ASet 2; AFlip 3; AReset 1]], make 10) ([[]; []], s')
    /\ test 1 s' = Ok false /\ test 2 s' = Ok true /\ test 3 s' = Ok false.
Proof.
  eexists. split.
  - eapply rtc_l; [eapply (MStep _ 0); reflexivity|].
    eapply rtc_l; [eapply (MStep _ 1); reflexivity|].
    eapply rtc_l; [eapply (MStep _ 1); reflexivity|].
    eapply rtc_l; [eapply (MStep _ 0); reflexivity|].
    eapply rtc_l; [eapply (MStep _ 1); reflexivity|]. apply rtc_refl.
  - vm_compute. auto.
Qed.

(** C06 is false of the code (finding): after shrinking, count() still counts
    the cut-off flags that live in the last retained word ... *)
Theorem bitset_shrink_count_refuted :
  exists n ops l s,
    spec_run ops (replicate n false) = Some l /\ run ops (make n) = Ok s
    /\ size s = length l /\ count s <> count_true l.
Proof. exact shrink_refuted. Qed.
Print Assumptions bitset_shrink_count_refuted.
(** ... and growing again brings them back. *)
Theorem bitset_regrow_refuted :
  exists n ops l s i,
    spec_run ops (replicate n false) = Some l /\ run ops (make n) = Ok s
    /\ l !! i = Some false /\ test i s = Ok true.
Proof. exact regrow_refuted. Qed.
Print Assumptions bitset_regrow_refuted.
(** C06, largest true part: if no cut-off flag is true when the bitset is made
    smaller, all histories of shrinking and growing refine the list.
    Missing: the claim for histories that cut off true flags (it is false). *)
Theorem bitset_resize_partial :
  forall (n : nat) (ops : list op) (l : list bool),
    spec_run ops (replicate n false) = Some l ->
    cuts_only_clear ops (replicate n false) ->
    exists s, run ops (make n) = Ok s /\ answers_like s l.
Proof. exact bitset_history. Qed.
Print Assumptions bitset_resize_partial.
Example bitset_resize_example :
  let ops := [OSet 7; OSet 100; OReset 100; OResize 20; OResize 150; OSet 149] in
  exists l, spec_run ops (replicate 128 false) = Some l
    /\ cuts_only_clear ops (replicate 128 false) /\ count_true l = 2.
Proof.
  eexists. split; [vm_compute; reflexivity|]. split; [|vm_compute; reflexivity].
  vm_compute. repeat split; repeat (constructor; try reflexivity).
Qed.
