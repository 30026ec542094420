(** Property C91: owning arrays. *)
From Verif Require Import Base AOwner_model AOwner_spec AOwner_proofs.

(** C91.  In every program that makes, copies, moves and writes arrays, uses none that was
    moved from, and asks for no alignment: each array has the elements it stands for, copies are
    independent, at gives the element or throws exactly outside the array, nothing undefined
    happens, and when all arrays are destroyed every block has been deleted, none of them
    twice. *)
Theorem array_owner_programs_partial {T} (l : list (aop T)) vs :
  avals l [] = Some vs ->
  exists h os, asteps l = Ok (h, os) /\ length os = length vs /\
    (forall i x, vs !! i = Some (Some x) -> exists a, os !! i = Some a /\ a.2 = length x /\ aread a h = Ok x /\
      forall k, aat a k h = match x !! k with Some v => Ok v | None => Throw end) /\
    exists h', adestroy_all (h, os) = Ok h' /\ Forall (fun b => b = None) h'.
Proof.
  intros H. destruct (asteps_ok l [] [] [] vs good_empty H) as (h & os & E & G).
  exists h, os. split; [exact E|]. split; [apply G|]. split.
  - intros i x Hx. destruct (lookup_lt_is_Some_2 os i) as [a Ha]; [rewrite (g_len _ _ _ G); by eapply lookup_lt_Some|].
    pose proof (g_ref _ _ _ G i a _ Ha Hx) as R. exists a. split; [done|]. split; [apply R|]. split; [by apply read_ok|].
    intros k. by apply at_ok.
  - destruct (adestroy_ok os h vs G) as (h' & D & N). exists h'. split; [exact D|].
    apply Forall_lookup. intros p [b|] Hp; [|done]. by apply N in Hp.
Qed.
(** at is not checked access for an array that was moved from: the size is kept, so that the
    check passes and a null pointer is used. *)
Theorem array_owner_moved_refuted :
  ~ forall (l : list (aop nat)) h os i a k, asteps l = Ok (h, os) -> os !! i = Some a -> aat a k h <> UB.
Proof.
  intros X. apply (X [AMake [7]; AMove 0] [Some (false, [7])] [(None, 1); (Some 0, 1)] 0 (None, 1) 0); vm_compute; done.
Qed.
(** The destructor is not defined for arrays with alignment. *)
Theorem array_owner_aligned_refuted :
  ~ forall (l : list (aop nat)) s, asteps l = Ok s -> adestroy_all s <> UB.
Proof.
  intros X. apply (X [AAligned [7]] ([Some (true, [7])], [(Some 0, 1)])); vm_compute; done.
Qed.

Example array_owner_example :
  avals [AMake [1; 2]; ACopy 0; ASet 0 1 9; ASet 0 2 5; AMove 0; ADefault; AMoveAssign 3 1; AMoveAssign 0 2; AMoveAssign 0 0] [] =
    Some [Some [1; 9]; None; None; Some [1; 2]] /\
  match asteps [AMake [1; 2]; ACopy 0; ASet 0 1 9; ASet 0 2 5; AMove 0; ADefault; AMoveAssign 3 1; AMoveAssign 0 2; AMoveAssign 0 0] with
  | Ok (h, [a; _; _; b]) => aread a h = Ok [1; 9] /\ aread b h = Ok [1; 2] /\ aat b 2 h = Throw
  | _ => False
  end.
Proof. vm_compute. done. Qed.

Print Assumptions array_owner_programs_partial.
Print Assumptions array_owner_moved_refuted.
Print Assumptions array_owner_aligned_refuted.
