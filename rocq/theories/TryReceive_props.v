(** C12. *)
From Verif Require Import Base TryReceive_model TryReceive_proofs.

(** At most one call returns true, and only once every message has arrived
    (messages never un-arrive), whatever the threads, calls, interleaving,
    arrival times and spurious lock failures. *)
Theorem try_receive_at_most_once :
  forall spurious requests threads s,
    rtc (tr_step spurious) (tr_init requests threads) s ->
    tr_trues s <= 1 /\ (tr_trues s = 1 -> all_arrived s).
Proof. exact tr_once. Qed.
Print Assumptions try_receive_at_most_once.
(** Whenever some call started after everything arrived and with no thread
    inside, then as soon as all threads have left, exactly one call has
    returned true (try_lock not failing spuriously). *)
Theorem try_receive_reports :
  forall requests threads s,
    rtc (tr_step false) (tr_init requests threads) s ->
    tr_late s = true -> all_idle s -> tr_trues s = 1.
Proof. exact tr_reported. Qed.
Print Assumptions try_receive_reports.
Local Ltac go c := eapply rtc_l; [eapply c; (reflexivity || (left; discriminate) || idtac)|];
  match goal with |- rtc _ ?s _ => let s' := eval vm_compute in s in change s with s' end.
Example try_receive_example :
  exists s, rtc (tr_step false) (tr_init 2 2) s /\ tr_late s = true /\ all_idle s
    /\ tr_flag s = true /\ tr_trues s = 1.
Proof.
  eexists. split.
  - go (fun s => tr_arrive false s 1).
    go (fun s => tr_call false s 0).
    go (fun s => tr_chk1 false s 0).
    go (fun s => tr_lock false s 0).
    go (fun s => tr_chk2 false s 0).
    go (fun s => tr_test false s 0 0 false).
    go (fun s => tr_release false s 0 false).
    go (fun s => tr_arrive false s 0).
    go (fun s => tr_call false s 0).
    go (fun s => tr_call false s 1).
    go (fun s => tr_chk1 false s 0).
    go (fun s => tr_chk1 false s 1).
    go (fun s => tr_lock false s 1).
    go (fun s => tr_busy false s 0).
    go (fun s => tr_chk2 false s 1).
    go (fun s => tr_test false s 1 0 true).
    go (fun s => tr_test false s 1 1 true).
    go (fun s => tr_tested false s 1 2).
    go (fun s => tr_set false s 1).
    go (fun s => tr_release false s 1 true).
    apply rtc_refl.
  - cbn. split; [reflexivity|]. split; [repeat constructor|]. split; reflexivity.
Qed.
