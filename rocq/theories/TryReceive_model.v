(** Model of Import::tryReceive, comm/ImportExport.hpp 339-354, called
    concurrently by any number of threads after postComms (295-303) cleared
    m_recv_complete.  Every access to the flag, the mutex and the requests is
    one indivisible step; memory orders are not modelled (sequential
    consistency). *)
From Verif Require Import Base.

(** Where a thread is. *)
Inductive pc :=
| Idle              (* not in tryReceive *)
| Chk1              (* 342: before the first test of the flag *)
| Lock              (* 344-346: before try_lock *)
| Chk2              (* 347: lock held, before the second test *)
| Tst (i : nat)     (* 349: lock held, all_of has seen requests 0..i-1 complete *)
| SetF              (* 350-351: lock held, all complete *)
| Rel (b : bool).   (* 348, 352: about to release the lock and return b *)

(** [tr_arr] tells for each receive request whether its message has arrived.
    [tr_trues] counts the calls that returned true.  [tr_late] is a history
    variable: some call started when every message had arrived and no thread
    was inside tryReceive. *)
Record tr_state := {
  tr_flag : bool; tr_holder : option nat; tr_arr : list bool;
  tr_pcs : list pc; tr_trues : nat; tr_late : bool }.
Definition tr_init (requests threads : nat) : tr_state :=
  {| tr_flag := false; tr_holder := None; tr_arr := replicate requests false;
     tr_pcs := replicate threads Idle; tr_trues := 0; tr_late := false |}.
Definition all_arrived (s : tr_state) : Prop := Forall (fun b => b = true) (tr_arr s).
Definition all_idle (s : tr_state) : Prop := Forall (fun p => p = Idle) (tr_pcs s).
Global Instance all_arrived_dec s : Decision (all_arrived s) := _.
Global Instance pc_dec : EqDecision pc. Proof. solve_decision. Defined.
Global Instance all_idle_dec s : Decision (all_idle s) := _.

Definition upd (s : tr_state) (t : nat) (p : pc) : tr_state :=
  {| tr_flag := tr_flag s; tr_holder := tr_holder s; tr_arr := tr_arr s;
     tr_pcs := <[t := p]> (tr_pcs s); tr_trues := tr_trues s; tr_late := tr_late s |}.

(** [spurious]: std::mutex::try_lock may fail although the mutex is free. *)
Inductive tr_step (spurious : bool) (s : tr_state) : tr_state -> Prop :=
| tr_arrive (i : nat) :
    tr_step spurious s {| tr_flag := tr_flag s; tr_holder := tr_holder s; tr_arr := <[i := true]> (tr_arr s);
                          tr_pcs := tr_pcs s; tr_trues := tr_trues s; tr_late := tr_late s |}
| tr_call t : tr_pcs s !! t = Some Idle ->
    tr_step spurious s {| tr_flag := tr_flag s; tr_holder := tr_holder s; tr_arr := tr_arr s;
                          tr_pcs := <[t := Chk1]> (tr_pcs s); tr_trues := tr_trues s;
                          tr_late := tr_late s || bool_decide (all_arrived s /\ all_idle s) |}
| tr_chk1 t : tr_pcs s !! t = Some Chk1 ->
    tr_step spurious s (upd s t (if tr_flag s then Idle else Lock))
| tr_lock t : tr_pcs s !! t = Some Lock -> tr_holder s = None ->
    tr_step spurious s {| tr_flag := tr_flag s; tr_holder := Some t; tr_arr := tr_arr s;
                          tr_pcs := <[t := Chk2]> (tr_pcs s); tr_trues := tr_trues s; tr_late := tr_late s |}
| tr_busy t : tr_pcs s !! t = Some Lock -> tr_holder s <> None \/ spurious = true ->
    tr_step spurious s (upd s t Idle)
| tr_chk2 t : tr_pcs s !! t = Some Chk2 ->
    tr_step spurious s (upd s t (if tr_flag s then Rel false else Tst 0))
| tr_test t i (b : bool) : tr_pcs s !! t = Some (Tst i) -> tr_arr s !! i = Some b ->
    tr_step spurious s (upd s t (if b then Tst (S i) else Rel false))
| tr_tested t i : tr_pcs s !! t = Some (Tst i) -> tr_arr s !! i = None ->
    tr_step spurious s (upd s t SetF)
| tr_set t : tr_pcs s !! t = Some SetF ->
    tr_step spurious s {| tr_flag := true; tr_holder := tr_holder s; tr_arr := tr_arr s;
                          tr_pcs := <[t := Rel true]> (tr_pcs s); tr_trues := tr_trues s; tr_late := tr_late s |}
| tr_release t b : tr_pcs s !! t = Some (Rel b) ->
    tr_step spurious s {| tr_flag := tr_flag s; tr_holder := None; tr_arr := tr_arr s;
                          tr_pcs := <[t := Idle]> (tr_pcs s);
                          tr_trues := tr_trues s + (if b then 1 else 0); tr_late := tr_late s |}.
