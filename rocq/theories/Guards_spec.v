(** Vocabulary of C48 and C49. *)
From Verif Require Import Base Guards_model.
(** The limits requested by the guards that are alive after a nested history
    (youngest first); None if more guards are closed than opened. *)
Fixpoint alive (reqs : list nat) (ops : list par_op) : option (list nat) :=
  match ops with
  | [] => Some reqs
  | Open n :: ops => alive (n :: reqs) ops
  | Close :: ops => match reqs with [] => None | _ :: reqs => alive reqs ops end
  end.
(** The least of the requests, each at least 1, and the hardware limit. *)
Definition least (hw : nat) (reqs : list nat) : nat := foldr (fun n m => Nat.min (Nat.max n 1) m) hw reqs.
(** Whether some request is below the hardware limit. *)
Definition restricting (hw : nat) (reqs : list nat) : Prop := exists n, n ∈ reqs /\ Nat.max n 1 < hw.
(** No operation of the history move-assigns into a guard that owns the library. *)
Fixpoint no_owning_target (mpi : bool) (w : world) (ops : list guard_op) : Prop :=
  match ops with
  | [] => True
  | o :: ops =>
    match o with MoveAssign d s => d = s \/ w_guards w !! d <> Some (Some true) | _ => True end /\
    match guard_step mpi w o with Ok w' => no_owning_target mpi w' ops | _ => True end
  end.
