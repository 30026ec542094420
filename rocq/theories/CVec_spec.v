(** What the operations of C83 do to sequences; [None] if a precondition is violated. *)
From Verif Require Import Base CVec_model.

Definition seq_step {T} (o : op T) (ls : list (list T)) : option (list (list T)) :=
  match o with
  | Fill n x => Some (ls ++ [replicate n x])
  | Values l => Some (ls ++ [l])
  | Copy i => l ← ls !! i; Some (ls ++ [l])
  | Move i => l ← ls !! i; Some (<[i := []]> ls ++ [l])
  | MoveAssign i j => _ ← ls !! i; l ← ls !! j; Some (if decide (i = j) then ls else <[j := []]> (<[i := l]> ls))
  | Push i x => l ← ls !! i; Some (<[i := l ++ [x]]> ls)
  | PushOwn i j => l ← ls !! i; x ← l !! j; Some (<[i := l ++ [x]]> ls)
  | Pop i => l ← ls !! i; _ ← last l; Some (<[i := removelast l]> ls)
  | Clear i => _ ← ls !! i; Some (<[i := []]> ls)
  | Reserve i _ => _ ← ls !! i; Some ls
  end.
Fixpoint seq_run {T} (l : list (op T)) (ls : list (list T)) : option (list (list T)) :=
  match l with [] => Some ls | o :: l => ls' ← seq_step o ls; seq_run l ls' end.
(** No element of a vector is pushed to the vector itself. *)
Definition no_own {T} (l : list (op T)) : Prop := Forall (fun o => match o with PushOwn _ _ => False | _ => True end) l.
