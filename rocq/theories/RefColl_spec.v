(** A collection as a sequence; [None] if an own element does not exist. *)
From Verif Require Import Base RefColl_model.

Fixpoint pushed {T} (l : list (op T)) (xs : list T) : option (list T) :=
  match l with
  | [] => Some xs
  | Push x :: l => pushed l (xs ++ [x])
  | PushOwn j :: l => match xs !! j with Some x => pushed l (xs ++ [x]) | None => None end
  end.
