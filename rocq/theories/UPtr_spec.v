(** What pointers refer to, and the objects that are lost. *)
From Verif Require Import Base UPtr_model.

(** The values the pointers refer to and the number of objects that no pointer refers to any
    more; [None] if a pointer does not exist. *)
Definition moved {T} (o : pop T) (s : list (option T) * nat) : option (list (option T) * nat) :=
  match o with
  | MakeUnique x => Some (s.1 ++ [Some x], s.2)
  | MovePtr i => match s.1 !! i with Some v => Some (<[i := None]> s.1 ++ [v], s.2) | None => None end
  | AssignPtr i j =>
      match s.1 !! i, s.1 !! j with
      | Some old, Some v => if decide (i = j) then Some s else Some (<[j := None]> (<[i := v]> s.1), s.2 + match old with Some _ => 1 | None => 0 end)
      | _, _ => None
      end
  end.
Fixpoint moves {T} (l : list (pop T)) (s : list (option T) * nat) : option (list (option T) * nat) :=
  match l with [] => Some s | o :: l => match moved o s with Some s' => moves l s' | None => None end end.
(** Blocks that have not been freed. *)
Definition unfreed {A} (h : list (option A)) : nat := length (filter (fun b => is_Some b) h).
