(** Vocabulary of C46: the same operations on lists, with the contract under
    which they are allowed. *)
From Verif Require Import Base StaticVector_model.
Section spec.
  Context {A : Type} (cap : nat).
  Definition spec_step (l : list A) (o : sv_op A) : option (list A) :=
    match o with
    | Push x => if decide (length l < cap) then Some (l ++ [x]) else None
    | Pop => match l with [] => None | _ => Some (take (length l - 1) l) end
    | Erase f e => if decide (f <= e <= length l /\ (f < e \/ e = length l)) then Some (take f l ++ drop e l) else None
    | Resize n v => if decide (n <= cap) then Some (take n l ++ replicate (n - length l) v) else None
    end.
  Fixpoint spec_run (l : list A) (ops : list (sv_op A)) : option (list A) :=
    match ops with
    | [] => Some l
    | o :: ops => match spec_step l o with Some l' => spec_run l' ops | None => None end
    end.
End spec.
