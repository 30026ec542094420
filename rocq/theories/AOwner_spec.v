(** Arrays as values. *)
From Verif Require Import Base AOwner_model.

(** [None] stands for an array that was moved from; the result is [None] for programs that
    name an array that does not exist, use one that was moved from, or ask for alignment. *)
Definition aval {T} (o : aop T) (s : list (option (list T))) : option (list (option (list T))) :=
  match o with
  | AMake l => Some (s ++ [Some l])
  | AAligned _ => None
  | ADefault => Some (s ++ [Some []])
  | ACopy i => match s !! i with Some (Some l) => Some (s ++ [Some l]) | _ => None end
  | AMove i => match s !! i with Some v => Some (<[i := None]> s ++ [v]) | None => None end
  | AMoveAssign i j =>
      match s !! i, s !! j with
      | Some _, Some v => if decide (i = j) then Some s else Some (<[j := None]> (<[i := v]> s))
      | _, _ => None
      end
  | ASet i k v => match s !! i with Some (Some l) => Some (<[i := Some (<[k := v]> l)]> s) | _ => None end
  end.
Fixpoint avals {T} (l : list (aop T)) (s : list (option (list T))) : option (list (option (list T))) :=
  match l with [] => Some s | o :: l => match aval o s with Some s => avals l s | None => None end end.
