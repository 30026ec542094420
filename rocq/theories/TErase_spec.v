(** What an erased function stands for. *)
From Verif Require Import Base TErase_model.

(** Nothing; a small target; a large target, [None] when it was moved away. *)
Inductive tval V := VEmpty | VSmall (v : V) | VLarge (v : option V).
Arguments VEmpty {V}. Arguments VSmall {V}. Arguments VLarge {V}.
(** What is left of an object that was moved from. *)
Definition left_over {V} (mv : V -> V) (x : tval V) : tval V :=
  match x with VEmpty => VEmpty | VSmall v => VSmall (mv v) | VLarge _ => VLarge None end.
(** [None]: the program names an object that does not exist. *)
Definition tvstep {V} (mv : V -> V) (o : top V) (s : list (tval V)) : option (list (tval V)) :=
  match o with
  | TDefault => Some (s ++ [VEmpty])
  | TMake small v => Some (s ++ [if small then VSmall v else VLarge (Some v)])
  | TMove i => match s !! i with Some x => Some (<[i := left_over mv x]> s ++ [x]) | None => None end
  | TMoveAssign i j =>
      match s !! i, s !! j with
      | Some _, Some x => if decide (i = j) then Some s else Some (<[j := left_over mv x]> (<[i := x]> s))
      | _, _ => None
      end
  end.
Fixpoint tvsteps {V} (mv : V -> V) (l : list (top V)) (s : list (tval V)) : option (list (tval V)) :=
  match l with [] => Some s | o :: l => match tvstep mv o s with Some s => tvsteps mv l s | None => None end end.
(** The target that a call reaches. *)
Definition target {V} (x : tval V) : option V := match x with VEmpty => None | VSmall v => Some v | VLarge v => v end.
