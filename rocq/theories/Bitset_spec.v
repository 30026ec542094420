(** A bitset is a list of booleans. *)
From Verif Require Import Base Bitset_model.

(** The calls on a list of booleans; [None] when a position is out of range. *)
Definition at_pos (p : nat) (f : bool -> bool) (l : list bool) : option (list bool) :=
  match l !! p with Some b => Some (<[p := f b]> l) | None => None end.
Definition spec_step (o : op) (l : list bool) : option (list bool) :=
  match o with
  | OSet p => at_pos p (fun _ => true) l
  | OReset p => at_pos p (fun _ => false) l
  | OFlip p => at_pos p negb l
  | OAssign p v => at_pos p (fun _ => v) l
  | OClear => Some (map (fun _ => false) l)
  | OResize n => Some (take n l ++ replicate (n - length l) false)
  | OSubSet b p => at_pos (b + p) (fun _ => true) l
  | OSubReset b p => at_pos (b + p) (fun _ => false) l
  | OSubFlip b p => at_pos (b + p) negb l
  | OSubAssign b p v => at_pos (b + p) (fun _ => v) l
  end.
Fixpoint spec_run (ops : list op) (l : list bool) : option (list bool) :=
  match ops with
  | [] => Some l
  | o :: ops => match spec_step o l with Some l' => spec_run ops l' | None => None end
  end.
Definition count_true (l : list bool) : nat := length (List.filter id l).

(** The bitset answers every query as the list would. *)
Definition answers_like (s : bitset) (l : list bool) : Prop :=
  size s = length l
  /\ count s = count_true l
  /\ (forall i b, l !! i = Some b -> test i s = Ok b)
  /\ (forall b i v, l !! (b + i) = Some v -> sub_test b i s = Ok v)
  /\ (forall b e, b <= e <= length l -> sub_count b e s = Ok (count_true (take (e - b) (drop b l)))).

(** No flag that a resize cuts off is set. *)
Fixpoint cuts_only_clear (ops : list op) (l : list bool) : Prop :=
  match ops with
  | [] => True
  | o :: ops =>
    (match o with OResize n => Forall (fun b => b = false) (drop n l) | _ => True end)
    /\ match spec_step o l with Some l' => cuts_only_clear ops l' | None => True end
  end.
Definition no_shrink_step (o : op) (l : list bool) : Prop :=
  match o with OResize n => length l <= n | _ => True end.
Fixpoint no_shrink (ops : list op) (l : list bool) : Prop :=
  match ops with
  | [] => True
  | o :: ops => no_shrink_step o l
    /\ match spec_step o l with Some l' => no_shrink ops l' | None => True end
  end.

(** Sequential meaning of an atomic operation on one flag. *)
Definition aop_pos (o : aop) : nat :=
  match o with ASet p | AReset p | AFlip p => p end.
Definition aop_fun (o : aop) (b : bool) : bool :=
  match o with ASet _ => true | AReset _ => false | AFlip _ => negb b end.
(** [merges ts h]: the history [h] interleaves the threads [ts]. *)
Inductive merges : list (list aop) -> list aop -> Prop :=
| merges_nil ts : Forall (fun t => t = []) ts -> merges ts []
| merges_cons ts t o rest h :
    ts !! t = Some (o :: rest) -> merges (<[t := rest]> ts) h -> merges ts (o :: h).
