(** What a map is: the history of changes decides what each key has.  Used to state C82. *)
From Verif Require Import Base.

Inductive change (K V : Type) := Emplace (k : K) (v : V) | Assign (k : K) (v : V) | Erase (k : K) | Clear | Reserve (n : nat).
Arguments Emplace {K V} _ _.
Arguments Assign {K V} _ _.
Arguments Erase {K V} _.
Arguments Clear {K V}.
Arguments Reserve {K V} _.
(** One change of a partial function. *)
Definition changed {K V} `{EqDecision K} (m : K -> option V) (c : change K V) (x : K) : option V :=
  match c with
  | Emplace k v => if decide (x = k) then Some (default v (m k)) else m x
  | Assign k v => if decide (x = k) then Some v else m x
  | Erase k => if decide (x = k) then None else m x
  | Clear => None
  | Reserve _ => m x
  end.
Definition history {K V} `{EqDecision K} (l : list (change K V)) : K -> option V := foldl changed (fun _ => None) l.
(** [n] keys have a value. *)
Definition has_size {K V} (m : K -> option V) (n : nat) : Prop :=
  exists l, NoDup l /\ length l = n /\ forall k, k ∈ l <-> is_Some (m k).
(** At no time more than [n] keys have a value. *)
Definition at_most {K V} `{EqDecision K} (n : nat) (l : list (change K V)) : Prop := forall i, exists s, s <= n /\ has_size (history (take i l)) s.
(** Carrying out a list of changes with the operations of a table. *)
Definition carry_out {K V T} (emplace assign : K -> V -> T -> res T) (erase : K -> T -> res T) (clear : T -> res T) (reserve : nat -> T -> res T)
    (l : list (change K V)) (t : T) : res T :=
  for_each (fun c t => match c with Emplace k v => emplace k v t | Assign k v => assign k v t | Erase k => erase k t | Clear => clear t | Reserve n => reserve n t end) l t.
