(** What a cache of weak pointers gives, in terms of what was put into it and what the program
    still holds. *)
From Verif Require Import Base WCache_model.

Section spec.
  Context {K V : Type}.
  (** All that was ever emplaced, and for each pointer of the program which of them it is. *)
  Notation history := (list (K * V)).
  (** [o] is what was last emplaced under [k]. *)
  Definition is_last (h : history) (k : K) (o : nat) : Prop :=
    (exists v, h !! o = Some (k, v)) /\ forall j v, h !! j = Some (k, v) -> j <= o.
  (** What looking up [k] gives: what was emplaced last, if some pointer to it is held. *)
  Definition found (h : history) (p : list (option nat)) (k : K) (r : option nat) : Prop :=
    match r with
    | Some o => is_last h k o /\ Some o ∈ p
    | None => forall o, is_last h k o -> ~ Some o ∈ p
    end.
  Definition effect (o : wop K V) (h : history) (p : list (option nat)) (h' : history) (p' : list (option nat)) : Prop :=
    match o with
    | Emplace k v => h' = h ++ [(k, v)] /\ p' = p ++ [Some (length h)]
    | Get k => h' = h /\ exists r, found h p k r /\ p' = p ++ [r]
    | Copy i => h' = h /\ exists r, p !! i = Some r /\ p' = p ++ [r]
    | Reset i => h' = h /\ i < length p /\ p' = <[i := None]> p
    end.
  (** The pointers that a program names exist. *)
  Fixpoint names_ok (n : nat) (l : list (wop K V)) : Prop :=
    match l with
    | [] => True
    | Emplace _ _ :: l | Get _ :: l => names_ok (S n) l
    | Copy i :: l => i < n /\ names_ok (S n) l
    | Reset i :: l => i < n /\ names_ok n l
    end.
  Inductive history_of : list (wop K V) -> history -> list (option nat) -> Prop :=
  | history_nil : history_of [] [] []
  | history_snoc l o h p h' p' : history_of l h p -> effect o h p h' p' -> history_of (l ++ [o]) h' p'.
End spec.
