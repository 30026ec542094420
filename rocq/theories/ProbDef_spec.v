(** What a problem definition says, in terms of the calls that made it. *)
From Verif Require Import Base.

(** A call is accepted when every unknown it names exists. *)
Definition accepted (n : nat) (c : list nat * list nat) : Prop := Forall (fun i => i < n) c.2.
(** Some accepted call names domain [D] together with unknown [d]. *)
Definition requested (n : nat) (calls : list (list nat * list nat)) (D d : nat) : Prop :=
  exists c, c ∈ calls /\ accepted n c /\ D ∈ c.1 /\ d ∈ c.2.
(** The stored definitions make unknown [d] active in domain [D]. *)
Definition active_in (defs : list (list nat * list bool)) (D d : nat) : Prop :=
  exists e, e ∈ defs /\ D ∈ e.1 /\ e.2 !! d = Some true.
