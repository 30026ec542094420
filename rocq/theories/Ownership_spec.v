(** What the ownership tables must mean, independently of the code. *)
From Verif Require Import Base.
From stdpp Require Import sorting.

(** First index owned by rank [r] when rank k owns [counts !! k] indices. *)
Definition first_owned (counts : list nat) (r : nat) : nat := foldr Nat.add 0 (take r counts).
(** Rank [r] owns global index [i]. *)
Definition owns (counts : list nat) (r i : nat) : Prop :=
  exists c, counts !! r = Some c /\ first_owned counts r <= i < first_owned counts r + c.
Definition total (counts : list nat) : nat := foldr Nat.add 0 counts.

(** [t] is the right table for rank [a] of "which of my indices does rank b
    share": ranks in ascending order, each with the ascending non-empty list
    of exactly the indices owned by [a] and shared by [b], and no rank missing. *)
Definition table_correct (counts : list nat) (shareds : list (list nat)) (a : nat)
    (t : list (nat * list nat)) : Prop :=
  StronglySorted lt t.*1
  /\ (forall b ids, (b, ids) ∈ t -> StronglySorted lt ids /\ ids <> []
        /\ exists sh, shareds !! b = Some sh /\ forall i, i ∈ ids <-> owns counts a i /\ i ∈ sh)
  /\ (forall b sh i, shareds !! b = Some sh -> owns counts a i -> i ∈ sh ->
        exists ids, (b, ids) ∈ t /\ i ∈ ids).
