(** Vocabulary for the statements about the helpers. *)
From Verif Require Import Base StdAlgo.

(** [cmp] is a strict weak ordering of the elements of [l]. *)
Record strict_weak {A} (cmp : A -> A -> bool) (l : list A) : Prop := {
  sw_irrefl : forall x, x ∈ l -> cmp x x = false;
  sw_trans : forall x y z, x ∈ l -> y ∈ l -> z ∈ l -> cmp x y = true -> cmp y z = true -> cmp x z = true;
  sw_incomp : forall x y z, x ∈ l -> y ∈ l -> z ∈ l -> cmp x y = false -> cmp y z = false -> cmp x z = false }.
(** No later element is smaller than an earlier one. *)
Definition ordered {A} (cmp : A -> A -> bool) (l : list A) : Prop :=
  forall i j x y, i < j -> l !! i = Some x -> l !! j = Some y -> cmp y x = false.
(** The contract of std::sort on indices. *)
Definition sorts_indices (std_sort : (nat -> nat -> bool) -> list nat -> list nat) : Prop :=
  forall cmp l, strict_weak cmp l -> std_sort cmp l ≡ₚ l /\ ordered cmp (std_sort cmp l).
(** The value is representable in an integer type of that signedness and width. *)
Definition representable (signed : bool) (bits : Z) (x : Z) : Prop :=
  if signed then (- 2 ^ (bits - 1) <= x < 2 ^ (bits - 1))%Z else (0 <= x < 2 ^ bits)%Z.
