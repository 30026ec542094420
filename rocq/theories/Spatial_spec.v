(** Vocabulary of C33. *)
From Coq Require Import QArith Qabs.
From Verif Require Import Base.
(** [x] and [y] differ by less than [f] times the cell size in every coordinate. *)
Definition closer (f : Q) (dx x y : list Q) : Prop :=
  length x = length y /\ forall i a b d, x !! i = Some a -> y !! i = Some b -> dx !! i = Some d -> (Qabs (a - b) < f * d)%Q.
(** For the coordinates of [p], the quotient is computed with error at most [eps]. *)
Definition accurate (quot : Q -> Q -> Q -> Q) (eps : Q) (origin dx p : list Q) : Prop :=
  forall i x x0 d, p !! i = Some x -> origin !! i = Some x0 -> dx !! i = Some d -> (Qabs (quot x x0 d - (x - x0) / d) <= eps)%Q.
(** The cell size used: not smaller than the minimum. *)
Definition cell_size (minimum : Q) (dx dx' : list Q) : Prop :=
  Forall2 (fun d d' => (d' == Qabs d \/ d' == minimum) /\ Qabs d <= d' /\ minimum <= d')%Q dx dx'.
