(** Vocabulary of C16. *)
From Verif Require Import Base Serial_model.
(** [v] is a value of type [t]: objects have the size of their type, ranges
    have a length that fits into size_t. *)
Fixpoint has_type (t : ty) (v : val) {struct t} : Prop :=
  match t, v with
  | TPod n, VPod bs => length bs = n /\ Forall (fun b => (b < 256)%N) bs
  | TRange t, VRange vs => (N.of_nat (length vs) < 2 ^ 64)%N /\ Forall (has_type t) vs
  | TTuple ts, VTuple vs =>
    (fix each (ts : list ty) (vs : list val) : Prop :=
       match ts, vs with
       | [], [] => True
       | t :: ts, v :: vs => has_type t v /\ each ts vs
       | _, _ => False
       end) ts vs
  | _, _ => False
  end.
