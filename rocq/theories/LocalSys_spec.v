(** Vocabulary of C44. *)
From Verif Require Import Base LocalSys_model.
Section spec.
  Context {F : Type} (zero : F) (add mul : F -> F -> F) (nu us : nat).
  Fixpoint total {A} (l : list A) (f : A -> F) : F := match l with [] => zero | a :: l => add (f a) (total l f) end.
  (** The transposed operator applied to basis function number [i / nu], component
      [i mod nu], equation [e]. *)
  Definition applied (u : lupdate) (i e : nat) : F :=
    total (seq 0 (length (u_ops u))) (fun d => match u_ops u !! d with
      | Some a => mul (match d with 0 => u_vals u (i / nu) | S d => u_ders u d (i / nu) end) (a e (i mod nu)) | None => zero end).
  (** The weighted sums over the quadrature points. *)
  Definition expected_mat (l : list lupdate) (i j : nat) : F := total l (fun u => mul (u_w u) (total (seq 0 us) (fun e => mul (applied u i e) (applied u j e)))).
  Definition expected_rhs (l : list lupdate) (i r : nat) : F := total l (fun u => mul (u_w u) (total (seq 0 us) (fun e => mul (applied u i e) (u_rhs u e r)))).
  Definition system_right (n nr : nat) (l : list lupdate) (s : (nat -> nat -> F) * (nat -> nat -> F)) : Prop :=
    (forall i j, i < n -> j < n -> s.1 i j = expected_mat l i j) /\ (forall i r, i < n -> r < nr -> s.2 i r = expected_rhs l i r).
End spec.
