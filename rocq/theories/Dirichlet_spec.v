(** Vocabulary of C54. *)
From Verif Require Import Base StdAlgo Dirichlet_model.
Section spec.
  Context {F : Type} (zero one : F) (add mul : F -> F -> F).
  (** One rank's rows of a distributed linear system. *)
  Record part := mk_part { p_graph : graph; p_vals : list (list F); p_rhs : list (list F) }.
  (** Tpetra's layout: columns and rows without repetition; one value per index. *)
  Record valid_part (n_rhs : nat) (p : part) : Prop := {
    vp_row : NoDup (g_row (p_graph p));
    vp_col : NoDup (g_col (p_graph p));
    vp_inds : Forall2 (fun inds vs => NoDup inds /\ Forall (fun l => l < length (g_col (p_graph p))) inds /\ length vs = length inds) (g_inds (p_graph p)) (p_vals p);
    vp_len : length (g_row (p_graph p)) = length (p_vals p);
    vp_rhs : length (p_rhs p) = length (p_vals p) /\ Forall (fun b => length b = n_rhs) (p_rhs p) }.
  (** [p] has a row for unknown [i] with coefficients [cv] (unknown, value) and
      right-hand sides [b]. *)
  Definition has_row (p : part) (i : nat) (cv : list (nat * F)) (b : list F) : Prop :=
    exists r inds vs, g_row (p_graph p) !! r = Some i /\ g_inds (p_graph p) !! r = Some inds /\ p_vals p !! r = Some vs /\ p_rhs p !! r = Some b /\
      Forall2 (fun l c => g_col (p_graph p) !! l = Some c) inds cv.*1 /\ vs = cv.*2.
  (** [x] satisfies the equation of a row, with the k-th right-hand side. *)
  Fixpoint lin (cv : list (nat * F)) (x : nat -> F) : F :=
    match cv with [] => zero | (c, v) :: cv => add (mul v (x c)) (lin cv x) end.
  Definition sat (cv : list (nat * F)) (b : list F) (k : nat) (x : nat -> F) : Prop := b !! k = Some (lin cv x).
  Definition solves (ps : list part) (k : nat) (x : nat -> F) : Prop :=
    forall p i cv b, p ∈ ps -> has_row p i cv b -> sat cv b k x.
  (** Entry (i, j) of the matrix is [v]: stored, or zero and not stored. *)
  Definition entry (ps : list part) (i j : nat) (v : F) : Prop :=
    exists p cv b, p ∈ ps /\ has_row p i cv b /\ ((j, v) ∈ cv \/ (j ∉ cv.*1 /\ v = zero)).
  Definition symmetric (ps : list part) : Prop := forall i j v w, entry ps i j v -> entry ps j i w -> v = w.
  (** The rank knows which of its rows and columns are constrained. *)
  Definition knows (C : nat -> Prop) (p : part) (bc_rows bc_cols : list nat) : Prop :=
    Sorted Nat.le bc_rows /\ Sorted Nat.le bc_cols /\
    (forall i, i ∈ g_row (p_graph p) -> i ∈ bc_rows <-> C i) /\ (forall j, j ∈ g_col (p_graph p) -> j ∈ bc_cols <-> C j).
  (** Constrained rows have a diagonal entry. *)
  Definition has_diag (C : nat -> Prop) (p : part) : Prop := forall i cv b, C i -> has_row p i cv b -> i ∈ cv.*1.
  Definition is_row (ps : list part) (i : nat) : Prop := exists p, p ∈ ps /\ i ∈ g_row (p_graph p).
  (** Construction and application on one rank.  [junk] gives the values
      m_dirichlet_col_mat happens to hold before. *)
  Definition impose (sub : F -> F -> F) (fc : list nat -> list nat) (junk : list (list nat) -> list (list F)) (bcv : nat -> nat -> F) (nv n_rhs : nat)
      (rk : part * (list nat * list nat)) : res part :=
    d ← make_dbc fc (p_graph rk.1) rk.2.1 rk.2.2;
    v ← apply_dbc zero one add mul sub (p_graph rk.1) d bcv nv n_rhs (junk (db_sub d)) (p_vals rk.1) (p_rhs rk.1);
    Ok (mk_part (p_graph rk.1) v.1 v.2).
End spec.
Arguments part : clear implicits.
