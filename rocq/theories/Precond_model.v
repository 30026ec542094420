(** Model of solve/NativePreconditioners.hpp, PreconditionerInterface.hpp, BelosSolvers.hpp
    and Amesos2Solvers.hpp: preconditioners and solver objects that are used repeatedly.
    Arithmetic is exact.  A multivector is the list of its columns; all operations used
    here act on a rank's own entries, so one rank is enough.  Belos and Amesos2 are
    parameters. *)
From Coq Require Import Reals.
From Verif Require Import Base.
Local Open Scope R_scope.

Notation matrix := (list (list R)).
Notation mvec := (list (list R)).
(** Tpetra::MultiVector::update (y := a x + b y) and elementWiseMultiply
    (y := a d x + b y for a vector d); different shapes are rejected. *)
Definition same_shape (X Y : mvec) : bool := bool_decide (map length X = map length Y).
Definition update (a : R) (X : mvec) (b : R) (Y : mvec) : res mvec :=
  _ ← throwing_assert (same_shape X Y); Ok (zip_with (zip_with (fun x y => a * x + b * y)) X Y).
Definition elementWiseMultiply (a : R) (d : list R) (X : mvec) (b : R) (Y : mvec) : res mvec :=
  _ ← throwing_assert (same_shape X Y && forallb (fun c => length c =? length d)%nat X);
  Ok (zip_with (fun cx cy => zip_with (fun dx y => a * dx + b * y) (zip_with Rmult d cx) cy) X Y).

(** NativeRichardsonImpl and NativeJacobiImpl, NativePreconditioners.hpp:10-34, 36-69.
    Ifpack2 preconditioners (Ifpack2Preconditioners.hpp) are what the matrix was when they
    were made. *)
Inductive prec := Richardson (damping : R) (sweeps : Z) | Jacobi (diag_inv_damped : list R) (sweeps : Z) | Ifpack2 (made_of : matrix).
(** for (int i = 0; i != m_sweeps; ++i): a negative number of sweeps overflows i. *)
Definition sweep (sweeps : Z) (f : mvec -> res mvec) (Y : mvec) : res mvec :=
  if (sweeps <? 0)%Z then UB else for_each (fun _ Y => f Y) (seq 0 (Z.to_nat sweeps)) Y.
(** apply, 20-28 and 51-62. *)
Definition apply_richardson (damping : R) (sweeps : Z) (alpha : R) (X : mvec) (beta : R) (Y : mvec) : res mvec :=
  sweep sweeps (update (damping * alpha) X beta) Y.
Definition apply_jacobi (diag_inv_damped : list R) (sweeps : Z) (alpha : R) (X : mvec) (beta : R) (Y : mvec) : res mvec :=
  sweep sweeps (elementWiseMultiply alpha diag_inv_damped X beta) Y.

(** What an operator is: a matrix in memory, an operator that knows its diagonal
    (MatrixFreeSystem::Operator) or one that does not. *)
Inductive op_kind := Crs | MatrixFree | Opaque.
Record operator := { op_kind_of : op_kind; op_matrix : matrix }.
(** getLocalDiagCopy; it throws if there is no diagonal. *)
Definition local_diag (A : operator) : res (list R) :=
  match op_kind_of A with Opaque => Throw | _ => map_res (fun i => row ← rd (op_matrix A) i; rd row i) (seq 0 (length (op_matrix A))) end.
(** NativeJacobiImpl::init, 71-97.  Division by zero is UB. *)
Definition jacobi_entry (damping threshold val : R) : res R :=
  let sign := if Rlt_dec val 0 then -1 else 1 in
  let scale := sign * damping in
  let val_abs := Rabs val in
  let val_fixed := Rmax val_abs threshold in
  if Req_EM_T val_fixed 0 then UB else Ok (scale / val_fixed).
Definition jacobi_init (A : operator) (damping threshold : R) : res (list R) :=
  diag ← local_diag A; map_res (jacobi_entry damping threshold) diag.

(** Preconditioner options. *)
Inductive options := NullOpts | RichardsonOpts (damping : R) (sweeps : Z) | JacobiOpts (damping threshold : R) (sweeps : Z) | Ifpack2Opts.
(** initPreconditioner, PreconditionerInterface.hpp:57-70: which of the two tests a
    preconditioner passes is decided when compiling.  The native ones take operators only,
    those of Ifpack2 matrices only, the null preconditioner either. *)
Definition initPreconditioner (o : options) (A : operator) : res (option prec) :=
  match o with
  | NullOpts => Ok None
  | RichardsonOpts damping sweeps => Ok (Some (Richardson damping sweeps))
  | JacobiOpts damping threshold sweeps => d ← jacobi_init A damping threshold; Ok (Some (Jacobi d sweeps))
  | Ifpack2Opts => match op_kind_of A with Crs => Ok (Some (Ifpack2 (op_matrix A))) | _ => UB end
  end.

(** Objects are referred to by address (Teuchos::RCP); their contents may change between
    the calls. *)
Record memory := { ops : nat -> operator; vecs : nat -> mvec }.
Definition set_vec (m : memory) (x : nat) (v : mvec) : memory := {| ops := ops m; vecs := fun y => if (y =? x)%nat then v else vecs m y |}.
Definition set_op (m : memory) (a : nat) (A : operator) : memory := {| ops := fun y => if (y =? a)%nat then A else ops m y; vecs := vecs m |}.

(** ** BelosSolverInterface *)
(** The members m_solver (created or not) and, once it has been given a problem, that
    problem: the addresses of A, b and x and the preconditioner. *)
Record problem := { p_A : nat; p_b : nat; p_x : nat; p_prec : option prec }.
Record belos_state := { bs_created : bool; bs_problem : option problem }.
Definition new_solver : belos_state := {| bs_created := false; bs_problem := None |}.
Section belos.
  (** LinearProblem::setProblem, and Belos' solve: the new x, whether it converged, the
      iterations and the tolerance achieved. *)
  Context (setup_ok : operator -> mvec -> mvec -> bool).
  Context (belos : operator -> option prec -> mvec -> mvec -> mvec * bool * (nat * R)).
  Context (opts : options) (throw_on_fail : bool).
  (** init, BelosSolvers.hpp:79-93.  An exception leaves what has been assigned. *)
  Definition belos_init (m : memory) (A b x : nat) (s : belos_state) : belos_state * res unit :=
    let s := {| bs_created := true; bs_problem := bs_problem s |} in
    match initPreconditioner opts (ops m A) with
    | Throw => (s, Throw)
    | UB => (s, UB)
    | Ok p => if setup_ok (ops m A) (vecs m x) (vecs m b) then ({| bs_created := true; bs_problem := Some {| p_A := A; p_b := b; p_x := x; p_prec := p |} |}, Ok tt) else (s, Throw)
    end.
  (** solveImpl, 95-105.  A solver without problem must not be asked to solve. *)
  Definition belos_solveImpl (m : memory) (s : belos_state) : memory * res (nat * R) :=
    match bs_problem s with
    | None => (m, UB)
    | Some p =>
      let '(x', converged, info) := belos (ops m (p_A p)) (p_prec p) (vecs m (p_b p)) (vecs m (p_x p)) in
      (set_vec m (p_x p) x', _ ← throwing_assert (negb throw_on_fail || converged); Ok info)
    end.
  (** solve, 107-116. *)
  Definition belos_solve (m : memory) (A b x : nat) (s : belos_state) : belos_state * memory * res (nat * R) :=
    if (length (vecs m x) =? length (vecs m b))%nat then
      let '(s, r) := if bs_created s then (s, Ok tt) else belos_init m A b x s in
      match r with
      | Ok _ => let '(m, r) := belos_solveImpl m s in (s, m, r)
      | Throw => (s, m, Throw)
      | UB => (s, m, UB)
      end
    else (s, m, Throw).
End belos.

(** ** Amesos2SolverInterface *)
(** m_solver: the addresses it was created with. *)
Definition amesos_state := option (nat * nat * nat).
Section amesos.
  (** matrixShapeOK, and numericFactorization followed by solve: a function of the contents
      of A and b (the ordering made when the solver was created does not change the
      result). *)
  Context (shape_ok : operator -> mvec -> mvec -> bool) (amesos : operator -> mvec -> res mvec).
  (** solve, Amesos2Solvers.hpp:17-31. *)
  Definition amesos_solve (m : memory) (A b x : nat) (s : amesos_state) : amesos_state * memory * res unit :=
    if (length (vecs m x) =? length (vecs m b))%nat then
      let '(s, r) := match s with
                     | Some _ => (s, Ok tt)
                     | None => (Some (A, b, x), throwing_assert (shape_ok (ops m A) (vecs m x) (vecs m b)))
                     end in
      match r, s with
      | Ok _, Some (A, b, x) => match amesos (ops m A) (vecs m b) with Ok v => (s, set_vec m x v, Ok tt) | Throw => (s, m, Throw) | UB => (s, m, UB) end
      | Ok _, None => (s, m, UB)
      | Throw, _ => (s, m, Throw)
      | UB, _ => (s, m, UB)
      end
    else (s, m, Throw).
End amesos.
