(** Matrix-free evaluation of an element's operator and precomputation of its diagonal
    and right-hand side, include/l3ster/algsys/EvaluateLocalOperator.hpp.  Arithmetic is
    exact; the quadrature points are those of LocalSys_model ([lupdate]: what the kernel
    returns at a point, the basis there and the weight times the Jacobian). *)
From Verif Require Import Base LocalSys_model.

(** batchSizeHeuristic, 40-60; sizes are size_t (modulo 2^64), [simd] is simd_width, 8
    is sizeof(val_t). *)
Definition try_fit_cache (op us min_cols cache_bytes : N) : option N :=
  let cache_capacity := ((cache_bytes / 8 + 2 ^ 64 - op) mod 2 ^ 64)%N in
  let fitting_cols := (cache_capacity / op)%N in
  if (min_cols * us <=? fitting_cols)%N then Some min_cols
  else let batches := (fitting_cols / us)%N in
       if ((0 <? batches) && (min_cols <=? batches * us))%N then Some batches else None.
Definition batchSizeHeuristic (op us simd : N) (cache_sizes : list N) : N :=
  let min_cols := (2 * simd / 8)%N in
  let retval := foldl (fun r c => match r with Some _ => r | None => try_fit_cache op us min_cols c end) None cache_sizes in
  match retval with Some b => b | None => (N.lcm min_cols us / us)%N end.

Section model.
  Context {F : Type} (zero : F) (add mul sub : F -> F -> F).
  Notation mat := (nat -> nat -> F).
  (** n_bases, n_unknowns, update_size, updates_per_batch; operator_size is
      n_bases * n_unknowns, batch_update_size is update_size * updates_per_batch. *)
  Context (nb nu us upb : nat).
  Notation n := (psize nb nu).
  Notation lsum := (lsum zero add).
  (** m_update_matrix, m_weights, m_filled_cols, 87-89.  The matrix is uninitialised in a
      new manager. *)
  Record oeval := { e_mat : mat; e_w : nat -> F; e_cols : nat }.
  (** 106-116: the column of equation [eq] for basis function [b]. *)
  Definition opCol (u : lupdate) (b eq : nat) : res (nat -> F) :=
    a0 ← rd (u_ops u) 0;
    for_each (fun d (c : nat -> F) => a ← rd (u_ops u) (S d); Ok (fun i => add (c i) (mul (a eq i) (u_ders u d b)))) (seq 0 (length (u_ops u) - 1)) (fun i => mul (a0 eq i) (u_vals u b)).
  (** fillBatch, 92-124. *)
  Definition fillBatch (u : lupdate) (s : oeval) : res oeval :=
    m ← for_each (fun eq m => for_each (fun b m => c ← opCol u b eq; block_set n (us * upb) m (b * nu) (e_cols s + eq) nu 1 (fun i _ => c i)) (seq 0 nb) m) (seq 0 us) (e_mat s);
    if e_cols s + us <=? us * upb
    then Ok {| e_mat := m; e_w := fun i => if (e_cols s <=? i) && (i <? e_cols s + us) then u_w u else e_w s i; e_cols := e_cols s + us |}
    else UB.
  (** flushImpl, 126-143, of the first [cols] columns; [nc] is the number of columns of
      the operand [x]. *)
  Definition flushImpl (cols nc : nat) (x : mat) (s : oeval) (y : mat) : oeval * mat :=
    ({| e_mat := e_mat s; e_w := e_w s; e_cols := 0 |},
     fun i r => if r <? nc then add (y i r) (lsum cols (fun c => mul (e_mat s i c) (mul (lsum n (fun j => mul (e_mat s j c) (x j r))) (e_w s c)))) else y i r).
  (** update, 66-77; finalize, 78. *)
  Definition op_update (nc : nat) (x : mat) (u : lupdate) (st : oeval * mat) : res (oeval * mat) :=
    s ← fillBatch u st.1;
    Ok (if e_cols s =? us * upb then flushImpl (us * upb) nc x s st.2 else (s, st.2)).
  Definition finalize (nc : nat) (x : mat) (st : oeval * mat) : oeval * mat := flushImpl (e_cols st.1) nc x st.1 st.2.
  (** evaluateLocalOperator, 199-252, on the thread's manager: one event per quadrature
      point, [None] if the point throws.  Result: the manager as it is left and y, if the
      element is finished. *)
  Fixpoint op_points (nc : nat) (x : mat) (us' : list (option lupdate)) (st : oeval * mat) : res (oeval * mat * bool) :=
    match us' with
    | [] => Ok (st, true)
    | None :: _ => Ok (st, false)
    | Some u :: us' => st ← op_update nc x u st; op_points nc x us' st
    end.
  Definition evaluateLocalOperator (nc : nat) (x : mat) (us' : list (option lupdate)) (s : oeval) : res (oeval * option mat) :=
    '(st, fin) ← op_points nc x us' (s, fun _ _ => zero);
    if (fin : bool) then let st := finalize nc x st in Ok (st.1, Some st.2) else Ok (st.1, None).
  (** Consecutive elements of a thread: quadrature points, number of columns, operand. *)
  Fixpoint evaluations (els : list (list (option lupdate) * nat * mat)) (s : oeval) : res (list (option mat)) :=
    match els with
    | [] => Ok []
    | (e, nc, x) :: els => '(s, r) ← evaluateLocalOperator nc x e s; rs ← evaluations els s; Ok (r :: rs)
    end.

  (** computeATrans, 25-34, for basis function [b]: n_unknowns rows, one column per
      equation. *)
  Definition computeATrans (u : lupdate) (b : nat) : res mat :=
    a0 ← rd (u_ops u) 0;
    for_each (fun d (m : mat) => a ← rd (u_ops u) (S d); Ok (fun i e => add (m i e) (mul (a e i) (u_ders u d b)))) (seq 0 (length (u_ops u) - 1)) (fun i e => mul (a0 e i) (u_vals u b)).
  (** precomputeDiagRhsImpl, 155-196; [nr] is n_rhs, [inds] dirichlet_inds, [vals]
      dirichlet_vals.  The state is the diagonal and the right-hand side. *)
  Context (nr : nat).
  Definition update_block (u : lupdate) (At : mat) (b : nat) (st : (nat -> F) * mat) : res ((nat -> F) * mat) :=
    rhs ← block_add add n nr st.2 (b * nu) 0 nu nr (fun i r => mul (lsum us (fun e => mul (At i e) (u_rhs u e r))) (u_w u));
    Ok ((fun i => if (b * nu <=? i) && (i <? b * nu + nu) then add (st.1 i) (mul (lsum us (fun e => mul (At (i - b * nu) e) (At (i - b * nu) e))) (u_w u)) else st.1 i), rhs).
  Definition precomputeDiagRhsImpl (u : lupdate) (inds : list nat) (vals : mat) (st : (nat -> F) * mat) : res ((nat -> F) * mat) :=
    if decide (inds = []) then for_each (fun b st => At ← computeATrans u b; update_block u At b st) (seq 0 nb) st
    else
      '(st, um) ← for_each (fun b (stm : (nat -> F) * mat * mat) =>
         At ← computeATrans u b;
         st ← update_block u At b stm.1;
         um ← block_set n us stm.2 (b * nu) 0 nu us At;
         Ok (st, um)) (seq 0 nb) (st, fun _ _ => zero);
      if forallb (fun d => d <? n) inds
      then let intermediate e r := mul (lsum (length inds) (fun k => mul (um (nth k inds 0) e) (vals k r))) (u_w u) in
           Ok (st.1, fun i r => sub (st.2 i r) (lsum us (fun e => mul (um i e) (intermediate e r))))
      else UB.
  (** precomputeOperatorDiagonalAndRhs, 265-320; no state is kept. *)
  Definition precompute (l : list lupdate) (inds : list nat) (vals : mat) : res ((nat -> F) * mat) :=
    for_each (fun u st => precomputeDiagRhsImpl u inds vals st) l (fun _ => zero, fun _ _ => zero).
End model.
