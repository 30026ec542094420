(** LocalSystemManager, include/l3ster/algsys/AssembleLocalSystem.hpp:77-248, and its use
    by assembleLocalSystem, 265-316.  Arithmetic is exact; [root w]:
    std::sqrt(std::fabs(w)), [nonneg w]: w >= 0. *)
From Verif Require Import Base.

(** intDivRoundUp, include/l3ster/math/IntegerMath.hpp:8-14. *)
Definition intDivRoundUp (a b : nat) : nat := if a mod b =? 0 then a / b else a / b + 1.
(** 80-82; [target]: target_update_size, which depends on the vector width. *)
Definition updates_per_batch (target us : nat) : nat := intDivRoundUp target us.

Section model.
  Context {F : Type} (zero one : F) (add mul : F -> F -> F) (opp : F -> F) (nonneg : F -> bool) (root : F -> F).
  Notation mat := (nat -> nat -> F).
  (** n_bases, n_unknowns, update_size, updates_per_batch, n_rhs; problem_size is
      n_bases * n_unknowns (169), batch_update_size is update_size * updates_per_batch. *)
  Context (nb nu us upb nr : nat).
  Definition psize : nat := nb * nu.
  Definition lsum (n : nat) (f : nat -> F) : F := foldr (fun i s => add (f i) s) zero (seq 0 n).
  (** The arguments of update, 97-102: the kernel's operators (dim + 1 matrices of
      update_size rows), its right-hand side, basis values and derivatives, weight. *)
  Record lupdate := { u_ops : list mat; u_rhs : mat; u_vals : nat -> F; u_ders : mat; u_w : F }.
  (** m_posw_buf, m_negw_buf, their batch sizes, m_system (118-121). *)
  Record lsys := { s_pos : mat; s_neg : mat; s_npos : nat; s_nneg : nat; s_mat : mat; s_rhs : mat }.
  (** makeBasisBlock, 130-145: a matrix of n_unknowns rows. *)
  Definition makeBasisBlock (u : lupdate) (b : nat) : res mat :=
    a0 ← rd (u_ops u) 0;
    for_each (fun d (m : mat) => a ← rd (u_ops u) (S d); Ok (fun i e => add (m i e) (mul (u_ders u d b) (a e i)))) (seq 0 (length (u_ops u) - 1)) (fun i e => mul (u_vals u b) (a0 e i)).
  (** Assignment to, addition to a block of a matrix of [r] rows and [c] columns. *)
  Definition block_at (row col h w i j : nat) : bool := (row <=? i) && (i <? row + h) && (col <=? j) && (j <? col + w).
  Definition block_set (r c : nat) (m : mat) (row col h w : nat) (v : mat) : res mat :=
    if (row + h <=? r) && (col + w <=? c) then Ok (fun i j => if block_at row col h w i j then v (i - row) (j - col) else m i j) else UB.
  Definition block_add (r c : nat) (m : mat) (row col h w : nat) (v : mat) : res mat :=
    if (row + h <=? r) && (col + w <=? c) then Ok (fun i j => if block_at row col h w i j then add (m i j) (v (i - row) (j - col)) else m i j) else UB.
  (** selfadjointView< Lower >().rankUpdate(buf.leftCols(cols), sign): the lower triangle
      only. *)
  Definition rank_update (m buf : mat) (cols : nat) (sign : F) : mat :=
    fun i j => if j <=? i then add (m i j) (mul sign (lsum cols (fun c => mul (buf i c) (buf j c)))) else m i j.
  (** update, 147-171, with tieBatchData (124-128) and flushFullBuf (235-240). *)
  Definition update (u : lupdate) (s : lsys) : res lsys :=
    let p := nonneg (u_w u) in
    let buf := if p then s_pos s else s_neg s in
    let n := if p then s_npos s else s_nneg s in
    '(buf, rhs) ← for_each (fun b (st : mat * mat) =>
        block ← makeBasisBlock u b;
        rhs ← block_add psize nr st.2 (b * nu) 0 nu nr (fun i r => mul (lsum us (fun e => mul (block i e) (u_rhs u e r))) (u_w u));
        buf ← block_set psize (us * upb) st.1 (b * nu) (n * us) nu us (fun i e => mul (block i e) (root (u_w u)));
        Ok (buf, rhs)) (seq 0 nb) (buf, s_rhs s);
    let '(m, n) := if S n =? upb then (rank_update (s_mat s) buf (us * upb) (if p then one else opp one), 0) else (s_mat s, S n) in
    Ok (if p then {| s_pos := buf; s_neg := s_neg s; s_npos := n; s_nneg := s_nneg s; s_mat := m; s_rhs := rhs |}
        else {| s_pos := s_pos s; s_neg := buf; s_npos := s_npos s; s_nneg := n; s_mat := m; s_rhs := rhs |}).
  (** flush and flushBuf, 213-233. *)
  Definition flushBuf (m buf : mat) (n : nat) (sign : F) : mat := if 0 <? n then rank_update m buf (n * us) sign else m.
  Definition flush (s : lsys) : lsys :=
    {| s_pos := s_pos s; s_neg := s_neg s; s_npos := 0; s_nneg := 0; s_rhs := s_rhs s;
       s_mat := flushBuf (flushBuf (s_mat s) (s_pos s) (s_npos s) one) (s_neg s) (s_nneg s) (opp one) |}.
  (** getSystem, 182-188: the lower triangle is copied to the upper one. *)
  Definition getSystem (s : lsys) : lsys :=
    let s := flush s in
    {| s_pos := s_pos s; s_neg := s_neg s; s_npos := s_npos s; s_nneg := s_nneg s; s_rhs := s_rhs s; s_mat := fun i j => if j <=? i then s_mat s i j else s_mat s j i |}.
  (** setZero, 242-248: the batch sizes stay as they are. *)
  Definition setZero (s : lsys) : lsys :=
    {| s_pos := s_pos s; s_neg := s_neg s; s_npos := s_npos s; s_nneg := s_nneg s; s_mat := fun _ _ => zero; s_rhs := fun _ _ => zero |}.
  (** assembleLocalSystem, 265-316, on the thread's manager: one event per quadrature
      point, [None] if the point throws (degenerate element, or the kernel throws).
      Result: the manager as it is left and the system, if the element is finished. *)
  Fixpoint points (us' : list (option lupdate)) (s : lsys) : res (lsys * bool) :=
    match us' with
    | [] => Ok (s, true)
    | None :: _ => Ok (s, false)
    | Some u :: us' => s ← update u s; points us' s
    end.
  Definition assembleLocalSystem (us' : list (option lupdate)) (s : lsys) : res (lsys * option (mat * mat)) :=
    '(s, fin) ← points us' (setZero s);
    if (fin : bool) then let s := getSystem s in Ok (s, Some (s_mat s, s_rhs s)) else Ok (s, None).
  (** Consecutive elements of a thread. *)
  Fixpoint elements (els : list (list (option lupdate))) (s : lsys) : res (list (option (mat * mat))) :=
    match els with
    | [] => Ok []
    | e :: els => '(s, r) ← assembleLocalSystem e s; rs ← elements els s; Ok (r :: rs)
    end.
  (** A new manager has empty batches; the buffers and the system are uninitialised. *)
End model.
