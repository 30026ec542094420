(** Model of DirichletBCAlgebraic, bcs/DirichletBC.hpp, and getSubgraph,
    util/TrilinosUtils.hpp:111-161.  Values are elements of any ring. *)
From Verif Require Import Base StdAlgo.

(** What one rank stores of a distributed CRS graph: global numbers of its rows
    (row map) and of its columns (column map), and for each row the local column
    indices. *)
Record graph := mk_graph { g_row : list nat; g_col : list nat; g_inds : list (list nat) }.
(** Members of DirichletBCAlgebraic, 25-26: the rows of the graph of
    m_dirichlet_col_mat, its columns given by their global numbers (its
    local column indices are only used through getGlobalElement or handed back to
    replaceLocalValues); m_owned_bc_dofs; m_bc_local_col_inds; offsets. *)
Record dbc := mk_dbc { db_sub : list (list nat); db_owned : list nat; db_inds : list nat; db_offs : list nat }.
(** std::ranges::find by value: the position of the first match. *)
Definition index_of (x : nat) (l : list nat) : option nat := fst <$> list_find (eq x) l.
(** getGlobalElement for each column of a local row. *)
Definition row_cols (g : graph) (r : nat) : res (list nat) :=
  inds ← rd (g_inds g) r; map_res (rd (g_col g)) inds.

Section model.
  (** fillComplete may reorder the columns of a row (Tpetra sorts them by local
      index). *)
  Context (fc : list nat -> list nat).
  (** getSubgraph, TrilinosUtils.hpp:111-161, called at DirichletBC.hpp:42-43: the
      rows not in [bc_rows], of these the columns in [bc_cols]. *)
  Definition getSubgraph (g : graph) (bc_rows bc_cols : list nat) : res (list (list nat)) :=
    map_res (fun r =>
      i ← rd (g_row g) r;
      if binary_search bc_rows i then Ok []
      else cs ← row_cols g r; Ok (fc (List.filter (binary_search bc_cols) cs)))
    (seq 0 (length (g_row g))).
  (** Constructor, 28-80. *)
  Definition make_dbc (g : graph) (bc_rows bc_cols : list nat) : res dbc :=
    sub ← getSubgraph g bc_rows bc_cols;
    st ← for_each (fun r st =>
           i ← rd (g_row g) r;
           let '(owned, inds, offs) := st in
           if binary_search bc_rows i then Ok (owned ++ [r], inds, offs ++ [default 0 (last offs)])
           else full ← row_cols g r;
                dbc ← rd sub r;
                Ok (owned, inds ++ omap (fun c => index_of c full) dbc, offs ++ [default 0 (last offs) + length dbc]))
         (seq 0 (length (g_row g))) ([], [], [0]);
    let '(owned, inds, offs) := st in
    Ok (mk_dbc sub owned inds offs).

  Context {F : Type} (zero one : F) (add mul sub : F -> F -> F).
  (** replaceLocalValues on a row with column indices [inds] and values [vals]. *)
  Definition replace_values (inds : list nat) (vals : list F) (cols : list nat) (news : list F) : list F :=
    foldl (fun vals p => match index_of p.1 inds with Some k => <[k := p.2]> vals | None => vals end) vals (zip cols news).
  (** getLocalColInds, 152-156. *)
  Definition local_col_inds (d : dbc) (r : nat) : res (list nat) :=
    a ← rd (db_offs d) r; b ← rd (db_offs d) (r + 1);
    Ok (drop a (take b (db_inds d))).
  (** A sparse row times a vector. *)
  Definition dot (x : nat -> F) (cs : list nat) (vs : list F) : F := foldr (fun p s => add (mul p.2 (x p.1)) s) zero (zip cs vs).
  (** One iteration of the loop in apply, 98-148, together with the part of the
      final matrix-vector product (150) that belongs to the row.  An iteration
      reads and writes only row [r] of the matrices and of the right-hand sides.
      [bcv k] is the k-th vector of prescribed values (bc_vals is distributed like
      the rows; the product imports the entries it needs).  [vals], [b]: row of the
      matrix, of the right-hand sides; [dold]: earlier values in
      m_dirichlet_col_mat. *)
  Definition apply_row (g : graph) (d : dbc) (bcv : nat -> nat -> F) (dold : list (list F)) (r : nat) (vals b : list F) : res (list F * list F) :=
    inds ← rd (g_inds g) r;
    old ← rd dold r;
    cols ← rd (db_sub d) r;
    '(vals', dvals, b') ←
      (if binary_search (db_owned d) r then
         i ← rd (g_row g) r;
         cs ← row_cols g r;
         diag_ind ← match index_of i cs with Some k => Ok k | None => UB end;
         let local_vals := <[diag_ind := one]> (replicate (length inds) zero) in
         Ok (replace_values inds vals inds local_vals, old, imap (fun k _ => bcv k i) b)
       else
         copy_inds ← local_col_inds d r;
         vs ← map_res (rd vals) copy_inds;
         to_zero ← map_res (rd inds) copy_inds;
         Ok (replace_values inds vals to_zero (replicate (length copy_inds) zero), replace_values cols old cols vs, b));
    Ok (vals', imap (fun k y => sub y (dot (bcv k) cols dvals)) b').
  (** apply, 82-150.  [vals], [rhs]: values of the matrix and of the right-hand
      sides by row; [nv]: number of vectors of prescribed values; [n_rhs] of
      right-hand sides. *)
  Definition apply_dbc (g : graph) (d : dbc) (bcv : nat -> nat -> F) (nv n_rhs : nat) (dold vals rhs : list (list F)) : res (list (list F) * list (list F)) :=
    _ ← throwing_assert (nv =? n_rhs);
    rows ← map_res (fun r => v ← rd vals r; b ← rd rhs r; apply_row g d bcv dold r v b) (seq 0 (length (g_row g)));
    Ok (rows.*1, rows.*2).
End model.
