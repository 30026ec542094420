(** The matrix-free operator: include/l3ster/algsys/MatrixFreeSystem.hpp.

    Numbers are elements of a commutative ring.  A multivector is the list of its columns.
    A column seen by a rank is the pair of its owned and its shared entries.  The kernels of
    an element are jobs; the two ways of evaluating a job are functions whose contracts are
    C72 (evaluateLocalOperator, precomputeOperatorDiagonalAndRhs) and C73
    (evalLocalOperatorSumFact).  Atomic additions of the threads are a list in any order.
    Tpetra, Kokkos, TBB and profiling are not modelled beyond this. *)
From Verif Require Import Base StdAlgo Merge_model Dofs_model Ownership_spec ImportExport_spec NodeVals_model LocalBC_model.

Section model.
  Context {F : Type} (zero one : F) (add mul : F -> F -> F) (is_zero : F -> bool).

  (** How the operator of a kernel is applied to [nc] columns, makeEvalKernel 640-707: the
      second argument of the sum-factorised one is x_gather, its result the buffer given to
      y_scatter. *)
  Inductive evaluator :=
  | Direct (ev : nat -> (nat -> nat -> F) -> res (nat -> nat -> F))
  | SumFact (ev : nat -> (list F -> res (list F)) -> res (list F)).
  (** A kernel for an element or element side: the element's local nodes, field_inds, the
      evaluation and precomputeOperatorDiagonalAndRhs (617-624). *)
  Record job := { j_nodes : list nat; j_fields : list nat; j_eval : evaluator;
                  j_init : list nat -> (nat -> nat -> F) -> res ((nat -> F) * (nat -> nat -> F)) }.
  (** std::optional<LocalDirichletBC>: m_dofs_set and m_dofs_sorted (C74). *)
  Definition dbc : Type := option (list nat * list nat).
  Definition isDirichletDof (bc : dbc) (dof : option nat) : bool :=
    match bc, dof with Some (set, _), Some d => existsb (Nat.eqb d) set | _, _ => false end.
  Definition bcs_exist (bc : dbc) : bool := match bc with Some (_ :: _, _) => true | _ => false end.

  (** getDofs, 298-311. *)
  Definition getDofs (m : local_dof_map) (nodes fields : list nat) : res (list (option nat)) :=
    ls ← map_res (fun n => row ← dofs_at m n; map_res (rd row) fields) nodes; Ok (concat ls).
  (** getDirichletDofInds, 313-325. *)
  Definition getDirichletDofInds (dofs : list (option nat)) (bc : dbc) : list nat :=
    if bcs_exist bc then List.filter (fun i => match dofs !! i with Some d => isDirichletDof bc d | None => false end) (seq 0 (length dofs)) else [].
  (** getDirichletIndsSumFact, 338-362: dof_local_inds and offsets. *)
  Definition getDirichletIndsSumFact (nn nu : nat) (dofs : list (option nat)) (bc : dbc) : res (list nat * list nat) :=
    match bc with
    | None => Ok ([], replicate (nn + 1) 0)
    | Some _ => for_each (fun node (io : list nat * list nat) =>
        ds ← map_res (fun l => rd dofs (node * nu + l)) (seq 0 nu);
        let inds := io.1 ++ List.filter (fun l => match ds !! l with Some d => isDirichletDof bc d | None => false end) (seq 0 nu) in
        Ok (inds, io.2 ++ [length inds])) (seq 0 nn) ([], [0])
    end.

  (** InteriorAccessor and BorderAccessor (NodalValues.hpp 20-63) for x: a column of the
      operand is the owned entries and the import buffer.  An invalid dof is out of bounds. *)
  Definition x_at (border : bool) (c : nat) (x : list (list F * list F)) (dof : option nat) (r : nat) : res F :=
    match dof with
    | Some d => col ← rd x r; if border && (c <=? d) then rd col.2 (d - c) else rd col.1 d
    | None => UB
    end.
  (** The addition of v to entry (dof, r) of y, likewise. *)
  Definition cell (border : bool) (c s : nat) (dof : option nat) (r : nat) (v : F) : res (nat * nat * F) :=
    match dof with Some d => if d <? (if border then c + s else c) then Ok (d, r, v) else UB | None => UB end.

  Section eval.
    Context (border : bool) (c s : nat) (x : list (list F * list F)) (bc : dbc) (alpha : F) (nc : nat).
    (** gather, 392-418, and scatter, 469-492. *)
    Definition gather (dofs : list (option nat)) : res (list (list F)) :=
      map_res (fun d => if bcs_exist bc && isDirichletDof bc d then Ok (replicate nc zero) else map_res (x_at border c x d) (seq 0 nc)) dofs.
    Definition scatter (y : nat -> nat -> F) (dofs : list (option nat)) : res (list (nat * nat * F)) :=
      ls ← map_res (fun i => d ← rd dofs i;
        if bcs_exist bc && isDirichletDof bc d then Ok [] else map_res (fun r => cell border c s d r (mul (y i r) alpha)) (seq 0 nc)) (seq 0 (length dofs));
      Ok (concat ls).
    (** gatherSumFact, 421-467. *)
    Definition dir_of (info : list nat * list nat) (node : nat) : res (list nat) :=
      b ← rd info.2 node; e ← rd info.2 (node + 1); Ok (take (e - b) (drop b info.1)).
    Definition gather_dof (nn nu : nat) (dofs : list (option nat)) (node dof : nat) (dest : list F) : res (list F) :=
      for_each (fun r dest => d ← rd dofs (node * nu + dof); v ← x_at border c x d r; wr dest (r * (nu * nn) + dof * nn + node) v) (seq 0 nc) dest.
    Definition gatherSumFact (nn nu : nat) (dofs : list (option nat)) (info : list nat * list nat) (dest : list F) : res (list F) :=
      if default 0 (last info.2) =? 0
      then for_each (fun node => for_each (fun dof => gather_dof nn nu dofs node dof) (seq 0 nu)) (seq 0 nn) dest
      else for_each (fun node dest =>
             dirs ← dir_of info node;
             dest ← for_each (fun dof => gather_dof nn nu dofs node dof) (set_difference (seq 0 nu) dirs) dest;
             for_each (fun dof => for_each (fun r dest => wr dest (r * (nu * nn) + dof * nn + node) zero) (seq 0 nc)) dirs dest) (seq 0 nn) dest.
    (** scatterSumFact, 494-537. *)
    Definition scatter_dof (nu : nat) (dofs : list (option nat)) (from : list F) (node dof : nat) : res (list (nat * nat * F)) :=
      map_res (fun r => d ← rd dofs (node * nu + dof); v ← rd from (node * (nu * nc) + r * nu + dof); cell border c s d r (mul v alpha)) (seq 0 nc).
    Definition scatterSumFact (nn nu : nat) (dofs : list (option nat)) (info : list nat * list nat) (from : list F) : res (list (nat * nat * F)) :=
      if default 0 (last info.2) =? 0
      then ls ← map_res (fun dof => ls ← map_res (fun node => scatter_dof nu dofs from node dof) (seq 0 nn); Ok (concat ls)) (seq 0 nu); Ok (concat ls)
      else ls ← map_res (fun node =>
             dirs ← dir_of info node;
             ls ← map_res (fun dof => scatter_dof nu dofs from node dof) (set_difference (seq 0 nu) dirs); Ok (concat ls)) (seq 0 nn);
           Ok (concat ls).
    (** makeEvalKernel, 648-710: the additions to y. *)
    Definition eval_job (m : local_dof_map) (j : job) : res (list (nat * nat * F)) :=
      dofs ← getDofs m (j_nodes j) (j_fields j);
      match j_eval j with
      | Direct ev =>
          x_local ← gather dofs;
          y_local ← ev nc (fun i r => nth r (nth i x_local []) zero);
          scatter y_local dofs
      | SumFact ev =>
          let nn := length (j_nodes j) in let nu := length (j_fields j) in
          info ← getDirichletIndsSumFact nn nu dofs bc;
          buf ← ev nc (gatherSumFact nn nu dofs info);
          scatterSumFact nn nu dofs info buf
      end.
    Definition eval_jobs (m : local_dof_map) (js : list job) : res (list (nat * nat * F)) := ls ← map_res (eval_job m) js; Ok (concat ls).
    (** handle_dirichlet_dof, 1080-1098, on the owned Dirichlet dofs. *)
    Definition dirichlet_cells : res (list (nat * nat * F)) :=
      match bc with
      | None => Ok []
      | Some (_, sorted) => ls ← map_res (fun d => map_res (fun r => v ← x_at false c x (Some d) r; cell false c s (Some d) r (mul v alpha)) (seq 0 nc)) sorted; Ok (concat ls)
      end.
  End eval.

  (** Additions to the columns of y; a column is its owned entries and its part of the
      export buffer. *)
  Definition add_cell (c : nat) (x : nat * nat * F) (st : list (list F * list F)) : res (list (list F * list F)) :=
    col ← rd st x.1.2; col ← access c (fun v => add v x.2) x.1.1 col; wr st x.1.2 col.
  (** The additions [pre] before postSends, [post] after it: what is sent and the owned
      entries when Export::wait is called. *)
  Definition two_phases (c : nat) (pre post : list (nat * nat * F)) (st : list (list F * list F)) : res (list (list F) * list (list F)) :=
    st1 ← for_each (add_cell c) pre st;
    st2 ← for_each (add_cell c) post st1;
    Ok (map snd st1, map fst st2).
  (** The order of evaluate, 1104-1114, and apply_interior, 1062-1102: interior additions
      [ci], border additions [cb] (done once: C14 tryReceive), Dirichlet additions [cd].
      Either the border is done while the interior is under way, or after it. *)
  Definition schedule (cb ci cd pre post : list (nat * nat * F)) : Prop :=
    (exists i1 i2, ci ≡ₚ i1 ++ i2 /\ pre ≡ₚ cb ++ i1 /\ post = i2 ++ cd) \/
    (exists ci' cb', ci' ≡ₚ ci /\ cb' ≡ₚ cb /\ pre = ci' ++ cd ++ cb' /\ post = []).

  (** A rank: its dof map, Dirichlet dofs, jobs on border and interior elements. *)
  Record mf_rank := { mr_map : local_dof_map; mr_bc : dbc; mr_border : list job; mr_interior : list job }.
  (** What one rank adds when it evaluates the operator on [nc] columns; [x]: owned entries
      and import buffer. *)
  Definition rank_cells (c s : nat) (r : mf_rank) (alpha : F) (nc : nat) (x : list (list F * list F)) : res (list (nat * nat * F) * list (nat * nat * F) * list (nat * nat * F)) :=
    ci ← eval_jobs false c s x (mr_bc r) alpha nc (mr_map r) (mr_interior r);
    cb ← eval_jobs true c s x (mr_bc r) alpha nc (mr_map r) (mr_border r);
    cd ← dirichlet_cells c s x (mr_bc r) alpha nc;
    Ok (cb, ci, cd).
  (** zeroExportBuf, 251-259, then the additions. *)
  Definition rank_result (c s : nat) (y : list (list F)) (pre post : list (nat * nat * F)) : res (list (list F) * list (list F)) :=
    two_phases c pre post (map (fun col => (col, replicate s zero)) y).

  (** Column [r] of all ranks. *)
  Definition column (r : nat) (l : list (list (list F))) : list (list F) := map (fun cols => nth r cols []) l.
  (** evaluate, 1104-1114, on all ranks: [xs], [ys] are the owned columns, [imps] the import
      buffers, [outs] what the ranks send and hold, [news] the new columns. *)
  Definition all_imported (counts : list nat) (shareds : list (list nat)) (nc : nat) (xs imps : list (list (list F))) : Prop :=
    length imps = length counts /\
    forall b sh imp, shareds !! b = Some sh -> imps !! b = Some imp -> length imp = nc /\
      forall r col, imp !! r = Some col -> length col = length sh /\ imported counts shareds (column r xs) b col.
  Definition all_exported (counts : list nat) (shareds : list (list nat)) (nc : nat) (outs : list (list (list F) * list (list F))) (news : list (list (list F))) : Prop :=
    length news = length counts /\
    forall b out new, outs !! b = Some out -> news !! b = Some new -> length new = nc /\
      forall r before after, out.2 !! r = Some before -> new !! r = Some after -> exported add counts shareds (column r (map fst outs)) b before after.
  Definition evaluated (counts : list nat) (shareds : list (list nat)) (ranks : list mf_rank) (alpha : F) (nc : nat) (xs ys imps : list (list (list F))) (outs : list (list (list F) * list (list F))) : Prop :=
    length outs = length counts /\
    forall b c sh r x imp y out, counts !! b = Some c -> shareds !! b = Some sh -> ranks !! b = Some r -> xs !! b = Some x -> imps !! b = Some imp -> ys !! b = Some y -> outs !! b = Some out ->
      exists cb ci cd pre post, rank_cells c (length sh) r alpha nc (zip x imp) = Ok (cb, ci, cd) /\ schedule cb ci cd pre post /\ rank_result c (length sh) y pre post = Ok out.

  (** applyImpl, 1033-1040 and 1116-1130: the checks, and the sets of columns that are
      evaluated together. *)
  Definition column_blocks (x_cols y_cols n_rhs : nat) : res (list (list nat)) :=
    _ ← throwing_assert (x_cols =? y_cols);
    _ ← throwing_assert (x_cols <=? n_rhs);
    _ ← throwing_assert (y_cols <=? n_rhs);
    Ok (if x_cols =? n_rhs then [seq 0 x_cols] else map (fun r => [r]) (seq 0 x_cols)).
  (** 1037: putScalar(0) or scale(beta). *)
  Definition scaled (beta : F) (col : list F) : list F := map (fun v => if is_zero beta then zero else mul beta v) col.
  Definition columns (rs : list nat) (l : list (list F)) : list (list F) := map (fun r => nth r l []) rs.

  Definition put_columns (rs : list nat) (l news : list (list F)) : list (list F) := foldl (fun l (p : nat * list F) => <[p.1 := p.2]> l) l (zip rs news).
  (** 1116-1131: the blocks one after the other on all ranks; [ys] becomes [ys']. *)
  Fixpoint blocks_applied (counts : list nat) (shareds : list (list nat)) (ranks : list mf_rank) (alpha : F) (blocks : list (list nat)) (xs ys ys' : list (list (list F))) : Prop :=
    match blocks with
    | [] => ys' = ys
    | rs :: blocks => exists imps outs news,
        all_imported counts shareds (length rs) (map (columns rs) xs) imps /\
        evaluated counts shareds ranks alpha (length rs) (map (columns rs) xs) (map (columns rs) ys) imps outs /\
        all_exported counts shareds (length rs) outs news /\
        blocks_applied counts shareds ranks alpha blocks xs (zip_with (put_columns rs) ys news) ys'
    end.
  Definition applied (counts : list nat) (shareds : list (list nat)) (ranks : list mf_rank) (alpha beta : F) (x_cols y_cols n_rhs : nat) (xs ys ys' : list (list (list F))) : Prop :=
    exists blocks, column_blocks x_cols y_cols n_rhs = Ok blocks /\ blocks_applied counts shareds ranks alpha blocks xs (map (map (scaled beta)) ys) ys'.

  (** computeDiagAndRhs, 887-941.  Column 0 is the diagonal, column 1 + r the right-hand
      side r.  gatherDirichletVals, 364-375; [vals]: the columns of m_dirichlet_values,
      owned and shared. *)
  Definition gatherDirichletVals (nr : nat) (vals : list (list F)) (dofs : list (option nat)) (inds : list nat) : res (list (list F)) :=
    map_res (fun i => d ← rd dofs i; match d with Some d => map_res (fun r => col ← rd vals r; rd col d) (seq 0 nr) | None => UB end) inds.
  (** makeInitKernel, 601-631, and scatterInit, 377-390. *)
  Definition init_job (border : bool) (c s nr : nat) (vals : list (list F)) (bc : dbc) (m : local_dof_map) (j : job) : res (list (nat * nat * F)) :=
    dofs ← getDofs m (j_nodes j) (j_fields j);
    let inds := getDirichletDofInds dofs bc in
    rows ← gatherDirichletVals nr vals dofs inds;
    '(diag, rhs) ← j_init j inds (fun k r => nth r (nth k rows []) zero);
    ls ← map_res (fun i => d ← rd dofs i; x ← cell true c s d 0 (diag i); l ← map_res (fun r => cell border c s d (1 + r) (rhs i r)) (seq 0 nr); Ok (x :: l)) (seq 0 (length dofs));
    Ok (concat ls).
  Definition init_jobs (border : bool) (c s nr : nat) (vals : list (list F)) (bc : dbc) (m : local_dof_map) (js : list job) : res (list (nat * nat * F)) :=
    ls ← map_res (init_job border c s nr vals bc m) js; Ok (concat ls).
  Definition init_cells (c s nr : nat) (r : mf_rank) (vals : list (list F)) : res (list (nat * nat * F) * list (nat * nat * F)) :=
    cb ← init_jobs true c s nr vals (mr_bc r) (mr_map r) (mr_border r);
    ci ← init_jobs false c s nr vals (mr_bc r) (mr_map r) (mr_interior r);
    Ok (cb, ci).
  (** 919-921: everything is zeroed; 930-937: border, postSends, interior. *)
  Definition init_result (c s nr : nat) (pre post : list (nat * nat * F)) : res (list (list F) * list (list F)) :=
    two_phases c pre post (replicate (1 + nr) (replicate c zero, replicate s zero)).
  (** handle_dirichlet_dof, 911-915 and 938-939, in any order of the dofs. *)
  Definition impose (nr : nat) (vals : list (list F)) (order : list nat) (cols : list (list F)) : res (list (list F)) :=
    for_each (fun d cols =>
      diag ← rd cols 0; diag ← wr diag d one; cols ← wr cols 0 diag;
      for_each (fun r cols => col ← rd cols (1 + r); vcol ← rd vals r; v ← rd vcol d; col ← wr col d v; wr cols (1 + r) col) (seq 0 nr) cols) order cols.
  Definition initialised (counts : list nat) (shareds : list (list nat)) (ranks : list mf_rank) (nr : nat) (vals : list (list (list F))) (outs : list (list (list F) * list (list F))) : Prop :=
    length outs = length counts /\
    forall b c sh r v out, counts !! b = Some c -> shareds !! b = Some sh -> ranks !! b = Some r -> vals !! b = Some v -> outs !! b = Some out ->
      exists cb ci pre post, init_cells c (length sh) nr r v = Ok (cb, ci) /\ pre ≡ₚ cb /\ post ≡ₚ ci /\ init_result c (length sh) nr pre post = Ok out.
End model.
Arguments evaluator : clear implicits. Arguments job : clear implicits. Arguments mf_rank : clear implicits.
