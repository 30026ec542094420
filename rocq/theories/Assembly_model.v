(** Model of the assembled system: AssembledSystem (algsys/AssembledSystem.hpp),
    assembleGlobalSystem (algsys/AssembleGlobalSystem.hpp), scatterLocalSystem
    (algsys/ScatterLocalSystem.hpp), StaticCondensationManager without condensation
    (algsys/StaticCondensationManager.hpp:81-134), NodeToLocalDofMap
    (dofs/NodeToDofMap.hpp:56-77, 124-142), getDirichletDofs (bcs/GetDirichletDofs.hpp).
    Values are elements of any ring: no rounding.  Element matrices are given (C44), as are
    the prescribed values (C45).  The methods are collective; a model of one is a function
    of all ranks.  Tpetra is modelled by the meaning of the functions used: maps as lists
    of global indices, matrices as the values in the order of the column indices of each
    row. *)
From Verif Require Import Base StdAlgo Ownership_model Elem_model Mesh_model Helpers_model Graph_model Merge_model Partition_model Dofs_model Sparsity_model Cond_model Dirichlet_model LocalBC_model.

(** What a rank has after the constructor, 318-329: the global dof map and the graph. *)
Record arank := { ar_map : dof_map; ar_sp : sparsity }.
(** makeTpetraMapOwnedPlusShared, SparsityGraph.hpp:242-252; the map of m_matrix while it
    is open, and its column map.  m_rhs is made with the importer of the graph (313-314),
    which goes to the column map. *)
Definition all_ids (o : ownership) : list nat := seq (so_begin o) (numOwned o) ++ so_shared o.
Definition row_map (r : arank) : list nat := all_ids (dm_own (ar_map r)).
Definition col_map (r : arank) : list nat := all_ids (sg_cols (ar_sp r)).
(** NodeToLocalDofMap, NodeToDofMap.hpp:124-142, constructed at 335-336.  A dof that is not
    in the map gets an invalid index, too. *)
Definition local_dofs (ids : list nat) (gids : list (option nat)) : list (option nat) := map (fun d => match d with Some d => index_of d ids | None => None end) gids.
Definition node_map (r : arank) : list (nat * dof_triplet) :=
  map (fun x : nat * list (option nat) => (x.1, (local_dofs (row_map r) x.2, local_dofs (col_map r) x.2, local_dofs (col_map r) x.2))) (dm_map (ar_map r)).
Definition node_dofs (r : arank) (n : nat) : res dof_triplet := match hm_find n (node_map r) with Some t => Ok t | None => Throw end.

Section model.
  Context {F : Type} (zero one : F) (add mul sub : F -> F -> F).
  (** An element visited by assembleGlobalSystem, AssembleGlobalSystem.hpp:43-56 and
      82-96: the nodes of the element (for a boundary kernel: of the element the side
      belongs to), the components of the kernel, and the local system. *)
  Record call := { c_nodes : list nat; c_fields : list nat; c_mat : nat -> nat -> F; c_rhs : nat -> nat -> F }.
  (** The atomic additions to the matrix and the right-hand sides. *)
  Inductive step := SMat (row col : nat) (v : F) | SRhs (row i : nat) (v : F).
  Definition valid_dof (l : list (option nat)) (k : nat) : res nat := d ← rd l k; match d with Some d => Ok d | None => UB end.
  (** condenseSystemImpl, StaticCondensationManager.hpp:110-121, and scatterLocalSystem,
      ScatterLocalSystem.hpp:24-54.  An invalid dof is an index out of bounds, 51. *)
  Definition call_steps (nr : nat) (r : arank) (c : call) : res (list step) :=
    let size := length (c_nodes c) * length (c_fields c) in
    rows ← Cond_model.dofs_at (node_dofs r) (fun t => t.1.1) (c_fields c) (c_nodes c);
    cols ← Cond_model.dofs_at (node_dofs r) (fun t => t.1.2) (c_fields c) (c_nodes c);
    rhs ← Cond_model.dofs_at (node_dofs r) (fun t => t.2) (c_fields c) (c_nodes c);
    ls ← map_res (fun k =>
           row ← valid_dof rows k;
           cs ← map_res (valid_dof cols) (seq 0 size);
           h ← valid_dof rhs k;
           Ok (zip_with (fun l col => SMat row col (c_mat c k l)) (seq 0 size) cs ++ map (fun i => SRhs h i (c_rhs c k i)) (seq 0 nr)))
         (seq 0 size);
    Ok (concat ls).

  (** The values on one rank: by row of the row map, in the order of the column indices;
      by entry of the column map, for all right-hand sides. *)
  Record lsys := { l_vals : list (list F); l_rhs : list (list F) }.
  (** sumIntoLocalValues ignores columns the row does not have. *)
  Definition do_step (r : arank) (s : step) (st : lsys) : res lsys :=
    match s with
    | SMat row col v =>
        inds ← rd (sg_rows (ar_sp r)) row;
        vals ← rd (l_vals st) row;
        match index_of col inds with
        | Some p => x ← rd vals p; vals' ← wr vals p (add x v); vs ← wr (l_vals st) row vals'; Ok {| l_vals := vs; l_rhs := l_rhs st |}
        | None => Ok st end
    | SRhs h i v => b ← rd (l_rhs st) h; x ← rd b i; b' ← wr b i (add x v); bs ← wr (l_rhs st) h b'; Ok {| l_vals := l_vals st; l_rhs := bs |}
    end.
  (** assembleProblem, 418-448, on one rank; [order]: the order in which the threads'
      additions take effect. *)
  Definition assemble_rank (nr : nat) (order : list step -> list step) (r : arank) (calls : list call) (st : lsys) : res lsys :=
    ls ← map_res (call_steps nr r) calls;
    for_each (do_step r) (order (concat ls)) st.
  (** setToZero, 407-412, and the values of new objects. *)
  Definition zeros (nr : nat) (r : arank) : lsys :=
    {| l_vals := map (map (fun _ => zero)) (sg_rows (ar_sp r)); l_rhs := replicate (length (col_map r)) (replicate nr zero) |}.

  (** endAssembly of the matrix and the vectors (387, 390): shared rows are sent to their
      owners and added to the rows there.  What rank [r] sends for the row [g] ... *)
  Definition packed_row (r : arank) (st : lsys) (g : nat) : res (list (nat * F)) :=
    let own := dm_own (ar_map r) in
    match index_of g (so_shared own) with
    | None => Ok []
    | Some s => inds ← rd (sg_rows (ar_sp r)) (numOwned own + s);
                vals ← rd (l_vals st) (numOwned own + s);
                cols ← map_res (rd (col_map r)) inds;
                Ok (zip cols vals) end.
  (** ... (sumIntoGlobalValues, which ignores columns that are not there) ... *)
  Definition sum_into (cols inds : list nat) (x : nat * F) (vals : list F) : res (list F) :=
    match index_of x.1 cols with
    | None => Ok vals
    | Some c => match index_of c inds with Some p => v ← rd vals p; wr vals p (add v x.2) | None => Ok vals end end.
  (** ... and for the entry [g] of the right-hand sides. *)
  Definition packed_rhs (nr : nat) (r : arank) (st : lsys) (g : nat) : res (list F) :=
    match index_of g (so_shared (sg_cols (ar_sp r))) with
    | None => Ok (replicate nr zero)
    | Some s => rd (l_rhs st) (numOwned (sg_cols (ar_sp r)) + s) end.
  (** The owned rows of rank [a]; [from]: the order in which the contributions of the ranks
      to a row are added. *)
  Definition end_rank (nr : nat) (ranks : list arank) (sts : list lsys) (from : nat -> list nat) (a : nat) : res lsys :=
    r ← rd ranks a; st ← rd sts a;
    let own := dm_own (ar_map r) in
    vals ← map_res (fun l =>
      inds ← rd (sg_rows (ar_sp r)) l; vals ← rd (l_vals st) l;
      for_each (fun b vals => rb ← rd ranks b; sb ← rd sts b; xs ← packed_row rb sb (so_begin own + l); for_each (sum_into (col_map r) inds) xs vals) (from l) vals)
      (seq 0 (numOwned own));
    rhs ← map_res (fun l =>
      v ← rd (l_rhs st) l;
      for_each (fun b v => rb ← rd ranks b; sb ← rd sts b; x ← packed_rhs nr rb sb (so_begin own + l); Ok (zip_with add v x)) (from l) v)
      (seq 0 (numOwned own));
    Ok {| l_vals := vals ++ drop (numOwned own) (l_vals st); l_rhs := rhs ++ drop (numOwned own) (l_rhs st) |}.

  (** The owned rows, as DirichletBCAlgebraic and the solvers see them: graph, values,
      right-hand sides. *)
  Definition owned_graph (r : arank) : graph :=
    let n := numOwned (dm_own (ar_map r)) in mk_graph (take n (row_map r)) (col_map r) (take n (sg_rows (ar_sp r))).
  (** applyDirichletBCs, 450-466, on one rank.  [dold]: the values in
      m_dirichlet_col_mat; [bcv]: m_dirichlet_values. *)
  Definition apply_rank (nr : nat) (bcv : nat -> nat -> F) (r : arank) (d : dbc) (dold : list (list F)) (st : lsys) : res lsys :=
    let n := numOwned (dm_own (ar_map r)) in
    '(vals, rhs) ← apply_dbc zero one add mul sub (owned_graph r) d bcv nr nr dold (take n (l_vals st)) (take n (l_rhs st));
    Ok {| l_vals := vals ++ drop n (l_vals st); l_rhs := rhs ++ drop n (l_rhs st) |}.

  (** The state, 89-107: m_state, m_matrix and m_rhs, m_dirichlet_values.  m_dirichlet_bcs
      is made by the constructor. *)
  Inductive stage := OpenForAssembly | Closed.
  Record asys := { as_stage : stage; as_sys : list lsys; as_bcv : nat -> nat -> F }.
  Definition is_open (s : stage) : bool := match s with OpenForAssembly => true | Closed => false end.
  Definition construct (nr : nat) (ranks : list arank) : asys := {| as_stage := OpenForAssembly; as_sys := map (zeros nr) ranks; as_bcv := fun _ _ => zero |}.
  (** beginAssembly, 361-373. *)
  Definition beginAssembly (nr : nat) (ranks : list arank) (s : asys) : asys :=
    if is_open (as_stage s) then s else {| as_stage := OpenForAssembly; as_sys := map (zeros nr) ranks; as_bcv := as_bcv s |}.
  (** assembleProblem, 414-448. *)
  Definition assembleProblem (nr : nat) (order : nat -> list step -> list step) (ranks : list arank) (calls : list (list call)) (s : asys) : res asys :=
    _ ← throwing_assert (is_open (as_stage s));
    sts ← map_res (fun b => r ← rd ranks b; cs ← rd calls b; st ← rd (as_sys s) b; assemble_rank nr (order b) r cs st) (seq 0 (length ranks));
    Ok {| as_stage := as_stage s; as_sys := sts; as_bcv := as_bcv s |}.
  (** endAssembly, 375-405.  [dolds]: contents of m_dirichlet_col_mat. *)
  Definition endAssembly (nr : nat) (from : nat -> nat -> list nat) (dbcs : option (list dbc)) (dolds : list (list (list F))) (ranks : list arank) (s : asys) : res asys :=
    _ ← throwing_assert (is_open (as_stage s));
    sts ← map_res (fun b => end_rank nr ranks (as_sys s) (from b) b) (seq 0 (length ranks));
    sts ← match dbcs with
          | None => Ok sts
          | Some ds => map_res (fun b => r ← rd ranks b; d ← rd ds b; o ← rd dolds b; st ← rd sts b; apply_rank nr (as_bcv s) r d o st) (seq 0 (length ranks)) end;
    Ok {| as_stage := Closed; as_sys := sts; as_bcv := as_bcv s |}.
  (** setDirichletBCValues, 244-303: [V] are the values after averaging (C45). *)
  Definition setDirichletBCValues (dbcs : option (list dbc)) (V : nat -> nat -> F) (s : asys) : res asys :=
    _ ← throwing_assert (match dbcs with Some _ => true | None => false end);
    Ok {| as_stage := as_stage s; as_sys := as_sys s; as_bcv := V |}.
  (** getMatrix, getRhs, 305-327: the owned rows. *)
  Definition getSystem (ranks : list arank) (s : asys) : res (list (graph * (list (list F) * list (list F)))) :=
    _ ← throwing_assert (negb (is_open (as_stage s)));
    map_res (fun b => r ← rd ranks b; st ← rd (as_sys s) b; let n := numOwned (dm_own (ar_map r)) in Ok (owned_graph r, (take n (l_vals st), take n (l_rhs st)))) (seq 0 (length ranks)).
End model.
Arguments call : clear implicits. Arguments step : clear implicits. Arguments lsys : clear implicits. Arguments asys : clear implicits.

(** getDirichletDofs.  The definitions: C74.  The marks are counts: every rank sets ones,
    and endAssembly (69) adds what the ranks have set. *)
Section dirichlet.
  Context {V : Type}.
  (** 29-41: the least unknown of every normalised component at owned nodes; 24-25: none if
      no component is normalised. *)
  Definition my_min_dofs (m : mesh V) (g : dof_map) (norm : list nat) : res (list (option nat)) :=
    for_each (fun (x : nat * list (option nat)) cur => if isOwned (m_own m) x.1 then ex ← map_res (rd x.2) norm; Ok (zip_with min_dof cur ex) else Ok cur) (dm_map g) (map (fun _ => None) norm).
  (** 42-50: [top] is numeric_limits::max; the reduction finds the least of all ranks. *)
  Definition keep_global (top : nat) (all : list (list (option nat))) (mine : list (option nat)) : list nat :=
    let num d := match d with Some d => d | None => top end in
    let best k := foldr Nat.min top (map (fun l => match l !! k with Some d => num d | None => top end) all) in
    omap (fun k => match mine !! k with Some d => if num d =? best k then Some (num d) else None | None => None end) (seq 0 (length mine)).
  (** 57-64: the unknowns of the elements; an invalid one is not left out. *)
  Definition def_marks (m : mesh V) (g : dof_map) (def : bc_def) : res (list (option nat)) :=
    ls ← map_res (fun x : list nat * list nat => map_res (fun e : element V =>
        rows ← map_res (fun n => match hm_find n (dm_map g) with Some row => map_res (rd row) x.2 | None => Throw end) (el_nodes e);
        Ok (concat rows)) (visit_elems (m_domains m) x.1)) (bd_defs def);
    Ok (concat (concat ls)).
  (** replaceGlobalValue, 61 and 67: an index that is not in the map is written out of
      bounds. *)
  Definition set_mark (ids : list nat) (d : option nat) (marks : list nat) : res (list nat) :=
    match d with Some d => match index_of d ids with Some i => wr marks i 1 | None => UB end | None => UB end.
  Definition mark_rank (r : arank) (m : mesh V) (def : bc_def) (norm : list nat) : res (list nat) :=
    ds ← def_marks m (ar_map r) def;
    for_each (set_mark (col_map r)) (ds ++ map Some norm) (replicate (length (col_map r)) 0).
  (** 69: the marks of owned dofs, in the order of the owned part of the map. *)
  Definition sum_marks (ranks : list arank) (marks : list (list nat)) (a : nat) : res (list nat) :=
    r ← rd ranks a; mine ← rd marks a;
    let cols := sg_cols (ar_sp r) in
    map_res (fun l => v ← rd mine l;
      for_each (fun b v => rb ← rd ranks b; mb ← rd marks b;
        match index_of (so_begin cols + l) (so_shared (sg_cols (ar_sp rb))) with None => Ok v | Some s => x ← rd mb (numOwned (sg_cols (ar_sp rb)) + s); Ok (v + x) end)
        (seq 0 (length ranks)) v)
      (seq 0 (numOwned cols)).
  (** 72-77: the import to the column map: owned entries, then those of other ranks. *)
  Definition import_marks (ranks : list arank) (owneds : list (list nat)) (r : arank) (mine : list nat) : res (list nat) :=
    sh ← map_res (fun g => 
      match head (List.filter (fun b => match ranks !! b with Some rb => isOwned (dm_own (ar_map rb)) g | None => false end) (seq 0 (length ranks))) with
      | Some b => rb ← rd ranks b; ob ← rd owneds b; rd ob (g - so_begin (dm_own (ar_map rb)))
      | None => UB end) (so_shared (sg_cols (ar_sp r)));
    Ok (mine ++ sh).
  (** 78-98: the ids of marked dofs, sorted. *)
  Definition extract_marked (ids marks : list nat) : list nat := sort (map fst (List.filter (fun x : nat * nat => 0 <? x.2) (zip ids marks))).
  Definition getDirichletDofs (top : nat) (ranks : list (mesh V * arank)) (def : bc_def) : res (list (list nat * list nat)) :=
    let rs := map snd ranks in
    norms ← (if decide (bd_norm def = []) then Ok (map (fun _ => []) ranks)
             else all ← map_res (fun x : mesh V * arank => my_min_dofs x.1 (ar_map x.2) (bd_norm def)) ranks; Ok (map (keep_global top all) all));
    marks ← map_res (fun z : (mesh V * arank) * list nat => mark_rank z.1.2 z.1.1 def z.2) (zip ranks norms);
    owneds ← map_res (sum_marks rs marks) (seq 0 (length rs));
    map_res (fun z : arank * list nat => cols ← import_marks rs owneds z.1 z.2;
      Ok (extract_marked (take (length z.2) (col_map z.1)) z.2, extract_marked (col_map z.1) cols)) (zip rs owneds).
End dirichlet.
