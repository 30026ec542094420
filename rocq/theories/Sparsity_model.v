(** Model of algsys/SparsityGraph.hpp and of getDofsCopy in dofs/DofsFromNodes.hpp.
    Indices are natural numbers; the 32-bit row sizes and 64-bit dofs do not
    overflow.  The Tpetra graph is modelled by what is passed to it: the column map,
    the row sizes, and the local indices inserted in each row. *)
From Verif Require Import Base StdAlgo Ownership_model Elem_model Mesh_model Helpers_model Graph_model Merge_model Partition_model Dofs_model.

(** What the threads, the network and uninitialised memory do on one rank: orders of
    the atomic additions, of the atomic subtractions, of the copies, of sorting the
    rows, of arriving messages, of the received rows; contents of new arrays. *)
Record schedule := {
  s_count : list (nat * list nat) -> list (nat * list nat);
  s_reserve : list (nat * list nat) -> list (nat * list nat);
  s_copy : list (nat * list nat) -> list (nat * list nat);
  s_rows : list nat -> list nat;
  s_arrive : list nat -> list nat;
  s_append : list (nat * (nat * nat)) -> list (nat * (nat * nat));
  s_fill : nat -> nat }.

Section sparsity.
  Context {V : Type}.
  Notation el := (element V).
  (** getDofsCopy, DofsFromNodes.hpp:8-31.  The capacity of the StaticVector is the
      number of nodes times the number of components, which is enough as the indices
      are distinct. *)
  Definition getDofsCopy (cond : bool) (g : dof_map) (e : el) (inds : list nat) : res (list nat) :=
    ns ← primary_nodes cond e;
    ds ← map_res (fun n => match hm_find n (dm_map g) with None => Throw | Some row => map_res (rd row) inds end) ns;
    Ok (unique (sort (omap id (concat ds)))).
  (** The el_dofs of lines 40 and 57, for all visited elements (39-50, 56-71). *)
  Definition element_dofs (cond : bool) (m : mesh V) (g : dof_map) (pdef : list (list nat * list bool)) : res (list (list nat)) :=
    dss ← map_res (fun d : list nat * list bool => map_res (fun e => getDofsCopy cond g e (true_inds d.2)) (visit_elems (m_domains m) d.1)) pdef;
    Ok (concat dss).
  (** The passes of the loops 42-46 and 59-67: dof and el_dofs.  All threads together
      execute them in any order. *)
  Definition passes (ds : list (list nat)) : list (nat * list nat) := concat (map (fun d => map (fun k => (k, d)) d) ds).

  (** LocalGraphGID, 18-24. *)
  Record local_graph := { lg_graph : crs; lg_sizes : list nat }.
  Definition lg_row (l : local_graph) (lid : nat) : res (list nat) :=
    r ← row (lg_graph l) lid; s ← at_ (lg_sizes l) lid; if s <=? length r then Ok (take s r) else UB.
  (** 44-45. *)
  Definition count_pass (own : ownership) (p : nat * list nat) (sizes : list nat) : res (list nat) :=
    let lid := getLocalIndex own p.1 in
    s ← at_ sizes lid; wr sizes lid (s + length p.2).
  (** 61-65: the thread reserves the piece [copy_begin, copy_begin + num_el_dofs) of
      the row; the result is its position in the array of all entries. *)
  Definition reserve_pass (own : ownership) (g : crs) (p : nat * list nat) (st : list nat * list (nat * list nat)) : res (list nat * list (nat * list nat)) :=
    let lid := getLocalIndex own p.1 in
    prev ← at_ st.1 lid;
    sizes ← wr st.1 lid (prev - length p.2);
    '(b, e) ← row_range g lid;
    let n := e - b in
    if (prev <=? n) && (n - prev + length p.2 <=? n) then Ok (sizes, st.2 ++ [(b + (n - prev), p.2)]) else UB.
  (** 66.  A copy does not touch the sizes, so all copies can be put after all
      reservations. *)
  Definition copy_pass (p : nat * list nat) (adj : list nat) : res (list nat) :=
    for_each (fun z : nat * nat => fun adj => wr adj (p.1 + z.1) z.2) (zip (seq 0 (length p.2)) p.2) adj.
  (** 73-78; [junk]: what std::ranges::unique leaves behind its result. *)
  Definition sort_row (junk : nat -> nat) (lid : nat) (st : crs * list nat) : res (crs * list nat) :=
    '(b, e) ← row_range st.1 lid;
    let r := take (e - b) (drop b (crs_adj st.1)) in
    let u := unique (sort r) in
    let r' := u ++ map junk (seq 0 (length r - length u)) in
    sizes ← wr st.2 lid (length r - (length r - length u));
    Ok ({| crs_offs := crs_offs st.1; crs_adj := take b (crs_adj st.1) ++ r' ++ drop e (crs_adj st.1) |}, sizes).
  (** computeLocalGraph, 25-81. *)
  Definition computeLocalGraph (sc : schedule) (cond : bool) (m : mesh V) (g : dof_map) (pdef : list (list nat * list bool)) : res local_graph :=
    let own := dm_own g in
    ds ← element_dofs cond m g pdef;
    sizes ← for_each (count_pass own) (s_count sc (passes ds)) (replicate (localSize own) 0);
    let graph := make_crs (s_fill sc) sizes in
    st ← for_each (reserve_pass own graph) (s_reserve sc (passes ds)) (sizes, []);
    adj ← for_each copy_pass (s_copy sc st.2) (crs_adj graph);
    _ ← throwing_assert (forallb (fun s => s =? 0) st.1);
    st ← for_each (sort_row (s_fill sc)) (s_rows sc (seq 0 (localSize own))) ({| crs_offs := crs_offs graph; crs_adj := adj |}, st.1);
    Ok {| lg_graph := st.1; lg_sizes := st.2 |}.

  (** serializeSharedGraph, 83-105. *)
  Definition serializeSharedGraph (rows : list nat) (own : ownership) (lg : local_graph) : res (list nat) :=
    ents ← map_res (fun k => lg_row lg (getLocalIndex own k)) rows;
    let out := length rows :: map length ents ++ rows ++ concat ents in
    _ ← throwing_assert (length out =? sum (map length ents) + 2 * length rows + 1);
    Ok out.
  (** row_to_entries_map_t, 16: a hash map, in insertion order. *)
  Notation rowmap := (list (nat * list nat)).
  Definition rm_set (k : nat) (v : list nat) (m : rowmap) : rowmap := map (fun z : nat * list nat => if z.1 =? k then (k, v) else z) m.
  (** appendSharedFromSerial, 107-141.  The rows are distinct, so the parallel loop
      128-140 works on distinct entries. *)
  Definition insert_entries (serial : list nat) (lg : local_graph) (own : ownership) (z : nat * (nat * nat)) (cur : rowmap) : res rowmap :=
    local ← lg_row lg (getLocalIndex own z.1);
    let new := take z.2.2 (drop z.2.1 serial) in
    old ← match hm_find z.1 cur with Some l => Ok l | None => Throw end;
    let entries := old ++ set_difference new local in
    Ok (rm_set z.1 (if length old =? 0 then entries else sortRemoveDup entries) cur).
  Definition appendSharedFromSerial (sc : schedule) (serial : list nat) (lg : local_graph) (own : ownership) (cur : rowmap) : res rowmap :=
    _ ← throwing_assert (negb (length serial =? 0));
    num_rows ← rd serial 0;
    let header := 2 * num_rows + 1 in
    _ ← throwing_assert (header <=? length serial);
    let sizes := take num_rows (drop 1 serial) in
    let rows := take num_rows (drop (1 + num_rows) serial) in
    let offs := exclusive_scan header sizes in
    _ ← throwing_assert (forallb (fun z : nat * nat => z.1 + z.2 <=? length serial) (zip offs sizes));
    _ ← throwing_assert (length (remove_dups rows) =? length rows);
    for_each (insert_entries serial lg own) (s_append sc (zip rows (zip offs sizes))) (foldl (fun c k => hm_emplace k [] c) cur rows).

  (** makeColumnOwnership, 221-233. *)
  Definition makeColumnOwnership (own : ownership) (data : rowmap) : res ownership :=
    make_ownership (if numOwned own =? 0 then 0 else so_begin own) (numOwned own)
      (unique (sort (so_shared own ++ List.filter (fun e => negb (isOwned own e)) (concat (map snd data))))).
  (** insertIntoTpetraGraph, 254-278: the indices inserted in row [lid]. *)
  Definition col_g2l (cols : ownership) (c : nat) : res nat :=
    if isOwned cols c then Ok (getLocalIndex cols c) else i ← IndexMap_at (make_IndexMap (so_shared cols)) c; Ok (i + numOwned cols).
  Definition insert_row (lg : local_graph) (data : rowmap) (own cols : ownership) (lid : nat) : res (list nat) :=
    gid ← getGlobalIndex own lid;
    ents ← lg_row lg lid;
    a ← map_res (col_g2l cols) ents;
    b ← match hm_find gid data with Some es => map_res (col_g2l cols) es | None => Ok [] end;
    Ok (sort (a ++ b)).
  (** makeRowSizes, 280-295. *)
  Definition makeRowSizes (lg : local_graph) (data : rowmap) (own : ownership) : res (list nat) :=
    base ← map_res (fun lid => r ← lg_row lg lid; Ok (length r)) (seq 0 (length (lg_sizes lg)));
    for_each (fun z : nat * list nat => fun v => let l := getLocalIndex own z.1 in s ← rd v l; wr v l (s + length z.2)) data base.

  Record sparsity := { sg_cols : ownership; sg_sizes : list nat; sg_rows : list (list nat) }.
  (** computeInNbrData, 173-212, on rank [r]: one message from every rank that shares
      dofs owned here, in order of arrival.  computeOwnerToSharedMap, 143-153, and
      computeInNbrs, 156-170, are those of SegmentedOwnership.hpp up to the order of
      iteration, see C09. *)
  Definition message (owns : list ownership) (lgs : list local_graph) (s r : nat) : res (list nat) :=
    o ← rd owns s; lg ← rd lgs s; out ← rd (all_outs owns) s;
    match hm_find r out with Some rows => serializeSharedGraph rows o lg | None => UB end.
  Definition computeInNbrData (sc : schedule) (owns : list ownership) (lgs : list local_graph) (r : nat) (own : ownership) (lg : local_graph) : res rowmap :=
    for_each (fun s cur => serial ← message owns lgs s r; appendSharedFromSerial sc serial lg own cur) (s_arrive sc (in_nbr_keys (all_outs owns) r)) [].
  (** makeSparsityGraph, 298-325, on all ranks; [sc r]: what happens on rank [r]. *)
  Definition makeSparsityGraph (sc : nat -> schedule) (cond : bool) (ranks : list (mesh V * dof_map)) (pdef : list (list nat * list bool)) : res (list sparsity) :=
    let owns := map (fun x : mesh V * dof_map => dm_own x.2) ranks in
    lgs ← map_res (fun z : nat * (mesh V * dof_map) => computeLocalGraph (sc z.1) cond z.2.1 z.2.2 pdef) (zip (seq 0 (length ranks)) ranks);
    _ ← throwing_assert (marks_in_range (all_outs owns));
    map_res (fun z : nat * (ownership * local_graph) =>
      let '(r, (own, lg)) := z in
      data ← computeInNbrData (sc r) owns lgs r own lg;
      cols ← makeColumnOwnership own data;
      sizes ← makeRowSizes lg data own;
      rows ← map_res (insert_row lg data own cols) (seq 0 (length (lg_sizes lg)));
      Ok {| sg_cols := cols; sg_sizes := sizes; sg_rows := rows |})
      (zip (seq 0 (length ranks)) (zip owns lgs)).
End sparsity.
