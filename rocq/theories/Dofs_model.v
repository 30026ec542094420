(** Model of dofs/NodeToDofMap.hpp and of the lookups in bcs/PeriodicBC.hpp.
    All ranks run the same code; the model runs them together.  invalid_global_dof
    and invalid_node are [None]; the 64-bit types do not overflow. *)
From Verif Require Import Base StdAlgo Ownership_model Elem_model Mesh_model Helpers_model Partition_model.

(** PeriodicBC, PeriodicBC.hpp:43-44: m_periodic_info in iteration order, and
    m_periodic_ghosts.  lookup, 35-39, is [pb_lookup]. *)
Record pbc := { pb_info : list (nat * list (option nat)); pb_ghosts : list nat }.
Definition no_pbc : pbc := {| pb_info := []; pb_ghosts := [] |}.
(** Set positions of a bit set, in ascending order (getTrueInds, Meta.hpp:84-99;
    its own model is in StaticVector_model). *)
Definition true_inds (a : list bool) : list nat :=
  List.filter (fun i => match a !! i with Some b => b | None => false end) (seq 0 (length a)).
(** Rows of a view are lists; an access is row, then column. *)
Notation view A := (list (list A)) (only parsing).

Section dofs.
  (** [D]: max_dofs_per_node. *)
  Context {V : Type} (D : nat).
  Notation el := (element V).
  Definition pb_lookup (b : pbc) (n : nat) : list (option nat) :=
    match hm_find n (pb_info b) with Some row => row | None => replicate D None end.
  (** makeNodeOwnership, 167-178. *)
  Definition makeNodeOwnership (so : ownership) (b : pbc) : res ownership :=
    make_ownership (if numOwned so =? 0 then 0 else so_begin so) (numOwned so) (so_shared so ++ pb_ghosts b).
  (** getPrimaryNodesView, NodeCondensation.hpp:24-31; [cond]: the policy is
      ElementBoundary. *)
  Definition primary_nodes (cond : bool) (e : el) : res (list nat) := if cond then boundary_nodes e else Ok (el_nodes e).
  (** makeLocalDofBmp, 180-208.  The elements are visited in parallel, every store
      is atomic and stores 1, so it is enough to model the visits one after the
      other, in any order: [sched]. *)
  Definition mark_node (so : ownership) (b : pbc) (act : list nat) (n : nat) (bmp : view bool) : res (view bool) :=
    let lid := getLocalIndex so n in
    let info := pb_lookup b n in
    for_each (fun j bmp => p ← rd info j;
                let l := match p with None => lid | Some a => getLocalIndex so a end in
                row ← rd bmp l; row' ← wr row j true; wr bmp l row') act bmp.
  Definition makeLocalDofBmp (sched : list el -> list el) (cond : bool) (m : mesh V) (pdef : list (list nat * list bool)) (so : ownership) (b : pbc) : res (view bool) :=
    for_each (fun d bmp =>
      let act := true_inds d.2 in
      for_each (fun e bmp => ns ← primary_nodes cond e; for_each (mark_node so b act) ns bmp) (sched (visit_elems (m_domains m) d.1)) bmp)
      pdef (replicate (localSize so) (replicate D false)).

  (** Distribution of the nodes, as seen by ImportExportContext. *)
  Definition node_owner (sos : list ownership) (n : nat) : nat := get_owner (getOwnershipDist (map numOwned sos)) n.
  (** exportDofBmp, 210-224.  By C11 every owner combines its rows with those sent
      by the ranks that share the node, in order of arrival, [arr]. *)
  Definition sent_to (sos : list ownership) (bmps : list (view bool)) (q : nat) : list (nat * list bool) :=
    concat (map (fun z : ownership * view bool => List.filter (fun s => node_owner sos s.1 =? q) (zip (so_shared z.1) (drop (numOwned z.1) z.2))) (zip sos bmps)).
  Definition exportDofBmp (arr : list (nat * list bool) -> list (nat * list bool)) (sos : list ownership) (bmps : list (view bool)) : res (list (view bool)) :=
    map_res (fun z : nat * (ownership * view bool) =>
      for_each (fun s bmp => let l := getLocalIndex z.2.1 s.1 in row ← rd bmp l; wr bmp l (zip_with orb row s.2)) (arr (sent_to sos bmps z.1)) z.2.2)
      (zip (seq 0 (length sos)) (zip sos bmps)).
  (** communicateSharedDofs, 266-279.  By C10 the row of a shared node becomes the
      row at its owner. *)
  Definition import_row {A} (sos : list ownership) (rows : list (view A)) (n : nat) : res (list A) :=
    let q := node_owner sos n in
    so ← rd sos q; v ← rd rows q; rd v (getLocalIndex so n).
  Definition communicateShared {A} (sos : list ownership) (rows : list (view A)) : res (list (view A)) :=
    map_res (fun z : ownership * view A => sh ← map_res (import_row sos rows) (so_shared z.1); Ok (take (numOwned z.1) z.2 ++ sh)) (zip sos rows).

  Definition is_invalid (p : option nat) : bool := match p with None => true | Some _ => false end.
  Definition count_true (l : list bool) : nat := length (List.filter (fun b => b) l).
  (** computeNumOwnedDofs, 226-240. *)
  Definition computeNumOwnedDofs (so : ownership) (b : pbc) (bmp : view bool) : res nat :=
    for_each (fun i s => row ← rd bmp i; Ok (s + count_true (zip_with (fun p x => is_invalid p && x) (pb_lookup b (so_begin so + i)) row)))
      (seq 0 (numOwned so)) 0.
  (** computeBaseDof, 242-247: MPI_Exscan. *)
  Definition computeBaseDofs (nums : list nat) : list nat := exclusive_scan 0 nums.
  (** computeOwnedDofs, 249-264.  The view is zero-initialised. *)
  Fixpoint number_row (info : list (option nat)) (row : list bool) (base : nat) : list (option nat) * nat :=
    match info, row with
    | p :: info, x :: row =>
      if is_invalid p && x then let r := number_row info row (S base) in (Some base :: r.1, r.2)
      else let r := number_row info row base in (None :: r.1, r.2)
    | _, _ => ([], base)
    end.
  Definition computeOwnedDofs (so : ownership) (b : pbc) (bmp : view bool) (base : nat) : res (view (option nat)) :=
    st ← for_each (fun i st => row ← rd bmp i; let r := number_row (pb_lookup b (so_begin so + i)) row st.2 in
                              v ← wr st.1 i r.1; Ok (v, r.2))
      (seq 0 (numOwned so)) (replicate (localSize so) (replicate D (Some 0)), base);
    Ok st.1.
  (** fixPeriodicDofs, 281-296. *)
  Definition fixPeriodicDofs (so : ownership) (b : pbc) (dofs : view (option nat)) : res (view (option nat)) :=
    for_each (fun (p : nat * list (option nat)) dofs =>
      let lid := getLocalIndex so p.1 in
      for_each (fun (c : nat * option nat) dofs => match c.2 with
        | None => Ok dofs
        | Some a => src ← rd dofs (getLocalIndex so a); x ← rd src c.1; row ← rd dofs lid; row' ← wr row c.1 x; wr dofs lid row'
        end) (zip (seq 0 D) p.2) dofs)
      (pb_info b) dofs.
  (** computeSharedDofs, 298-308: std::set. *)
  Definition computeSharedDofs (dofs : view (option nat)) (base num : nat) : list nat :=
    unique (sort (List.filter (fun d => negb ((base <=? d) && (d <? base + num))) (omap id (concat dofs)))).
  (** initFromDofs, 311-333; m_map in insertion order. *)
  Record dof_map := { dm_map : list (nat * list (option nat)); dm_own : ownership }.
  Definition initFromDofs (so : ownership) (dofs : view (option nat)) (b : pbc) (base num : nat) (shared : list nat) : res dof_map :=
    ow ← map_res (fun i => row ← rd dofs i; Ok (so_begin so + i, row)) (seq 0 (numOwned so));
    sh ← map_res (fun z : nat * nat => row ← rd dofs (numOwned so + z.1); Ok (z.2, row))
           (List.filter (fun z : nat * nat => negb (binary_search (pb_ghosts b) z.2)) (zip (seq 0 (length (so_shared so))) (so_shared so)));
    own ← make_ownership base num shared;
    Ok {| dm_map := ow ++ sh; dm_own := own |}.

  (** The constructor, 335-357, on all ranks. *)
  Definition NodeToGlobalDofMap (sched : list el -> list el) (arr : list (nat * list bool) -> list (nat * list bool)) (cond : bool)
      (ranks : list (mesh V * pbc)) (pdef : list (list nat * list bool)) : res (list dof_map) :=
    sos ← map_res (fun x : mesh V * pbc => makeNodeOwnership (m_own x.1) x.2) ranks;
    bmps0 ← map_res (fun z : (mesh V * pbc) * ownership => makeLocalDofBmp sched cond z.1.1 pdef z.2 z.1.2) (zip ranks sos);
    bmps ← exportDofBmp arr sos bmps0;
    nums ← map_res (fun z : pbc * (ownership * view bool) => computeNumOwnedDofs z.2.1 z.1 z.2.2) (zip ranks.*2 (zip sos bmps));
    let bases := computeBaseDofs nums in
    dofs0 ← map_res (fun z : pbc * (ownership * (view bool * nat)) => computeOwnedDofs z.2.1 z.1 z.2.2.1 z.2.2.2) (zip ranks.*2 (zip sos (zip bmps bases)));
    dofs1 ← communicateShared sos dofs0;
    dofs2 ← map_res (fun z : pbc * (ownership * view (option nat)) => fixPeriodicDofs z.2.1 z.1 z.2.2) (zip ranks.*2 (zip sos dofs1));
    dofs3 ← communicateShared sos dofs2;
    map_res (fun z : pbc * (ownership * (view (option nat) * (nat * nat))) =>
      let '(b, (so, (dofs, (base, num)))) := z in initFromDofs so dofs b base num (computeSharedDofs dofs base num))
      (zip ranks.*2 (zip sos (zip dofs3 (zip bases nums)))).

  (** LocalDofMap, 144-163: the map is at the local index of each node; getNumOwnedDofs
      and getNumTotalDofs, 98-100.  [junk]: what the new array holds. *)
  Record local_dof_map := { ld_map : list (list (option nat)); ld_owned : nat; ld_total : nat }.
  Definition make_LocalDofMap (junk : list (option nat)) (g : dof_map) (m : mesh V) : res local_dof_map :=
    v ← for_each (fun (p : nat * list (option nat)) v =>
           let lids := map (fun gid => match gid with Some gid => Some (getLocalIndex (dm_own g) gid) | None => None end) p.2 in
           let l := getLocalIndex (m_own m) p.1 in
           if l <? length v then wr v l lids else Throw)
         (dm_map g) (replicate (length (dm_map g)) junk);
    Ok {| ld_map := v; ld_owned := numOwned (dm_own g); ld_total := localSize (dm_own g) |}.
End dofs.
