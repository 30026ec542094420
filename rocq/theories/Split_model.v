(** Model of mesh/SplitMesh.hpp.  Hash sets are lists; their iteration order is
    not used here. *)
From Verif Require Import Base StdAlgo Ownership_model Elem_model Mesh_model Partition_model Merge_model.
Section split.
  Context {V : Type} (orders : list nat).
  Notation el := (element V).
  Notation doms := (dmap (domain V)).
  (** assignBoundaryElements, 11-58.  The map of the elements for which the
      predicate holds has index 0, the other index 1.  The two visits of the
      boundary views (17-25 for the sizes of the rows, 35-47 for their contents)
      are one: the rows of the CrsGraph are the sorted side nodes. *)
  Definition assignBoundaryElements (x : mesh V) (true_el_ids : list nat) (domain_maps : list doms) : res (list doms) :=
    sides ← map_res (fun v => ns ← side_view_nodes v; Ok (sort ns))
              (List.filter (fun v : el * nat => bool_decide (el_id v.1 ∈ true_el_ids)) (concat (m_bnds x).*2));
    for_each (fun id => for_each (fun e maps => push_part orders UB (if bool_decide (sort (el_nodes e) ∈ sides) then 0 else 1) id e maps)
                          (visit_elems (m_domains x) [id])) (m_bnds x).*1 domain_maps.
  (** makeDomainMaps, 60-83. *)
  Definition makeSplitMaps (x : mesh V) (p : el -> bool) : res (list doms) :=
    st ← for_each (fun id => for_each (fun e st => if p e
                                                   then maps ← push_part orders UB 0 id e st.1; Ok (maps, el_id e :: st.2)
                                                   else maps ← push_part orders UB 1 id e st.1; Ok (maps, st.2))
                               (visit_elems (m_domains x) [id]))
           (set_difference (m_domains x).*1 (m_bnds x).*1) (repeat [] 2, []);
    assignBoundaryElements x st.2 st.1.
  (** makeMesh, 85-101. *)
  Definition makeHalf (sched : list el -> list el) (shuffle : list nat -> list nat) (x : mesh V) (dm : doms) : res (mesh V) :=
    let owned := remove_dups (List.filter (isOwned (m_own x)) (concat (map el_nodes (all_elems dm)))) in
    make_mesh2 sched shuffle dm (list_min owned) (length owned) (m_bnds x).*1.
  (** splitMeshPartition, 104-111.  [sched] and [shuffle] as for make_mesh2. *)
  Definition splitMeshPartition (sched : list el -> list el) (shuffle : list nat -> list nat) (x : mesh V) (p : el -> bool) : res (mesh V * mesh V) :=
    maps ← makeSplitMaps x p;
    match maps with
    | [t; f] => yt ← makeHalf sched shuffle x t; yf ← makeHalf sched shuffle x f; Ok (yt, yf)
    | _ => UB
    end.
End split.
