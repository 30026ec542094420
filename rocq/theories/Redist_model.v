(** Model of the redistribution of mesh parts over ranks, comm/DistributeMesh.hpp.
    All ranks run the same code; the model runs them together, a message is a
    lookup in the list of what each rank sends.  The mesh a rank receives is the
    one sent: that serialising and deserialising gives back the mesh is C17. *)
From Verif Require Import Base StdAlgo Ownership_model Elem_model Mesh_model Helpers_model Partition_model.

(** invertPermutation, 22-31: rank [r] takes a message from any source; [pings]
    lists the ranks that have sent one to it. *)
Definition pings (dests : list nat) (r : nat) : list nat :=
  List.filter (fun s => bool_decide (dests !! s = Some r)) (seq 0 (length dests)).

Section redist.
  Context {V : Type}.
  (** establishNewNodeIds, 70-105, on all ranks.  [recv]: the parts received.
      82-83: exclusive scan over the ranks.  84-86: each rank receives the first
      new id from the rank its part goes to.  92-98: new ids of the owned nodes
      and Import of those of the shared nodes from their owners (by C10 the value
      at the owner; get_owner is the owner used in ImportExportContext).
      100-103: the ids of the shared nodes go to the rank that has the part.
      104: the constructor sorts them. *)
  Definition newBegins (recv : list (mesh V)) : list nat := exclusive_scan 0 (map (fun y => numOwned (m_own y)) recv).
  Definition importIds (parts : list (mesh V)) (owned_ids : list (list nat)) (n : nat) : res nat :=
    let q := get_owner (getOwnershipDist (map (fun y => numOwned (m_own y)) parts)) n in
    l ← rd owned_ids q; y ← rd parts q; rd l (n - so_begin (m_own y)).
  Definition establishNewNodeIds (parts recv : list (mesh V)) (srcs dests : list nat) : res (list ownership) :=
    let begins := newBegins recv in
    nbons ← map_res (rd begins) dests;
    let owned_ids := zip_with (fun nb y => seq nb (numOwned (m_own y))) nbons parts in
    shared_ids ← map_res (fun y => map_res (importIds parts owned_ids) (so_shared (m_own y))) parts;
    new_shared ← map_res (rd shared_ids) srcs;
    map_res (fun z : mesh V * (nat * list nat) => make_ownership z.2.1 (numOwned (m_own z.1)) z.2.2) (zip recv (zip begins new_shared)).
  (** permuteMesh, 107-120.  old2new is applied to the owned and shared ids and
      the nodes of the elements; the check says that it does not go wrong there. *)
  Definition old2new (old new : ownership) (n : nat) : res nat := getGlobalIndex new (getLocalIndex old n).
  Definition renumberPart (y : mesh V) (new : ownership) : res (mesh V) :=
    let so := m_own y in
    _ ← map_res (old2new so new) (seq (so_begin so) (numOwned so) ++ so_shared so ++ concat (map el_nodes (all_elems (m_domains y))));
    reindexNodes (fun n => match old2new so new n with Ok k => k | _ => 0 end) y.
  Definition permuteMesh (parts : list (mesh V)) (srcs dests : list nat) : res (list (mesh V)) :=
    recv ← map_res (rd parts) srcs;
    owns ← establishNewNodeIds parts recv srcs dests;
    map_res (fun z : mesh V * ownership => renumberPart z.1 z.2) (zip recv owns).
  (** getOldNodeIds, 122-134: the original ids of the nodes of a part. *)
  Definition getOldNodeIds (y : mesh V) (new_to_old : list (nat * nat)) : res (list nat) :=
    map_res (at_map new_to_old) (seq (so_begin (m_own y)) (numOwned (m_own y)) ++ so_shared (m_own y)).
End redist.
