(** Model of post/SolutionManager.hpp and post/FieldAccess.hpp.  Simplifications: values are of
    any type; sizes and products do not overflow; local node ids fit their type; setFields with
    a kernel is C45's computeValuesAtNodes writing through the raw view. *)
From Verif Require Import Base StdAlgo Ownership_model Helpers_model.

Section manager.
  Context {V : Type}.
  (** The members, SolutionManager.hpp:49-51. *)
  Record manager := mk_manager { sm_nodes : nat; sm_fields : nat; sm_values : list V; sm_own : ownership }.
  (** Constructor, 54-62; the number of nodes of a mesh is the local size of its ownership
      (MeshPartition.hpp:135). *)
  Definition make_manager (own : ownership) (n_fields : nat) (initial : V) : manager :=
    mk_manager (localSize own) n_fields (replicate (localSize own * n_fields) initial) own.
  Definition with_values (s : manager) (l : list V) : manager := mk_manager (sm_nodes s) (sm_fields s) l (sm_own s).
  (** getFieldView(i)[j], 83-91: a span of [sm_nodes] values; reading and writing. *)
  Definition view_get (i j : nat) (s : manager) : res V :=
    if j <? sm_nodes s then rd (sm_values s) (i * sm_nodes s + j) else UB.
  Definition view_set (i j : nat) (x : V) (s : manager) : res manager :=
    if j <? sm_nodes s then l ← wr (sm_values s) (i * sm_nodes s + j) x; Ok (with_values s l) else UB.
  (** getRawView()(j, i) = x, 93-101: LayoutLeft, the first index is contiguous. *)
  Definition raw_set (j i : nat) (x : V) (s : manager) : res manager :=
    if (j <? sm_nodes s) && (i <? sm_fields s) then l ← wr (sm_values s) (j + i * sm_nodes s) x; Ok (with_values s l) else UB.
  (** setFields with a value, 103-107. *)
  Definition set_fields (inds : list nat) (x : V) (s : manager) : res manager :=
    for_each (fun i s => for_each (fun j s => view_set i j x s) (seq 0 (sm_nodes s)) s) inds s.
  (** getNodeValuesLocal, 74-81, and getNodeValuesGlobal, 64-72. *)
  Definition node_values_local (node : nat) (inds : list nat) (s : manager) : res (list V) := map_res (fun i => view_get i node s) inds.
  Definition node_values_global (node : nat) (inds : list nat) (s : manager) : res (list V) := node_values_local (getLocalIndex (sm_own s) node) inds s.

  (** FieldAccess, FieldAccess.hpp:50-52.  The pointer to the values is not part of the record:
      the array is never replaced, so that the accesses below read what it contains then. *)
  Record access := mk_access { fa_inds : list nat; fa_own : ownership }.
  (** getFieldAccess, SolutionManager.hpp:121-129, for indices of an integer type. *)
  Definition get_access (t : ity) (inds : list Z) (s : manager) : res access :=
    u ← map_res (exactIntegerCast t {| i_signed := false; i_bits := 32 |}) inds;
    Ok (mk_access (map Z.to_nat u) (sm_own s)).
  (** makeFieldValueGetter of a range, 138-146: std::ranges::copy to 32 bits converts without a
      check. *)
  Definition make_getter (n : nat) (inds : list Z) (s : manager) : res access :=
    _ ← throwing_assert (length inds =? n);
    get_access {| i_signed := false; i_bits := 32 |} (map (to_type {| i_signed := false; i_bits := 32 |}) inds) s.
  (** fill and getLocallyIndexed, FieldAccess.hpp:21-39: one row for each node. *)
  Definition access_local (a : access) (nodes : list nat) (s : manager) : res (list (list V)) :=
    map_res (fun node => map_res (fun f => rd (sm_values s) (node + f * localSize (fa_own a))) (fa_inds a)) nodes.
  (** getGloballyIndexed, 40-47. *)
  Definition access_global (a : access) (nodes : list nat) (s : manager) : res (list (list V)) :=
    access_local a (map (getLocalIndex (fa_own a)) nodes) s.

  (** What a program may do to a manager. *)
  Inductive change := SetFields (inds : list nat) (x : V) | ViewSet (i j : nat) (x : V) | RawSet (j i : nat) (x : V).
  Definition apply (c : change) (s : manager) : res manager :=
    match c with SetFields inds x => set_fields inds x s | ViewSet i j x => view_set i j x s | RawSet j i x => raw_set j i x s end.
End manager.
Arguments manager : clear implicits.
Arguments change : clear implicits.
