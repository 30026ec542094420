(** Model of extrude, mesh/MeshUtils.hpp:395-461.  Coordinates are of an
    arbitrary type [C]. *)
From Verif Require Import Base StdAlgo Ownership_model Elem_model Mesh_model Prim_model.

Section extrude.
  Context {C : Type}.
  Notation pt := (C * C * C)%type.
  Notation el := (element pt).
  Context (sched : list el -> list el).
  (** vertex.z() = z. *)
  Definition set_z (z : C) (p : pt) : pt := (p.1.1, p.1.2, z).
  (** ET_extruded, 413; no element of another type is extruded (the throwing
      assertion comes first). *)
  Definition extruded_type (t : etype) : option etype :=
    match t with Line => Some Quad | Quad => Some Hex | Hex => None end.
  (** extrude_element, 407-435: one element per pair of adjacent z (adjacent<2>,
      enumerate); the lower vertices and nodes come first. *)
  Definition extrude_element (zdist : list C) (nodes_per_layer id : nat) (e : el) (st : build pt) : res (build pt) :=
    _ ← throwing_assert (native_dim (el_type e) <? 3);
    match extruded_type (el_type e) with
    | None => Ok st
    | Some t =>
      for_each (fun lz st =>
        let '(layer, (z_lo, z_hi)) := lz in
        let nodes := map (fun n => n + layer * nodes_per_layer) (el_nodes e) in
        emplace id t (nodes ++ map (fun n => n + nodes_per_layer) nodes)
          (map (set_z z_lo) (el_verts e) ++ map (set_z z_hi) (el_verts e)) st)
        (zip (seq 0 (length zdist)) (zip zdist (tail zdist))) st
    end.
  (** make_back_front_elems, 436-451. *)
  Definition make_back_front_elems (z_min z_max : C) (id_back id_front n_layers nodes_per_layer : nat) (e : el) (st : build pt) : res (build pt) :=
    match el_type e with
    | Line => Ok st
    | t =>
      st ← emplace id_back t (map (fun n => n + 0) (el_nodes e)) (map (set_z z_min) (el_verts e)) st;
      emplace id_front t (map (fun n => n + nodes_per_layer * (n_layers - 1)) (el_nodes e)) (map (set_z z_max) (el_verts e)) st
    end.
  (** 395-406, 453-460.  domains3d is a std::map: domain_ref stays valid. *)
  Definition extrude (m : mesh pt) (zdist : list C) (id_back id_front : nat) : res (mesh pt) :=
    let n_layers := length zdist in
    _ ← throwing_assert (1 <? n_layers);
    let nodes_per_layer := localSize (m_own m) in
    z_min ← rd zdist 0;
    z_max ← rd zdist (n_layers - 1);
    st ← for_each (fun id st =>
           let st := (touch id st.1, st.2) in
           st ← for_each (extrude_element zdist nodes_per_layer id) (visit_elems (m_domains m) [id]) st;
           for_each (make_back_front_elems z_min z_max id_back id_front n_layers nodes_per_layer) (visit_elems (m_domains m) [id]) st)
         (m_domains m).*1 ([], 0);
    make_mesh1 sched st.1 ((m_bnds m).*1 ++ [id_back; id_front]).
End extrude.
