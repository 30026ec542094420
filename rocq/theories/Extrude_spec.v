(** Vocabulary of C23. *)
From Verif Require Import Base StdAlgo Elem_model Mesh_model Mesh_spec Prim_spec.
Section spec.
  Context {C : Type}.
  Notation pt := (C * C * C)%type.
  Notation el := (element pt).
  (** A mesh in the plane with nodes 0 ... N - 1 and boundaries [bnds], each
      boundary element a side of some element. *)
  Record plane_mesh (m : dmap (domain pt)) (N : nat) (bnds : list nat) : Prop := {
    pm_valid : valid_doms [1] m;
    pm_flat : forall e, is_elem m e -> el_type e = Line \/ el_type e = Quad;
    pm_nodes : forall x, is_node m x <-> x < N;
    pm_some : forall id d, id ∈ bnds -> (id, d) ∈ m -> exists e, in_domain m id e;
    pm_bnd : forall id b, id ∈ bnds -> in_domain m id b -> exists e s, attached m b e s }.
  (** The nodes of the plane copied to layer [l]. *)
  Definition shift (N l : nat) (ns : list nat) : list nat := map (fun n => l * N + n) ns.
  (** A vertex at height [z]. *)
  Definition at_z (z : C) (p q : pt) : Prop := q = (p.1.1, p.1.2, z).
  (** [e'] is [e] extruded between [z] and [z'], heights [l] and [l + 1]. *)
  Definition extruded (N l : nat) (z z' : C) (e e' : el) : Prop :=
    el_type e' = (match el_type e with Line => Quad | _ => Hex end) /\ el_order e' = 1 /\
    el_nodes e' = shift N l (el_nodes e) ++ shift N (l + 1) (el_nodes e) /\
    exists vs vs', el_verts e' = vs ++ vs' /\ Forall2 (at_z z) (el_verts e) vs /\ Forall2 (at_z z') (el_verts e) vs'.
  (** [e'] is [e] moved to height [z], layer [l]. *)
  Definition lifted (N l : nat) (z : C) (e e' : el) : Prop :=
    el_type e' = el_type e /\ el_order e' = 1 /\ el_nodes e' = shift N l (el_nodes e) /\ Forall2 (at_z z) (el_verts e) (el_verts e').
End spec.
