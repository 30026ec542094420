(** Vocabulary of the mesh properties. *)
From Verif Require Import Base StdAlgo Elem_model Elem_spec Mesh_model.

Section spec.
  Context {V : Type}.
  Notation el := (element V).
  Notation doms := (dmap (domain V)).
  (** [e] is an element of domain [id]; of the mesh. *)
  Definition in_domain (m : doms) (id : nat) (e : el) : Prop :=
    exists d v, (id, d) ∈ m /\ v ∈ d_els d /\ e ∈ v.
  Definition is_elem (m : doms) (e : el) : Prop := exists id, in_domain m id e.
  Definition is_node (m : doms) (n : nat) : Prop := exists e, is_elem m e /\ n ∈ el_nodes e.
  (** What the C++ types guarantee: an element has the number of nodes and
      vertices of its type; it is stored in the vector for its type. *)
  Definition typed_el (e : el) : Prop :=
    length (el_nodes e) = nodes_per_element (el_type e) (el_order e) /\
    length (el_verts e) = nodes_per_element (el_type e) 1.
  Definition typed_domain (orders : list nat) (d : domain V) : Prop :=
    Forall2 (fun s v => Forall (fun e => (el_type e, el_order e) = s /\ typed_el e) v) (slots orders) (d_els d).
  (** What pushToDomain guarantees: all elements have the domain's dimension. *)
  Definition dim_domain (d : domain V) : Prop :=
    forall v e, v ∈ d_els d -> e ∈ v -> d_dim d = Some (native_dim (el_type e)).
  (** A std::map of such domains. *)
  Definition valid_doms (orders : list nat) (m : doms) : Prop :=
    StronglySorted lt m.*1 /\ Forall (fun p => typed_domain orders p.2 /\ dim_domain p.2) m.
  (** Ids ascend in every element vector. *)
  Definition ascending (m : doms) : Prop :=
    forall id d v, (id, d) ∈ m -> v ∈ d_els d -> StronglySorted lt (map el_id v).
  Definition unique_ids (m : doms) : Prop :=
    forall e1 e2, is_elem m e1 -> is_elem m e2 -> el_id e1 = el_id e2 -> e1 = e2.
  (** [b] is side [s] of [e]: its nodes are, in some order, those of [e] that lie
      on the side. *)
  Definition side_of (b e : el) (s : nat) : Prop :=
    exists inds ns, NoDup inds /\ (forall i, i ∈ inds <-> on_side (el_type e) (el_order e) s i) /\
      Forall2 (fun i n => el_nodes e !! i = Some n) inds ns /\ el_nodes b ≡ₚ ns /\ s < n_sides (el_type e).
  (** [b] can be attached to the mesh: it is a side of an element of the next dimension. *)
  Definition attached (m : doms) (b e : el) (s : nat) : Prop :=
    is_elem m e /\ native_dim (el_type e) = native_dim (el_type b) + 1 /\ side_of b e s.
  (** Every boundary domain in the mesh has a dimension (it has held an element) and
      there is a domain one dimension higher. *)
  Definition parents_exist (m : doms) (ids : list nat) : Prop :=
    forall id d, id ∈ ids -> (id, d) ∈ m -> exists dim, d_dim d = Some dim /\ exists id' d', (id', d') ∈ m /\ d_dim d' = Some (dim + 1).
  (** [e'] is [e] with its nodes renumbered by [f], and nothing else changed. *)
  Definition renumbered (f : nat -> nat) (e e' : el) : Prop :=
    el_type e' = el_type e /\ el_order e' = el_order e /\ el_verts e' = el_verts e /\ el_id e' = el_id e /\
    length (el_nodes e') = length (el_nodes e) /\ forall i n, el_nodes e !! i = Some n -> el_nodes e' !! i = Some (f n).
End spec.
