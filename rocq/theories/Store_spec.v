(** Vocabulary of the properties of saved files. *)
From Verif Require Import Base Ownership_model Ownership_spec Elem_model Serial_model Mesh_model Mesh_spec MeshSerial_model MeshSerial_spec Store_model.

(** A field value occupies 8 bytes. *)
Definition value (v : list byte) : Prop := length v = 8.
(** The views passed to save: every rank has the same number of fields, each with a value
    for every owned node (and possibly for shared nodes). *)
Definition proper_fields (counts : list nat) (n_fields : nat) (fields : list (list (list (list byte)))) : Prop :=
  Forall2 (fun c fs => length fs = n_fields /\ Forall (fun f => c <= length f /\ Forall value f) fs) counts fields.
(** [v] is the value of field [ind] at node [g] on the rank that owns it. *)
Definition field_value (counts : list nat) (fields : list (list (list (list byte)))) (ind g : nat) (v : list byte) : Prop :=
  exists r fs f, owns counts r g /\ fields !! r = Some fs /\ fs !! ind = Some f /\ f !! (g - first_owned counts r) = Some v.

(** [x] is a part of a mesh as the constructor makes it, with numbers that fit into the
    integers of the file, and no domain that has lost all its elements (see C17). *)
Definition sound_part (orders : list nat) (sched : list (element point) -> list (element point)) (shuffle : list nat -> list nat) (x : mesh point) : Prop :=
  exists m b n ids, valid_doms orders m /\ make_mesh2 sched shuffle m b n ids = Ok x /\ mesh_fits x /\ no_stale_dim x /\
    fits64 (length (serializeMesh x)).
(** Same domains, elements, boundary views, owned and shared nodes. *)
Definition same_part (x y : mesh point) : Prop :=
  m_domains y = m_domains x /\ m_bnds y = m_bnds x /\ so_shared (m_own y) = so_shared (m_own x) /\
  numOwned (m_own y) = numOwned (m_own x) /\ forall i, isOwned (m_own y) i = isOwned (m_own x) i.
(** Parts of one mesh: a domain has one dimension in all parts that hold it, the nodes of
    all parts are [b], ..., [b + n - 1], the parts have the same boundaries. *)
Definition one_mesh (parts : list (mesh point)) (b n : nat) : Prop :=
  (forall p p' k (e e' : element point), p ∈ parts -> p' ∈ parts -> in_domain (m_domains p) k e -> in_domain (m_domains p') k e' ->
     native_dim (el_type e) = native_dim (el_type e')) /\
  (forall i, (exists p, p ∈ parts /\ is_node (m_domains p) i) <-> b <= i < b + n) /\
  (forall p p' k, p ∈ parts -> p' ∈ parts -> k ∈ (m_bnds p).*1 -> k ∈ (m_bnds p').*1).
