(** Vocabulary of C22. *)
From Verif Require Import Base StdAlgo Ownership_model Elem_model Mesh_model Mesh_spec.
Section spec.
  Context {V : Type}.
  Notation el := (element V).
  Notation doms := (dmap (domain V)).
  (** An unpartitioned mesh: nodes 0 ... n - 1, element ids 0 ... k - 1; each
      boundary view names a side with the nodes of its boundary element; each
      boundary element is the side of an element of a domain that is not a
      boundary. *)
  Record whole_mesh (x : mesh V) (n k : nat) : Prop := {
    wm_valid : valid_doms [1] (m_domains x);
    wm_ids : map el_id (all_elems (m_domains x)) ≡ₚ seq 0 k;
    wm_nodes : forall i, is_node (m_domains x) i <-> i < n;
    wm_own : so_begin (m_own x) = 0 /\ so_end (m_own x) = n /\ so_shared (m_own x) = [];
    wm_keys : StronglySorted lt (m_bnds x).*1;
    wm_views : forall id vs, (id, vs) ∈ m_bnds x -> exists bs, (forall b, b ∈ bs <-> in_domain (m_domains x) id b) /\
                 Forall2 (fun b v => attached (m_domains x) b v.1 v.2) bs vs;
    wm_bnds : forall id b, id ∈ (m_bnds x).*1 -> in_domain (m_domains x) id b ->
                exists id' e s, id' ∉ (m_bnds x).*1 /\ in_domain (m_domains x) id' e /\
                  native_dim (el_type e) = native_dim (el_type b) + 1 /\ side_of b e s }.
  (** Domains with the same id have the same dimension, and are boundaries of both
      meshes or of neither. *)
  Definition compatible (x1 x2 : mesh V) : Prop :=
    (forall id e1 e2, in_domain (m_domains x1) id e1 -> in_domain (m_domains x2) id e2 -> native_dim (el_type e1) = native_dim (el_type e2)) /\
    (forall id, id ∈ (m_bnds x1).*1 -> id ∈ (m_domains x2).*1 -> id ∈ (m_bnds x2).*1) /\
    (forall id, id ∈ (m_bnds x2).*1 -> id ∈ (m_domains x1).*1 -> id ∈ (m_bnds x1).*1).
  (** A match: pairs (node of mesh 2, node of mesh 1), the former distinct. *)
  Definition matching (mm : list (nat * nat)) (n1 n2 : nat) : Prop :=
    NoDup mm.*1 /\ forall a b, (a, b) ∈ mm -> a < n2 /\ b < n1.
  (** How the nodes of mesh 2 are renumbered: matched ones get the number of the
      node of mesh 1, the others, in order, n1, n1 + 1, ..., N - 1. *)
  Definition renumbering (mm : list (nat * nat)) (n1 n2 N : nat) (f : nat -> nat) : Prop :=
    (forall a b, (a, b) ∈ mm -> f a = b) /\
    (forall a, a < n2 -> a ∉ mm.*1 -> n1 <= f a < N) /\
    (forall a a', a < a' -> a' < n2 -> a ∉ mm.*1 -> a' ∉ mm.*1 -> f a < f a') /\
    (forall c, n1 <= c < N -> exists a, a < n2 /\ a ∉ mm.*1 /\ f a = c).
  (** Boundary elements [b1] of mesh 1 and [b2] of mesh 2 that coincide. *)
  Definition boundary_el (x : mesh V) (b : el) : Prop := exists id, id ∈ (m_bnds x).*1 /\ in_domain (m_domains x) id b.
  Definition coincide (mm : list (nat * nat)) (b1 b2 : el) : Prop :=
    exists ns, Forall2 (fun a b => (a, b) ∈ mm) (el_nodes b2) ns /\ ns ≡ₚ el_nodes b1.
  Definition removed1 (mm : list (nat * nat)) (x1 x2 : mesh V) (b1 : el) : Prop :=
    boundary_el x1 b1 /\ exists b2, boundary_el x2 b2 /\ coincide mm b1 b2.
  Definition removed2 (mm : list (nat * nat)) (x1 x2 : mesh V) (b2 : el) : Prop :=
    boundary_el x2 b2 /\ exists b1, boundary_el x1 b1 /\ coincide mm b1 b2.
  (** [e'] is [e] with nodes renumbered by [f] and id by [g]. *)
  Definition moved (f g : nat -> nat) (e e' : el) : Prop :=
    el_type e' = el_type e /\ el_order e' = el_order e /\ el_verts e' = el_verts e /\
    el_nodes e' = map f (el_nodes e) /\ el_id e' = g (el_id e).
End spec.
