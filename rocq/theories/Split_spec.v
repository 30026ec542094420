(** Vocabulary of C37. *)
From Verif Require Import Base StdAlgo Ownership_model Elem_model Elem_spec Mesh_model Mesh_spec Partition_spec.
Section spec.
  Context {V : Type}.
  Notation el := (element V).
  (** A mesh part whose boundary views are as the constructors make them.  The
      boundary elements are sides of elements outside the boundaries, and
      boundary elements with the same nodes have the same dimension. *)
  Record splittable (orders : list nat) (x : mesh V) : Prop := {
    sp_orders : NoDup orders;
    sp_valid : valid_doms orders (m_domains x);
    sp_ids : unique_ids (m_domains x);
    sp_keys : StronglySorted lt (m_bnds x).*1;
    sp_views : forall id vs, (id, vs) ∈ m_bnds x ->
      exists bs, bs ≡ₚ dom_elems (m_domains x) id /\ Forall2 (fun b v => attached (m_domains x) b v.1 v.2) bs vs;
    sp_parents : forall id vs e s, (id, vs) ∈ m_bnds x -> (e, s) ∈ vs -> exists id', id' ∉ (m_bnds x).*1 /\ in_domain (m_domains x) id' e;
    sp_dims : forall id id' b b', id ∈ (m_bnds x).*1 -> id' ∈ (m_bnds x).*1 -> in_domain (m_domains x) id b -> in_domain (m_domains x) id' b' ->
      el_nodes b ≡ₚ el_nodes b' -> native_dim (el_type b) = native_dim (el_type b') }.
  (** [b] is a side at which a boundary view of [x] shows an element with [p]. *)
  Definition viewed_from (x : mesh V) (p : el -> bool) (b : el) : Prop :=
    exists id vs e s, (id, vs) ∈ m_bnds x /\ (e, s) ∈ vs /\ p e = true /\ side_of b e s.
  (** [y] is the part of [x] with the elements chosen by [keep] (of the domain
      and the element), in the same order. *)
  Record half_of (orders : list nat) (x : mesh V) (keep : nat -> el -> bool) (y : mesh V) : Prop := {
    h_valid : valid_doms orders (m_domains y);
    h_elems : forall id, dom_elems (m_domains y) id = List.filter (keep id) (dom_elems (m_domains x) id);
    h_ascending : ascending (m_domains x) -> ascending (m_domains y);
    h_keys : StronglySorted lt (m_bnds y).*1 /\ forall id, id ∈ (m_bnds y).*1 <-> id ∈ (m_bnds x).*1;
    (* the boundary views of y show elements of y *)
    h_views : forall id vs, (id, vs) ∈ m_bnds y ->
      exists bs, bs ≡ₚ dom_elems (m_domains y) id /\ Forall2 (fun b v => attached (m_domains y) b v.1 v.2) bs vs;
    h_shared : StronglySorted lt (so_shared (m_own y)) /\
      forall i, i ∈ so_shared (m_own y) <-> is_node (m_domains y) i /\ ~ owned y i;
    (* the owned range begins with the first owned node of x in y and is as long
       as there are such nodes *)
    h_range : exists l, NoDup l /\ (forall i, i ∈ l <-> is_node (m_domains y) i /\ owned x i) /\
      so_end (m_own y) = so_begin (m_own y) + length l /\ (l <> [] -> so_begin (m_own y) ∈ l) /\ forall i, i ∈ l -> so_begin (m_own y) <= i }.
End spec.
