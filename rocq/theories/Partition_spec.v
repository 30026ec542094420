(** Vocabulary of C18-C21. *)
From Verif Require Import Base StdAlgo Ownership_model Elem_model Elem_spec Mesh_model Mesh_spec Helpers_spec Partition_model.
Section spec.
  Context {V : Type}.
  Notation el := (element V).
  Notation doms := (dmap (domain V)).
  (** The node is on the boundary of the element; in its interior. *)
  Definition bnd_node (e : el) (n : nat) : Prop :=
    exists i side, el_nodes e !! i = Some n /\ on_side (el_type e) (el_order e) side i.
  Definition int_node (e : el) (n : nat) : Prop :=
    exists i, el_nodes e !! i = Some n /\ ~ exists side, on_side (el_type e) (el_order e) side i.
  (** All elements of domain [id], in storage order. *)
  Definition dom_elems (m : doms) (id : nat) : list el :=
    concat (map (fun p : nat * domain V => if p.1 =? id then concat (d_els p.2) else []) m).
  (** [b] is side [s] of the element [e] of domain [id]. *)
  Definition side_in (m : doms) (id : nat) (b e : el) (s : nat) : Prop :=
    in_domain m id e /\ native_dim (el_type e) = native_dim (el_type b) + 1 /\ side_of b e s.
  Notation B x := (m_bnds x).*1.
  (** A mesh that has not been partitioned: nodes 0 .. N-1, each in an element of a
      domain that is not a boundary; element ids are distinct.  The boundaries
      have a dimension, and the domains one dimension higher exist and are not
      themselves boundaries. *)
  Record unpartitioned (orders : list nat) (x : mesh V) (N : nat) : Prop := {
    un_orders : NoDup orders;
    un_valid : valid_doms orders (m_domains x);
    un_ids : NoDup (map el_id (concat (map (fun p : nat * domain V => concat (d_els p.2)) (m_domains x))));
    un_own : m_own x = {| so_begin := 0; so_end := N; so_shared := [] |};
    un_pos : 0 < N;
    un_nodes : forall n, is_node (m_domains x) n -> n < N;
    un_cover : forall n, n < N -> exists id e, id ∉ B x /\ in_domain (m_domains x) id e /\ n ∈ el_nodes e;
    un_bnds : NoDup (B x) /\ forall b, b ∈ B x -> b ∈ (m_domains x).*1;
    un_parents : parents_exist (m_domains x) (B x) /\
      forall b d id d' dim, b ∈ B x -> (b, d) ∈ m_domains x -> d_dim d = Some dim -> (id, d') ∈ m_domains x -> d_dim d' = Some (dim + 1) -> id ∉ B x }.
  (** Every boundary element is a side of an element of exactly one domain. *)
  Definition one_parent (x : mesh V) : Prop :=
    forall b e, b ∈ B x -> in_domain (m_domains x) b e ->
      exists id, (exists e' s, side_in (m_domains x) id e e' s) /\ forall id', (exists e' s, side_in (m_domains x) id' e e' s) -> id' = id.
  (** METIS answers in range, sorting sorts, parallel loops run every iteration once. *)
  Record env_ok (E : env (V := V)) : Prop := {
    eo_metis : forall n_els n_nodes e_ptr e_ind w n, 1 <= n -> exists ep np, e_metis E n_els n_nodes e_ptr e_ind w n = Ok (ep, np) /\
      length ep = n_els /\ length np = n_nodes /\ Forall (fun p => p < n) ep /\ Forall (fun p => p < n) np;
    eo_sort : sorts_indices (e_sort E);
    eo_visit : forall l, e_visit E l ≡ₚ l;
    eo_assign : forall l, e_assign E l ≡ₚ l;
    eo_views : forall l, e_views E l ≡ₚ l;
    eo_hash : forall l, e_hash E l ≡ₚ l }.
  (** The parts are a partition of the mesh, nodes renumbered by [f]. *)
  Definition owned (x : mesh V) (n : nat) : Prop := so_begin (m_own x) <= n < so_end (m_own x).
  Record partition_of (orders : list nat) (x : mesh V) (N n_parts : nat) (parts : list (mesh V)) (f : nat -> nat) : Prop := {
    po_count : length parts = n_parts;
    po_range : forall n, n < N -> f n < N;
    po_inj : forall n n', n < N -> n' < N -> f n = f n' -> n = n';
    po_valid : forall y, y ∈ parts -> valid_doms orders (m_domains y);
    (* every element of every domain is in exactly one part *)
    po_elems : forall id, concat (map (fun y => dom_elems (m_domains y) id) parts) ≡ₚ map (reindex_el f) (dom_elems (m_domains x) id);
    (* owned ranges follow each other and make up 0 .. N-1 *)
    po_begin : forall p y, parts !! p = Some y ->
      so_begin (m_own y) <= so_end (m_own y) /\
      (so_begin (m_own y) < so_end (m_own y) -> so_begin (m_own y) = sum (map (fun y => so_end (m_own y) - so_begin (m_own y)) (take p parts)));
    po_total : sum (map (fun y => so_end (m_own y) - so_begin (m_own y)) parts) = N;
    (* an owner uses the node; shared nodes are the others it uses *)
    po_uses : forall y n, y ∈ parts -> owned y n -> is_node (m_domains y) n;
    po_shared : forall y, y ∈ parts -> StronglySorted lt (so_shared (m_own y)) /\
      forall n, n ∈ so_shared (m_own y) <-> is_node (m_domains y) n /\ ~ owned y n;
    (* a boundary element is with the element it is a side of *)
    po_follow : forall y b e, y ∈ parts -> b ∈ B x -> in_domain (m_domains y) b e -> exists id e' s, id ∉ B x /\ side_in (m_domains y) id e e' s;
    po_bnds : forall y, y ∈ parts -> StronglySorted lt (B y) /\ (forall b, b ∈ B y <-> b ∈ B x) /\
      forall b views, (b, views) ∈ m_bnds y -> exists bs, bs ≡ₚ dom_elems (m_domains y) b /\ Forall2 (fun b v => attached (m_domains y) b v.1 v.2) bs views;
    (* the vectors of a domain that is no boundary stay ascending *)
    po_ascending : forall id, id ∉ B x ->
      (forall d v, (id, d) ∈ m_domains x -> v ∈ d_els d -> StronglySorted lt (map el_id v)) ->
      forall y d v, y ∈ parts -> (id, d) ∈ m_domains y -> v ∈ d_els d -> StronglySorted lt (map el_id v) }.
End spec.
