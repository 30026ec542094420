(** Vocabulary of C76: nodes of elements of higher order as combinations of the vertices. *)
From Coq Require Import Reals.
From Verif Require Import Base Ownership_model Elem_model Elem_spec Mesh_model Mesh_spec Partition_model Partition_spec Poly_spec Basis_spec Geom_model.
Local Open Scope R_scope.

(** Grid coordinate [a] (0: x, 1: y, 2: z) of node [i] of an element of order [O].  The
    coordinates of a vertex, a node of order 1, are 0 and 1. *)
Definition coord (O i a : nat) : nat := match a with 0%nat => grid_x O i | 1%nat => grid_y O i | _ => grid_z O i end.
(** How far along an edge of length 1 the nodes are. *)
Definition along (absc : list R) (g : nat) : R := (1 + nth g absc 0) / 2.
(** The abscissae run from -1 to 1, ascend and are symmetric (C70 for those of the code). *)
Definition symmetric_absc (OC : nat) (absc : list R) : Prop :=
  length absc = (OC + 1)%nat /\ nth 0 absc 0 = -1 /\ nth OC absc 0 = 1 /\
  (forall g h, (g < h <= OC)%nat -> nth g absc 0 < nth h absc 0) /\ (forall g, (g <= OC)%nat -> nth (OC - g) absc 0 = - nth g absc 0).
(** Node [i] of an element is a combination of its vertices; [weight t absc k i] is the
    part of vertex [k]: a product over the axes. *)
Definition weight (t : etype) (absc : list R) (k i : nat) : R :=
  foldr (fun a r => (if (coord 1 k a =? 0)%nat then 1 - along absc (coord (length absc - 1) i a) else along absc (coord (length absc - 1) i a)) * r) 1
    (seq 0 (native_dim t)).
Section spec.
  Context {V : Type}.
  Notation el := (element V).
  (** The part of node [n] of the mesh in node [i] of [e] at the new order. *)
  Definition part_of (absc : list R) (e : el) (i n : nat) : R :=
    rsum (nodes_per_element (el_type e) 1) (fun k => (if (nth k (el_nodes e) 0 =? n)%nat then 1 else 0) * weight (el_type e) absc k i).
  (** The same point: the same combination of the mesh's nodes. *)
  Definition same_point (absc : list R) (e : el) (i : nat) (f : el) (j : nat) : Prop := forall n, part_of absc e i n = part_of absc f j n.
  (** A face or edge of an element type, or all of it: some axes are fixed to an end. *)
  Definition on_cube (cs : list (option bool)) (O i : nat) : Prop :=
    forall (a : nat) (b : bool), cs !! a = Some (Some b) -> coord O i a = if b then O else 0%nat.
  Definition n_free (cs : list (option bool)) : nat := length (List.filter (fun o : option bool => match o with None => true | _ => false end) cs).
  (** Nodes [a] and [b] are joined by an edge of [e]: their vertices differ along exactly
      one axis. *)
  Definition joined (e : el) (a b : nat) : Prop :=
    exists k l x : nat, el_nodes e !! k = Some a /\ el_nodes e !! l = Some b /\ (x < native_dim (el_type e))%nat /\
      forall y : nat, (y < native_dim (el_type e))%nat -> coord 1 k y = coord 1 l y <-> y <> x.
  Definition cube_nodes (e : el) (cs : list (option bool)) (n : nat) : Prop := exists k : nat, el_nodes e !! k = Some n /\ on_cube cs 1 k.
  (** Two elements meet properly: they have at most one node in common, or their common
      nodes are those of one edge or face of each, with the same edges; elements of the
      same dimension do not coincide. *)
  Definition meet (e f : el) : Prop :=
    let common n := n ∈ el_nodes e /\ n ∈ el_nodes f in
    (forall a b, common a -> common b -> a = b) \/
    exists ce cf, length ce = native_dim (el_type e) /\ length cf = native_dim (el_type f) /\ (0 < n_free ce)%nat /\ n_free ce = n_free cf /\
      (native_dim (el_type e) = native_dim (el_type f) -> (n_free ce < native_dim (el_type e))%nat) /\
      (forall n, common n <-> cube_nodes e ce n) /\ (forall n, common n <-> cube_nodes f cf n) /\
      (forall a b, common a -> common b -> joined e a b <-> joined f a b).
  (** An order-1 mesh whose elements meet properly, each with distinct nodes. *)
  Definition conforming (m : dmap (domain V)) : Prop :=
    (forall e, is_elem m e -> NoDup (el_nodes e)) /\ forall e f, is_elem m e -> is_elem m f -> e <> f -> meet e f.
  (** What METIS_MeshToDual is relied on for: elements with two nodes in common are
      neighbours. *)
  Definition dual_graph (m : dmap (domain V)) (adj : list (list nat)) : Prop :=
    length adj = getNElements m /\ (forall l i, l ∈ adj -> i ∈ l -> (i < getNElements m)%nat) /\
    forall e f a b, is_elem m e -> is_elem m f -> e <> f -> a <> b -> a ∈ el_nodes e -> b ∈ el_nodes e -> a ∈ el_nodes f -> b ∈ el_nodes f ->
      exists l, adj !! el_id e = Some l /\ el_id f ∈ l.
  (** What [e] becomes: the same element with more nodes.  A node at a corner keeps its
      number. *)
  Definition raised (OC : nat) (e e' : el) : Prop :=
    el_type e' = el_type e /\ el_order e' = OC /\ el_verts e' = el_verts e /\ el_id e' = el_id e /\
    length (el_nodes e') = nodes_per_element (el_type e) OC /\
    forall k i n, el_nodes e !! k = Some n -> (i < nodes_per_element (el_type e) OC)%nat ->
      (forall a, (a < native_dim (el_type e))%nat -> coord OC i a = (OC * coord 1 k a)%nat) -> el_nodes e' !! i = Some n.
  (** A mesh that can be converted: not partitioned, element ids 0, 1, ..., ascending in
      every vector; elements meet properly; boundary elements are sides. *)
  Record convertible (x : mesh V) (N : nat) (adj : list (list nat)) : Prop := {
    cv_mesh : unpartitioned [1%nat] x N;
    cv_ids : forall e, is_elem (m_domains x) e -> (el_id e < getNElements (m_domains x))%nat;
    cv_ascending : Mesh_spec.ascending (m_domains x);
    cv_conforming : conforming (m_domains x);
    cv_sides : forall id b, id ∈ (m_bnds x).*1 -> in_domain (m_domains x) id b -> exists e s, attached (m_domains x) b e s;
    cv_dual : dual_graph (m_domains x) adj }.
  (** [y] is [x] at order OC, each element [e] having become [r e]. *)
  Record converted (OC : nat) (absc : list R) (x y : mesh V) (N' : nat) (r : el -> el) : Prop := {
    cd_domains : m_domains y = map (fun d : nat * domain V => (d.1, mk_dom (map (map r) (d_els d.2)) (d_dim d.2))) (m_domains x);
    cd_raised : forall e, is_elem (m_domains x) e -> raised OC e (r e);
    cd_same : forall e f i j a b, is_elem (m_domains x) e -> is_elem (m_domains x) f ->
      el_nodes (r e) !! i = Some a -> el_nodes (r f) !! j = Some b -> a = b <-> same_point absc e i f j;
    cd_sides : forall b e s, is_elem (m_domains x) b -> attached (m_domains x) b e s -> attached (m_domains y) (r b) (r e) s;
    cd_bnds : forall id, id ∈ (m_bnds y).*1 <-> id ∈ (m_bnds x).*1;
    cd_mesh : unpartitioned [OC] y N' }.
End spec.
(** Every element has the positions of its nodes as vertices. *)
Definition placed (X : nat -> list R) (m : dmap (domain (list R))) : Prop :=
  (forall n, length (X n) = 3%nat) /\ forall e, is_elem m e -> el_verts e = map X (el_nodes e).
(** The physical position of node [i] of [e] at the new order. *)
Definition position (X : nat -> list R) (absc : list R) (e : element (list R)) (i : nat) (a : nat) : R :=
  rsum (nodes_per_element (el_type e) 1) (fun k => nth a (X (nth k (el_nodes e) 0%nat)) 0 * weight (el_type e) absc k i).
(** Different points of an element, or of two elements with two nodes in common, are not
    closer than [tol]. *)
Definition distance (p q : nat -> R) : R := R_sqrt.sqrt ((p 0%nat - q 0%nat) ^ 2 + (p 1%nat - q 1%nat) ^ 2 + (p 2%nat - q 2%nat) ^ 2).
Definition resolved (tol : R) (OC : nat) (X : nat -> list R) (absc : list R) (m : dmap (domain (list R))) : Prop :=
  forall e f i j, is_elem m e -> is_elem m f ->
    e = f \/ (exists a b, a <> b /\ a ∈ el_nodes e /\ b ∈ el_nodes e /\ a ∈ el_nodes f /\ b ∈ el_nodes f) ->
    (i < nodes_per_element (el_type e) OC)%nat -> (j < nodes_per_element (el_type f) OC)%nat ->
    ~ same_point absc e i f j -> tol <= distance (position X absc e i) (position X absc f j).
