(** Vocabulary of C35, C36 and the local mesh view. *)
From Verif Require Import Base StdAlgo Elem_model Elem_spec Ownership_model Mesh_model LocalView_model.

(** Global node [n] is the [i]-th known node: owned nodes first, then the shared ones. *)
Definition local_index (own : ownership) (n i : nat) : Prop :=
  (seq (so_begin own) (so_end own - so_begin own) ++ so_shared own) !! i = Some n.
Definition known (own : ownership) (n : nat) : Prop := so_begin own <= n < so_end own \/ n ∈ so_shared own.
(** What the constructor of SegmentedOwnership establishes (for shared ids without repetition). *)
Definition good_own (own : ownership) : Prop :=
  StronglySorted lt (so_shared own) /\ forall n, n ∈ so_shared own -> ~ so_begin own <= n < so_end own.
(** The interior nodes of [e], in order, have consecutive local indices. *)
Definition interior_consecutive {V} (own : ownership) (e : element V) : Prop :=
  exists inds a, StronglySorted lt inds /\
    (forall i, i ∈ inds <-> i < nodes_per_element (el_type e) (el_order e) /\ ~ exists side, on_side (el_type e) (el_order e) side i) /\
    forall k i n, inds !! k = Some i -> el_nodes e !! i = Some n -> local_index own n (a + k).
(** [b] is the last boundary listed for side [s]. *)
Definition last_entry (sides : list (nat * nat)) (s b : nat) : Prop :=
  exists pre post, sides = pre ++ (s, b) :: post /\ s ∉ post.*1.

(** The vocabulary of the local mesh view. *)
Section spec.
  Context {V : Type}.
  Notation el := (element V).
  (** Among the boundaries holding side [s] of the element with id [id], [b] is the one with
      the greatest id. *)
  Definition boundary_of (m : mesh V) (id s b : nat) : Prop :=
    let holds b := exists vs e, (b, vs) ∈ m_bnds m /\ (e, s) ∈ vs /\ el_id e = id in
    holds b /\ forall b', holds b' -> b' <= b.
  (** A boundary map: ids ascend; a view is an existing side of an element of the mesh. *)
  Definition valid_bnds (m : mesh V) : Prop :=
    StronglySorted lt (m_bnds m).*1 /\
    forall b vs e s, (b, vs) ∈ m_bnds m -> (e, s) ∈ vs -> (exists id d v, (id, d) ∈ m_domains m /\ v ∈ d_els d /\ e ∈ v) /\ s < n_sides (el_type e).
  (** [order] has the interior nodes of [e] next to each other and in order. *)
  Definition interior_grouped (order : list nat) (e : el) : Prop :=
    exists inds a, StronglySorted lt inds /\
      (forall i, i ∈ inds <-> i < nodes_per_element (el_type e) (el_order e) /\ ~ exists side, on_side (el_type e) (el_order e) side i) /\
      forall k i n, inds !! k = Some i -> el_nodes e !! i = Some n -> order !! (a + k) = Some n.
  (** [lv] is the view of [e]. *)
  Definition represents (part : mesh V) (own : ownership) (e : el) (lv : lview V) : Prop :=
    lv_type lv = el_type e /\ lv_order lv = el_order e /\ lv_verts lv = el_verts e /\
    (exists ls, getLocalNodes lv = Ok ls /\ Forall2 (local_index own) (el_nodes e) ls) /\
    StronglySorted lt (getBoundaries lv).*1 /\ (forall s b, (s, b) ∈ getBoundaries lv <-> boundary_of part (el_id e) s b).
  (** [w] are the views of the elements [v], in some order. *)
  Definition vec_view (part : mesh V) (own : ownership) (v : list el) (w : list (lview V)) : Prop :=
    exists w0, w ≡ₚ w0 /\ Forall2 (represents part own) v w0.
  (** The elements for which a view can be built. *)
  Definition viewable (own : ownership) (e : el) : Prop :=
    NoDup (el_nodes e) /\ Forall (known own) (el_nodes e) /\ (1 < length (internal_node_inds (el_type e) (el_order e)) -> interior_consecutive own e).
End spec.
