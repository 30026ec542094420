(** Vocabulary of C24 and C25. *)
From Verif Require Import Base StdAlgo Elem_model Elem_spec Mesh_model Mesh_spec.
Section spec.
  Context {V : Type}.
  Notation el := (element V).
  (** [ns] are, in some order, the nodes of side [s] of [e]. *)
  Definition side_nodes (e : el) (s : nat) (ns : list nat) : Prop :=
    s < n_sides (el_type e) /\ exists inds, NoDup inds /\ (forall i, i ∈ inds <-> on_side (el_type e) (el_order e) s i) /\
      Forall2 (fun i n => el_nodes e !! i = Some n) inds ns.
  (** [e'] has a side [s'] with those nodes; so does the boundary element [b]. *)
  Definition has_side (m : dmap (domain V)) (dom : nat) (ns : list nat) (es : el * nat) : Prop :=
    in_domain m dom es.1 /\ exists ns', side_nodes es.1 es.2 ns' /\ ns' ≡ₚ ns.
  Definition has_bnd (m : dmap (domain V)) (bnds : list nat) (ns : list nat) (b : el) : Prop :=
    (exists id, id ∈ bnds /\ in_domain m id b) /\ el_nodes b ≡ₚ ns.
  (** Each side of each element of domain [dom] is either shared with exactly one
      other element side and is not a boundary, or is shared with none and is
      exactly one boundary element. *)
  Definition conforming (m : dmap (domain V)) (dom : nat) (bnds : list nat) : Prop :=
    forall e s ns, in_domain m dom e -> side_nodes e s ns ->
      ((exists es', es' <> (e, s) /\ has_side m dom ns es' /\ forall x, has_side m dom ns x -> x = (e, s) \/ x = es') /\
       (forall b, ~ has_bnd m bnds ns b)) \/
      ((forall x, has_side m dom ns x -> x = (e, s)) /\
       (exists b, has_bnd m bnds ns b /\ forall b', has_bnd m bnds ns b' -> b' = b)).
  (** Each boundary element is the side of exactly one element. *)
  Definition boundary_attached (m : dmap (domain V)) (dom : nat) (bnds : list nat) : Prop :=
    forall id b, id ∈ bnds -> in_domain m id b ->
      exists es, has_side m dom (el_nodes b) es /\ forall x, has_side m dom (el_nodes b) x -> x = es.
End spec.

(** Grid point of a node: x runs fastest, then y, then z. *)
Definition at_point2 {C} (zero : C) (xs ys : list C) (n : nat) (v : C * C * C) : Prop :=
  exists x y, xs !! (n `mod` length xs) = Some x /\ ys !! (n / length xs) = Some y /\ v = (x, y, zero).
Definition at_point3 {C} (xs ys zs : list C) (n : nat) (v : C * C * C) : Prop :=
  exists x y z, xs !! (n `mod` length xs) = Some x /\ ys !! ((n / length xs) `mod` length ys) = Some y /\
    zs !! (n / (length xs * length ys)) = Some z /\ v = (x, y, z).
(** Corners of cell (ix, iy) and of cell (ix, iy, iz). *)
Definition cell2 (nx ix iy : nat) : list nat :=
  let n x y := nx * y + x in [n ix iy; n (ix + 1) iy; n ix (iy + 1); n (ix + 1) (iy + 1)].
Definition cell3 (nx ny ix iy iz : nat) : list nat :=
  let n x y z := nx * ny * z + nx * y + x in
  [n ix iy iz; n (ix + 1) iy iz; n ix (iy + 1) iz; n (ix + 1) (iy + 1) iz;
   n ix iy (iz + 1); n (ix + 1) iy (iz + 1); n ix (iy + 1) (iz + 1); n (ix + 1) (iy + 1) (iz + 1)].
