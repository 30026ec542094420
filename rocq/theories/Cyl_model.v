(** Model of makeCylinderInChannel2DMesh, mesh/primitives/CylinderInChannel2D.hpp, over the
    real numbers (C++: double). *)
From Coq Require Import Reals.
From Verif Require Import Base StdAlgo Ownership_model Elem_model Mesh_model Prim_model Merge_model Poly_model.
From Verif Require Match_model.
Local Open Scope R_scope.

Notation pt3 := (R * R * R)%type.
(** CylinderInChannel2DMeshIds, 10-13. *)
Record cyl_ids := mk_ci { ci_domain : nat; ci_bottom : nat; ci_top : nat; ci_left : nat; ci_right : nat; ci_cylinder : nat }.
(** CylinderInChannel2DGeometry, 15-31: the numbers in the order of the members. *)
Record cyl_geometry := mk_cg { r_inner : R; r_outer : R; left_offset : R; right_offset : R; bottom_offset : R; top_offset : R;
  n_circumf : nat; n_radial : nat; n_left : nat; n_right : nat; n_bottom : nat; n_top : nat;
  q_radial : R; q_left : R; q_right : R; q_bottom : R; q_top : R }.
Definition lt_b (a b : R) : bool := if Rlt_dec a b then true else false.
(** std::min of an initializer list. *)
Definition min_of (a : R) (l : list R) : R := foldl Rmin a l.
(** correct, 21-30. *)
Definition correct (g : cyl_geometry) : bool :=
  lt_b (r_inner g) (r_outer g) && lt_b (r_outer g) (min_of (left_offset g) [right_offset g; bottom_offset g; top_offset g]) &&
  (n_circumf g mod 8 =? 0)%nat && (0 <? foldl Nat.min (n_circumf g) [n_radial g; n_left g; n_right g; n_bottom g; n_top g])%nat &&
  lt_b 0 (min_of (q_radial g) [q_left g; q_right g; q_bottom g; q_top g]).
(** rotate, 39-43. *)
Definition rotate (angle : R) (p : pt3) : pt3 :=
  let s := sin angle in let c := cos angle in (c * p.1.1 - s * p.1.2, s * p.1.1 + c * p.1.2, 0).

Section cylinder.
  Context (sched : list (element pt3) -> list (element pt3)) (shuffle : list nat -> list nat).
  (** The matching of the nodes of two meshes in merge (C80). *)
  Context (match_nodes : mesh pt3 -> mesh pt3 -> res (dmap nat)).
  Context (g : cyl_geometry) (ids : cyl_ids).
  (** make_cylinder, 45-60, up to the merge.  The ids that are not given are the defaults of
      SquareMeshIds, SquareMesh.hpp:8-11. *)
  Definition make_half : res (mesh pt3) :=
    radial_dist ← geomSpaceProg (r_inner g) (r_outer g) (n_radial g + 1) (q_radial g);
    circumf_dist ← linspace 0 1 (n_circumf g / 2 + 1);
    top_half ← makeSquareMesh 0 sched shuffle radial_dist circumf_dist (mk_sq (ci_domain ids) 1 2 (ci_cylinder ids) 4);
    Ok (Match_model.deform (fun p => let r := p.1.1 in let angle := p.1.2 * PI in (r * cos angle, r * sin angle, 0)) top_half).
  (** make_wake, 63-73. *)
  Definition make_wake (L : R) (n : nat) (q : R) (edge_id : nat) : res (mesh pt3) :=
    x_dist ← geomSpaceProg 0 L (n + 1) q;
    y_dist ← linspace (- PI / 4) (PI / 4) (n_circumf g / 4 + 1);
    retval ← makeSquareMesh 0 sched shuffle x_dist y_dist (mk_sq (ci_domain ids) 1 2 3 edge_id);
    Ok (Match_model.deform (fun p => (p.1.1 + (1 - p.1.1 / L) * r_outer g * cos p.1.2, r_outer g * sin p.1.2, 0)) retval).
  (** make_corner, 75-84. *)
  Definition make_corner (Lx : R) (nx : nat) (qx : R) (Ly : R) (ny : nat) (qy : R) (rid tid : nat) : res (mesh pt3) :=
    let sqr22 := R_sqrt.sqrt 2 / 2 in
    x_dist ← geomSpaceProg 0 Lx (nx + 1) qx;
    y_dist ← geomSpaceProg 0 Ly (ny + 1) qy;
    makeSquareMesh 0 sched shuffle (map (fun x => x + (1 - x / Lx) * r_outer g * sqr22) x_dist) (map (fun y => y + (1 - y / Ly) * r_outer g * sqr22) y_dist)
      (mk_sq (ci_domain ids) 1 tid 3 rid).
  (** The parts in the order of the merges, 56-58, 86-138. *)
  Definition make_parts : res (mesh pt3 * list (mesh pt3)) :=
    top_half ← make_half;
    bot_half ← copy_mesh sched shuffle top_half;
    right_wake ← make_wake (right_offset g) (n_right g) (q_right g) (ci_right ids);
    left_wake ← make_wake (left_offset g) (n_left g) (q_left g) (ci_left ids);
    bot_wake ← make_wake (bottom_offset g) (n_bottom g) (q_bottom g) (ci_bottom ids);
    top_wake ← make_wake (top_offset g) (n_top g) (q_top g) (ci_top ids);
    tr_corner ← make_corner (right_offset g) (n_right g) (q_right g) (top_offset g) (n_top g) (q_top g) (ci_right ids) (ci_top ids);
    tl_corner ← make_corner (top_offset g) (n_top g) (q_top g) (left_offset g) (n_left g) (q_left g) (ci_top ids) (ci_left ids);
    bl_corner ← make_corner (left_offset g) (n_left g) (q_left g) (bottom_offset g) (n_bottom g) (q_bottom g) (ci_left ids) (ci_bottom ids);
    br_corner ← make_corner (bottom_offset g) (n_bottom g) (q_bottom g) (right_offset g) (n_right g) (q_right g) (ci_bottom ids) (ci_right ids);
    let turn angle := Match_model.deform (rotate angle) in
    Ok (top_half, [turn PI bot_half; right_wake; turn PI left_wake; turn (3 / 2 * PI) bot_wake; turn (PI / 2) top_wake;
                   tr_corner; turn (PI / 2) tl_corner; turn PI bl_corner; turn (3 / 2 * PI) br_corner]).
  Definition merge_parts (x1 x2 : mesh pt3) : res (mesh pt3) := mm ← match_nodes x1 x2; merge sched shuffle mm x1 x2.
  (** makeCylinderInChannel2DMesh, 33-151.  In C++ the halves are merged before the other
      parts are made. *)
  Definition makeCylinderInChannel2DMesh : res (mesh pt3) :=
    _ ← throwing_assert (correct g);
    parts ← make_parts;
    for_each (fun x cylinder => merge_parts cylinder x) parts.2 parts.1.
End cylinder.
