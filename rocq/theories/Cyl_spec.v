(** Vocabulary of C81: where the nodes of the parts of the mesh are. *)
From Coq Require Import Reals.
From Verif Require Import Base StdAlgo Ownership_model Elem_model Elem_spec Mesh_model Mesh_spec Prim_model Prim_spec Merge_spec Cyl_model.
Local Open Scope R_scope.

Notation point := (R * R)%type.
(** i-th of the points that divide lo .. hi into n gaps, each q times the one before. *)
Fixpoint powers (q : R) (i : nat) : R := match i with O => 0 | S i => powers q i + q ^ i end.
Definition graded (lo hi : R) (n : nat) (q : R) (i : nat) : R := lo + (hi - lo) * (powers q i / powers q n).
(** A quarter turn to the left, k times. *)
Definition quarter (p : point) : point := (- p.2, p.1).
Definition turned (k : nat) (P : nat -> nat -> point) (i j : nat) : point := Nat.iter k quarter (P i j).

Section positions.
  Context (g : cyl_geometry).
  (** j-th direction of the circle divided into n_circumf equal parts. *)
  Definition dir (j : nat) : R := 2 * PI * INR j / INR (n_circumf g).
  Definition half_pt (i j : nat) : point :=
    let r := graded (r_inner g) (r_outer g) (n_radial g) (q_radial g) i in (r * cos (dir j), r * sin (dir j)).
  (** From the outer circle (directions -45 to 45 degrees) to the line x = L, keeping y. *)
  Definition wake_pt (L : R) (n : nat) (q : R) (i j : nat) : point :=
    let a := dir j - PI / 4 in let x0 := r_outer g * cos a in
    (graded x0 L n q i, r_outer g * sin a).
  (** The rectangle from the point of the outer circle at 45 degrees to (Lx, Ly). *)
  Definition corner_pt (Lx : R) (nx : nat) (qx : R) (Ly : R) (ny : nat) (qy : R) (i j : nat) : point :=
    (graded (r_outer g * cos (PI / 4)) Lx nx qx i, graded (r_outer g * sin (PI / 4)) Ly ny qy j).
End positions.

(** A part: ids of domain and sides, numbers of elements in both directions, positions. *)
Record part := mk_part { p_ids : square_ids; p_ex : nat; p_ey : nat; p_pt : nat -> nat -> point }.
Definition layout (g : cyl_geometry) (ids : cyl_ids) : list part :=
  let d := ci_domain ids in let m := (n_circumf g / 4)%nat in
  let R := ci_right ids in let T := ci_top ids in let L := ci_left ids in let B := ci_bottom ids in
  let half := mk_part (mk_sq d 1 2 (ci_cylinder ids) 4) (n_radial g) (n_circumf g / 2) in
  let wake id n := mk_part (mk_sq d 1 2 3 id) n m in
  let corner rid tid nx ny := mk_part (mk_sq d 1 tid 3 rid) nx ny in
  [half (half_pt g); half (turned 2 (half_pt g));
   wake R (n_right g) (wake_pt g (right_offset g) (n_right g) (q_right g));
   wake L (n_left g) (turned 2 (wake_pt g (left_offset g) (n_left g) (q_left g)));
   wake B (n_bottom g) (turned 3 (wake_pt g (bottom_offset g) (n_bottom g) (q_bottom g)));
   wake T (n_top g) (turned 1 (wake_pt g (top_offset g) (n_top g) (q_top g)));
   corner R T (n_right g) (n_top g) (corner_pt g (right_offset g) (n_right g) (q_right g) (top_offset g) (n_top g) (q_top g));
   corner T L (n_top g) (n_left g) (turned 1 (corner_pt g (top_offset g) (n_top g) (q_top g) (left_offset g) (n_left g) (q_left g)));
   corner L B (n_left g) (n_bottom g) (turned 2 (corner_pt g (left_offset g) (n_left g) (q_left g) (bottom_offset g) (n_bottom g) (q_bottom g)));
   corner B R (n_bottom g) (n_right g) (turned 3 (corner_pt g (bottom_offset g) (n_bottom g) (q_bottom g) (right_offset g) (n_right g) (q_right g)))].

(** [x] is the grid mesh of part [p]: node (ex + 1) j + i is at p_pt i j; one quadrilateral
    per cell; one edge per boundary cell side, in the domain of the side. *)
Definition at_node (p : part) (n : nat) (v : pt3) : Prop := v = (p_pt p (n mod (p_ex p + 1)) (n / (p_ex p + 1)), 0).
Record is_part (x : mesh pt3) (p : part) : Prop := {
  ip_whole : whole_mesh x ((p_ex p + 1) * (p_ey p + 1)) (p_ex p * p_ey p + 2 * p_ex p + 2 * p_ey p);
  ip_place : forall e, is_elem (m_domains x) e -> Forall2 (at_node p) (el_nodes e) (el_verts e);
  ip_cells : forall e, in_domain (m_domains x) (sq_domain (p_ids p)) e -> el_type e = Quad /\
    exists i j, (i < p_ex p)%nat /\ (j < p_ey p)%nat /\ el_nodes e = cell2 (p_ex p + 1) i j;
  ip_all : forall i j, (i < p_ex p)%nat -> (j < p_ey p)%nat -> exists e, in_domain (m_domains x) (sq_domain (p_ids p)) e /\ el_nodes e = cell2 (p_ex p + 1) i j;
  ip_side : forall d b, d <> sq_domain (p_ids p) -> in_domain (m_domains x) d b -> el_type b = Line /\
    ((d = sq_bottom (p_ids p) /\ forall n, n ∈ el_nodes b -> n / (p_ex p + 1) = 0)%nat \/ (d = sq_top (p_ids p) /\ forall n, n ∈ el_nodes b -> n / (p_ex p + 1) = p_ey p)%nat \/
     (d = sq_left (p_ids p) /\ forall n, n ∈ el_nodes b -> n mod (p_ex p + 1) = 0)%nat \/ (d = sq_right (p_ids p) /\ forall n, n ∈ el_nodes b -> n mod (p_ex p + 1) = p_ex p)%nat);
  ip_x : forall i, (i < p_ex p)%nat -> (exists b, in_domain (m_domains x) (sq_bottom (p_ids p)) b /\ el_nodes b = [i; i + 1]%nat) /\
    exists b, in_domain (m_domains x) (sq_top (p_ids p)) b /\ el_nodes b = [(p_ex p + 1) * p_ey p + i; (p_ex p + 1) * p_ey p + (i + 1)]%nat;
  ip_y : forall j, (j < p_ey p)%nat -> (exists b, in_domain (m_domains x) (sq_left (p_ids p)) b /\ el_nodes b = [(p_ex p + 1) * j; (p_ex p + 1) * (j + 1)]%nat) /\
    exists b, in_domain (m_domains x) (sq_right (p_ids p)) b /\ el_nodes b = [(p_ex p + 1) * j + p_ex p; (p_ex p + 1) * (j + 1) + p_ex p]%nat;
  ip_bnds : forall d, d ∈ (m_bnds x).*1 <-> d ∈ [sq_bottom (p_ids p); sq_top (p_ids p); sq_left (p_ids p); sq_right (p_ids p)];
  ip_keys : forall d, d ∈ (m_domains x).*1 <-> d = sq_domain (p_ids p) \/ d ∈ (m_bnds x).*1 }.

(** a, b, c, d are the corners of a convex quadrilateral, counterclockwise. *)
Definition left_of (a b c : point) : Prop := 0 < (b.1 - a.1) * (c.2 - a.2) - (b.2 - a.2) * (c.1 - a.1).
Definition convex4 (a b c d : point) : Prop := left_of a b c /\ left_of b c d /\ left_of c d a /\ left_of d a b.
(** In the channel, not inside the cylinder. *)
Definition in_channel (g : cyl_geometry) (p : point) : Prop :=
  - left_offset g <= p.1 <= right_offset g /\ - bottom_offset g <= p.2 <= top_offset g.
Definition off_cylinder (g : cyl_geometry) (p : point) : Prop := r_inner g * r_inner g <= p.1 * p.1 + p.2 * p.2.
(** The corners of a cell, and the points of the sides of a part that have the id [d]. *)
Definition cell_verts (p : part) (i j : nat) : list pt3 := [(p_pt p i j, 0); (p_pt p (i + 1) j, 0); (p_pt p i (j + 1), 0); (p_pt p (i + 1) (j + 1), 0)].
Definition on_side_of (p : part) (d : nat) (vs : list pt3) : Prop :=
  (d = sq_bottom (p_ids p) /\ Forall (fun v => exists i, (i <= p_ex p)%nat /\ v = (p_pt p i 0, 0)) vs) \/
  (d = sq_top (p_ids p) /\ Forall (fun v => exists i, (i <= p_ex p)%nat /\ v = (p_pt p i (p_ey p), 0)) vs) \/
  (d = sq_left (p_ids p) /\ Forall (fun v => exists j, (j <= p_ey p)%nat /\ v = (p_pt p 0 j, 0)) vs) \/
  (d = sq_right (p_ids p) /\ Forall (fun v => exists j, (j <= p_ey p)%nat /\ v = (p_pt p (p_ex p) j, 0)) vs).
(** [loc n] is the position of node [n]. *)
Definition placed (x : mesh pt3) (loc : nat -> pt3) : Prop := forall e, is_elem (m_domains x) e -> Forall2 (fun n v => v = loc n) (el_nodes e) (el_verts e).
(** What is assumed of the matching of nodes: it pairs nodes at the same position. *)
Definition matches (match_nodes : mesh pt3 -> mesh pt3 -> res (dmap nat)) : Prop :=
  forall x1 x2 n1 k1 n2 k2 loc1 loc2, whole_mesh x1 n1 k1 -> whole_mesh x2 n2 k2 -> placed x1 loc1 -> placed x2 loc2 ->
    exists mm, match_nodes x1 x2 = Ok mm /\ matching mm n1 n2 /\ forall a b, (a, b) ∈ mm -> loc2 a = loc1 b.
