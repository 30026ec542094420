(** C81: the mesh of a channel with a cylinder. *)
From Coq Require Import Reals Lra.
From Verif Require Import Base StdAlgo Ownership_model Elem_model Mesh_model Mesh_spec Prim_model Prim_spec Merge_model Merge_spec Poly_model Cyl_model Cyl_spec Cyl_proofs Cyl2_proofs Cyl3_proofs Cyl4_proofs Cyl5_proofs.
Local Open Scope nat_scope.

(** C81.  With a geometry that is accepted, a positive outer radius, and a domain id other
    than the boundary ids and the ids 1, 2, 3, 4 used inside, the ten parts are made.  Each is
    a grid of quadrilaterals with its boundary edges, and its nodes are at the positions of
    [layout]. *)
Theorem cylinder_parts_made sched shuffle g ids : (forall l, sched l ≡ₚ l) -> (forall l, shuffle l ≡ₚ l) ->
  correct g = true -> (0 < r_outer g)%R ->
  ci_domain ids ∉ [1; 2; 3; 4; ci_bottom ids; ci_top ids; ci_left ids; ci_right ids; ci_cylinder ids] ->
  exists x l, make_parts sched shuffle g ids = Ok (x, l) /\ Forall2 is_part (x :: l) (layout g ids).
Proof. intros Hs Hsh G Hr Hd. apply parts_made; [done|done|by apply correct_iff|done|done]. Qed.
Print Assumptions cylinder_parts_made.

(** C81.  Parts that are neighbours have the same nodes on their common sides: the two halves
    of the ring; the ring and the four parts around it; each of these and the two corners
    beside it. *)
Theorem cylinder_sides_fit g : correct g = true ->
  let n := n_circumf g in let r := n_radial g in
  let top := half_pt g in let bot := turned 2 (half_pt g) in
  let rw := wake_pt g (right_offset g) (n_right g) (q_right g) in let lw := turned 2 (wake_pt g (left_offset g) (n_left g) (q_left g)) in
  let bw := turned 3 (wake_pt g (bottom_offset g) (n_bottom g) (q_bottom g)) in let tw := turned 1 (wake_pt g (top_offset g) (n_top g) (q_top g)) in
  let tr := corner_pt g (right_offset g) (n_right g) (q_right g) (top_offset g) (n_top g) (q_top g) in
  let tl := turned 1 (corner_pt g (top_offset g) (n_top g) (q_top g) (left_offset g) (n_left g) (q_left g)) in
  let bl := turned 2 (corner_pt g (left_offset g) (n_left g) (q_left g) (bottom_offset g) (n_bottom g) (q_bottom g)) in
  let br := turned 3 (corner_pt g (bottom_offset g) (n_bottom g) (q_bottom g) (right_offset g) (n_right g) (q_right g)) in
  (forall i, bot i 0 = top i (n / 2) /\ bot i (n / 2) = top i 0) /\
  (forall j, rw 0 (n / 8 + j) = top r j /\ rw 0 j = bot r (3 * (n / 8) + j)) /\
  (forall j, tw 0 j = top r (n / 8 + j)) /\
  (forall j, lw 0 j = top r (3 * (n / 8) + j) /\ lw 0 (n / 8 + j) = bot r j) /\
  (forall j, bw 0 j = bot r (n / 8 + j)) /\
  (forall i, tr i 0 = rw i (n / 4) /\ tr 0 i = tw i 0) /\ (forall i, tl i 0 = tw i (n / 4) /\ tl 0 i = lw i 0) /\
  (forall i, bl i 0 = lw i (n / 4) /\ bl 0 i = bw i 0) /\ (forall i, br i 0 = bw i (n / 4) /\ br 0 i = rw i 0).
Proof.
  intros G%correct_iff. destruct G as [_ _ _ _ _ (m & Hm & Em) Hn _ _ _ _ Hq _ _ _ _]. cbv zeta. rewrite Em, quarter_of_8.
  assert (E8 : 8 * m / 8 = m) by (rewrite Nat.mul_comm; by apply Nat.div_mul). assert (E2 : 8 * m / 2 = 4 * m) by (replace (8 * m) with (4 * m * 2) by lia; by apply Nat.div_mul). rewrite E8, E2. clear E8 E2.
  assert (D : forall k j, dir g (k * m + j) = (INR k * (PI / 4) + dir g j)%R) by (intros k j; by rewrite (dir_plus g m Hm Em), (dir_mul g m Hm Em)).
  assert (D0 : dir g 0 = 0%R) by (rewrite (dir_m g m Hm Em); cbn [INR]; lra).
  assert (Hol : forall j, half_pt g (n_radial g) j = pol (r_outer g) (dir g j)) by (intros; by apply half_outer).
  assert (D1 : forall j, dir g (m + j) = (PI / 4 + dir g j)%R). { intros j. pose proof (D 1 j) as H. rewrite Nat.mul_1_l in H. rewrite H. cbn [INR]. lra. }
  assert (Q3 : forall p, quarter (quarter (quarter (quarter p))) = p). { intros [a b]. unfold quarter. cbn [fst snd]. f_equal; lra. }
  repeat split; intros; rewrite ?turned_1, ?turned_2, ?turned_3, ?wake_outer, ?Hol, ?half_pol, ?D1, ?D, ?quarter_pol.
  - pose proof (D 4 0) as H. rewrite Nat.add_0_r in H. rewrite H, D0. f_equal. cbn [INR]. lra.
  - pose proof (D 4 0) as H. rewrite Nat.add_0_r in H. rewrite H, D0. replace (INR 4 * (PI / 4) + 0 + PI / 2 + PI / 2)%R with (0 + 2 * PI)%R by (cbn [INR]; lra). by rewrite pol_2pi.
  - f_equal. lra.
  - rewrite <- pol_2pi. f_equal. cbn [INR]. lra.
  - f_equal. lra.
  - f_equal. cbn [INR]. lra.
  - f_equal. lra.
  - f_equal. lra.
  - by apply corner_bottom.
  - by apply (corner_left g m).
  - by rewrite (corner_bottom g m).
  - by rewrite (corner_left g m).
  - by rewrite (corner_bottom g m).
  - by rewrite (corner_left g m).
  - by rewrite (corner_bottom g m).
  - by rewrite (corner_left g m), Q3.
Qed.
Print Assumptions cylinder_sides_fit.

(** C81.  The outer sides lie on the walls of the channel and the inner sides of the ring on
    the circle. *)
Theorem cylinder_walls g i j : correct g = true ->
  let rw := wake_pt g (right_offset g) (n_right g) (q_right g) in let lw := turned 2 (wake_pt g (left_offset g) (n_left g) (q_left g)) in
  let bw := turned 3 (wake_pt g (bottom_offset g) (n_bottom g) (q_bottom g)) in let tw := turned 1 (wake_pt g (top_offset g) (n_top g) (q_top g)) in
  let tr := corner_pt g (right_offset g) (n_right g) (q_right g) (top_offset g) (n_top g) (q_top g) in
  let tl := turned 1 (corner_pt g (top_offset g) (n_top g) (q_top g) (left_offset g) (n_left g) (q_left g)) in
  let bl := turned 2 (corner_pt g (left_offset g) (n_left g) (q_left g) (bottom_offset g) (n_bottom g) (q_bottom g)) in
  let br := turned 3 (corner_pt g (bottom_offset g) (n_bottom g) (q_bottom g) (right_offset g) (n_right g) (q_right g)) in
  ((rw (n_right g) j).1 = right_offset g /\ (tr (n_right g) j).1 = right_offset g /\ (br i (n_right g)).1 = right_offset g /\
   (lw (n_left g) j).1 = - left_offset g /\ (tl i (n_left g)).1 = - left_offset g /\ (bl (n_left g) j).1 = - left_offset g /\
   (tw (n_top g) j).2 = top_offset g /\ (tr i (n_top g)).2 = top_offset g /\ (tl (n_top g) j).2 = top_offset g /\
   (bw (n_bottom g) j).2 = - bottom_offset g /\ (bl i (n_bottom g)).2 = - bottom_offset g /\ (br (n_bottom g) j).2 = - bottom_offset g /\
   (let p := half_pt g 0 j in p.1 * p.1 + p.2 * p.2 = r_inner g * r_inner g) /\ (let p := turned 2 (half_pt g) 0 j in p.1 * p.1 + p.2 * p.2 = r_inner g * r_inner g))%R.
Proof.
  intros G%correct_iff. destruct G as [_ _ _ _ _ _ N1 N2 N3 N4 N5 Q1 Q2 Q3 Q4 Q5]. cbv zeta. rewrite ?turned_1, ?turned_2, ?turned_3. unfold quarter, wake_pt, corner_pt, half_pt. cbv zeta. cbn [fst snd]. rewrite !graded_frac, !frac_n, frac_0 by done.
  pose proof (sin2_cos2 (dir g j)) as E. unfold Rsqr in E. set (s := sin (dir g j)) in *. set (c := cos (dir g j)) in *.
  assert (E2 : ((r_inner g + (r_outer g - r_inner g) * 0) * c * ((r_inner g + (r_outer g - r_inner g) * 0) * c) + (r_inner g + (r_outer g - r_inner g) * 0) * s * ((r_inner g + (r_outer g - r_inner g) * 0) * s) = r_inner g * r_inner g)%R).
  { transitivity (r_inner g * r_inner g * (s * s + c * c))%R; [ring|]. rewrite E. ring. }
  repeat split; try lra.
Qed.
Print Assumptions cylinder_walls.

(** C81.  With a positive inner radius every cell of every part is a convex quadrilateral,
    counterclockwise, and every node is in the channel and not inside the cylinder. *)
Theorem cylinder_cells g ids : correct g = true -> (0 < r_inner g)%R -> forall p, p ∈ layout g ids ->
  (forall i j, i < p_ex p -> j < p_ey p -> convex4 (p_pt p i j) (p_pt p (i + 1) j) (p_pt p (i + 1) (j + 1)) (p_pt p i (j + 1))) /\
  (forall i j, i <= p_ex p -> j <= p_ey p -> in_channel g (p_pt p i j) /\ off_cylinder g (p_pt p i j)).
Proof.
  intros G%correct_iff Hr p Hp. pose proof (all_convex g ids G Hr) as H1. pose proof (all_inside g ids G Hr) as H2. rewrite Forall_forall in H1. rewrite Forall_forall in H2. split; [exact (H1 p Hp)|exact (H2 p Hp)].
Qed.
Print Assumptions cylinder_cells.

(** C81, partial: that the edges between the parts are gone, and which nodes are matched, is
    not part of the claim; the matching is only assumed to pair nodes at the same position.
    The mesh is made; every node has one position; its quadrilaterals are the cells of the
    parts; its edges lie on the sides of parts that have their id. *)
Theorem cylinder_mesh_partial sched shuffle match_nodes g ids : (forall l, sched l ≡ₚ l) -> (forall l, shuffle l ≡ₚ l) -> matches match_nodes ->
  correct g = true -> (0 < r_outer g)%R ->
  ci_domain ids ∉ [1; 2; 3; 4; ci_bottom ids; ci_top ids; ci_left ids; ci_right ids; ci_cylinder ids] ->
  exists y n k loc, makeCylinderInChannel2DMesh sched shuffle match_nodes g ids = Ok y /\ whole_mesh y n k /\ placed y loc /\
    (forall e, in_domain (m_domains y) (ci_domain ids) e -> el_type e = Quad /\
       exists p i j, p ∈ layout g ids /\ i < p_ex p /\ j < p_ey p /\ el_verts e = cell_verts p i j) /\
    (forall p i j, p ∈ layout g ids -> i < p_ex p -> j < p_ey p -> exists e, in_domain (m_domains y) (ci_domain ids) e /\ el_verts e = cell_verts p i j) /\
    (forall d e, d <> ci_domain ids -> in_domain (m_domains y) d e -> el_type e = Line /\ d ∈ (m_bnds y).*1 /\ exists p, p ∈ layout g ids /\ on_side_of p d (el_verts e)) /\
    ci_domain ids ∉ (m_bnds y).*1.
Proof.
  intros Hs Hsh Hmf G%correct_iff Hr Hd. destruct (mesh_made sched shuffle Hs Hsh match_nodes Hmf g ids G Hr Hd) as (y & xs & Hy & HF & [(n & k & W) (loc & L) D K Q E F T]).
  pose proof (layout_ids g ids Hd) as HL. rewrite Forall_forall in HL. exists y, n, k, loc. split; [done|]. split; [done|]. split; [done|].
  assert (Hpx : forall x, x ∈ xs -> exists p, p ∈ layout g ids /\ is_part x p). { intros x Hx. apply elem_of_list_lookup in Hx as [a Ha]. destruct (Forall2_lookup_l _ _ _ _ _ HF Ha) as (p & Hp & Hip). exists p. split; [by eapply elem_of_list_lookup_2|done]. }
  assert (Hxp : forall p, p ∈ layout g ids -> exists x, x ∈ xs /\ is_part x p). { intros p Hp. apply elem_of_list_lookup in Hp as [a Ha]. destruct (Forall2_lookup_r _ _ _ _ _ HF Ha) as (x & Hx & Hip). exists x. split; [by eapply elem_of_list_lookup_2|done]. }
  split; [|split; [|split; [|done]]].
  - intros e He. split; [by apply Q|]. destruct (F _ _ He) as (x & e0 & Hx & He0 & _ & Ev). destruct (Hpx x Hx) as (p & Hp & Hip). destruct (HL p Hp) as [E1 _]. rewrite <- E1 in He0. destruct (ip_cells _ _ Hip e0 He0) as (_ & i & j & Hi & Hj & En).
    exists p, i, j. split; [done|]. split; [done|]. split; [done|]. rewrite Ev. eapply part_cell; eauto. by eexists.
  - intros p i j Hp Hi Hj. destruct (Hxp p Hp) as (x & Hx & Hip). destruct (HL p Hp) as [E1 _]. destruct (ip_all _ _ Hip i j Hi Hj) as (e0 & He0 & En). assert (Ev : el_verts e0 = cell_verts p i j) by (eapply part_cell; eauto; by eexists). rewrite E1 in He0. destruct (T x e0 Hx He0) as (e & He & _ & Ev'). exists e. split; [done|congruence].
  - intros d e Hne He. split; [by eapply E|]. split; [destruct (K d (Merge4_proofs.in_keys _ _ _ He)); done|]. destruct (F _ _ He) as (x & e0 & Hx & He0 & _ & Ev). destruct (Hpx x Hx) as (p & Hp & Hip). destruct (HL p Hp) as [E1 _]. exists p. split; [done|]. rewrite Ev. eapply part_sides; eauto. by rewrite E1.
Qed.
Print Assumptions cylinder_mesh_partial.

(** C81, refuted: correct() and distinct ids are not enough.  With domain id 1 the function
    throws, as 1 is the default id of a side of the squares. *)
Definition small : cyl_geometry := mk_cg 1 2 3 4 5 6 8 1 1 1 1 1 1 1 1 1 1.
Lemma small_correct : correct small = true.
Proof. apply correct_iff. split; cbn; try lra; try lia. exists 1. lia. Qed.
Lemma square_throws {C} (z : C) sched shuffle x0 x1 y0 y1 y2 y3 y4 : makeSquareMesh z sched shuffle [x0; x1] [y0; y1; y2; y3; y4] (mk_sq 1 1 2 6 4) = Throw.
Proof. vm_compute. reflexivity. Qed.
Theorem cylinder_ids_refuted : ~ (forall sched shuffle match_nodes g ids, (forall l, sched l ≡ₚ l) -> (forall l, shuffle l ≡ₚ l) -> correct g = true ->
  NoDup [ci_domain ids; ci_bottom ids; ci_top ids; ci_left ids; ci_right ids; ci_cylinder ids] -> makeCylinderInChannel2DMesh sched shuffle match_nodes g ids <> Throw).
Proof.
  intros H. apply (H (fun l => l) (fun l => l) (fun _ _ => Ok []) small (mk_ci 1 2 3 4 5 6)); [done|done|apply small_correct|apply (bool_decide_unpack _); by vm_compute|].
  unfold makeCylinderInChannel2DMesh. rewrite small_correct. change (throwing_assert true) with (Ok tt). rewrite bind_ok. unfold make_parts, make_half. cbn [small r_inner r_outer n_radial q_radial n_circumf ci_domain ci_cylinder].
  destruct (graded_ok 1 2 1 1) as (xs & -> & Lx & _); [lia|lra|]. rewrite bind_ok. change (8 / 2 + 1) with (4 + 1). destruct (linspace_nth 0 1 4) as (ys & -> & Ly & _); [lia|]. rewrite bind_ok.
  destruct xs as [|x0 [|x1 [|]]]; try discriminate. destruct ys as [|y0 [|y1 [|y2 [|y3 [|y4 [|]]]]]]; try discriminate. by rewrite square_throws.
Qed.
Print Assumptions cylinder_ids_refuted.

(** C81, refuted: correct() accepts an inner radius of 0, and then the cells at the centre are
    not convex quadrilaterals: two of their corners coincide. *)
Definition flat : cyl_geometry := mk_cg 0 2 3 4 5 6 8 1 1 1 1 1 1 1 1 1 1.
Theorem cylinder_radius_refuted : ~ (forall g, correct g = true -> forall i j, i < n_radial g -> j < n_circumf g / 2 ->
  convex4 (half_pt g i j) (half_pt g (i + 1) j) (half_pt g (i + 1) (j + 1)) (half_pt g i (j + 1))).
Proof.
  intros H. destruct (H flat) with (i := 0) (j := 0) as (_ & _ & _ & H4); [|cbn; lia|cbn; lia|].
  - apply correct_iff. split; cbn; try lra; try lia. exists 1. lia.
  - unfold left_of, half_pt in H4. cbv zeta in H4. cbn [fst snd] in H4. rewrite !graded_frac, !frac_0 in H4. cbn [flat r_inner] in H4. lra.
Qed.
Print Assumptions cylinder_radius_refuted.

(** The hypotheses hold for the small geometry with the default ids and a matching that pairs
    nothing. *)
Example cylinder_example : correct small = true /\ (0 < r_inner small)%R /\ 0 ∉ [1; 2; 3; 4; 1; 2; 3; 4; 5] /\ matches (fun _ _ => Ok []) /\
  half_pt small 1 0 = (2, 0)%R /\ p_ey (mk_part (mk_sq 0 1 2 3 4) 1 (n_circumf small / 4) (half_pt small)) = 2.
Proof.
  split; [apply small_correct|]. split; [cbn; lra|]. split; [apply (bool_decide_unpack _); by vm_compute|]. split; [|split; [|done]].
  - intros x1 x2 n1 k1 n2 k2 loc1 loc2 _ _ _ _. exists []. split; [done|]. split; [split; [constructor|]|]; intros a b H; by apply elem_of_nil in H.
  - rewrite half_pol. unfold pol, dir. cbn [small r_inner r_outer n_radial q_radial n_circumf INR]. rewrite graded_frac, frac_n by (lra || lia). replace (2 * PI * 0 / _)%R with 0%R by (unfold Rdiv; ring). rewrite cos_0, sin_0. f_equal; ring.
Qed.
