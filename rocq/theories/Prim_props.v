(** C24, C25. *)
From Verif Require Import Base StdAlgo Ownership_model Elem_model Elem_spec Mesh_model Mesh_spec Prim_model Prim_spec Build_proofs Prim_proofs Square_proofs Cube_proofs Prim2_proofs.

(** C24.  Boundaries may share an id, as in the meshes built of several squares; then each
    boundary element lies on one of the sides of that id. *)
Theorem square_mesh_repeated {C} (zero : C) (xs ys : list C) (ids : square_ids)
    (sched : list (element (C * C * C)) -> list (element (C * C * C))) (shuffle : list nat -> list nat) :
  2 <= length xs -> 2 <= length ys ->
  sq_domain ids ∉ [sq_bottom ids; sq_top ids; sq_left ids; sq_right ids] ->
  (forall l, sched l ≡ₚ l) -> (forall l, shuffle l ≡ₚ l) ->
  let nx := length xs in let ny := length ys in let ex := nx - 1 in let ey := ny - 1 in
  let bnds := [sq_bottom ids; sq_top ids; sq_left ids; sq_right ids] in
  exists x, makeSquareMesh zero sched shuffle xs ys ids = Ok x /\
    let m := m_domains x in
    valid_doms [1] m /\ ascending m /\
    (forall i, is_node m i <-> i < nx * ny) /\
    so_begin (m_own x) = 0 /\ so_end (m_own x) = nx * ny /\ so_shared (m_own x) = [] /\
    map el_id (all_elems m) ≡ₚ seq 0 (ex * ey + 2 * ex + 2 * ey) /\
    (forall e, is_elem m e -> Forall2 (at_point2 zero xs ys) (el_nodes e) (el_verts e)) /\
    (forall e, in_domain m (sq_domain ids) e ->
       el_type e = Quad /\ el_id e < ex * ey /\ exists ix iy, ix < ex /\ iy < ey /\ el_nodes e = cell2 nx ix iy) /\
    (forall ix iy, ix < ex -> iy < ey -> exists e, in_domain m (sq_domain ids) e /\ el_nodes e = cell2 nx ix iy) /\
    (forall d b, d ∈ bnds -> in_domain m d b ->
       (d = sq_bottom ids /\ forall n, n ∈ el_nodes b -> n / nx = 0) \/ (d = sq_top ids /\ forall n, n ∈ el_nodes b -> n / nx = ey) \/
       (d = sq_left ids /\ forall n, n ∈ el_nodes b -> n `mod` nx = 0) \/ (d = sq_right ids /\ forall n, n ∈ el_nodes b -> n `mod` nx = ex)) /\
    (forall i, i < ex -> (exists b, in_domain m (sq_bottom ids) b /\ el_nodes b = [i; i + 1]) /\
       exists b, in_domain m (sq_top ids) b /\ el_nodes b = [nx * ey + i; nx * ey + (i + 1)]) /\
    (forall j, j < ey -> (exists b, in_domain m (sq_left ids) b /\ el_nodes b = [nx * j; nx * (j + 1)]) /\
       exists b, in_domain m (sq_right ids) b /\ el_nodes b = [nx * j + ex; nx * (j + 1) + ex]) /\
    (forall id, id ∈ (m_bnds x).*1 <-> id ∈ bnds) /\ (forall id, id ∈ m.*1 <-> id ∈ sq_domain ids :: bnds) /\
    conforming m (sq_domain ids) bnds /\ boundary_attached m (sq_domain ids) bnds.
Proof.
  intros H1 H2 H3 H4 H5. cbv zeta. destruct (square_ok zero xs ys ids H1 H2 H3 sched shuffle H4 H5) as (x & Hx & A1 & A2 & A3 & A4 & A5 & A6 & A7 & A8 & A9 & A10 & A11 & A12 & A13). cbv zeta in *.
  exists x. do 12 (split; [done|]). split; [|split; [|done]].
  - intros i Hi. split.
    + destruct (A12 (HE i 0)) as (b & Hb & E); [cbn; lia|]. exists b. split; [done|]. rewrite E. unfold enodes, sN. cbn [ends fst snd]. f_equal; [lia|f_equal; lia].
    + destruct (A12 (HE i (length ys - 1))) as (b & Hb & E); [cbn; lia|]. exists b. cbn [edom] in Hb. destruct (Nat.eqb_spec (length ys - 1) 0); [lia|]. done.
  - intros j Hj. split.
    + destruct (A12 (VE 0 j)) as (b & Hb & E); [cbn; lia|]. exists b. split; [done|]. rewrite E. unfold enodes, sN. cbn [ends fst snd]. f_equal; [lia|f_equal; lia].
    + destruct (A12 (VE (length xs - 1) j)) as (b & Hb & E); [cbn; lia|]. exists b. cbn [edom] in Hb. destruct (Nat.eqb_spec (length xs - 1) 0); [lia|]. done.
Qed.
Print Assumptions square_mesh_repeated.
(** C24.  A square mesh with at least two grid lines in each direction: its
    nodes are exactly 0 .. nx*ny-1, all owned; element ids are 0 .. n-1 and
    ascend in every vector; every vertex is the grid point of its node; there is
    one quadrilateral per grid cell, numbered before the edges; the four
    boundaries lie on their grid lines; and every quadrilateral side is either
    shared by exactly two quadrilaterals or is exactly one boundary edge, each
    boundary edge being the side of exactly one quadrilateral. *)
Theorem square_mesh_valid {C} (zero : C) (xs ys : list C) (ids : square_ids)
    (sched : list (element (C * C * C)) -> list (element (C * C * C))) (shuffle : list nat -> list nat) :
  2 <= length xs -> 2 <= length ys ->
  NoDup [sq_domain ids; sq_bottom ids; sq_top ids; sq_left ids; sq_right ids] ->
  (forall l, sched l ≡ₚ l) -> (forall l, shuffle l ≡ₚ l) ->
  let nx := length xs in let ny := length ys in let ex := nx - 1 in let ey := ny - 1 in
  let bnds := [sq_bottom ids; sq_top ids; sq_left ids; sq_right ids] in
  exists x, makeSquareMesh zero sched shuffle xs ys ids = Ok x /\
    let m := m_domains x in
    valid_doms [1] m /\ ascending m /\
    (forall i, is_node m i <-> i < nx * ny) /\
    so_begin (m_own x) = 0 /\ so_end (m_own x) = nx * ny /\ so_shared (m_own x) = [] /\
    map el_id (all_elems m) ≡ₚ seq 0 (ex * ey + 2 * ex + 2 * ey) /\
    (forall e, is_elem m e -> Forall2 (at_point2 zero xs ys) (el_nodes e) (el_verts e)) /\
    (forall e, in_domain m (sq_domain ids) e ->
       el_type e = Quad /\ el_id e < ex * ey /\ exists ix iy, ix < ex /\ iy < ey /\ el_nodes e = cell2 nx ix iy) /\
    (forall ix iy, ix < ex -> iy < ey -> exists e, in_domain m (sq_domain ids) e /\ el_nodes e = cell2 nx ix iy) /\
    (forall b n, n ∈ el_nodes b ->
       (in_domain m (sq_bottom ids) b -> n / nx = 0) /\ (in_domain m (sq_top ids) b -> n / nx = ey) /\
       (in_domain m (sq_left ids) b -> n `mod` nx = 0) /\ (in_domain m (sq_right ids) b -> n `mod` nx = ex)) /\
    (forall id, id ∈ (m_bnds x).*1 <-> id ∈ bnds) /\ (forall id, id ∈ m.*1 <-> id ∈ sq_domain ids :: bnds) /\
    conforming m (sq_domain ids) bnds /\ boundary_attached m (sq_domain ids) bnds.
Proof.
  intros H1 H2 H3 H4 H5. cbv zeta. destruct (square_mesh_repeated zero xs ys ids sched shuffle H1 H2) as (x & Hx & A1 & A2 & A3 & A4 & A5 & A6 & A7 & A8 & A9 & A10 & A11 & _ & _ & A14 & A15 & A16 & A17); [by apply NoDup_cons in H3 as [? _]|done|done|]. cbv zeta in *.
  exists x. do 11 (split; [done|]). split; [|exact (conj A14 (conj A15 (conj A16 A17)))]. intros b n Hn.
  assert (Hd : sq_bottom ids <> sq_top ids /\ sq_bottom ids <> sq_left ids /\ sq_bottom ids <> sq_right ids /\ sq_top ids <> sq_left ids /\ sq_top ids <> sq_right ids /\ sq_left ids <> sq_right ids).
  { apply NoDup_cons in H3 as [_ Hn2]. apply NoDup_cons in Hn2 as [Ha Hn2]. apply NoDup_cons in Hn2 as [Hb' Hn2]. apply NoDup_cons in Hn2 as [Hc _].
    rewrite !elem_of_cons in Ha. rewrite !elem_of_cons in Hb'. rewrite !elem_of_cons in Hc. repeat split; intros E; tauto. }
  destruct Hd as (D1 & D2 & D3 & D4 & D5 & D6).
  split; [|split; [|split]]; intros Hb.
  - destruct (A11 (sq_bottom ids) b) as [[E Hc]|[[E Hc]|[[E Hc]|[E Hc]]]]; [rewrite !elem_of_cons; tauto|done|..]; solve [by apply Hc|congruence].
  - destruct (A11 (sq_top ids) b) as [[E Hc]|[[E Hc]|[[E Hc]|[E Hc]]]]; [rewrite !elem_of_cons; tauto|done|..]; solve [by apply Hc|congruence].
  - destruct (A11 (sq_left ids) b) as [[E Hc]|[[E Hc]|[[E Hc]|[E Hc]]]]; [rewrite !elem_of_cons; tauto|done|..]; solve [by apply Hc|congruence].
  - destruct (A11 (sq_right ids) b) as [[E Hc]|[[E Hc]|[[E Hc]|[E Hc]]]]; [rewrite !elem_of_cons; tauto|done|..]; solve [by apply Hc|congruence].
Qed.
Print Assumptions square_mesh_valid.
(** C24.  With fewer grid lines in a direction the function throws. *)
Theorem square_mesh_too_small {C} (zero : C) (xs ys : list C) (ids : square_ids)
    (sched : list (element (C * C * C)) -> list (element (C * C * C))) (shuffle : list nat -> list nat) :
  (forall l, sched l ≡ₚ l) -> (forall l, shuffle l ≡ₚ l) -> length xs < 2 \/ length ys < 2 ->
  makeSquareMesh zero sched shuffle xs ys ids = Throw.
Proof. intros H1 H2 H3. by apply square_flat. Qed.
Print Assumptions square_mesh_too_small.
(** C24.  A line mesh: segment k joins nodes k and k+1 and has id k. *)
Theorem line_mesh_valid {C} (zero : C) (xs : list C) (dom : nat)
    (sched : list (element (C * C * C)) -> list (element (C * C * C))) (shuffle : list nat -> list nat) :
  (forall l, sched l ≡ₚ l) -> (forall l, shuffle l ≡ₚ l) -> length xs <> 0 ->
  exists x, makeLineMesh zero sched shuffle xs dom = Ok x /\
    valid_doms [1] (m_domains x) /\ ascending (m_domains x) /\ (m_domains x).*1 = [dom] /\
    (forall e, in_domain (m_domains x) dom e <-> exists k x0 x1, xs !! k = Some x0 /\ xs !! (k + 1) = Some x1 /\
       e = mk_el Line 1 [k; k + 1] [(x0, zero, zero); (x1, zero, zero)] k) /\
    map el_id (all_elems (m_domains x)) ≡ₚ seq 0 (length xs - 1) /\
    so_begin (m_own x) = 0 /\ so_end (m_own x) = length xs /\ so_shared (m_own x) = [] /\ m_bnds x = [].
Proof. intros H1 H2 H3. by apply line_ok. Qed.
Print Assumptions line_mesh_valid.

(** C25.  The same for a cube mesh. *)
Theorem cube_mesh_valid {C} (xs ys zs : list C) (ids : cube_ids)
    (sched : list (element (C * C * C)) -> list (element (C * C * C))) (shuffle : list nat -> list nat) :
  2 <= length xs -> 2 <= length ys -> 2 <= length zs ->
  NoDup [cu_domain ids; cu_back ids; cu_front ids; cu_bottom ids; cu_top ids; cu_left ids; cu_right ids] ->
  (forall l, sched l ≡ₚ l) -> (forall l, shuffle l ≡ₚ l) ->
  let nx := length xs in let ny := length ys in let nz := length zs in
  let ex := nx - 1 in let ey := ny - 1 in let ez := nz - 1 in
  let bnds := [cu_back ids; cu_front ids; cu_bottom ids; cu_top ids; cu_left ids; cu_right ids] in
  exists x, makeCubeMesh sched shuffle xs ys zs ids = Ok x /\
    let m := m_domains x in
    valid_doms [1] m /\ ascending m /\
    (forall i, is_node m i <-> i < nx * ny * nz) /\
    so_begin (m_own x) = 0 /\ so_end (m_own x) = nx * ny * nz /\ so_shared (m_own x) = [] /\
    map el_id (all_elems m) ≡ₚ seq 0 (ex * ey * ez + 2 * ex * ey + 2 * ex * ez + 2 * ey * ez) /\
    (forall e, is_elem m e -> Forall2 (at_point3 xs ys zs) (el_nodes e) (el_verts e)) /\
    (forall e, in_domain m (cu_domain ids) e ->
       el_type e = Hex /\ el_id e < ex * ey * ez /\
       exists ix iy iz, ix < ex /\ iy < ey /\ iz < ez /\ el_nodes e = cell3 nx ny ix iy iz) /\
    (forall ix iy iz, ix < ex -> iy < ey -> iz < ez ->
       exists e, in_domain m (cu_domain ids) e /\ el_nodes e = cell3 nx ny ix iy iz) /\
    (forall b n, n ∈ el_nodes b ->
       (in_domain m (cu_back ids) b -> n / (nx * ny) = 0) /\ (in_domain m (cu_front ids) b -> n / (nx * ny) = ez) /\
       (in_domain m (cu_bottom ids) b -> (n / nx) `mod` ny = 0) /\ (in_domain m (cu_top ids) b -> (n / nx) `mod` ny = ey) /\
       (in_domain m (cu_left ids) b -> n `mod` nx = 0) /\ (in_domain m (cu_right ids) b -> n `mod` nx = ex)) /\
    (forall id, id ∈ (m_bnds x).*1 <-> id ∈ bnds) /\ (forall id, id ∈ m.*1 <-> id ∈ cu_domain ids :: bnds) /\
    conforming m (cu_domain ids) bnds /\ boundary_attached m (cu_domain ids) bnds.
Proof.
  intros H1 H2 H3 H4 H5 H6. destruct xs as [|z0 xs]; [cbn in H1; lia|].
  exact (cube_ok z0 (z0 :: xs) ys zs ids H1 H2 H3 H4 sched shuffle H5 H6).
Qed.
Print Assumptions cube_mesh_valid.
(** C25.  A single grid line in some direction makes the function throw. *)
Theorem cube_mesh_too_small {C} (xs ys zs : list C) (ids : cube_ids)
    (sched : list (element (C * C * C)) -> list (element (C * C * C))) (shuffle : list nat -> list nat) :
  (forall l, sched l ≡ₚ l) -> (forall l, shuffle l ≡ₚ l) -> xs <> [] -> ys <> [] -> zs <> [] ->
  length xs = 1 \/ length ys = 1 \/ length zs = 1 ->
  makeCubeMesh sched shuffle xs ys zs ids = Throw.
Proof. intros H1 H2 H3 H4 H5 H6. apply cube_flat; try done; [by destruct xs|by destruct ys|by destruct zs|lia]. Qed.
Print Assumptions cube_mesh_too_small.

(** A 2 x 1 grid, with the schedule and the hash order reversed; a 1 x 1 x 1 cube. *)
Definition ex_sq_mesh := makeSquareMesh 0 (@rev _) (@rev nat) [10; 20; 40] [1; 5] (mk_sq 7 1 2 3 4).
Example square_mesh_example : NoDup [7; 1; 2; 3; 4] /\ exists x, ex_sq_mesh = Ok x /\
  in_domain (m_domains x) 7 (mk_el Quad 1 [1; 2; 4; 5] [(20, 1, 0); (40, 1, 0); (20, 5, 0); (40, 5, 0)] 1) /\
  dm_find 2 (m_bnds x) = Some [(mk_el Quad 1 [1; 2; 4; 5] [(20, 1, 0); (40, 1, 0); (20, 5, 0); (40, 5, 0)] 1, 1);
                               (mk_el Quad 1 [0; 1; 3; 4] [(10, 1, 0); (20, 1, 0); (10, 5, 0); (20, 5, 0)] 0, 1)] /\
  side_nodes (mk_el Quad 1 [1; 2; 4; 5] [(20, 1, 0); (40, 1, 0); (20, 5, 0); (40, 5, 0)] 1) 2 [1; 4] /\
  so_end (m_own x) = 6.
Proof.
  split; [apply (bool_decide_unpack _); by vm_compute|]. eexists. split; [vm_compute; reflexivity|].
  split; [|split; [|split; [|done]]].
  - eexists _, _. split; [do 4 right; left|]. split; [right; left|right; left].
  - vm_compute. reflexivity.
  - split; [cbn; lia|]. exists [0; 2]. split; [apply (bool_decide_unpack _); by vm_compute|].
    split; [|repeat constructor]. intros i. rewrite !elem_of_cons, elem_of_nil. unfold on_side, grid_x. cbn [el_type el_order nodes_per_element].
    destruct i as [|[|[|[|i]]]]; cbn; [intuition lia..|]. split; [lia|]. intros [? _]. lia.
Qed.
Definition ex_cu_mesh := makeCubeMesh (@rev _) (@rev nat) [10; 20] [1; 5] [0; 3] (mk_cu 0 1 2 3 4 5 6).
Example cube_mesh_example : exists x, ex_cu_mesh = Ok x /\
  in_domain (m_domains x) 0 (mk_el Hex 1 [0; 1; 2; 3; 4; 5; 6; 7] [(10, 1, 0); (20, 1, 0); (10, 5, 0); (20, 5, 0); (10, 1, 3); (20, 1, 3); (10, 5, 3); (20, 5, 3)] 0) /\
  in_domain (m_domains x) 4 (mk_el Quad 1 [2; 3; 6; 7] [(10, 5, 0); (20, 5, 0); (10, 5, 3); (20, 5, 3)] 4) /\ so_end (m_own x) = 8.
Proof.
  eexists. split; [vm_compute; reflexivity|]. split; [|split; [|done]]; eexists _, _.
  - split; [left|]. split; left.
  - split; [do 4 right; left|]. split; [right; left|left].
Qed.
