(** Property C68: the mapping of elements to physical space, in exact arithmetic. *)
From Coq Require Import Reals Lra.
From Verif Require Import Base StdAlgo Elem_model Elem_spec Elem_proofs Poly_model Poly_spec Poly_proofs Poly2_proofs Basis_model Basis_spec Basis_proofs Basis2_proofs
  Geom_model Geom_spec Geom_proofs Geom2_proofs.
Local Open Scope R_scope.

(** C68.  The mapping takes the corners of the reference element to the vertices. *)
Theorem mapping_at_vertices (t : etype) (V : list (list R)) (J : nat) (p : list R) : length V = nodes_per_element t 1 -> Forall (fun v => length v = 3%nat) V ->
  node_locations t [-1; 1] !! J = Some p -> exists v, V !! J = Some v /\ mapToPhysicalSpace t V p = Ok v.
Proof.
  intros HV H3 HJ. destruct absc1_ok as [H1 H2]. destruct (node_at absc1 H1 t J p HJ) as [HJn Hp]. assert (Hl : length p = native_dim t) by (rewrite Hp, take_length; destruct t; done).
  destruct (lookup_lt_is_Some_2 V J) as [v Hv]; [rewrite HV; exact HJn|]. exists v. split; [done|]. rewrite (map_ok t V HV H3 p Hl). unfold Xf. pose proof (Forall_lookup_1 _ _ _ _ H3 Hv) as Hv3. cbv beta in Hv3.
  assert (Hc : forall d, Xc t V d p = nth d v 0).
  { intros d. unfold Xc. rewrite (rsum_one _ _ J HJn); [rewrite (at_nodes absc1 H1 H2 t J J p HJn HJ), decide_True by done; rewrite (nth_lookup_Some _ _ [] _ Hv); lra|].
    intros k Hk Hne. rewrite (at_nodes absc1 H1 H2 t k J p Hk HJ), decide_False by done. lra. }
  rewrite !Hc. destruct v as [|a [|b [|c [|w v]]]]; try done.
Qed.
Print Assumptions mapping_at_vertices.
(** C68.  The Jacobi matrix is the derivative of the mapping: entry (d, s) is the
    derivative of coordinate s along axis d of the reference element. *)
Theorem jacobian_is_derivative (t : etype) (V : list (list R)) (p : list R) : length V = nodes_per_element t 1 -> Forall (fun v => length v = 3%nat) V -> length p = native_dim t ->
  exists X J, (forall q, length q = native_dim t -> mapToPhysicalSpace t V q = Ok (X q)) /\ jacobiMat t V p = Ok J /\ determinant (native_dim t) J = det (native_dim t) (ent J) /\
    forall d s, (d < native_dim t)%nat -> (s < native_dim t)%nat -> partial (fun q => nth s (X q) 0) d p (ent J d s).
Proof.
  intros HV H3 Hp. exists (Xf t V), (Jm t V p). split; [by apply map_ok|]. split; [by apply jac_ok|]. split; [apply det_ok, dim_13|].
  intros d s Hd Hs. destruct (X_der t V d s p Hd Hs Hp) as (x & Hx & He). exists x. split; [done|].
  apply (derivable_pt_lim_ext (fun r => Xc t V s (<[d := r]> p))); [|done]. intros r. unfold Xf. destruct t; cbn in Hs; destruct s as [|[|[|s]]]; try lia; done.
Qed.
Print Assumptions jacobian_is_derivative.
(** C68.  The physical derivatives of the basis functions give the gradient of every
    field that is a polynomial of at most the order in the reference variables: the
    nodal values weighted with them add up to its gradient. *)
Theorem physical_gradients (t : etype) (V : list (list R)) (absc p : list R) (X : list R -> list R) (J D : list (list R)) (u : list R -> R) (g : nat -> R) (j : nat) :
  length V = nodes_per_element t 1 -> Forall (fun v => length v = 3%nat) V -> (1 < length absc)%nat -> NoDup absc -> length p = native_dim t ->
  (forall q, length q = native_dim t -> exists x, mapToPhysicalSpace t V q = Ok x /\ take (native_dim t) x = X q) ->
  jacobiMat t V p = Ok J -> computeRefBasisDers t absc p = Ok D -> det (native_dim t) (ent J) <> 0 ->
  is_poly t (length absc) (fun q => u (X q)) -> gradient (native_dim t) u (X p) g -> (j < native_dim t)%nat ->
  rsum (n_basis_fun t absc) (fun I => u (X (nth I (node_locations t absc) [])) * ent (computePhysBasisDers (native_dim t) (n_basis_fun t absc) J D) j I) = g j.
Proof.
  intros HV H3 Hn Hnd Hp HX HJ HD Hdet Hu Hg Hj. rewrite (jac_ok t V HV H3 p Hp) in HJ. injection HJ as <-. rewrite (ders_ok t absc Hn Hnd p Hp) in HD. injection HD as <-.
  assert (HXf : forall q, length q = native_dim t -> X q = take (native_dim t) (Xf t V q)). { intros q Hq. destruct (HX q Hq) as (x & Hx & <-). rewrite (map_ok t V HV H3 q Hq) in Hx. by injection Hx as <-. }
  rewrite <- (det_ok _ _ (dim_13 t)) in Hdet. rewrite HXf in Hg by done.
  assert (Hu' : is_poly t (length absc) (fun q => u (take (native_dim t) (Xf t V q)))).
  { destruct t; cbn [is_poly] in *.
    - destruct Hu as (c & H1 & H2 & H4). exists c. split; [done|]. split; [done|]. intros x y z. rewrite <- H4. by rewrite <- HXf.
    - destruct Hu as (c & H1 & H2 & H4). exists c. split; [done|]. split; [done|]. intros x y. rewrite <- H4. by rewrite <- HXf.
    - destruct Hu as (c & H1 & H4). exists c. split; [done|]. intros x. rewrite <- H4. by rewrite <- HXf. }
  assert (Hlen : length (node_locations t absc) = n_basis_fun t absc) by (apply locations_length; lia).
  apply phys_grad; [done|done|]. intros k Hk. rewrite <- (ref_grad t V absc Hn Hnd u g k p Hu' Hk Hp Hg). apply rsum_ext. intros I HI. f_equal.
  destruct (lookup_lt_is_Some_2 (node_locations t absc) I) as [q Hq]; [lia|]. rewrite (nth_lookup_Some _ _ [] _ Hq). symmetry. apply nth_lookup_Some.
  rewrite (list_lookup_fmap (fun q => u (take (native_dim t) (Xf t V q)))), Hq. cbn. f_equal. rewrite HXf; [done|]. destruct (node_at absc Hn t I q Hq) as [_ ->]. rewrite take_length. destruct t; done.
Qed.
Print Assumptions physical_gradients.
(** In particular every affine field, on every element that is not degenerate, whatever
    its shape and order. *)
Lemma sum_linear n m (a : nat -> R) (f : nat -> nat -> R) (b : nat -> R) : rsum n (fun i => a i * rsum m (fun k => f k i * b k)) = rsum m (fun k => rsum n (fun i => a i * f k i) * b k).
Proof.
  rewrite (rsum_ext n _ (fun i => rsum m (fun k => a i * f k i * b k))) by (intros; rewrite <- rsum_scal; apply rsum_ext; intros; ring). rewrite rsum_swap2. apply rsum_ext. intros k _.
  rewrite (rsum_ext n _ (fun i => b k * (a i * f k i))) by (intros; ring). rewrite rsum_scal. ring.
Qed.
Lemma affine_gradient n (c : R) (g : nat -> R) x : gradient n (fun y => c + inner n g (fun i => nth i y 0)) x g.
Proof.
  intros eps He. exists 1. split; [lra|]. intros y Hy Hd. assert (H0 : 0 <= dist1 n x y) by (apply rsum_pos; intros; apply Rabs_pos).
  replace (c + _ - _ - _) with 0; [rewrite Rabs_R0; nra|]. unfold inner. rewrite (rsum_ext n (fun i => g i * (nth i y 0 - nth i x 0)) (fun i => g i * nth i y 0 + (-1) * (g i * nth i x 0))) by (intros; ring).
  rewrite (rsum_plus n (fun i => g i * nth i y 0) (fun i => (-1) * (g i * nth i x 0))), rsum_scal. ring.
Qed.
Theorem physical_gradients_affine (t : etype) (V : list (list R)) (absc p : list R) (X : list R -> list R) (J D : list (list R)) (c : R) (g : nat -> R) (j : nat) :
  length V = nodes_per_element t 1 -> Forall (fun v => length v = 3%nat) V -> (1 < length absc)%nat -> NoDup absc -> length p = native_dim t ->
  (forall q, length q = native_dim t -> mapToPhysicalSpace t V q = Ok (X q)) ->
  jacobiMat t V p = Ok J -> computeRefBasisDers t absc p = Ok D -> det (native_dim t) (ent J) <> 0 -> (j < native_dim t)%nat ->
  rsum (n_basis_fun t absc) (fun I => (c + inner (native_dim t) g (fun i => nth i (X (nth I (node_locations t absc) [])) 0))
    * ent (computePhysBasisDers (native_dim t) (n_basis_fun t absc) J D) j I) = g j.
Proof.
  intros HV H3 Hn Hnd Hp HX HJ HD Hdet Hj. set (n := native_dim t) in *. set (u := fun y => c + inner n g (fun i => nth i y 0)).
  assert (Hx : forall q i, (i < n)%nat -> nth i (take n (X q)) 0 = nth i (X q) 0). { intros q i Hi. pose proof (firstn_skipn n (X q)) as E. rewrite <- E at 2. destruct (decide (i < length (take n (X q)))%nat); [by rewrite app_nth1|]. rewrite nth_overflow by lia. symmetry. apply nth_overflow. rewrite E. rewrite take_length in *. lia. }
  rewrite <- (physical_gradients t V absc p (fun q => take n (X q)) J D u g j); try done.
  - apply rsum_ext. intros I HI. f_equal. unfold u. f_equal. apply rsum_ext. intros i Hi. cbv beta. by rewrite Hx.
  - intros q Hq. exists (X q). split; [by apply HX|done].
  - assert (Hu : forall q, length q = n -> u (take n (X q)) = rsum (nodes_per_element t 1) (fun k => (c + inner n g (fun i => nth i (nth k V []) 0)) * Bv t absc1 k 0 q)).
    { intros q Hq. pose proof (HX q Hq) as E. rewrite (map_ok t V HV H3 q Hq) in E. injection E as E. unfold u. destruct absc1_ok as [A1 A2].
      rewrite (rsum_ext (nodes_per_element t 1) _ (fun k => c * Bv t absc1 k 0 q + inner n g (fun i => nth i (nth k V []) 0) * Bv t absc1 k 0 q)) by (intros; ring).
      rewrite (rsum_plus _ (fun k => c * Bv t absc1 k 0 q) (fun k => inner n g (fun i => nth i (nth k V []) 0) * Bv t absc1 k 0 q)).
      assert (H1 : rsum (nodes_per_element t 1) (fun k => c * Bv t absc1 k 0 q) = c).
      { pose proof (value_poly absc1 A1 A2 t (fun _ => c) q) as Hv. rewrite valueAt_ok in Hv; [|done|done|rewrite map_length; apply locations_length; cbn; lia|done]. assert (Hc : is_poly t (length absc1) (fun _ => c)).
        { destruct t; cbn [is_poly]; [exists [[[c]]]|exists [[c]]|exists [c]]; (split; [cbn; lia|]); try (split; [repeat constructor; cbn; lia|]); intros; unfold poly3, poly2; cbn; ring. }
        specialize (Hv Hc Hq). injection Hv as Hv. rewrite n1_eq in Hv. etransitivity; [|exact Hv]. apply rsum_ext. intros k Hk. f_equal. symmetry.
        destruct (lookup_lt_is_Some_2 (node_locations t absc1) k) as [qq Hqq]; [rewrite (locations_length t 1) by done; done|]. apply nth_lookup_Some. by rewrite (list_lookup_fmap (fun _ => c)), Hqq. }
      rewrite H1. f_equal. unfold inner at 1. rewrite (rsum_ext n _ (fun i => g i * rsum (nodes_per_element t 1) (fun k => nth i (nth k V []) 0 * Bv t absc1 k 0 q))).
      - rewrite sum_linear. done.
      - intros i Hi. f_equal. rewrite Hx, <- E by done. unfold n in Hi. destruct t; cbn in Hi; destruct i as [|[|[|i]]]; try lia; done. }
    pose proof (affine_poly t (length absc) (fun k => c + inner n g (fun i => nth i (nth k V []) 0)) ltac:(lia)) as Ha. unfold n in *. clear - Ha Hu. destruct t; cbn [is_poly] in *.
    + destruct Ha as (cc & H1 & H2 & H4). exists cc. split; [done|]. split; [done|]. intros x y z. rewrite <- H4. by apply Hu.
    + destruct Ha as (cc & H1 & H2 & H4). exists cc. split; [done|]. split; [done|]. intros x y. rewrite <- H4. by apply Hu.
    + destruct Ha as (cc & H1 & H4). exists cc. split; [done|]. intros x. rewrite <- H4. by apply Hu.
  - apply affine_gradient.
Qed.
Print Assumptions physical_gradients_affine.
(** C68.  The points of the boundary's reference element are mapped onto the side
    one to one, without changing distances. *)
Theorem side_points (t : etype) (side : nat) : (side < n_sides t)%nat ->
  exists S, (forall b, length b = (native_dim t - 1)%nat -> sidePoint t side b = Ok (S b) /\ length (S b) = native_dim t /\ nth (axis t side) (S b) 0 = sgn side /\
                (Forall (fun x => -1 <= x <= 1) b -> Forall (fun x => -1 <= x <= 1) (S b))) /\
    (forall b b', length b = (native_dim t - 1)%nat -> length b' = (native_dim t - 1)%nat -> dist2 (S b) (S b') = dist2 b b') /\
    (forall p, length p = native_dim t -> nth (axis t side) p 0 = sgn side -> Forall (fun x => -1 <= x <= 1) p ->
       exists b, length b = (native_dim t - 1)%nat /\ Forall (fun x => -1 <= x <= 1) b /\ S b = p).
Proof.
  intros Hs. exists (SP t side). split; [|split].
  - intros b Hb. split; [by apply point_ok|]. split; [by apply SP_len|]. split; [by apply SP_axis|]. by apply SP_in.
  - intros b b' Hb Hb'. by apply SP_dist.
  - intros p Hp Ha HF. by apply SP_onto.
Qed.
Print Assumptions side_points.
(** The sides are numbered as the tables of boundary nodes (C26) number them. *)
Theorem side_nodes (t : etype) (absc : list R) (side J : nat) (p : list R) : (1 < length absc)%nat -> ascending absc -> nth 0 absc 0 = -1 -> nth (length absc - 1) absc 0 = 1 ->
  (side < n_sides t)%nat -> node_locations t absc !! J = Some p -> on_side t (length absc - 1) side J <-> nth (axis t side) p 0 = sgn side.
Proof.
  intros Hn Ha H0 H1 Hs HJ. destruct (node_at absc Hn t J p HJ) as [HJn ->]. set (n := length absc) in *.
  assert (Hval : forall i, (i < n)%nat -> (nth i absc 0 = -1 <-> i = 0%nat) /\ (nth i absc 0 = 1 <-> i = (n - 1)%nat)).
  { intros i Hi. assert (Hlt : forall a b, (a < b)%nat -> (b < n)%nat -> nth a absc 0 < nth b absc 0).
    { intros a b Hab Hb. destruct (lookup_lt_is_Some_2 absc a) as [x Hx]; [unfold n in *; lia|]. destruct (lookup_lt_is_Some_2 absc b) as [y Hy]; [unfold n in *; lia|]. rewrite (nth_lookup_Some _ _ 0 _ Hx), (nth_lookup_Some _ _ 0 _ Hy). by apply (Ha a b). }
    split; split; intros H; try (subst; done).
    - destruct (decide (i = 0%nat)) as [|Hne]; [done|]. specialize (Hlt 0%nat i ltac:(lia) Hi). lra.
    - destruct (decide (i = (n - 1)%nat)) as [|Hne]; [done|]. specialize (Hlt i (n - 1)%nat ltac:(lia) ltac:(lia)). lra. }
  assert (HJ' : (J < nodes_per_element t (n - 1))%nat) by exact HJn. rewrite (count absc Hn) in HJn. fold n in HJn. unfold on_side, grid_x, grid_y, grid_z. replace (n - 1 + 1)%nat with n by lia.
  revert Hs. sides t side; cbn [native_dim take firstn axis nth Nat.sub Nat.div Nat.divmod fst]; unfold axis, sgn; cbn [native_dim take firstn nth Nat.sub Nat.div Nat.divmod fst Nat.even];
    assert (Hx : (J `mod` n < n)%nat) by (apply Nat.mod_upper_bound; lia); assert (Hy : ((J / n) `mod` n < n)%nat) by (apply Nat.mod_upper_bound; lia);
    try (assert (Hz : (J / (n * n) < n)%nat) by (apply Nat.div_lt_upper_bound; lia)); split; try (intros [_ Hq]); intros; try split; try done; try (by apply Hval); try (by apply Hval in H).
Qed.
Print Assumptions side_nodes.
(** C68.  The boundary Jacobian is the area of the parallelogram (length, in 2D) of the
    derivatives of the mapped side.  If the Jacobi matrix is invertible, the normal is a
    unit vector, orthogonal to the side, it points out of the element if the
    determinant is positive, and boundary Jacobian times normal is the image of the
    reference normal under the transposed cofactor matrix (Nanson's formula). *)
Theorem boundary_geometry (t : etype) (side : nat) (V : list (list R)) (b : list R) : t <> Line -> length V = nodes_per_element t 1 -> Forall (fun v => length v = 3%nat) V ->
  (side < n_sides t)%nat -> length b = (native_dim t - 1)%nat ->
  let n := native_dim t in
  exists S X J T bj nrm, (forall b, length b = (n - 1)%nat -> sidePoint t side b = Ok (S b)) /\ (forall q, length q = n -> mapToPhysicalSpace t V q = Ok (X q)) /\
    jacobiMat t V (S b) = Ok J /\ computeBoundaryIntegralJacobian t side J = Ok bj /\ computeBoundaryNormal t side J = Ok nrm /\ length nrm = n /\
    (forall k i, (k < n - 1)%nat -> (i < n)%nat -> partial (fun b => nth i (X (S b)) 0) k b (T k i)) /\
    0 <= bj /\ bj * bj = gram (n - 1) n T /\
    (det n (ent J) <> 0 -> let v i := nth i nrm 0 in 0 < bj /\ inner n v v = 1 /\ (forall k, (k < n - 1)%nat -> inner n v (T k) = 0) /\
       (0 < det n (ent J) -> 0 < sgn side * inner n v (ent J (axis t side))) /\
       forall r, (r < n)%nat -> inner n (ent J r) (fun i => bj * v i) = if (r =? axis t side)%nat then sgn side * det n (ent J) else 0).
Proof.
  intros Ht HV H3 Hs Hb n. assert (Hl : length (SP t side b) = n) by (by apply SP_len). set (J := Jm t V (SP t side b)). set (w := nv t side J).
  exists (SP t side), (Xf t V), J, (Tn t side J), (norm n w), (normalize n w). split; [intros; by apply point_ok|]. split; [by apply map_ok|]. split; [by apply jac_ok|]. split; [by apply bjac_ok|]. split; [by apply normal_ok|].
  split; [unfold normalize, vec; by rewrite map_length, seq_length|]. split; [|split; [|split]].
  - intros k i Hk Hi. destruct (tangent t side V b k i Hb Hs Hk Hi) as (x & Hx & Hd). exists x. split; [done|].
    apply (derivable_pt_lim_ext (fun s => Xc t V i (SP t side (<[k := s]> b)))); [|done]. intros s. unfold Xf. unfold n in *. destruct t; cbn in Hi; destruct i as [|[|[|i]]]; try lia; done.
  - unfold norm. apply sqrt_pos.
  - rewrite norm_sq by apply dot_pos. by apply nv_gram.
  - intros Hd. assert (Hp : 0 < dot n w w) by (by apply nv_pos). pose proof (norm_pos n w Hp) as Hnp. pose proof (norm_sq n w ltac:(lra)) as Hsq. set (m := norm n w) in *. intros v.
    assert (Hv : forall i, (i < n)%nat -> v i = / m * w i) by (intros i Hi; by apply normalized).
    assert (Hin : forall z, inner n v z = / m * inner n w z). { intros z. unfold inner. rewrite <- rsum_scal. apply rsum_ext. intros i Hi. rewrite Hv by done. ring. }
    assert (Hmi : 0 < / m) by (by apply Rinv_0_lt_compat). assert (Hcomm : forall a c, inner n a c = inner n c a) by (intros a c; apply rsum_ext; intros; ring).
    pose proof (nv_rows t side J (axis t side) Ht Hs (axis_lt t side)) as Hax. rewrite Nat.eqb_refl in Hax. fold w in Hax. fold n in Hax.
    split; [done|]. split; [|split; [|split]].
    + rewrite Hin, Hcomm, Hin. replace (inner n w w) with (m * m) by (rewrite Hsq; apply dot_rsum). field. lra.
    + intros k Hk. rewrite Hin. unfold w, n. rewrite (nv_tangent t side J k Ht Hs Hk). ring.
    + intros Hdp. rewrite Hin, Hcomm, Hax. replace (sgn side * (/ m * (sgn side * det n (ent J)))) with ((sgn side * sgn side) * (/ m * det n (ent J))) by ring.
      replace (sgn side * sgn side) with 1 by (unfold sgn; destruct (Nat.even side); lra). rewrite Rmult_1_l. by apply Rmult_lt_0_compat.
    + intros r Hr. etransitivity; [|exact (nv_rows t side J r Ht Hs Hr)]. apply rsum_ext. intros i Hi. cbv beta. rewrite Hv by done. fold w. field. lra.
Qed.
Print Assumptions boundary_geometry.
(** On lines the normal is right for elements of positive orientation, ... *)
Theorem line_normal (side : nat) (J : list (list R)) : (side < 2)%nat -> exists x, computeBoundaryNormal Line side J = Ok [x] /\ x * x = 1 /\ x = sgn side /\ (0 < ent J 0 0 -> 0 < sgn side * (x * ent J 0 0)).
Proof. intros Hs. destruct side as [|[|side]]; [| |lia]; cbn; unfold sgn; cbn; eexists; (split; [done|]); repeat split; try lra; intros; lra. Qed.
Print Assumptions line_normal.
(** ... but the boundary Jacobian is 0 where Nanson's formula needs 1: every boundary
    integral over an end of a line vanishes. *)
Theorem line_boundary_jacobian_refuted (side : nat) (J : list (list R)) : exists bj, computeBoundaryIntegralJacobian Line side J = Ok bj /\ forall n : R, bj * n = 0.
Proof. exists 0. split; [done|]. intros; lra. Qed.
Print Assumptions line_boundary_jacobian_refuted.

Lemma affine_der a c x : derivable_pt_lim (fun s => a + c * s) x c.
Proof.
  pose proof (derivable_pt_lim_plus (fun _ => a) (fun s => c * s) x 0 (c * 1) (derivable_pt_lim_const a x) (derivable_pt_lim_scal id c x 1 (derivable_pt_lim_id x))) as H.
  rewrite Rplus_0_l, Rmult_1_r in H. exact H.
Qed.
(** A trapezium: the mapping is not affine, the determinant is positive at its centre
    and on its slanted side. *)
Example trapezium_example : let V := [[0; 0; 0]; [4; 0; 0]; [0; 2; 0]; [2; 2; 0]] in
  length V = nodes_per_element Quad 1 /\ Forall (fun v => length v = 3%nat) V /\
  (exists J, jacobiMat Quad V [0; 0] = Ok J /\ J = [[3 / 2; 0]; [-1 / 2; 1]] /\ det 2 (ent J) = 3 / 2) /\
  sidePoint Quad 3 [0] = Ok [1; 0] /\
  (exists J, jacobiMat Quad V [1; 0] = Ok J /\ computeBoundaryIntegralJacobian Quad 3 J = Ok (R_sqrt.sqrt 2) /\
     computeBoundaryNormal Quad 3 J = Ok [1 / R_sqrt.sqrt 2; 1 / R_sqrt.sqrt 2]).
Proof.
  intros V. assert (HV : length V = nodes_per_element Quad 1) by done. assert (H3 : Forall (fun v => length v = 3%nat) V) by (repeat constructor). split; [done|]. split; [done|].
  assert (HD : forall i x, (i < 2)%nat -> Db absc1 i x = match i with O => -1 / 2 | _ => 1 / 2 end).
  { intros i x Hi. destruct absc1_ok as [H1 H2]. pose proof (Lb_der absc1 H1 H2 i x Hi) as Hd. apply (uniqueness_limite (Lb absc1 i) x); [exact Hd|].
    destruct i as [|[|i]]; [| |lia].
    - apply (derivable_pt_lim_ext (fun s => / 2 + -1 / 2 * s)); [intros; rewrite Lb1 by lia; lra|]. apply affine_der.
    - apply (derivable_pt_lim_ext (fun s => / 2 + 1 / 2 * s)); [intros; rewrite Lb1 by lia; lra|]. apply affine_der. }
  assert (HJ : forall x y, jacobiMat Quad V [x; y] = Ok [[(3 - y) / 2; 0]; [- (1 + x) / 2; 1]]).
  { intros x y. rewrite (jac_ok Quad V HV H3 [x; y] eq_refl). f_equal. unfold Jm, mk, Bv, G. cbn. change [-1; 1] with absc1. rewrite !HD, !Lb1 by lia. repeat f_equal; lra. }
  split; [|split].
  - eexists. split; [apply HJ|]. split; [repeat f_equal; lra|]. cbn. lra.
  - rewrite point_ok; [done|done|cbn; lia].
  - eexists. split; [apply HJ|]. assert (Hdd : dot 2 (nv Quad 3 [[(3 - 0) / 2; 0]; [- (1 + 1) / 2; 1]]) (nv Quad 3 [[(3 - 0) / 2; 0]; [- (1 + 1) / 2; 1]]) = 2) by (cbn; lra). split.
    + rewrite bjac_ok; [|done|cbn; lia]. unfold norm. change (native_dim Quad) with 2%nat. rewrite Hdd. done.
    + rewrite normal_ok; [|done|cbn; lia]. unfold normalize, norm. change (native_dim Quad) with 2%nat. rewrite Hdd. destruct (Rlt_dec 0 2) as [_|Hn]; [|lra]. cbn. repeat f_equal; lra.
Qed.
