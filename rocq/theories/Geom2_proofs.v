(** Proofs for C68, part 2: sides, boundary Jacobian and normals. *)
From Coq Require Import Reals Lra.
From Verif Require Import Base StdAlgo Elem_model Elem_spec Elem_proofs Poly_model Poly_spec Poly_proofs Poly2_proofs Basis_model Basis_spec Basis_proofs Basis2_proofs
  Geom_model Geom_spec Geom_proofs.
Local Open Scope R_scope.

(** The rotations and translations, and where axis k of the boundary goes. *)
Definition rotm (t : etype) (side : nat) : list (list R) :=
  match t, side with
  | Hex, 0%nat => [[1; 0; 0]; [0; -1; 0]; [0; 0; -1]] | Hex, 1%nat => [[1; 0; 0]; [0; 1; 0]; [0; 0; 1]]
  | Hex, 2%nat => [[1; 0; 0]; [0; 0; 1]; [0; -1; 0]] | Hex, 3%nat => [[1; 0; 0]; [0; 0; -1]; [0; 1; 0]]
  | Hex, 4%nat => [[0; 0; 1]; [0; 1; 0]; [-1; 0; 0]] | Hex, _ => [[0; 0; -1]; [0; 1; 0]; [1; 0; 0]]
  | Quad, 0%nat => [[-1; 0]; [0; -1]] | Quad, 1%nat => [[1; 0]; [0; 1]] | Quad, 2%nat => [[0; 1]; [-1; 0]] | Quad, _ => [[0; -1]; [1; 0]]
  | Line, 0%nat => [[-1]] | Line, _ => [[1]]
  end.
Definition tran (t : etype) (side : nat) : list R := map (fun i => if (i =? axis t side)%nat then sgn side else 0) (seq 0 (native_dim t)).
Lemma cos_half : cos (- PI / 2) = 0.
Proof. replace (- PI / 2) with (- (PI / 2)) by lra. by rewrite cos_neg, cos_PI2. Qed.
Lemma sin_half : sin (- PI / 2) = -1.
Proof. replace (- PI / 2) with (- (PI / 2)) by lra. rewrite sin_neg, sin_PI2. lra. Qed.
Ltac sides t side := let H := fresh in intros H; unfold n_sides in H; destruct t; cbn [native_dim Nat.mul Nat.add] in H; destruct side as [|[|[|[|[|[|side]]]]]]; try lia; clear H.
Lemma mapping_ok t side : (side < n_sides t)%nat -> sideMapping t side = Ok (rotm t side, tran t side).
Proof.
  sides t side; unfold sideMapping; cbn [rd list_lookup]; unfold rot3x, rot3y, rot2, identity; rewrite ?cos_PI, ?sin_PI, ?cos_half, ?sin_half, ?cos_PI2, ?sin_PI2; cbn; repeat f_equal; lra.
Qed.
Definition img (t : etype) (side : nat) : list (nat * R) :=
  match t, side with
  | Hex, 0%nat => [(0%nat, 1); (1%nat, -1)] | Hex, 1%nat => [(0%nat, 1); (1%nat, 1)]
  | Hex, 2%nat => [(0%nat, 1); (2%nat, -1)] | Hex, 3%nat => [(0%nat, 1); (2%nat, 1)]
  | Hex, 4%nat => [(2%nat, -1); (1%nat, 1)] | Hex, _ => [(2%nat, 1); (1%nat, 1)]
  | Quad, 0%nat => [(0%nat, -1)] | Quad, 1%nat => [(0%nat, 1)] | Quad, 2%nat => [(1%nat, -1)] | Quad, _ => [(1%nat, 1)]
  | Line, _ => []
  end.
(** The image of a point of the boundary. *)
Definition SP (t : etype) (side : nat) (b : list R) : list R :=
  match t, side, b with
  | Hex, 0%nat, [x; y] => [x; - y; -1] | Hex, 1%nat, [x; y] => [x; y; 1]
  | Hex, 2%nat, [x; y] => [x; -1; - y] | Hex, 3%nat, [x; y] => [x; 1; y]
  | Hex, 4%nat, [x; y] => [-1; y; - x] | Hex, _, [x; y] => [1; y; x]
  | Quad, 0%nat, [x] => [- x; -1] | Quad, 1%nat, [x] => [x; 1] | Quad, 2%nat, [x] => [-1; - x] | Quad, _, [x] => [1; x]
  | Line, _, [] => [sgn side]
  | _, _, _ => []
  end.
Lemma point_ok t side b : length b = (native_dim t - 1)%nat -> (side < n_sides t)%nat -> sidePoint t side b = Ok (SP t side b).
Proof.
  intros Hb Hs. unfold sidePoint. rewrite mapping_ok by done. rewrite bind_ok. f_equal. revert Hs. sides t side; cbn [native_dim Nat.sub] in Hb; (destruct b as [|x [|y [|z b]]]; try (discriminate Hb)); cbn; unfold ent; cbn; repeat f_equal; try lra.
Qed.
Lemma SP_len t side b : length b = (native_dim t - 1)%nat -> (side < n_sides t)%nat -> length (SP t side b) = native_dim t.
Proof. intros Hb. sides t side; cbn [native_dim Nat.sub] in Hb; (destruct b as [|x [|y [|z b]]]; try (discriminate Hb)); done. Qed.
Lemma SP_axis t side b : length b = (native_dim t - 1)%nat -> (side < n_sides t)%nat -> nth (axis t side) (SP t side b) 0 = sgn side.
Proof. intros Hb. sides t side; cbn [native_dim Nat.sub] in Hb; (destruct b as [|x [|y [|z b]]]; try (discriminate Hb)); cbn; done. Qed.
Lemma SP_in t side b : length b = (native_dim t - 1)%nat -> (side < n_sides t)%nat -> Forall (fun x => -1 <= x <= 1) b -> Forall (fun x => -1 <= x <= 1) (SP t side b).
Proof.
  intros Hb. sides t side; cbn [native_dim Nat.sub] in Hb; (destruct b as [|x [|y [|z b]]]; try (discriminate Hb)); intros HF; rewrite ?Forall_cons in HF; cbn; rewrite ?Forall_cons; unfold sgn; cbn [Nat.even];
    repeat match goal with H : _ /\ _ |- _ => destruct H end; repeat split; try lra; try done.
Qed.
Lemma SP_dist t side b b' : length b = (native_dim t - 1)%nat -> length b' = (native_dim t - 1)%nat -> (side < n_sides t)%nat -> dist2 (SP t side b) (SP t side b') = dist2 b b'.
Proof.
  intros Hb Hb'. sides t side; cbn [native_dim Nat.sub] in Hb, Hb'; (destruct b as [|x [|y [|z b]]]; try (discriminate Hb)); (destruct b' as [|x' [|y' [|z' b']]]; try (discriminate Hb')); unfold dist2; cbn; unfold sgn; cbn [Nat.even]; ring.
Qed.
Lemma SP_onto t side p : length p = native_dim t -> (side < n_sides t)%nat -> nth (axis t side) p 0 = sgn side -> Forall (fun x => -1 <= x <= 1) p ->
  exists b, length b = (native_dim t - 1)%nat /\ Forall (fun x => -1 <= x <= 1) b /\ SP t side b = p.
Proof.
  intros Hp. sides t side; cbn [native_dim Nat.sub] in Hp; (destruct p as [|x [|y [|z [|w p]]]]; try (discriminate Hp)); cbn [axis native_dim nth Nat.sub Nat.div Nat.divmod fst]; unfold sgn; cbn [Nat.even]; intros Ha HF; rewrite ?Forall_cons in HF; cbn in Ha; subst;
    repeat match goal with H : _ /\ _ |- _ => destruct H end.
  - exists [x; - y]. rewrite !Forall_cons. repeat split; try lra; try done. cbn. repeat f_equal; lra.
  - exists [x; y]. rewrite !Forall_cons. repeat split; try lra; try done.
  - exists [x; - z]. rewrite !Forall_cons. repeat split; try lra; try done. cbn. repeat f_equal; lra.
  - exists [x; z]. rewrite !Forall_cons. repeat split; try lra; try done.
  - exists [- z; y]. rewrite !Forall_cons. repeat split; try lra; try done. cbn. repeat f_equal; lra.
  - exists [z; y]. rewrite !Forall_cons. repeat split; try lra; try done.
  - exists [- x]. rewrite !Forall_cons. repeat split; try lra; try done. cbn. repeat f_equal; lra.
  - exists [x]. rewrite !Forall_cons. repeat split; try lra; try done.
  - exists [- y]. rewrite !Forall_cons. repeat split; try lra; try done. cbn. repeat f_equal; lra.
  - exists [y]. rewrite !Forall_cons. repeat split; try lra; try done.
  - exists []. repeat split; by try apply Forall_nil.
  - exists []. repeat split; by try apply Forall_nil.
Qed.
(** Moving along axis k of the boundary moves along axis m of the element. *)
Lemma SP_move t side k b m e : length b = (native_dim t - 1)%nat -> (side < n_sides t)%nat -> img t side !! k = Some (m, e) ->
  exists x, b !! k = Some x /\ SP t side b !! m = Some (e * x) /\ (m < native_dim t)%nat /\ forall s, SP t side (<[k := s]> b) = <[m := e * s]> (SP t side b).
Proof.
  intros Hb. sides t side; cbn [native_dim Nat.sub] in Hb; (destruct b as [|x [|y [|z b]]]; try (discriminate Hb)); (destruct k as [|[|k]]; try (intros H; discriminate H)); intros [= <- <-]; eexists; (split; [reflexivity|]); cbn;
    (split; [f_equal; ring|]); (split; [lia|]); intros s; repeat f_equal; ring.
Qed.
Lemma img_len t side : (side < n_sides t)%nat -> length (img t side) = (native_dim t - 1)%nat.
Proof. sides t side; done. Qed.
(** Tangents. *)
Definition Tn (t : etype) (side : nat) (J : list (list R)) (k i : nat) : R := let e := nth k (img t side) (0%nat, 0) in e.2 * ent J e.1 i.
Lemma tangent t side V b k i : length b = (native_dim t - 1)%nat -> (side < n_sides t)%nat -> (k < native_dim t - 1)%nat -> (i < native_dim t)%nat ->
  partial (fun b => Xc t V i (SP t side b)) k b (Tn t side (Jm t V (SP t side b)) k i).
Proof.
  intros Hb Hs Hk Hi. destruct (lookup_lt_is_Some_2 (img t side) k) as [[m e] He]; [by rewrite img_len|]. destruct (SP_move t side k b m e Hb Hs He) as (x & Hx & Hm & Hlt & Hmove).
  exists x. split; [done|]. unfold Tn. rewrite (nth_lookup_Some _ _ (0%nat, 0) _ He). cbn [fst snd]. destruct (X_der t V m i (SP t side b) Hlt Hi (SP_len t side b Hb Hs)) as (y & Hy & Hd). rewrite Hm in Hy. injection Hy as <-.
  apply (derivable_pt_lim_ext (comp (fun s => Xc t V i (<[m := s]> (SP t side b))) (fun s => e * s))); [intros s; unfold comp; by rewrite Hmove|]. rewrite (Rmult_comm e (ent _ _ _)). apply derivable_pt_lim_comp; [|exact Hd].
  pose proof (derivable_pt_lim_scal id e x 1 (derivable_pt_lim_id x)) as H1. rewrite Rmult_1_r in H1. exact H1.
Qed.
(** ** The vector whose length is the boundary Jacobian and whose direction is the normal. *)
Definition nv (t : etype) (side : nat) (J : list (list R)) : nat -> R :=
  match t, side with
  | Quad, 0%nat => pair2 (ent J 0 1) (- ent J 0 0) | Quad, 1%nat => pair2 (- ent J 0 1) (ent J 0 0)
  | Quad, 2%nat => pair2 (- ent J 1 1) (ent J 1 0) | Quad, _ => pair2 (ent J 1 1) (- ent J 1 0)
  | Hex, 0%nat => neg (cross (ent J 0) (ent J 1)) | Hex, 1%nat => cross (ent J 0) (ent J 1)
  | Hex, 2%nat => cross (ent J 0) (ent J 2) | Hex, 3%nat => neg (cross (ent J 0) (ent J 2))
  | Hex, 4%nat => neg (cross (ent J 1) (ent J 2)) | Hex, _ => cross (ent J 1) (ent J 2)
  | Line, _ => fun _ => 0
  end.
Lemma normal_ok t side J : t <> Line -> (side < n_sides t)%nat -> computeBoundaryNormal t side J = Ok (normalize (native_dim t) (nv t side J)).
Proof. intros Ht. sides t side; try done. Qed.
Lemma bjac_ok t side J : t <> Line -> (side < n_sides t)%nat -> computeBoundaryIntegralJacobian t side J = Ok (norm (native_dim t) (nv t side J)).
Proof.
  intros Ht Hs. unfold computeBoundaryIntegralJacobian. rewrite mapping_ok by done. cbn [mbind fst]. revert Hs. sides t side; try done; rewrite ?bind_ok; cbv zeta; cbn [fst]; do 1 f_equal; unfold norm; f_equal; rewrite !dot_rsum; cbn [rsum native_dim];
    unfold cross, pair2, neg, nv; rewrite ?mmul_ent by lia; cbn [rsum native_dim]; unfold transpose; rewrite ?ent_mk by lia; unfold rotm, ent at 2; cbn; unfold cross, neg; ring.
Qed.
Lemma nv_rows t side J r : t <> Line -> (side < n_sides t)%nat -> (r < native_dim t)%nat ->
  inner (native_dim t) (ent J r) (nv t side J) = if (r =? axis t side)%nat then sgn side * det (native_dim t) (ent J) else 0.
Proof. intros Ht. sides t side; try done; cbn [native_dim]; intros Hr; destruct r as [|[|[|r]]]; try lia; unfold inner, nv, cross, neg, pair2; cbn; ring. Qed.
Lemma nv_gram t side J : t <> Line -> (side < n_sides t)%nat -> dot (native_dim t) (nv t side J) (nv t side J) = gram (native_dim t - 1) (native_dim t) (Tn t side J).
Proof. intros Ht. sides t side; try done; rewrite dot_rsum; unfold gram, inner, Tn, nv, cross, neg, pair2; cbn; ring. Qed.
Lemma nv_tangent t side J k : t <> Line -> (side < n_sides t)%nat -> (k < native_dim t - 1)%nat -> inner (native_dim t) (nv t side J) (Tn t side J k) = 0.
Proof. intros Ht. sides t side; try done; cbn [native_dim Nat.sub]; intros Hk; destruct k as [|[|k]]; try lia; unfold inner, Tn, nv, cross, neg, pair2; cbn; ring. Qed.
Lemma axis_lt t side : (axis t side < native_dim t)%nat.
Proof. unfold axis. destruct t; cbn [native_dim]; lia. Qed.
Lemma dot_zero n v w : dot n v v <= 0 -> inner n w v = 0.
Proof.
  rewrite dot_rsum. intros H. apply rsum_zero. assert (Hz : forall k, (k < n)%nat -> v k = 0); [|intros k Hk; rewrite Hz by done; ring].
  assert (Hp : forall m, 0 <= rsum m (fun i => v i * v i)) by (intros m; apply rsum_pos; intros; nra).
  induction n as [|n IH]; intros k Hk; [lia|]. cbn in H. pose proof (Hp n). assert (Hn : v n * v n = 0) by nra. destruct (decide (k = n)) as [->|]; [nra|]. apply IH; [nra|lia].
Qed.
Lemma normalized n v i : 0 < dot n v v -> (i < n)%nat -> nth i (normalize n v) 0 = / norm n v * v i.
Proof. intros H Hi. unfold normalize. rewrite nth_vec by done. destruct (Rlt_dec 0 (dot n v v)); [unfold Rdiv; ring|done]. Qed.
Lemma norm_pos n v : 0 < dot n v v -> 0 < norm n v.
Proof. intros H. unfold norm. by apply sqrt_lt_R0. Qed.
Lemma norm_sq n v : 0 <= dot n v v -> norm n v * norm n v = dot n v v.
Proof. intros H. unfold norm. by apply sqrt_sqrt. Qed.
Lemma dot_pos n v : 0 <= dot n v v.
Proof. rewrite dot_rsum. apply rsum_pos. intros; nra. Qed.
Lemma nv_pos t side J : t <> Line -> (side < n_sides t)%nat -> det (native_dim t) (ent J) <> 0 -> 0 < dot (native_dim t) (nv t side J) (nv t side J).
Proof.
  intros Ht Hs Hd. apply Rnot_le_lt. intros H. pose proof (nv_rows t side J (axis t side) Ht Hs (axis_lt t side)) as E. rewrite dot_zero, Nat.eqb_refl in E by done.
  symmetry in E. apply Rmult_integral in E as [E|E]; [|done]. unfold sgn in E. destruct (Nat.even side); lra.
Qed.
