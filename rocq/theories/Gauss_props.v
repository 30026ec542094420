(** Property C69: Gauss-Legendre quadrature, in exact arithmetic. *)
From Coq Require Import Reals Lra.
From Verif Require Import Base Elem_model Poly_model Poly_spec Poly_proofs Poly2_proofs Poly3_proofs Basis_model Basis_spec Basis_proofs Leg_proofs
  Gauss_model Gauss_spec Gauss_proofs Gauss2_proofs.
Local Open Scope R_scope.

Lemma size_pos QO : (1 <= getRefQuadSize QO)%nat.
Proof. unfold getRefQuadSize. lia. Qed.
Lemma size_degree QO : (S QO <= 2 * getRefQuadSize QO)%nat.
Proof. unfold getRefQuadSize. pose proof (Nat.div_mod QO 2). pose proof (Nat.mod_upper_bound QO 2). lia. Qed.
(** C69.  The integral of the specification is unique, and the Riemann integral. *)
Theorem integral_is_unique (f : R -> R) (v w : R) : integral_is f v -> integral_is f w -> v = w.
Proof. exact (int_unique f v w). Qed.
Print Assumptions integral_is_unique.
Theorem integral_is_riemann (f : R -> R) (v : R) (pr : Riemann_integrable f (-1) 1) : continuity f -> integral_is f v -> RiemannInt pr = v.
Proof.
  intros Hc (F & HF & ->). set (d := (fun x => exist (fun l => derivable_pt_abs F x l) (f x) (HF x)) : derivable F).
  assert (Hd : forall x, derive F d x = f x) by (intros x; done).
  assert (Hcont : continuity (derive F d)) by (intros x; apply (Hc x)).
  pose proof (@FTC_Riemann (@mkC1 F d Hcont) (-1) 1 pr) as H. exact H.
Qed.
Print Assumptions integral_is_riemann.
(** C69.  The quadrature of order QO integrates every polynomial of degree at most QO
    in each variable exactly over the reference line, square and cube, for every
    result of the eigenvalue solver. *)
Theorem quadrature_exact (t : etype) (QO : nat) (lam : nat -> R) (V : nat -> nat -> R) (f : list R -> R) :
  eigen_of (getRefQuadSize QO) (gauss_matrix ref_a ref_b ref_c) lam V -> is_poly t (S QO) f ->
  exists q, getQuadrature t (getReferenceQuadrature QO lam V) = Ok q /\ integral_on t f (evalQuadrature (fun _ => f) q 0).
Proof.
  intros He Hf. set (n := getRefQuadSize QO). assert (Hn : (1 <= n)%nat) by apply size_pos. exists (map fst (pairs n lam V t), map snd (pairs n lam V t)). split; [by apply (get_ok n lam V Hn He t)|].
  rewrite eval_pairs, Rplus_0_l. apply (tensor_exact n lam V Hn He t (S QO)); [apply size_degree|done].
Qed.
Print Assumptions quadrature_exact.
(** C69.  It has as many points as weights, all weights are positive and all points
    inside; the points along a line are exactly the zeros of the Legendre polynomial,
    strictly ascending. *)
Theorem quadrature_points (t : etype) (QO : nat) (lam : nat -> R) (V : nat -> nat -> R) :
  eigen_of (getRefQuadSize QO) (gauss_matrix ref_a ref_b ref_c) lam V ->
  exists q, getQuadrature t (getReferenceQuadrature QO lam V) = Ok q /\
    length q.1 = (getRefQuadSize QO ^ native_dim t)%nat /\ length q.2 = length q.1 /\ Forall (fun a => 0 < a) q.2 /\
    Forall (fun p => length p = native_dim t /\ Forall (fun x => -1 < x < 1 /\ legendre (getRefQuadSize QO) x = 0) p) q.1 /\
    (t = Line -> exists l, q.1 = map (fun x => [x]) l /\ ascending l /\ forall x, x ∈ l <-> legendre (getRefQuadSize QO) x = 0).
Proof.
  intros He. set (n := getRefQuadSize QO) in *. assert (Hn : (1 <= n)%nat) by apply size_pos. exists (map fst (pairs n lam V t), map snd (pairs n lam V t)). split; [by apply (get_ok n lam V Hn He t)|]. cbn [fst snd]. rewrite !map_length.
  split; [by apply (pairs_length n lam V Hn He t)|]. split; [done|]. destruct (lam_ok n lam V Hn He) as (Hi & Hin & Hiff). split; [|split].
  - apply Forall_forall. intros a Ha. apply (elem_of_list_fmap snd) in Ha as ([p a'] & -> & Ha). by apply (pairs_in n lam V Hn He) in Ha as [? _].
  - apply Forall_forall. intros p Ha. apply (elem_of_list_fmap fst) in Ha as ([p' a'] & -> & Ha). apply (pairs_in n lam V Hn He) in Ha as (_ & H1 & H2). split; [done|]. eapply Forall_impl; [exact H2|].
    intros x (i & Hlt & ->). split; [by apply Hin|]. apply Hiff. by exists i.
  - intros ->. exists (map lam (seq 0 n)). split; [|split].
    + cbn [pairs]. by rewrite !map_map.
    + by apply incr_ascending.
    + intros x. rewrite Hiff. rewrite (elem_of_list_fmap lam). split; intros (i & H1 & H2).
      * apply elem_of_seq in H2. exists i. split; [lia|done].
      * exists i. split; [done|]. apply elem_of_seq. lia.
Qed.
Print Assumptions quadrature_points.
(** C69.  evalQuadrature adds the weighted values to its start value; the integrand
    gets every point with its index. *)
Theorem quadrature_sum (g : nat -> list R -> R) (pts : list (list R)) (w : list R) (z : R) : length pts = length w ->
  evalQuadrature g (pts, w) z = z + rsum (length w) (fun i => g i (nth i pts []) * nth i w 0).
Proof.
  intros Hl. unfold evalQuadrature. cbn [fst snd]. assert (Hz : length (zip pts w) = length pts) by (rewrite zip_with_length; lia). rewrite <- Hz at 1. rewrite eval_total. f_equal. rewrite Hz.
  replace (zip_with (fun i (e : list R * R) => g i e.1 * e.2) (seq 0 (length pts)) (zip pts w)) with (map (fun i => g i (nth i pts []) * nth i w 0) (seq 0 (length w))); [apply total_seq|].
  apply list_eq. intros i. rewrite (list_lookup_fmap (fun i => g i (nth i pts []) * nth i w 0)), lookup_zip_with. destruct (decide (i < length w)%nat) as [Hi|Hi].
  - rewrite !lookup_seq_lt by lia. cbn. destruct (lookup_lt_is_Some_2 pts i) as [p Hp]; [lia|]. destruct (lookup_lt_is_Some_2 w i) as [a Ha]; [lia|]. rewrite lookup_zip_with, Hp, Ha. cbn.
    by rewrite (nth_lookup_Some _ _ [] _ Hp), (nth_lookup_Some _ _ 0 _ Ha).
  - rewrite !lookup_seq_ge by lia. done.
Qed.
Print Assumptions quadrature_sum.
(** The two-point rule: points -1/sqrt 3 and 1/sqrt 3; it integrates x^2 y^2 to 4/9. *)
Example quadrature_example : let s := / R_sqrt.sqrt 3 in let h := / R_sqrt.sqrt 2 in
  let lam := fun i => match i with O => - s | _ => s end in
  let V := fun k i => match k, i with O, O => - h | _, _ => h end in
  eigen_of (getRefQuadSize 3) (gauss_matrix ref_a ref_b ref_c) lam V /\
  is_poly Quad 4 (fun p => match p with [x; y] => x * x * (y * y) | _ => 0 end) /\
  exists q, getQuadrature Quad (getReferenceQuadrature 3 lam V) = Ok q /\
    evalQuadrature (fun _ p => match p with [x; y] => x * x * (y * y) | _ => 0 end) q 0 = 4 / 9.
Proof.
  intros s h lam V. assert (H3 : 0 < R_sqrt.sqrt 3) by (apply sqrt_lt_R0; lra). assert (H2 : 0 < R_sqrt.sqrt 2) by (apply sqrt_lt_R0; lra).
  assert (Hs : 0 < s) by (by apply Rinv_0_lt_compat). assert (Hhh : h * h = / 2) by (unfold h; rewrite <- Rinv_mult, sqrt_sqrt; lra). assert (Hss : s * s = / 3) by (unfold s; rewrite <- Rinv_mult, sqrt_sqrt; lra).
  assert (Hb : gauss_beta ref_a ref_c 0 = s).
  { unfold gauss_beta, ref_a, ref_c. cbn. rewrite <- (sqrt_square s) by lra. f_equal. rewrite Hss. lra. }
  assert (He : eigen_of (getRefQuadSize 3) (gauss_matrix ref_a ref_b ref_c) lam V).
  { change (getRefQuadSize 3) with 2%nat. split; [|split; [|split]].
    - intros i Hi. replace i with O by lia. cbn. lra.
    - intros k i Hk Hi. rewrite row_sum by done. destruct k as [|[|k]]; [| |lia]; destruct i as [|[|i]]; try lia; destruct (decide _); try lia; destruct (decide _); try lia; unfold lam, V; cbn [pred]; rewrite ?Hb; ring.
    - intros i j Hi Hj. destruct i as [|[|i]]; [| |lia]; destruct j as [|[|j]]; try lia; cbn; lra.
    - intros i j Hi Hj. destruct i as [|[|i]]; [| |lia]; destruct j as [|[|j]]; try lia; cbn; lra. }
  split; [done|]. split.
  - exists [[1; 0; 0]; []; []]. split; [cbn; lia|]. split; [repeat constructor; cbn; lia|]. intros x y. unfold poly2. cbn. lra.
  - eexists. split; [apply (get_ok 2 lam V ltac:(lia) He Quad)|]. rewrite eval_pairs. unfold total. cbn. assert (Hq : forall a b, a * b * (a * b) = (a * a) * (b * b)) by (intros; ring).
    replace (2 * - h * - h) with (2 * (h * h)) by ring. replace (2 * h * h) with (2 * (h * h)) by ring. rewrite Hhh. replace (- s * - s) with (s * s) by ring. rewrite Hss. lra.
Qed.
