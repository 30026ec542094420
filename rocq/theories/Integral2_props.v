(** Property C77, continued: the order of the quadrature; norms over boundaries. *)
From Coq Require Import Reals Lra FunctionalExtensionality.
From Verif Require Import Base StdAlgo Ownership_model Elem_model Elem_spec Mesh_model Mesh_spec Partition_model Partition_spec
  Poly_spec Poly_proofs Poly_model Basis_spec Basis_model Basis_proofs Gauss_spec Gauss_model Gauss_proofs Geom_spec Geom_model Geom_proofs SumFact_props
  Integral_model Integral_spec Integral_proofs Integral_props.
Local Open Scope R_scope.
(** The product of functions. *)
Definition product (fs : list (list R -> R)) (p : list R) : R := foldr (fun f r => f p * r) 1 fs.
Lemma line_mul n m f g : is_poly Line (S n) f -> is_poly Line (S m) g -> is_poly Line (S (n + m)) (fun p => f p * g p).
Proof.
  intros (a & La & Ha) (b & Lb & Hb). destruct a as [|a0 a]; [exists []; cbn; split; [lia|]; intros x; rewrite Ha; cbn; lra|]. destruct b as [|b0 b]; [exists []; cbn; split; [lia|]; intros x; rewrite Hb; cbn; lra|].
  destruct (mul_ok (a0 :: a) (b0 :: b) 0) as (r & Er & Lr & _); [done..|]. exists r. cbn [length] in *. split; [lia|]. intros x. destruct (mul_ok (a0 :: a) (b0 :: b) x) as (r' & Er' & _ & Ev); [done..|]. assert (r' = r) as -> by congruence. rewrite !evaluate_poly in Ev. by rewrite Ev, Ha, Hb.
Qed.
Lemma line_product n fs : Forall (is_poly Line (S n)) fs -> is_poly Line (S (length fs * n)) (product fs).
Proof.
  induction 1 as [|f fs Hf _ IH]; [exists [1]; cbn; split; [lia|]; intros x; lra|]. cbn [length product foldr Nat.mul]. by apply (line_mul n (length fs * n) f).
Qed.
Lemma product_app fs gs p : product (fs ++ gs) p = product fs p * product gs p.
Proof. induction fs as [|f fs IH]; cbn [app product foldr]; [unfold product; lra|]. unfold product in IH. rewrite IH. unfold product. ring. Qed.
Lemma zero_coefs c : (forall x, poly c x = 0) -> Forall (fun a => a = 0) c.
Proof.
  induction c as [|b c IH] using rev_ind; intros H; [constructor|]. assert (Hb : b = 0). { specialize (H 0). rewrite poly_app in H. cbn in H. lra. } subst b. apply Forall_app. split; [|by constructor]. apply IH.
  apply (too_many_zeros c (map INR (seq 1 (length c)))).
  - apply NoDup_fmap_2_strong; [|apply NoDup_seq]. intros i j _ _. apply INR_eq.
  - by rewrite map_length, seq_length.
  - intros z Hz. apply elem_of_list_fmap in Hz as (i & -> & Hi). apply elem_of_seq in Hi. specialize (H (INR i)). rewrite poly_app in H. cbn in H. assert (INR i <> 0) by (apply not_0_INR; lia). apply (Rmult_eq_reg_r (INR i)); [|done]. lra.
Qed.
Lemma pow_not_less n : ~ is_poly Line n (fun p => nth 0 p 0 ^ n).
Proof.
  intros (c & Lc & Hc). cbn in Hc. set (d := 1 :: replicate (n - length c) 0 ++ map (Rmult (-1)) c). assert (Hz : forall x, poly (map (Rmult (-1)) c) x = - poly c x). { intros x. clear. induction c as [|a c IH]; cbn [map poly]; [lra|]. rewrite IH, map_length. lra. }
  assert (Hr : forall k x, poly (replicate k 0) x = 0). { intros k x. induction k as [|k IH]; cbn [replicate poly]; [done|]. rewrite IH. lra. }
  assert (H : Forall (fun a => a = 0) d). { apply zero_coefs. intros x. unfold d. cbn [poly]. rewrite app_length, replicate_length, map_length, poly_app, Hr, Hz, <- Hc. replace (n - length c + length c)%nat with n by lia. lra. }
  apply Forall_cons in H as [H _]. lra.
Qed.
(** C77.  AssemblyOptions: [o_value] factors that have the degree of the element and
    [o_der] that have one less: on lines, the quadrature is exact for their product, and no
    smaller order would do. *)
Theorem order_of_line opts O : (1 <= O)%nat ->
  (forall vs ds, length vs = o_value opts -> length ds = o_der opts -> Forall (is_poly Line (S O)) vs -> Forall (is_poly Line O) ds -> is_poly Line (S (q_order opts O)) (product (vs ++ ds))) /\
  (exists vs ds, length vs = o_value opts /\ length ds = o_der opts /\ Forall (is_poly Line (S O)) vs /\ Forall (is_poly Line O) ds /\ ~ is_poly Line (q_order opts O) (product (vs ++ ds))).
Proof.
  intros HO. split.
  - intros vs ds Lv Ld Hv Hd. destruct O as [|O]; [lia|]. pose proof (line_mul _ _ _ _ (line_product _ vs Hv) (line_product O ds Hd)) as (c & Lc & Hc). rewrite Lv, Ld in Lc. exists c. unfold q_order. split; [replace (S O - 1)%nat with O by lia; exact Lc|]. intros x. by rewrite product_app.
  - set (X k := fun p : list R => nth 0 p 0 ^ k). assert (HX : forall k, is_poly Line (S k) (X k)). { intros k. exists (1 :: replicate k 0). cbn [length]. rewrite replicate_length. split; [lia|]. intros x. unfold X. cbn [nth poly]. rewrite replicate_length. assert (Hr : poly (replicate k 0) x = 0); [|lra]. clear. induction k as [|k IH]; cbn [replicate poly]; [done|]. rewrite IH. lra. }
    exists (replicate (o_value opts) (X O)), (replicate (o_der opts) (X (O - 1)%nat)). rewrite !replicate_length. split; [done|]. split; [done|]. split; [apply Forall_replicate, HX|]. split; [apply Forall_replicate; replace O with (S (O - 1)) at 1 by lia; apply HX|].
    assert (Hp : forall k m p, product (replicate m (X k)) p = nth 0 p 0 ^ (m * k)). { intros k m p. induction m as [|m IH]; [done|]. cbn [replicate product foldr]. unfold product in IH. rewrite IH. unfold X. by rewrite <- pow_add. }
    intros (c & Lc & Hc). apply (pow_not_less (q_order opts O)). exists c. split; [done|]. intros x. rewrite <- Hc, product_app, !Hp, <- pow_add. done.
Qed.
Print Assumptions order_of_line.
Lemma lin_der a x : derivable_pt_lim (fun s => a * s) x a.
Proof. pose proof (derivable_pt_lim_scal id a x 1 (derivable_pt_lim_id x)) as H. rewrite Rmult_1_r in H. exact H. Qed.
(** ... on quadrilaterals (and hexahedra) a derivative loses a degree only in one variable:
    the order is too low for products of derivatives. *)
Theorem order_of_quad_refuted : exists opts U f ref, o_value opts = 0%nat /\ o_der opts = 2%nat /\ is_poly Quad 2 U /\ (forall p, length p = 2%nat -> partial U 0 p (f p)) /\ solved (q_order opts 1) ref /\
  exists q v, getQuadrature Quad ref = Ok q /\ integral_on Quad (product [f; f]) v /\ rsum (length q.2) (fun i => nth i q.2 0 * product [f; f] (nth i q.1 [])) <> v.
Proof.
  exists {| o_value := 0; o_der := 2 |}, (fun p => nth 0 p 0 * nth 1 p 0), (fun p => nth 1 p 0), (getReferenceQuadrature 0 lam0 one1). split; [done|]. split; [done|]. split.
  { exists [[1; 0]; []]. split; [done|]. split; [repeat constructor|]. intros x y. unfold poly2. cbn. ring. }
  split. { intros [|x [|y [|z p]]] Hp; try done. exists x. split; [done|]. cbn. apply (derivable_pt_lim_ext (fun s => y * s)); [intros; ring|]. exact (lin_der y x). }
  split; [exists lam0, one1; split; [exact eigen1|done]|]. exists ([[0; 0]], [4]), (4 / 3). split; [cbn; unfold lam0, one1; repeat f_equal; lra|]. split; [|cbn; lra].
  exists (fun y => 2 * (y * y)). split.
  - intros y. exists (fun x => y * y * x). split; [|lra]. intros x. cbn. replace (y * (y * 1)) with (y * y) by ring. exact (lin_der (y * y) x).
  - exists (fun y => 2 / 3 * y ^ 3). split; [|cbn; lra]. intros y. replace (2 * (y * y)) with (2 / 3 * (INR 3 * y ^ 2)) by (cbn; field). exact (derivable_pt_lim_scal (fun y => y ^ 3) (2 / 3) y (INR 3 * y ^ 2) (derivable_pt_lim_pow y 3)).
Qed.
Print Assumptions order_of_quad_refuted.
Section norm.
  Context (absc : nat -> list R) (ref : nat -> list (list R) * list R) (dimension n_equations : nat) (opts : options) (time : R).
  Context (orders : list nat) (x : mesh (list R)) (N : nat) (inds : list nat) (u : nat -> nat -> R).
  (** C77.  Norms over boundaries: the squared norm is the sum of the integrals of the
      squared kernel over the boundary elements, none of which is negative. *)
  Theorem norm_l2_boundary (phi : nat -> nat) (run : list (mesh (list R) * fields)) (kernel : bkernel) (ids : list nat) (locals : list (res vect)) :
    setting absc ref (doubleQuadratureOrder opts) orders x N phi inds u run -> (1 < dimension)%nat -> (forall b, b ∈ ids -> b ∈ (m_bnds x).*1) ->
    Forall2 (fun (yf : mesh (list R) * fields) r => local_boundary_integral absc ref dimension (doubleQuadratureOrder opts) time (square_bkernel kernel) yf.2 yf.1 ids r) run locals ->
    exists W E, Forall2 (fun b v => attached (m_domains x) b v.1 v.2) (elems_of x ids) W /\
      Forall (fun v => side_contributes (absc (el_order v.1)) (2 * q_order opts (el_order v.1)) dimension (fun fv fd X t n k => (kernel fv fd X t n k)²) time inds u v.1 v.2 (E v)) W /\
      forall g, all_reduce n_equations locals g -> forall k, (k < n_equations)%nat -> (forall v, v ∈ W -> 0 <= E v k) /\ 0 <= norms g k /\ (norms g k)² = over W (fun v => E v k).
  Proof.
    intros Hs Hd Hids Hl. destruct (integral_boundary_partial absc ref dimension n_equations (doubleQuadratureOrder opts) time orders x N inds u phi run (square_bkernel kernel) ids locals Hs Hd Hids Hl) as (W & E & H1 & H2 & _ & H3). exists W, E. split; [done|].
    assert (H2' : Forall (fun v => side_contributes (absc (el_order v.1)) (2 * q_order opts (el_order v.1)) dimension (fun fv fd X t n k => (kernel fv fd X t n k)²) time inds u v.1 v.2 (E v)) W).
    { apply (Forall_impl _ _ _ H2). intros v Hv. replace (2 * q_order opts (el_order v.1))%nat with (q_order (doubleQuadratureOrder opts) (el_order v.1)) by (unfold q_order, doubleQuadratureOrder; cbn; lia). exact Hv. }
    split; [done|]. intros g Hg k Hk. assert (Hpos : forall v, v ∈ W -> 0 <= E v k).
    { intros v Hv. destruct (proj1 (Forall_forall _ _) H2' v Hv) as [C1 C2]. destruct (decide (dimension = native_dim (el_type v.1))) as [Ed|Ed]; [|rewrite (C2 Ed k); lra]. destruct (C1 Ed) as (X & J & S & area & nrm & fv & fd & _ & Hb & Hq). destruct (Hq k) as [(pts & ws & Lp & Hin & Hw & ->) _].
      assert (Hdim : native_dim (side_type (el_type v.1)) = (dimension - 1)%nat) by (rewrite Ed in Hd |- *; destruct (el_type v.1); cbn in *; lia).
      apply rsum_pos. intros i Hi. apply Rmult_le_pos.
      - left. apply (proj1 (Forall_forall _ _) Hw). apply elem_of_list_In, nth_In. done.
      - apply Rmult_le_pos; [|apply Rle_0_sqr]. apply Hb. rewrite <- Hdim. apply (proj1 (Forall_forall _ _) Hin (nth i pts [])). apply elem_of_list_In, nth_In. lia. }
    split; [done|]. split; [apply sqrt_pos|]. unfold norms, Rsqr. rewrite sqrt_sqrt; [by apply H3|]. rewrite (H3 g Hg k Hk). clear - Hpos. induction W as [|v W IH]; cbn [over foldr]; [lra|]. apply Rplus_le_le_0_compat; [apply Hpos; left|]. apply IH. intros w Hw. apply Hpos. by right.
  Qed.
End norm.
Print Assumptions norm_l2_boundary.
(** The hypotheses hold for the two squares of C77 in any number of parts, with a kernel
    that takes the first derivative of the field along the normal. *)
Example norm_boundary_example (n_parts : nat) : (1 <= n_parts)%nat -> let opts := {| o_value := 0; o_der := 1 |} in let kernel : bkernel := fun _ fd _ _ n _ => nth 0 (nth 0 fd []) 0 * nth 0 n 0 in
  exists phi run locals, length run = n_parts /\ setting sq_absc sq_ref (doubleQuadratureOrder opts) [1%nat] sq_mesh 6 phi [0%nat] sq_u run /\ (forall b, b ∈ [1%nat] -> b ∈ (m_bnds sq_mesh).*1) /\ elems_of sq_mesh [1%nat] <> [] /\
    Forall2 (fun (yf : mesh (list R) * fields) r => local_boundary_integral sq_absc sq_ref 2 (doubleQuadratureOrder opts) 0 (square_bkernel kernel) yf.2 yf.1 [1%nat] r) run locals.
Proof.
  intros Hn opts kernel. destruct (integral_example n_parts Hn) as (phi & run & Hl & [H1 H2 H3 H4 H5] & Hb & _). exists phi, run.
  assert (Hx : exists locals, Forall2 (fun (yf : mesh (list R) * fields) r => local_boundary_integral sq_absc sq_ref 2 (doubleQuadratureOrder opts) 0 (square_bkernel kernel) yf.2 yf.1 [1%nat] r) run locals).
  { clear. induction run as [|[y fa] l [ls IH]]; [exists []; constructor|]. destruct (integral_exists sq_absc sq_ref 2 (doubleQuadratureOrder opts) 0 fa y [1%nat]) as (_ & H & _). destruct (H (square_bkernel kernel)) as [r Hr]. exists (r :: ls). by constructor. }
  destruct Hx as [locals Hx]. exists locals. split; [done|]. split; [|split; [done|split; [done|done]]]. constructor; [done|done| |done|done].
  intros O HO. apply elem_of_list_singleton in HO as ->. destruct absc1_ok as [K1 K2]. split; [lia|]. split; [done|]. split; [done|]. exists lam0, one1. split; [exact eigen1|done].
Qed.
