(** C77: what one element contributes. *)
From Coq Require Import Reals Lra FunctionalExtensionality.
From Verif Require Import Base StdAlgo Ownership_model Ownership_proofs Elem_model Parallel_model Parallel_proofs Mesh_model Mesh_spec Mesh_proofs LocalBC_proofs Poly_spec Poly_model Poly_proofs Basis_spec Basis_model Basis_proofs Basis2_proofs Gauss_spec Gauss_model Gauss_proofs Gauss2_proofs Gauss_props Geom_spec Geom_model Geom_proofs Integral_model Integral_spec.
Local Open Scope R_scope.

(** ** Interpolating polynomials *)
Lemma list_seq n (l : list R) : length l = n -> map (fun s => nth s l 0) (seq 0 n) = l.
Proof.
  intros <-. apply list_eq. intros i. rewrite (list_lookup_fmap (fun s => nth s l 0)). destruct (l !! i) as [x|] eqn:E.
  - rewrite lookup_seq_lt by (by eapply lookup_lt_Some). cbn. f_equal. by apply nth_lookup_Some.
  - apply lookup_ge_None_1 in E. by rewrite lookup_seq_ge by lia.
Qed.
Lemma poly_comb n m (b : nat -> R) (l : nat -> list R) x : (forall j, (j < m)%nat -> length (l j) = n) ->
  poly (map (fun s => rsum m (fun j => nth s (l j) 0 * b j)) (seq 0 n)) x = rsum m (fun j => poly (l j) x * b j).
Proof.
  intros Hl. rewrite <- (poly_linear m b (fun s j => nth s (l j) 0)). apply rsum_ext. intros j Hj. by rewrite list_seq by (by apply Hl).
Qed.
Lemma poly2_comb n m (b : nat -> R) (l : nat -> list (list R)) x y : (forall j, (j < m)%nat -> length (l j) = n /\ Forall (fun r => length r = n) (l j)) ->
  poly2 (map (fun r => map (fun s => rsum m (fun j => nth s (nth r (l j) []) 0 * b j)) (seq 0 n)) (seq 0 n)) x y = rsum m (fun j => poly2 (l j) x y * b j).
Proof.
  intros Hl. unfold poly2. rewrite map_map. transitivity (poly (map (fun r => rsum m (fun j => poly (nth r (l j) []) x * b j)) (seq 0 n)) y).
  - f_equal. apply map_ext_in. intros r Hr. apply in_seq in Hr. apply (poly_comb n m b (fun j => nth r (l j) [])). intros j Hj. destruct (Hl j Hj) as [H1 H2]. destruct (lookup_lt_is_Some_2 (l j) r) as [v Hv]; [lia|].
    rewrite (nth_lookup_Some _ _ [] _ Hv). by apply (Forall_lookup_1 _ _ _ _ H2 Hv).
  - rewrite <- (poly_linear m b (fun r j => poly (nth r (l j) []) x)). apply rsum_ext. intros j Hj. do 2 f_equal. destruct (Hl j Hj) as [H1 _]. rewrite <- H1. clear. apply list_eq. intros i. rewrite !list_lookup_fmap.
    destruct (l j !! i) as [v|] eqn:E; [|by apply lookup_ge_None_1 in E; rewrite lookup_seq_ge by lia]. rewrite lookup_seq_lt by (by eapply lookup_lt_Some). cbn. by rewrite (nth_lookup_Some _ _ [] _ E).
Qed.
Section poly.
  Context (absc : list R) (Hn : (1 < length absc)%nat) (Hnd : NoDup absc).
  Notation n := (length absc).
  (** Coefficients of the combinations of basis functions. *)
  Definition c1 (a : nat -> R) : list R := map (fun s => rsum n (fun i => nth s (coefs absc i) 0 * a i)) (seq 0 n).
  Definition c2 (a : nat -> nat -> R) : list (list R) := map (fun r => map (fun s => rsum n (fun j => nth s (c1 (fun i => a i j)) 0 * nth r (coefs absc j) 0)) (seq 0 n)) (seq 0 n).
  Definition c3 (a : nat -> nat -> nat -> R) : list (list (list R)) :=
    map (fun q => map (fun r => map (fun s => rsum n (fun k => nth s (nth r (c2 (fun i j => a i j k)) []) 0 * nth q (coefs absc k) 0)) (seq 0 n)) (seq 0 n)) (seq 0 n).
  Lemma c1_ok a : length (c1 a) = n /\ forall x, poly (c1 a) x = rsum n (fun i => a i * Lb absc i x).
  Proof using Hn Hnd.
    split; [unfold c1; by rewrite map_length, seq_length|]. intros x. unfold c1. rewrite (poly_comb n n a (coefs absc)) by (intros j Hj; by apply coefs_ok). apply rsum_ext. intros; unfold Lb; ring.
  Qed.
  Lemma c2_ok a : length (c2 a) = n /\ Forall (fun r => length r = n) (c2 a) /\ forall x y, poly2 (c2 a) x y = rsum n (fun j => rsum n (fun i => a i j * Lb absc i x) * Lb absc j y).
  Proof using Hn Hnd.
    split; [unfold c2; by rewrite map_length, seq_length|]. split; [apply Forall_forall; intros r Hr; apply elem_of_list_fmap in Hr as (k & -> & _); by rewrite map_length, seq_length|].
    intros x y. unfold poly2, c2. rewrite map_map. transitivity (poly (map (fun r => rsum n (fun j => nth r (coefs absc j) 0 * poly (c1 (fun i => a i j)) x)) (seq 0 n)) y).
    - f_equal. apply map_ext. intros r. rewrite (poly_comb n n (fun j => nth r (coefs absc j) 0) (fun j => c1 (fun i => a i j))) by (intros; apply c1_ok). apply rsum_ext. intros; ring.
    - rewrite (poly_comb n n (fun j => poly (c1 (fun i => a i j)) x) (coefs absc)) by (intros j Hj; by apply coefs_ok). apply rsum_ext. intros j Hj. rewrite (proj2 (c1_ok _)). unfold Lb. ring.
  Qed.
  Lemma c3_ok a : length (c3 a) = n /\ Forall (fun r => length r = n /\ Forall (fun s => length s = n) r) (c3 a) /\
    forall x y z, poly3 (c3 a) x y z = rsum n (fun k => rsum n (fun j => rsum n (fun i => a i j k * Lb absc i x) * Lb absc j y) * Lb absc k z).
  Proof using Hn Hnd.
    split; [unfold c3; by rewrite map_length, seq_length|]. split.
    { apply Forall_forall; intros r Hr; apply elem_of_list_fmap in Hr as (k & -> & _). split; [by rewrite map_length, seq_length|]. apply Forall_forall; intros r Hr; apply elem_of_list_fmap in Hr as (k' & -> & _). by rewrite map_length, seq_length. }
    intros x y z. unfold poly3, c3. rewrite map_map. transitivity (poly (map (fun r => rsum n (fun k => nth r (coefs absc k) 0 * poly2 (c2 (fun i j => a i j k)) x y)) (seq 0 n)) z).
    - f_equal. apply map_ext. intros r. rewrite (poly2_comb n n (fun k => nth r (coefs absc k) 0) (fun k => c2 (fun i j => a i j k))) by (intros k Hk; destruct (c2_ok (fun i j => a i j k)) as (H1 & H2 & _); done). apply rsum_ext. intros; ring.
    - rewrite (poly_comb n n (fun k => poly2 (c2 (fun i j => a i j k)) x y) (coefs absc)) by (intros j Hj; by apply coefs_ok). apply rsum_ext. intros k Hk. destruct (c2_ok (fun i j => a i j k)) as (_ & _ & ->). unfold Lb. ring.
  Qed.
  Lemma comb_poly t (a : nat -> R) : is_poly t n (fun q => rsum (n_basis_fun t absc) (fun b => a b * Bv t absc b 0 q)).
  Proof using Hn Hnd.
    rewrite (count absc Hn t). destruct t; cbn [is_poly].
    - set (A := fun i j k => a (i + n * j + n * n * k)%nat). destruct (c3_ok A) as (H1 & H2 & H3). exists (c3 A). split; [lia|]. split; [apply (Forall_impl _ _ _ H2); intros r [Hr Hr']; split; [lia|]; apply (Forall_impl _ _ _ Hr'); lia|].
      intros x y z. rewrite H3. rewrite (rsum_ext (n * n * n) _ (fun I => (fun q k : nat => A (q `mod` n)%nat (q / n)%nat k * (Lb absc (q `mod` n) x * Lb absc (q / n) y) * Lb absc k z) (I `mod` (n * n))%nat (I / (n * n))%nat)).
      2:{ intros I HI. cbv beta. destruct (hex_mod absc Hn I) as [E1 E2]. rewrite E1, E2. unfold Bv, G. cbn [nth Nat.eqb]. unfold A. replace (I `mod` n + n * ((I / n) `mod` n) + n * n * (I / (n * n)))%nat with I; [ring|].
          pose proof (Nat.div_mod I (n * n) ltac:(lia)) as EI. pose proof (Nat.div_mod (I `mod` (n * n)) n ltac:(lia)) as FI. rewrite E1, E2 in FI. lia. }
      rewrite (rsum_grid (n * n) n (fun q k : nat => A (q `mod` n)%nat (q / n)%nat k * (Lb absc (q `mod` n) x * Lb absc (q / n) y) * Lb absc k z)) by lia. apply rsum_ext. intros k Hk. rewrite Rmult_comm, <- rsum_scal. 
      rewrite (rsum_grid n n (fun i j : nat => A i j k * (Lb absc i x * Lb absc j y) * Lb absc k z)) by lia. apply rsum_ext. intros j Hj. rewrite (Rmult_comm _ (Lb absc j y)), <- rsum_scal, <- rsum_scal. apply rsum_ext. intros; ring.
    - set (A := fun i j => a (i + n * j)%nat). destruct (c2_ok A) as (H1 & H2 & H3). exists (c2 A). split; [lia|]. split; [apply (Forall_impl _ _ _ H2); lia|].
      intros x y. rewrite H3. rewrite (rsum_ext (n * n) _ (fun I => (fun i j : nat => A i j * (Lb absc i x * Lb absc j y)) (I `mod` n)%nat (I / n)%nat)).
      2:{ intros I HI. cbv beta. unfold Bv, G, A. cbn [nth Nat.eqb]. replace (I `mod` n + n * (I / n))%nat with I; [done|]. pose proof (Nat.div_mod I n ltac:(lia)). lia. }
      rewrite (rsum_grid n n (fun i j : nat => A i j * (Lb absc i x * Lb absc j y))) by lia. apply rsum_ext. intros j Hj. rewrite Rmult_comm, <- rsum_scal. apply rsum_ext. intros; ring.
    - destruct (c1_ok a) as [H1 H2]. exists (c1 a). split; [lia|]. intros x. by rewrite H2.
  Qed.
  (** The interpolating polynomial. *)
  Definition interp (t : etype) (a : nat -> R) (p : list R) : R := rsum (n_basis_fun t absc) (fun b => a b * Bv t absc b 0 p).
  Lemma interp_node t a I q : node_locations t absc !! I = Some q -> interp t a q = a I.
  Proof using Hn Hnd.
    intros HI. destruct (node_at absc Hn t I q HI) as [HIn _]. unfold interp. rewrite (rsum_one _ _ I HIn).
    - rewrite (at_nodes absc Hn Hnd t I I q HIn HI), decide_True by done. lra.
    - intros k Hk Hne. rewrite (at_nodes absc Hn Hnd t k I q Hk HI), decide_False by done. lra.
  Qed.
  Lemma interp_der t a d p : (d < native_dim t)%nat -> length p = native_dim t -> partial (interp t a) d p (rsum (n_basis_fun t absc) (fun b => a b * Bv t absc b (S d) p)).
  Proof using Hn Hnd.
    intros Hd Hp. destruct (lookup_lt_is_Some_2 p d) as [x0 Hx0]; [lia|]. exists x0. split; [done|]. unfold interp. apply rsum_der. intros b Hb. apply derivable_pt_lim_scal.
    destruct (Bv_der absc Hn Hnd t b d p Hb Hd Hp) as (x1 & Hx1 & He). rewrite Hx0 in Hx1. injection Hx1 as ->. done.
  Qed.
End poly.
(** ** One point *)
Section point.
  Context (t : etype) (V : list (list R)) (HV : length V = nodes_per_element t 1) (H3 : Forall (fun v => length v = 3%nat) V).
  Context (absc : list R) (Hn : (1 < length absc)%nat) (Hnd : NoDup absc) (nf : nat) (nvals : list (list R)).
  Notation NB := (n_basis_fun t absc).
  Notation dim := (native_dim t).
  Definition fvals (p : list R) : list R := map (fun f => interp absc t (fun b => ent nvals b f) p) (seq 0 nf).
  Definition pders (p : list R) : list (list R) := computePhysBasisDers dim NB (Jm t V p) (mk dim NB (fun d I => Bv t absc I (S d) p)).
  Definition fders (p : list R) : list (list R) := mmul dim NB nf (pders p) nvals.
  Lemma input_ok p : length p = dim -> kernel_input t absc nf V nvals (pders p) p = Ok (fvals p, fders p, Xf t V p).
  Proof using HV H3 Hn Hnd.
    intros Hp. unfold kernel_input. unfold computeRefBasis. rewrite (map_res_map _ (fun I => Bv t absc I 0 p)) by (intros I HI; apply elem_of_seq in HI; apply fun_ok; (done || lia)).
    rewrite bind_ok. rewrite (map_ok t V HV H3 p Hp), bind_ok. f_equal. f_equal. f_equal. unfold fvals. apply map_ext. intros f. rewrite dot_rsum. unfold interp. apply rsum_ext. intros b Hb. f_equal.
    apply nth_lookup_Some. rewrite (list_lookup_fmap (fun I => Bv t absc I 0 p)). by rewrite lookup_seq_lt by done.
  Qed.
  Lemma fders_ok p j f : length p = dim -> determinant dim (Jm t V p) <> 0 -> (j < dim)%nat -> (f < nf)%nat ->
    forall g : nat -> R, (forall d, (d < dim)%nat -> rsum NB (fun b => ent nvals b f * Bv t absc b (S d) p) = inner dim g (ent (Jm t V p) d)) -> ent (fders p) j f = g j.
  Proof using.
    clear HV H3 Hn Hnd. intros Hp Hdet Hj Hf g Hg. unfold fders. rewrite mmul_ent by done. rewrite <- (phys_grad t V absc p j (fun b => ent nvals b f) g Hdet Hj Hg). apply rsum_ext. intros b Hb. unfold pders. ring.
  Qed.
  (** The gradient exists: the Jacobi matrix is regular. *)
  Lemma fders_chain p d f : length p = dim -> determinant dim (Jm t V p) <> 0 -> (d < dim)%nat -> (f < nf)%nat ->
    inner dim (fun j => ent (fders p) j f) (ent (Jm t V p) d) = rsum NB (fun b => ent nvals b f * Bv t absc b (S d) p).
  Proof using.
    clear HV H3 Hn Hnd. intros Hp Hdet Hd Hf. set (J := Jm t V p) in *. set (r := fun d => rsum NB (fun b => ent nvals b f * Bv t absc b (S d) p)).
    set (g := fun j => rsum dim (fun l => ent (inverse dim J) j l * r l)).
    assert (Hg : forall d, (d < dim)%nat -> r d = inner dim g (ent J d)).
    { intros d' Hd'. unfold inner, g. rewrite (rsum_ext dim _ (fun i => rsum dim (fun l => r l * (ent J d' i * ent (inverse dim J) i l)))) by (intros i Hi; rewrite Rmult_comm, <- rsum_scal; apply rsum_ext; intros; ring).
      rewrite rsum_swap2. rewrite (rsum_ext dim _ (fun l => delta d' l * r l)); [by rewrite delta_sum|]. intros l Hl. rewrite rsum_scal, inverse_right by (done || apply dim_13). ring. }
    change (rsum NB (fun b => ent nvals b f * Bv t absc b (S d) p)) with (r d). rewrite (Hg d Hd). unfold inner. apply rsum_ext. intros j Hj. f_equal. by apply fders_ok.
  Qed.
  Lemma sees_ok p : length p = dim -> determinant dim (Jm t V p) <> 0 -> sees t absc (Jm t V) (fun I f => ent nvals I f) nf p (fvals p) (fders p).
  Proof using Hn Hnd.
    clear HV H3. intros Hp Hdet. split; [unfold fvals; by rewrite map_length, seq_length|]. split; [unfold fders, mmul, mk; by rewrite map_length, seq_length|]. split; [apply Forall_forall; intros row Hrow; unfold fders, mmul, mk in Hrow; apply elem_of_list_fmap in Hrow as (i & -> & _); by rewrite map_length, seq_length|]. intros f Hf. exists (interp absc t (fun b => ent nvals b f)).
    split; [by apply comb_poly|]. split; [intros I q HI; by rewrite (interp_node absc Hn Hnd t (fun b => ent nvals b f) I q HI)|]. split.
    - apply nth_lookup_Some. unfold fvals. rewrite (list_lookup_fmap (fun f => interp absc t (fun b => ent nvals b f) p)). by rewrite lookup_seq_lt by done.
    - intros d Hd. rewrite fders_chain by done. by apply interp_der.
  Qed.
  Lemma geometry_ok : geometry t V (Xf t V) (Jm t V).
  Proof using HV H3.
    clear nvals nf Hnd Hn absc. intros p Hp. split; [by apply map_ok|]. intros d s Hd Hs. destruct (X_der t V d s p Hd Hs Hp) as (x & Hx & He). exists x. split; [done|].
    apply (derivable_pt_lim_ext (fun r => Xc t V s (<[d := r]> p))); [|done]. intros r. unfold Xf. destruct t; cbn in Hs; destruct s as [|[|[|s]]]; try lia; done.
  Qed.
  (** The integrand. *)
  Definition integrand (kernel : dkernel) (time : R) (k : nat) (p : list R) : R := determinant dim (Jm t V p) * kernel (fvals p) (fders p) (Xf t V p) time k.
  Lemma domain_value_ok kernel time p : length p = dim -> domain_value kernel time t absc nf V nvals p = Ok (fun k => integrand kernel time k p).
  Proof using HV H3 Hn Hnd.
    intros Hp. unfold domain_value. rewrite (ders_ok t absc Hn Hnd p Hp), bind_ok, (jac_ok t V HV H3 p Hp), bind_ok. fold (pders p). rewrite input_ok by done. by rewrite bind_ok.
  Qed.
End point.
Lemma vadd_0 v : vadd vzero v = v.
Proof. apply functional_extensionality. intros k. unfold vadd, vzero. lra. Qed.
Lemma evalQuad_ok (f : list R -> res vect) (g : nat -> list R -> R) q : (forall p, p ∈ q.1 -> f p = Ok (fun k => g k p)) -> length q.1 = length q.2 ->
  evalQuad f q = Ok (fun k => rsum (length q.2) (fun i => g k (nth i q.1 []) * nth i q.2 0)).
Proof.
  destruct q as [ps ws]. cbn [fst snd]. unfold evalQuad. cbn [fst snd]. intros Hf Hl.
  assert (H : forall acc, for_each (fun (pw : list R * R) acc => v ← f pw.1; Ok (vadd acc (fun k => v k * pw.2))) (zip ps ws) acc = Ok (fun k => acc k + rsum (length ws) (fun i => g k (nth i ps []) * nth i ws 0))).
  { revert ws Hl. induction ps as [|p ps IH]; intros [|w ws] Hl acc; try done.
    - cbn. f_equal. apply functional_extensionality. intros k. lra.
    - cbn [zip for_each fst snd]. rewrite Hf by left. rewrite !bind_ok. rewrite IH; [|intros; apply Hf; by right|by injection Hl]. f_equal. apply functional_extensionality. intros k. unfold vadd. cbn [length].
      change (S (length ws)) with (1 + length ws)%nat. rewrite rsum_app. cbn [rsum nth Nat.add]. ring. }
  rewrite H. f_equal. apply functional_extensionality. intros k. unfold vzero. lra.
Qed.

(** ** Fields *)
Section fields.
  Context (fa : fields) (N : nat) (phi : nat -> nat) (u : nat -> nat -> R).
  Hypothesis Hown : StronglySorted lt (so_shared (f_own fa)) /\ forall n, n ∈ so_shared (f_own fa) -> isOwned (f_own fa) n = false.
  Hypothesis Hh : holds (f_own fa) (f_data fa) (f_inds fa) N phi u.
  Lemma local_index n : n ∈ local_ids (f_own fa) -> local_ids (f_own fa) !! getLocalIndex (f_own fa) n = Some n.
  Proof using Hown.
    destruct Hown as [Hs Hd]. unfold local_ids, getLocalIndex, numOwned. set (o := f_own fa) in *. intros Hn. apply elem_of_app in Hn. destruct (isOwned o n) eqn:E.
    - apply isOwned_spec in E. rewrite lookup_app_l by (rewrite seq_length; lia). rewrite lookup_seq_lt by lia. f_equal. lia.
    - destruct Hn as [Hn|Hn].
      + apply elem_of_seq in Hn. assert (isOwned o n = true) by (apply isOwned_spec; lia). congruence.
      + rewrite lookup_app_r by (rewrite seq_length; lia). rewrite seq_length. replace (so_end o - so_begin o + lower_bound (so_shared o) n - (so_end o - so_begin o))%nat with (lower_bound (so_shared o) n) by lia.
        apply lower_bound_found; [|done]. apply StronglySorted_Sorted. clear -Hs. induction Hs as [|a l _ IH HF]; constructor; [done|]. eapply Forall_impl; [exact HF|]. intros; unfold Nat.le; lia.
  Qed.
  Lemma fields_ok nodes : Forall (fun n => (n < N)%nat /\ phi n ∈ local_ids (f_own fa)) nodes ->
    getGloballyIndexed fa (map phi nodes) = Ok (map (fun n => map (fun f => u f n) (f_inds fa)) nodes).
  Proof using Hown Hh.
    intros Hn. unfold getGloballyIndexed. rewrite !map_map. induction Hn as [|n nodes [HN Hl] _ IH]; [done|]. cbn [map map_res].
    assert (E : map_res (fun f => rd (f_data fa) (getLocalIndex (f_own fa) (phi n) + f * localSize (f_own fa))) (f_inds fa) = Ok (map (fun f => u f n) (f_inds fa))).
    { apply map_res_map. intros f Hf. apply rd_ok. assert (Els : localSize (f_own fa) = length (local_ids (f_own fa))) by (unfold localSize, local_ids, numOwned; by rewrite app_length, seq_length). rewrite Els. apply Hh; [done|done|]. by apply local_index. }
    rewrite E, bind_ok, IH, bind_ok. done.
  Qed.
End fields.
