(** Proofs for C68, part 1: the mapping, its derivative and physical derivatives. *)
From Coq Require Import Reals Lra.
From Verif Require Import Base StdAlgo Elem_model Elem_spec Elem_proofs Poly_model Poly_spec Poly_proofs Poly2_proofs Basis_model Basis_spec Basis_proofs Basis2_proofs
  Geom_model Geom_spec.
Local Open Scope R_scope.

(** ** Sums and matrices. *)
Lemma rsum_le n f g : (forall i, (i < n)%nat -> f i <= g i) -> rsum n f <= rsum n g.
Proof. induction n as [|n IH]; intros H; cbn; [lra|]. specialize (IH ltac:(intros; apply H; lia)). specialize (H n ltac:(lia)). lra. Qed.
Lemma rsum_pos n f : (forall i, (i < n)%nat -> 0 <= f i) -> 0 <= rsum n f.
Proof. induction n as [|n IH]; intros H; cbn; [lra|]. specialize (IH ltac:(intros; apply H; lia)). specialize (H n ltac:(lia)). lra. Qed.
Lemma rsum_abs n f : Rabs (rsum n f) <= rsum n (fun i => Rabs (f i)).
Proof. induction n as [|n IH]; cbn; [rewrite Rabs_R0; lra|]. pose proof (Rabs_triang (rsum n f) (f n)). lra. Qed.
Lemma rsum_swap2 n m f : rsum n (fun i => rsum m (fun j => f i j)) = rsum m (fun j => rsum n (fun i => f i j)).
Proof. induction n as [|n IH]; cbn; [symmetry; by apply rsum_zero|]. rewrite IH. symmetry. apply (rsum_plus m). Qed.
Lemma dot_rsum n f g : dot n f g = rsum n (fun i => f i * g i).
Proof.
  unfold dot. assert (H : forall s, foldr (fun i a => f i * g i + a) 0 (seq s n) = rsum n (fun i => f (s + i)%nat * g (s + i)%nat)); [|apply (H O)].
  induction n as [|n IH]; intros s; [done|]. rewrite seq_S, foldr_app. cbn [foldr rsum]. rewrite Rplus_0_r.
  assert (Hf : forall l a, foldr (fun i a => f i * g i + a) a l = foldr (fun i a => f i * g i + a) 0 l + a). { clear. induction l as [|x l IH]; intros a; cbn; [lra|]. rewrite IH. lra. }
  rewrite Hf, IH. done.
Qed.
Lemma ent_mk n m f i j : (i < n)%nat -> (j < m)%nat -> ent (mk n m f) i j = f i j.
Proof.
  intros Hi Hj. unfold ent, mk. assert (H1 : nth i (map (fun i => map (f i) (seq 0 m)) (seq 0 n)) [] = map (f i) (seq 0 m)).
  { apply nth_lookup_Some. by rewrite (list_lookup_fmap (fun i => map (f i) (seq 0 m))), lookup_seq_lt by done. }
  rewrite H1. apply nth_lookup_Some. rewrite (list_lookup_fmap (f i)), lookup_seq_lt by done. done.
Qed.
Lemma nth_vec n v i : (i < n)%nat -> nth i (vec n v) 0 = v i.
Proof. intros Hi. unfold vec. apply nth_lookup_Some. rewrite (list_lookup_fmap v), lookup_seq_lt by done. done. Qed.
Lemma mmul_ent n m k A B i j : (i < n)%nat -> (j < k)%nat -> ent (mmul n m k A B) i j = rsum m (fun l => ent A i l * ent B l j).
Proof. intros Hi Hj. unfold mmul. rewrite ent_mk by done. apply dot_rsum. Qed.
(** The determinant and the inverse. *)
Lemma det_ok n A : (1 <= n <= 3)%nat -> determinant n A = det n (ent A).
Proof. intros Hn. destruct n as [|[|[|[|n]]]]; [lia| | | |lia]; cbn; ring. Qed.
Definition delta (i j : nat) : R := if (i =? j)%nat then 1 else 0.
Lemma inverse_right n A i j : (1 <= n <= 3)%nat -> determinant n A <> 0 -> (i < n)%nat -> (j < n)%nat -> rsum n (fun l => ent A i l * ent (inverse n A) l j) = delta i j.
Proof.
  intros Hn Hd Hi Hj. unfold inverse. rewrite (rsum_ext n _ (fun l => ent A i l * (ent (adjugate n A) l j / determinant n A))) by (intros l Hl; by rewrite ent_mk).
  destruct n as [|[|[|[|n]]]]; [lia| | | |lia]; destruct i as [|[|[|i]]]; try lia; destruct j as [|[|[|j]]]; try lia; cbn in *; unfold minor, delta; cbn [Nat.eqb]; field; done.
Qed.
Lemma inverse_left n A i j : (1 <= n <= 3)%nat -> determinant n A <> 0 -> (i < n)%nat -> (j < n)%nat -> rsum n (fun l => ent (inverse n A) i l * ent A l j) = delta i j.
Proof.
  intros Hn Hd Hi Hj. unfold inverse. rewrite (rsum_ext n _ (fun l => ent (adjugate n A) i l / determinant n A * ent A l j)) by (intros l Hl; by rewrite ent_mk).
  destruct n as [|[|[|[|n]]]]; [lia| | | |lia]; destruct i as [|[|[|i]]]; try lia; destruct j as [|[|[|j]]]; try lia; cbn in *; unfold minor, delta; cbn [Nat.eqb]; field; done.
Qed.
Lemma delta_sum n j f : (j < n)%nat -> rsum n (fun i => delta j i * f i) = f j.
Proof. intros Hj. rewrite (rsum_one _ _ j Hj); [unfold delta; rewrite Nat.eqb_refl; lra|]. intros i Hi Hne. unfold delta. destruct (Nat.eqb_spec j i); [congruence|lra]. Qed.

(** ** The chain rule. *)
Lemma uniform n (c : R -> nat -> R) s v : (forall i, (i < n)%nat -> derivable_pt_lim (fun s => c s i) s (v i)) ->
  forall eta, 0 < eta -> exists d, 0 < d /\ forall h, h <> 0 -> Rabs h < d -> forall i, (i < n)%nat -> Rabs ((c (s + h) i - c s i) / h - v i) < eta.
Proof.
  induction n as [|n IH]; intros H eta He; [exists 1; split; [lra|]; intros; lia|]. destruct (IH ltac:(intros; apply H; lia) eta He) as (d1 & Hd1 & H1). destruct (H n ltac:(lia) eta He) as [d2 H2].
  pose proof (cond_pos d2) as Hp. exists (Rmin d1 d2). split; [by apply Rmin_glb_lt|]. intros h Hh Hlt i Hi.
  pose proof (Rmin_l d1 d2). pose proof (Rmin_r d1 d2). destruct (decide (i = n)) as [->|]; [apply H2; [done|lra]|apply H1; [done|lra|lia]].
Qed.
Lemma chain n u (c : R -> list R) s v g : (forall s, length (c s) = n) -> (forall i, (i < n)%nat -> derivable_pt_lim (fun s => nth i (c s) 0) s (v i)) ->
  gradient n u (c s) g -> derivable_pt_lim (fun s => u (c s)) s (inner n g v).
Proof.
  intros Hl Hc Hg eps Heps. set (A := rsum n (fun i => Rabs (g i))). set (K := rsum n (fun i => Rabs (v i) + 1)).
  assert (HA : 0 <= A) by (apply rsum_pos; intros; apply Rabs_pos). assert (HK : 0 <= K) by (apply rsum_pos; intros i _; pose proof (Rabs_pos (v i)); lra).
  assert (He1 : 0 < eps / (4 * (K + 1))) by (apply Rdiv_lt_0_compat; lra). destruct (Hg _ He1) as (du & Hdu & Hu).
  set (eta := Rmin 1 (eps / (4 * (A + 1)))). assert (Heta : 0 < eta) by (apply Rmin_glb_lt; [lra|]; apply Rdiv_lt_0_compat; lra).
  destruct (uniform n (fun s i => nth i (c s) 0) s v Hc eta Heta) as (dc & Hdc & Hq). assert (Hm : 0 < Rmin dc (du / (K + 1))) by (apply Rmin_glb_lt; [done|]; apply Rdiv_lt_0_compat; lra).
  exists (mkposreal _ Hm). intros h Hh Hlt. cbn in Hlt. pose proof (Rmin_l dc (du / (K + 1))) as M1. pose proof (Rmin_r dc (du / (K + 1))) as M2. specialize (Hq h Hh ltac:(lra)). cbv beta in Hq.
  assert (Hah : 0 < Rabs h) by (by apply Rabs_pos_lt). set (D := fun i => nth i (c (s + h)) 0 - nth i (c s) 0) in *.
  assert (HD : forall i, (i < n)%nat -> Rabs (D i / h - v i) < eta) by exact Hq.
  assert (Hd1 : dist1 n (c s) (c (s + h)) <= K * Rabs h).
  { unfold dist1, K. rewrite (Rmult_comm _ (Rabs h)), <- rsum_scal. apply rsum_le. intros i Hi. fold (D i). replace (D i) with (h * (D i / h)) by (field; done). rewrite Rabs_mult. apply Rmult_le_compat_l; [lra|].
    specialize (HD i Hi). pose proof (Rmin_l 1 (eps / (4 * (A + 1)))). fold eta in H. pose proof (Rabs_triang (D i / h - v i) (v i)) as Ht. replace (D i / h - v i + v i) with (D i / h) in Ht by ring. lra. }
  assert (Hk : K * Rabs h < du). { assert (Hx : (K + 1) * Rabs h < du); [|nra]. apply Rmult_lt_reg_r with (/ (K + 1)); [apply Rinv_0_lt_compat; lra|]. replace ((K + 1) * Rabs h * / (K + 1)) with (Rabs h) by (field; lra). unfold Rdiv in M2. lra. }
  specialize (Hu (c (s + h)) (Hl _) ltac:(lra)). fold D in Hu. change (fun i => nth i (c (s + h)) 0 - nth i (c s) 0) with D in Hu.
  set (E := u (c (s + h)) - u (c s) - inner n g D) in *. assert (HE : Rabs E <= eps / 4 * Rabs h).
  { eapply Rle_trans; [exact Hu|]. eapply Rle_trans; [apply Rmult_le_compat_l; [lra|exact Hd1]|]. replace (eps / (4 * (K + 1)) * (K * Rabs h)) with (eps / 4 * Rabs h * (K / (K + 1))) by (field; lra).
    assert (Hr : K / (K + 1) <= 1) by (apply Rmult_le_reg_r with (K + 1); [lra|]; unfold Rdiv; rewrite Rmult_assoc, Rinv_l; lra). pose proof (Rmult_lt_0_compat (eps / 4) (Rabs h) ltac:(lra) Hah). nra. }
  assert (HI : Rabs (inner n g (fun i => D i / h - v i)) <= eps / 4).
  { unfold inner. eapply Rle_trans; [apply rsum_abs|]. apply Rle_trans with (rsum n (fun i => Rabs (g i) * eta)).
    - apply rsum_le. intros i Hi. rewrite Rabs_mult. apply Rmult_le_compat_l; [apply Rabs_pos|]. specialize (HD i Hi). lra.
    - rewrite (rsum_ext n _ (fun i => eta * Rabs (g i))) by (intros; ring). rewrite rsum_scal. fold A. pose proof (Rmin_r 1 (eps / (4 * (A + 1)))) as Hr. fold eta in Hr.
      apply Rle_trans with (eps / (4 * (A + 1)) * A); [by apply Rmult_le_compat_r|]. apply Rmult_le_reg_r with (4 * (A + 1)); [lra|]. replace (eps / (4 * (A + 1)) * A * (4 * (A + 1))) with (eps * A) by (field; lra). nra. }
  assert (HS : (u (c (s + h)) - u (c s)) / h - inner n g v = E / h + inner n g (fun i => D i / h - v i)).
  { unfold E. assert (Hs : inner n g (fun i => D i / h - v i) = inner n g D / h - inner n g v); [|rewrite Hs; field; done].
    unfold inner. rewrite (rsum_ext n _ (fun i => / h * (g i * D i) + (-1) * (g i * v i))) by (intros; unfold Rdiv; ring). rewrite (rsum_plus n (fun i => / h * (g i * D i)) (fun i => (-1) * (g i * v i))). rewrite !rsum_scal. unfold Rdiv. ring. }
  rewrite HS. pose proof (Rabs_triang (E / h) (inner n g (fun i => D i / h - v i))) as Ht. assert (Heh : Rabs (E / h) <= eps / 4).
  { unfold Rdiv. rewrite Rabs_mult, Rabs_inv. apply Rmult_le_reg_r with (Rabs h); [done|]. rewrite Rmult_assoc, Rinv_l by lra. lra. }
  lra.
Qed.

(** ** The mapping. *)
Lemma absc1_ok : (1 < length absc1)%nat /\ NoDup absc1.
Proof. split; [cbn; lia|]. unfold absc1. cbn. repeat constructor; rewrite ?elem_of_list_singleton; try (intros H; inversion H); try lra; set_solver. Qed.
Lemma n1_eq t : n_basis_fun t absc1 = nodes_per_element t 1.
Proof. done. Qed.
Definition Xc (t : etype) (V : list (list R)) (d : nat) (q : list R) : R := rsum (nodes_per_element t 1) (fun k => nth d (nth k V []) 0 * Bv t absc1 k 0 q).
Definition Xf (t : etype) (V : list (list R)) (q : list R) : list R := [Xc t V 0 q; Xc t V 1 q; Xc t V 2 q].
Definition Jm (t : etype) (V : list (list R)) (p : list R) : list (list R) :=
  mk (native_dim t) (native_dim t) (fun d s => rsum (nodes_per_element t 1) (fun k => nth s (nth k V []) 0 * Bv t absc1 k (S d) p)).
Lemma fold_sum f (g : nat -> R) n a : (forall k x, (k < n)%nat -> f k x = Ok (x + g k)) -> for_each f (seq 0 n) a = Ok (a + rsum n g).
Proof.
  induction n as [|n IH]; intros H; [cbn; f_equal; lra|]. rewrite seq_S, for_each_app, IH by (intros; apply H; lia). rewrite bind_ok. cbn [for_each Nat.add]. rewrite H by lia. rewrite bind_ok. cbn [rsum]. f_equal. lra.
Qed.
Section map.
  Context (t : etype) (V : list (list R)) (HV : length V = nodes_per_element t 1) (H3 : Forall (fun v => length v = 3%nat) V).
  Lemma V3 k : (k < nodes_per_element t 1)%nat -> rd V k = Ok (nth k V []) /\ length (nth k V []) = 3%nat.
  Proof using HV H3.
    intros Hk. destruct (lookup_lt_is_Some_2 V k) as [v Hv]; [lia|]. rewrite (nth_lookup_Some _ _ [] _ Hv). split; [by apply rd_ok|]. by apply (Forall_lookup_1 _ _ _ _ H3 Hv).
  Qed.
  Lemma map_ok q : length q = native_dim t -> mapToPhysicalSpace t V q = Ok (Xf t V q).
  Proof using HV H3.
    intros Hq. destruct absc1_ok as [H1 H2]. unfold mapToPhysicalSpace. rewrite (map_res_map _ (fun d => Xc t V d q)); [done|]. intros d Hd.
    assert (Hd3 : (d < 3)%nat) by (apply elem_of_list_In in Hd; destruct Hd as [<-|[<-|[<-|[]]]]; lia). clear Hd.
    rewrite (map_res_map _ (fun v => nth d v 0)).
    - rewrite bind_ok, valueAt_ok; [|done|done|by rewrite map_length|done]. rewrite n1_eq. f_equal. apply rsum_ext. intros k Hk. f_equal. destruct (lookup_lt_is_Some_2 V k) as [v Hv]; [lia|].
      rewrite (nth_lookup_Some _ _ [] _ Hv). apply nth_lookup_Some. by rewrite (list_lookup_fmap (fun v => nth d v 0)), Hv.
    - intros v Hv. apply rd_nth. pose proof (proj1 (Forall_forall _ _) H3 v Hv) as Hl. cbv beta in Hl. lia.
  Qed.
  Lemma jac_ok p : length p = native_dim t -> jacobiMat t V p = Ok (Jm t V p).
  Proof using HV H3.
    intros Hp. destruct absc1_ok as [H1 H2]. unfold jacobiMat, Jm, mk. apply map_res_map. intros d Hd. apply elem_of_seq in Hd. apply map_res_map. intros s Hs. apply elem_of_seq in Hs.
    rewrite (fold_sum _ (fun k => nth s (nth k V []) 0 * Bv t absc1 k (S d) p)); [by rewrite Rplus_0_l|]. intros k x Hk. destruct (V3 k Hk) as [-> Hl]. rewrite bind_ok.
    rewrite rd_nth by (rewrite Hl; destruct t; cbn in *; lia). rewrite bind_ok. unfold derivativeByIndex. rewrite Nat.add_1_r. rewrite fun_ok; [by rewrite bind_ok|done|done|done|lia|done].
  Qed.
  Lemma X_der d s p : (d < native_dim t)%nat -> (s < native_dim t)%nat -> length p = native_dim t -> partial (Xc t V s) d p (ent (Jm t V p) d s).
  Proof using.
    clear HV H3. intros Hd Hs Hp. destruct absc1_ok as [H1 H2]. unfold Jm. rewrite ent_mk by done. destruct (lookup_lt_is_Some_2 p d) as [x0 Hx0]; [lia|]. exists x0. split; [done|]. unfold Xc. apply rsum_der.
    intros k Hk. apply derivable_pt_lim_scal. destruct (Bv_der absc1 H1 H2 t k d p Hk Hd Hp) as (x1 & Hx1 & He). rewrite Hx0 in Hx1. injection Hx1 as ->. done.
  Qed.
  Lemma Xf_nth s q : (s < native_dim t)%nat -> nth s (take (native_dim t) (Xf t V q)) 0 = Xc t V s q.
  Proof using. clear HV H3. destruct t; cbn; intros Hs; destruct s as [|[|[|s]]]; try lia; done. Qed.
  Lemma Xf_len q : length (take (native_dim t) (Xf t V q)) = native_dim t.
  Proof using. clear HV H3. destruct t; done. Qed.
  (** Gradients. *)
  Context (absc : list R) (Hn : (1 < length absc)%nat) (Hnd : NoDup absc).
  Lemma ders_ok p : length p = native_dim t -> computeRefBasisDers t absc p = Ok (mk (native_dim t) (n_basis_fun t absc) (fun d I => Bv t absc I (S d) p)).
  Proof using Hn Hnd.
    clear HV H3. intros Hp. unfold computeRefBasisDers, mk. apply map_res_map. intros d Hd. apply elem_of_seq in Hd. apply map_res_map. intros I HI. apply elem_of_seq in HI. unfold derivativeByIndex. rewrite Nat.add_1_r. apply fun_ok; (done || lia).
  Qed.
  Lemma dim_13 : (1 <= native_dim t <= 3)%nat.
  Proof using. clear. destruct t; cbn; lia. Qed.
  Lemma ref_grad u g k p : is_poly t (length absc) (fun q => u (take (native_dim t) (Xf t V q))) -> (k < native_dim t)%nat -> length p = native_dim t ->
    gradient (native_dim t) u (take (native_dim t) (Xf t V p)) g ->
    rsum (n_basis_fun t absc) (fun I => nth I (map (fun q => u (take (native_dim t) (Xf t V q))) (node_locations t absc)) 0 * Bv t absc I (S k) p) = inner (native_dim t) g (ent (Jm t V p) k).
  Proof using Hn Hnd.
    clear HV H3. intros Hf Hk Hp Hg. destruct (grad_poly absc Hn Hnd t _ k p Hf Hk Hp) as (x0 & Hx0 & Hd). apply (uniqueness_limite (fun s => u (take (native_dim t) (Xf t V (<[k := s]> p)))) x0); [exact Hd|].
    apply (chain (native_dim t) u (fun s => take (native_dim t) (Xf t V (<[k := s]> p))) x0 (ent (Jm t V p) k) g).
    - intros s. apply Xf_len.
    - intros i Hi. apply (derivable_pt_lim_ext (fun s => Xc t V i (<[k := s]> p))); [intros s; by rewrite Xf_nth|]. destruct (X_der k i p Hk Hi Hp) as (x1 & Hx1 & He). rewrite Hx0 in Hx1. injection Hx1 as ->. done.
    - rewrite list_insert_id by done. done.
  Qed.
  Lemma phys_grad p j (w : nat -> R) (g : nat -> R) : determinant (native_dim t) (Jm t V p) <> 0 -> (j < native_dim t)%nat ->
    let D := mk (native_dim t) (n_basis_fun t absc) (fun d I => Bv t absc I (S d) p) in
    (forall k, (k < native_dim t)%nat -> rsum (n_basis_fun t absc) (fun I => w I * Bv t absc I (S k) p) = inner (native_dim t) g (ent (Jm t V p) k)) ->
    rsum (n_basis_fun t absc) (fun I => w I * ent (computePhysBasisDers (native_dim t) (n_basis_fun t absc) (Jm t V p) D) j I) = g j.
  Proof using.
    clear HV H3 Hn Hnd. intros Hd Hj D H. set (n := native_dim t) in *. set (N := n_basis_fun t absc) in *. set (J := Jm t V p) in *. pose proof dim_13 as Hn3. fold n in Hn3.
    rewrite (rsum_ext N _ (fun I => rsum n (fun k => ent (inverse n J) j k * (w I * Bv t absc I (S k) p)))).
    - rewrite rsum_swap2. rewrite (rsum_ext n _ (fun k => rsum n (fun l => ent (inverse n J) j k * ent J k l * g l))).
      + rewrite rsum_swap2. rewrite (rsum_ext n _ (fun l => delta j l * g l)); [by apply delta_sum|]. intros l Hl. rewrite <- (inverse_left n J j l Hn3 Hd Hj Hl).
        rewrite (rsum_ext n _ (fun k => g l * (ent (inverse n J) j k * ent J k l))) by (intros; ring). rewrite rsum_scal. ring.
      + intros k Hk. rewrite rsum_scal, H by done. unfold inner. rewrite <- rsum_scal. apply rsum_ext. intros; ring.
    - intros I HI. unfold computePhysBasisDers. rewrite mmul_ent by done. rewrite <- rsum_scal. apply rsum_ext. intros k Hk. unfold D. rewrite ent_mk by done. ring.
  Qed.
End map.
(** The coordinates of the mapping are polynomials of degree 1 in each variable. *)
Lemma Lb1 i x : (i < 2)%nat -> Lb absc1 i x = match i with O => (1 - x) / 2 | _ => (1 + x) / 2 end.
Proof.
  intros Hi. destruct absc1_ok as [H1 H2]. 
  assert (HP : forall c : list R, length c = 2%nat -> forall x, rsum 2 (fun j => poly c (nth j absc1 0) * Lb absc1 j x) = poly c x).
  { intros c Hc y. apply (reproduce absc1 H1 H2 c y). rewrite Hc. cbn. lia. }
  pose proof (HP [1; 0] eq_refl x) as E1. pose proof (HP [0; 1] eq_refl x) as E2. cbn in E1, E2. change (Lb [-1; 1]) with (Lb absc1) in *. destruct i as [|[|i]]; [| |lia]; lra.
Qed.
Lemma affine_poly t n (a : nat -> R) : (2 <= n)%nat -> is_poly t n (fun q => rsum (nodes_per_element t 1) (fun k => a k * Bv t absc1 k 0 q)).
Proof.
  intros Hn.
  destruct t; cbn [is_poly].
  - set (s := fun e1 e2 e3 : R => (a 0%nat + e1 * a 1%nat + e2 * a 2%nat + e1 * e2 * a 3%nat + e3 * (a 4%nat + e1 * a 5%nat + e2 * a 6%nat + e1 * e2 * a 7%nat)) / 8).
    exists [[[- (s (-1) (-1) (-1)); s 1 (-1) (-1)]; [s (-1) 1 (-1); - (s 1 1 (-1))]]; [[s (-1) (-1) 1; - (s 1 (-1) 1)]; [- (s (-1) 1 1); s 1 1 1]]].
    split; [cbn; lia|]. split; [repeat constructor; cbn; lia|]. intros x y z. unfold Bv. cbn. change [-1; 1] with absc1. rewrite !Lb1 by lia. unfold poly3, poly2, s. cbn. field.
  - set (s := fun e1 e2 : R => (a 0%nat + e1 * a 1%nat + e2 * a 2%nat + e1 * e2 * a 3%nat) / 4).
    exists [[s (-1) (-1); - s 1 (-1)]; [- s (-1) 1; s 1 1]]. split; [cbn; lia|]. split; [repeat constructor; cbn; lia|]. intros x y. unfold Bv. cbn. change [-1; 1] with absc1. rewrite !Lb1 by lia. unfold poly2, s. cbn. field.
  - exists [(a 1%nat - a 0%nat) / 2; (a 0%nat + a 1%nat) / 2]. split; [cbn; lia|]. intros x. unfold Bv. cbn. change [-1; 1] with absc1. rewrite !Lb1 by lia. field.
Qed.
