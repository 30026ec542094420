From Coq Require Import Reals Lra.
From Verif Require Import Base Elem_model Elem_spec Elem_proofs Poly_model Poly_spec Poly_proofs Poly2_proofs Basis_model Basis_spec Basis_proofs.
Local Open Scope R_scope.

(** ** Tensor products *)
(** The function or its derivative. *)
Definition G (absc : list R) (b : bool) (i : nat) (x : R) : R := if b then Db absc i x else Lb absc i x.
Definition Bv (t : etype) (absc : list R) (I d : nat) (p : list R) : R :=
  let n := length absc in let c k := nth k p 0 in let b k := (d =? k)%nat in
  match t with
  | Line => G absc (b 1%nat) I (c 0%nat)
  | Quad => G absc (b 1%nat) (I `mod` n)%nat (c 0%nat) * G absc (b 2%nat) (I / n)%nat (c 1%nat)
  | Hex => G absc (b 1%nat) (I `mod` n)%nat (c 0%nat) * G absc (b 2%nat) ((I / n) `mod` n)%nat (c 1%nat) * G absc (b 3%nat) (I / (n * n))%nat (c 2%nat)
  end.
Lemma poly_linear {A} m (a : nat -> R) (h : A -> nat -> R) (c : list A) y :
  rsum m (fun i => poly (map (fun l => h l i) c) y * a i) = poly (map (fun l => rsum m (fun i => h l i * a i)) c) y.
Proof.
  induction c as [|l c IH]; cbn [map poly].
  - apply rsum_zero. intros k _. lra.
  - rewrite map_length, <- IH. rewrite (Rmult_comm (rsum _ _)), <- rsum_scal, <- rsum_plus. apply rsum_ext. intros k _. rewrite map_length. ring.
Qed.
Lemma poly_map_ext {A} (f g : A -> R) c y : (forall l, l ∈ c -> f l = g l) -> poly (map f c) y = poly (map g c) y.
Proof. induction c as [|l c IH]; intros H; [done|]. cbn [map poly]. rewrite H by left. rewrite IH by (intros; apply H; by right). by rewrite !map_length. Qed.
Lemma rsum_der m (f : nat -> R -> R) d x : (forall i, (i < m)%nat -> derivable_pt_lim (f i) x (d i)) -> derivable_pt_lim (fun s => rsum m (fun i => f i s)) x (rsum m d).
Proof.
  induction m as [|m IH]; intros H; cbn; [apply derivable_pt_lim_const|]. apply (derivable_pt_lim_plus (fun s => rsum m (fun i => f i s)) (f m)); [apply IH; intros; apply H; lia|apply H; lia].
Qed.
Section tensor.
  Context (absc : list R) (Hn : (1 < length absc)%nat) (Hnd : NoDup absc).
  Notation n := (length absc).
  Lemma count t : n_basis_fun t absc = match t with Line => n | Quad => (n * n)%nat | Hex => (n * n * n)%nat end.
  Proof using Hn. unfold n_basis_fun, nodes_per_element. replace (n - 1 + 1)%nat with n by lia. done. Qed.
  Lemma hex_mod I : ((I `mod` (n * n)) `mod` n = I `mod` n /\ (I `mod` (n * n)) / n = (I / n) `mod` n)%nat.
  Proof using Hn.
    rewrite Nat.mod_mul_r by lia. split.
    - rewrite (Nat.mul_comm n (_ `mod` _)), Nat.mod_add by lia. apply Nat.mod_mod. lia.
    - rewrite (Nat.mul_comm n (_ `mod` _)), Nat.div_add by lia. rewrite Nat.div_small; [lia|]. apply Nat.mod_upper_bound. lia.
  Qed.
  Lemma lineFun_G i x : (i < n)%nat -> lineFun absc i x = Ok (G absc false i x).
  Proof using Hn Hnd. apply lineFun_ok; done. Qed.
  Lemma lineFunDer_G i x : (i < n)%nat -> lineFunDer absc i x = Ok (G absc true i x).
  Proof using Hn Hnd. apply lineFunDer_ok; done. Qed.
  Lemma fun_ok t I d p : (I < n_basis_fun t absc)%nat -> (d <= native_dim t)%nat -> length p = native_dim t -> refBasisFun t absc I d p = Ok (Bv t absc I d p).
  Proof using Hn Hnd.
    rewrite count. intros HI Hd Hp. destruct t.
    - assert (Hq : (I / (n * n) < n)%nat) by (apply Nat.div_lt_upper_bound; lia). assert (Hx : (I `mod` n < n)%nat) by (apply Nat.mod_upper_bound; lia).
      assert (Hy : ((I / n) `mod` n < n)%nat) by (apply Nat.mod_upper_bound; lia). destruct (hex_mod I) as [E1 E2].
      destruct p as [|x [|y [|z [|w p]]]]; try done. destruct d as [|[|[|[|d]]]]; [| | | |cbn in Hd; lia];
        cbn [refBasisFun]; unfold hexFun, hexFunDerXi, hexFunDerEta, hexFunDerZeta, quadFun, quadFunDerXi, quadFunDerEta, times, per_face; rewrite E1, E2;
        rewrite ?lineFun_G, ?lineFunDer_G by done; rewrite ?bind_ok; rewrite ?lineFun_G, ?lineFunDer_G by done; rewrite ?bind_ok; rewrite ?lineFun_G, ?lineFunDer_G by done; rewrite ?bind_ok; unfold Bv; cbn [nth Nat.eqb]; done.
    - assert (Hq : (I / n < n)%nat) by (apply Nat.div_lt_upper_bound; lia). assert (Hx : (I `mod` n < n)%nat) by (apply Nat.mod_upper_bound; lia).
      destruct p as [|x [|y [|z p]]]; try done. destruct d as [|[|[|d]]]; [| | |cbn in Hd; lia];
        cbn [refBasisFun]; unfold quadFun, quadFunDerXi, quadFunDerEta, times;
        rewrite ?lineFun_G, ?lineFunDer_G by done; rewrite ?bind_ok; rewrite ?lineFun_G, ?lineFunDer_G by done; rewrite ?bind_ok; unfold Bv; cbn [nth Nat.eqb]; done.
    - destruct p as [|x [|y p]]; try done. destruct d as [|[|d]]; [| |cbn in Hd; lia]; cbn [refBasisFun]; rewrite ?lineFun_G, ?lineFunDer_G by done; done.
  Qed.
  Lemma Lb_node i j : (i < n)%nat -> (j < n)%nat -> Lb absc i (nth j absc 0) = if decide (j = i) then 1 else 0.
  Proof using Hn Hnd. intros Hi Hj. destruct (coefs_ok absc Hn Hnd i Hi) as (_ & _ & H). by apply H. Qed.
  Lemma node_at t J p : node_locations t absc !! J = Some p ->
    (J < n_basis_fun t absc)%nat /\ p = take (native_dim t) [nth (J `mod` n) absc 0; nth ((J / n) `mod` n) absc 0; nth (J / (n * n)) absc 0].
  Proof using Hn.
    intros H. assert (Hlt : (J < n_basis_fun t absc)%nat). { unfold n_basis_fun. rewrite <- (locations_length t (n - 1) absc) by lia. by eapply lookup_lt_Some. } split; [done|].
    destruct (locations_ok t (n - 1) absc J) as (x & y & z & Hx & Hy & Hz & Hl); [lia|done|]. unfold grid_x, grid_y, grid_z in *. replace (n - 1 + 1)%nat with n in * by lia.
    rewrite H in Hl. injection Hl as ->. rewrite (nth_lookup_Some _ _ 0 _ Hx), (nth_lookup_Some _ _ 0 _ Hy). destruct t; [|done|done]. by rewrite (nth_lookup_Some _ _ 0 _ (Hz eq_refl)).
  Qed.
  Lemma at_nodes t I J p : (I < n_basis_fun t absc)%nat -> node_locations t absc !! J = Some p -> Bv t absc I 0 p = if decide (I = J) then 1 else 0.
  Proof using Hn Hnd.
    intros HI (HJ & ->)%node_at. rewrite count in *. destruct t; unfold Bv; cbn [nth Nat.eqb take native_dim firstn]; unfold G.
    - assert (HqI : (I / (n * n) < n)%nat) by (apply Nat.div_lt_upper_bound; lia). assert (HqJ : (J / (n * n) < n)%nat) by (apply Nat.div_lt_upper_bound; lia).
      rewrite !Lb_node by (try done; apply Nat.mod_upper_bound; lia). pose proof (Nat.div_mod I (n * n)) as EI. pose proof (Nat.div_mod J (n * n)) as EJ.
      pose proof (hex_mod I) as [I1 I2]. pose proof (hex_mod J) as [J1 J2]. pose proof (Nat.div_mod (I `mod` (n * n)) n) as FI. pose proof (Nat.div_mod (J `mod` (n * n)) n) as FJ.
      destruct (decide (I = J)) as [->|Hne]; [rewrite !decide_True by done; lra|].
      destruct (decide (J `mod` n = I `mod` n)%nat) as [E1|]; [|lra]. destruct (decide ((J / n) `mod` n = (I / n) `mod` n)%nat) as [E2|]; [|lra]. destruct (decide (J / (n * n) = I / (n * n))%nat) as [E3|]; [|lra].
      exfalso. apply Hne. rewrite EI, EJ, FI, FJ, I1, I2, J1, J2, E1, E2, E3 by lia. done.
    - assert (HqI : (I / n < n)%nat) by (apply Nat.div_lt_upper_bound; lia). assert (HqJ : (J / n < n)%nat) by (apply Nat.div_lt_upper_bound; lia).
      rewrite (Nat.mod_small (J / n)) by done. rewrite !Lb_node by (try done; apply Nat.mod_upper_bound; lia). pose proof (Nat.div_mod I n) as EI. pose proof (Nat.div_mod J n) as EJ.
      destruct (decide (I = J)) as [->|Hne]; [rewrite !decide_True by done; lra|]. destruct (decide (J `mod` n = I `mod` n)%nat) as [E1|]; [|lra]. destruct (decide (J / n = I / n)%nat) as [E2|]; [|lra].
      exfalso. apply Hne. rewrite EI, EJ, E1, E2 by lia. done.
    - rewrite Nat.mod_small by done. rewrite Lb_node by done. destruct (decide _), (decide _); congruence.
  Qed.
  Lemma valueAt_ok t vals p : length vals = n_basis_fun t absc -> length p = native_dim t -> valueAt t absc vals p = Ok (rsum (n_basis_fun t absc) (fun I => nth I vals 0 * Bv t absc I 0 p)).
  Proof using Hn Hnd.
    intros Hv Hp. unfold valueAt. rewrite (map_res_map _ (fun I => nth I vals 0 * Bv t absc I 0 p)).
    - rewrite bind_ok. by rewrite fold_plus_map.
    - intros I HI. apply elem_of_seq in HI. rewrite rd_nth by lia. rewrite bind_ok, fun_ok by (try done; lia). done.
  Qed.
  Lemma quad_poly c x y : (length c <= n)%nat -> Forall (fun l => length l <= n)%nat c ->
    rsum (n * n) (fun I => poly2 c (nth (I `mod` n) absc 0) (nth (I / n) absc 0) * (Lb absc (I `mod` n) x * Lb absc (I / n) y)) = poly2 c x y.
  Proof using Hn Hnd.
    intros Hc Hf. rewrite (rsum_grid n n (fun i j => poly2 c (nth i absc 0) (nth j absc 0) * (Lb absc i x * Lb absc j y))) by lia.
    rewrite (rsum_ext n _ (fun j => poly (map (fun l => poly l x) c) (nth j absc 0) * Lb absc j y)).
    - apply reproduce; [done|done|by rewrite map_length].
    - intros j Hj. unfold poly2. rewrite (rsum_ext n _ (fun i => Lb absc j y * (poly (map (fun l => poly l (nth i absc 0)) c) (nth j absc 0) * Lb absc i x))) by (intros; ring).
      rewrite rsum_scal, Rmult_comm. f_equal. rewrite (poly_linear n (fun i => Lb absc i x) (fun l i => poly l (nth i absc 0))). apply poly_map_ext. intros l Hl.
      apply reproduce; [done|done|]. by eapply Forall_forall in Hf.
  Qed.
  Lemma value_poly t f p : is_poly t n f -> length p = native_dim t -> valueAt t absc (map f (node_locations t absc)) p = Ok (f p).
  Proof using Hn Hnd.
    intros Hf Hp. assert (Hlen : length (node_locations t absc) = n_basis_fun t absc) by (apply locations_length; lia).
    rewrite valueAt_ok by (try done; by rewrite map_length). f_equal.
    assert (Hnode : forall I, (I < n_basis_fun t absc)%nat -> nth I (map f (node_locations t absc)) 0 = f (take (native_dim t) [nth (I `mod` n) absc 0; nth ((I / n) `mod` n) absc 0; nth (I / (n * n)) absc 0])).
    { intros I HI. destruct (lookup_lt_is_Some_2 (node_locations t absc) I) as [q Hq]; [lia|]. destruct (node_at t I q Hq) as [_ <-]. apply nth_lookup_Some. by rewrite (list_lookup_fmap f), Hq. }
    rewrite (rsum_ext _ _ (fun I => f (take (native_dim t) [nth (I `mod` n) absc 0; nth ((I / n) `mod` n) absc 0; nth (I / (n * n)) absc 0]) * Bv t absc I 0 p)) by (intros k Hk; by rewrite Hnode).
    rewrite count. destruct t; cbn [native_dim take firstn]; cbn [is_poly] in Hf.
    - destruct p as [|x [|y [|z [|w p]]]]; try done. destruct Hf as (c & Hc & Hfc & He). rewrite He.
      rewrite (rsum_ext _ _ (fun I => poly3 c (nth ((I `mod` (n * n)) `mod` n) absc 0) (nth ((I `mod` (n * n)) / n) absc 0) (nth (I / (n * n)) absc 0) * (Lb absc ((I `mod` (n * n)) `mod` n) x * Lb absc ((I `mod` (n * n)) / n) y * Lb absc (I / (n * n)) z))).
      2:{ intros I _. destruct (hex_mod I) as [-> ->]. rewrite He. done. }
      rewrite (rsum_grid (n * n) n (fun q k => poly3 c (nth (q `mod` n) absc 0) (nth (q / n) absc 0) (nth k absc 0) * (Lb absc (q `mod` n) x * Lb absc (q / n) y * Lb absc k z))) by lia.
      rewrite (rsum_ext n _ (fun k => poly (map (fun l => poly2 l x y) c) (nth k absc 0) * Lb absc k z)).
      + apply reproduce; [done|done|by rewrite map_length].
      + intros k Hk. unfold poly3. rewrite (rsum_ext (n * n) _ (fun q => Lb absc k z * (poly (map (fun l => poly2 l (nth (q `mod` n) absc 0) (nth (q / n) absc 0)) c) (nth k absc 0) * (Lb absc (q `mod` n) x * Lb absc (q / n) y)))) by (intros; ring).
        rewrite rsum_scal, Rmult_comm. f_equal. rewrite (poly_linear (n * n) (fun q => Lb absc (q `mod` n) x * Lb absc (q / n) y) (fun l q => poly2 l (nth (q `mod` n) absc 0) (nth (q / n) absc 0))).
        apply poly_map_ext. intros l Hl. eapply Forall_forall in Hfc as [H1 H2]; [|done]. by apply quad_poly.
    - destruct p as [|x [|y [|z p]]]; try done. destruct Hf as (c & Hc & Hfc & He). rewrite He. rewrite <- (quad_poly c x y Hc Hfc). apply rsum_ext. intros I HI. rewrite He.
      assert (HqI : (I / n < n)%nat) by (apply Nat.div_lt_upper_bound; lia). rewrite (Nat.mod_small (I / n)) by done. done.
    - destruct p as [|x [|y p]]; try done. destruct Hf as (c & Hc & He). rewrite He. rewrite <- (reproduce absc Hn Hnd c x Hc). apply rsum_ext. intros I HI. rewrite He. by rewrite Nat.mod_small.
  Qed.
  Lemma G_der i x : (i < n)%nat -> derivable_pt_lim (G absc false i) x (G absc true i x).
  Proof using Hn Hnd. intros Hi. by apply Lb_der. Qed.
  Lemma Bv_der t I k p : (I < n_basis_fun t absc)%nat -> (k < native_dim t)%nat -> length p = native_dim t -> partial (Bv t absc I 0) k p (Bv t absc I (S k) p).
  Proof using Hn Hnd.
    rewrite count. intros HI Hk Hp. destruct (lookup_lt_is_Some_2 p k) as [x0 Hx0]; [lia|]. exists x0. split; [done|]. destruct t; cbn in Hk.
    - assert (Hq : (I / (n * n) < n)%nat) by (apply Nat.div_lt_upper_bound; lia). assert (Hx : (I `mod` n < n)%nat) by (apply Nat.mod_upper_bound; lia).
      assert (Hy : ((I / n) `mod` n < n)%nat) by (apply Nat.mod_upper_bound; lia). destruct p as [|x [|y [|z [|w p]]]]; try done.
      destruct k as [|[|[|k]]]; [| | |lia]; injection Hx0 as <-; unfold Bv; cbn [nth Nat.eqb list_insert]; set (i := (I `mod` n)%nat) in *; set (j := ((I / n) `mod` n)%nat) in *; set (l := (I / (n * n))%nat) in *.
      + apply (derivable_pt_lim_ext (fun s => (G absc false j y * G absc false l z) * G absc false i s)); [intros s; cbn; ring|].
        replace (G absc true i x * G absc false j y * G absc false l z) with ((G absc false j y * G absc false l z) * G absc true i x) by ring. apply derivable_pt_lim_scal. by apply G_der.
      + apply (derivable_pt_lim_ext (fun s => (G absc false i x * G absc false l z) * G absc false j s)); [intros s; cbn; ring|].
        replace (G absc false i x * G absc true j y * G absc false l z) with ((G absc false i x * G absc false l z) * G absc true j y) by ring. apply derivable_pt_lim_scal. by apply G_der.
      + apply (derivable_pt_lim_ext (fun s => (G absc false i x * G absc false j y) * G absc false l s)); [intros s; cbn; ring|]. apply derivable_pt_lim_scal. by apply G_der.
    - assert (Hq : (I / n < n)%nat) by (apply Nat.div_lt_upper_bound; lia). assert (Hx : (I `mod` n < n)%nat) by (apply Nat.mod_upper_bound; lia). destruct p as [|x [|y [|z p]]]; try done.
      destruct k as [|[|k]]; [| |lia]; injection Hx0 as <-; unfold Bv; cbn [nth Nat.eqb list_insert]; set (i := (I `mod` n)%nat) in *; set (j := (I / n)%nat) in *.
      + apply (derivable_pt_lim_ext (fun s => G absc false j y * G absc false i s)); [intros s; cbn; ring|]. rewrite Rmult_comm. apply derivable_pt_lim_scal. by apply G_der.
      + apply (derivable_pt_lim_ext (fun s => G absc false i x * G absc false j s)); [intros s; cbn; ring|]. apply derivable_pt_lim_scal. by apply G_der.
    - destruct p as [|x [|y p]]; try done. destruct k as [|k]; [|lia]. injection Hx0 as <-. by apply G_der.
  Qed.
  Lemma grad_poly t f k p : is_poly t n f -> (k < native_dim t)%nat -> length p = native_dim t ->
    partial f k p (rsum (n_basis_fun t absc) (fun I => nth I (map f (node_locations t absc)) 0 * Bv t absc I (S k) p)).
  Proof using Hn Hnd.
    intros Hf Hk Hp. destruct (lookup_lt_is_Some_2 p k) as [x0 Hx0]; [lia|]. exists x0. split; [done|].
    apply (derivable_pt_lim_ext (fun s => rsum (n_basis_fun t absc) (fun I => nth I (map f (node_locations t absc)) 0 * Bv t absc I 0 (<[k := s]> p)))).
    - intros s. assert (Hl : length (<[k := s]> p) = native_dim t) by (by rewrite insert_length). pose proof (value_poly t f (<[k := s]> p) Hf Hl) as Hv.
      rewrite valueAt_ok in Hv by (try done; rewrite map_length; apply locations_length; lia). by injection Hv.
    - apply rsum_der. intros I HI. apply derivable_pt_lim_scal. destruct (Bv_der t I k p HI Hk Hp) as (x1 & Hx1 & Hd). rewrite Hx0 in Hx1. injection Hx1 as ->. done.
  Qed.
End tensor.
