(** Lemmas for C81: coordinates of the parts. *)
From Coq Require Import Reals Lra.
From Verif Require Import Base StdAlgo Ownership_model Elem_model Elem_spec Mesh_model Mesh_spec Prim_model Prim_spec Merge_spec Poly_model Poly_spec Poly_proofs Poly3_proofs Cyl_model Cyl_spec Cyl_proofs.
From Verif Require Match_model.
Local Open Scope R_scope.

Lemma powers_pos q n : 0 < q -> (0 < n)%nat -> 0 < powers q n.
Proof.
  intros Hq Hn. assert (H : forall k, 0 <= powers q k) by (induction k as [|k IH]; cbn [powers]; [lra|]; pose proof (pow_lt q k Hq); lra).
  destruct n as [|n]; [lia|]. cbn [powers]. pose proof (pow_lt q n Hq). specialize (H n). lra.
Qed.
Lemma powers_up q i : 0 < q -> powers q i < powers q (S i).
Proof. intros Hq. cbn [powers]. pose proof (pow_lt q i Hq). lra. Qed.
Lemma powers_le q i n : 0 < q -> (i <= n)%nat -> 0 <= powers q i <= powers q n.
Proof.
  intros Hq Hi. split; [|induction Hi as [|n Hi IH]; [lra|pose proof (powers_up q n Hq); lra]]. destruct i as [|i]; [cbn; lra|]. pose proof (powers_pos q (S i) Hq). apply Rlt_le, H. lia.
Qed.
(** The fraction of the way. *)
Definition frac (n : nat) (q : R) (i : nat) : R := powers q i / powers q n.
Lemma frac_0 n q : frac n q 0 = 0. Proof. unfold frac. cbn. lra. Qed.
Lemma frac_n n q : 0 < q -> (0 < n)%nat -> frac n q n = 1.
Proof. intros Hq Hn. unfold frac. pose proof (powers_pos q n Hq Hn). field. lra. Qed.
Lemma frac_up n q i : 0 < q -> (0 < n)%nat -> frac n q i < frac n q (i + 1).
Proof. intros Hq Hn. rewrite Nat.add_1_r. unfold frac, Rdiv. apply Rmult_lt_compat_r; [|by apply powers_up]. by apply Rinv_0_lt_compat, powers_pos. Qed.
Lemma frac_in n q i : 0 < q -> (0 < n)%nat -> (i <= n)%nat -> 0 <= frac n q i <= 1.
Proof.
  intros Hq Hn Hi. pose proof (powers_pos q n Hq Hn) as Hp. destruct (powers_le q i n Hq Hi) as [H0 H1]. unfold frac, Rdiv. pose proof (Rinv_0_lt_compat _ Hp) as Hv. split; [by apply Rmult_le_pos; lra|].
  replace 1 with (powers q n * / powers q n) by (field; lra). apply Rmult_le_compat_r; lra.
Qed.
Lemma graded_frac lo hi n q i : graded lo hi n q i = lo + (hi - lo) * frac n q i. Proof. done. Qed.

Lemma graded_ok lo hi n q : (0 < n)%nat -> 0 < q -> exists l, geomSpaceProg lo hi (n + 1) q = Ok l /\ length l = (n + 1)%nat /\ forall i, (i <= n)%nat -> nth i l 0 = graded lo hi n q i.
Proof.
  intros Hn Hq. destruct (prog_ok lo hi (n + 1) q) as (l & d & Hl & Hlen & H0 & H1 & _ & Hd); [lia|done|]. exists l. split; [done|]. split; [done|]. rewrite Nat.add_sub in H1.
  assert (Hi : forall i, (i <= n)%nat -> nth i l 0 = lo + d * powers q i). { induction i as [|i IH]; intros Hi; cbn [powers]; [rewrite H0; lra|]. specialize (Hd i ltac:(lia)). rewrite IH in Hd by lia. lra. }
  pose proof (powers_pos q n Hq Hn) as Hp. assert (Ed : d = (hi - lo) / powers q n). { rewrite (Hi n) in H1 by lia. replace (hi - lo) with (d * powers q n) by lra. field. lra. }
  intros i Hin. rewrite (Hi i Hin), Ed. unfold graded. field. lra.
Qed.
Lemma linspace_nth lo hi n : (0 < n)%nat -> exists l, linspace lo hi (n + 1) = Ok l /\ length l = (n + 1)%nat /\ forall i, (i <= n)%nat -> nth i l 0 = lo + INR i * ((hi - lo) / INR n).
Proof.
  intros Hn. unfold linspace. destruct (Nat.leb_spec 2 (n + 1)); [|lia]. change (throwing_assert true) with (Ok tt). rewrite bind_ok. eexists. split; [done|]. unfold linspaceArray. split; [by rewrite map_length, seq_length|].
  intros i Hi. rewrite (nth_indep _ 0 (lo + INR 0 * ((hi - lo) / INR (n + 1 - 1)))) by (rewrite map_length, seq_length; lia). rewrite (map_nth (fun i => lo + INR i * ((hi - lo) / INR (n + 1 - 1)))), seq_nth by lia. by rewrite Nat.add_0_l, Nat.add_sub.
Qed.

Lemma part_ext x ids ex ey P Q : is_part x (mk_part ids ex ey P) -> (forall i j, (i <= ex)%nat -> (j <= ey)%nat -> P i j = Q i j) -> is_part x (mk_part ids ex ey Q).
Proof.
  intros [H1 H2 H3 H4 H5 H6 H7 H8 H9] HPQ. split; cbn [p_ids p_ex p_ey p_pt] in *; try done. intros e He.
  eapply Match4_proofs.forall2_in; [exact (H2 e He)|]. intros n v Hn Hv. unfold at_node in *. cbn [p_pt p_ex] in *. rewrite Hv, HPQ; [done| |].
  - pose proof (Nat.mod_upper_bound n (ex + 1)). lia.
  - assert (Hlt : (n < (ex + 1) * (ey + 1))%nat) by (apply (wm_nodes _ _ _ H1); by exists e). apply Nat.div_lt_upper_bound in Hlt; lia.
Qed.

(** What correct says. *)
Lemma lt_b_iff a b : lt_b a b = true <-> a < b.
Proof. unfold lt_b. destruct (Rlt_dec a b); split; intros; congruence || done. Qed.
Record good (g : cyl_geometry) : Prop := {
  gd_r : r_inner g < r_outer g; gd_l : r_outer g < left_offset g; gd_ri : r_outer g < right_offset g; gd_b : r_outer g < bottom_offset g; gd_t : r_outer g < top_offset g;
  gd_8 : exists m, (0 < m)%nat /\ n_circumf g = (8 * m)%nat;
  gd_nr : (0 < n_radial g)%nat; gd_nl : (0 < n_left g)%nat; gd_nri : (0 < n_right g)%nat; gd_nb : (0 < n_bottom g)%nat; gd_nt : (0 < n_top g)%nat;
  gd_qr : 0 < q_radial g; gd_ql : 0 < q_left g; gd_qri : 0 < q_right g; gd_qb : 0 < q_bottom g; gd_qt : 0 < q_top g }.
Lemma min_gt a x y : a < Rmin x y <-> a < x /\ a < y.
Proof. unfold Rmin. destruct (Rle_dec x y); split; intros; (split || idtac); lra. Qed.
Lemma correct_iff g : correct g = true <-> good g.
Proof.
  unfold correct, min_of. cbn [foldl]. rewrite !andb_true_iff, !lt_b_iff, !min_gt, Nat.eqb_eq, Nat.ltb_lt. split.
  - intros ((((H1 & H2) & H3) & H4) & H5). apply Nat.mod_divide in H3 as (m & Hm); [|done]. split; try lra; try lia. exists m. split; lia.
  - intros [H1 H2 H3 H4 H5 (m & Hm & Em) ? ? ? ? ? ? ? ? ? ?]. repeat split; try lra; try lia. rewrite Em, Nat.mul_comm. by apply Nat.mod_mul.
Qed.

Section make.
  Context (sched : list (element pt3) -> list (element pt3)) (shuffle : list nat -> list nat) (Hs : forall l, sched l ≡ₚ l) (Hsh : forall l, shuffle l ≡ₚ l).
  Context (g : cyl_geometry) (ids : cyl_ids) (G : good g).
  Context (Hd : ci_domain ids ∉ [1; 2; 3; 4; ci_bottom ids; ci_top ids; ci_left ids; ci_right ids; ci_cylinder ids]%nat).
  Lemma dom_ne e : e = 1%nat \/ e = 2%nat \/ e = 3%nat \/ e = 4%nat \/ e = ci_bottom ids \/ e = ci_top ids \/ e = ci_left ids \/ e = ci_right ids \/ e = ci_cylinder ids -> ci_domain ids <> e.
  Proof using Hd. intros He E. apply Hd. rewrite E, !elem_of_cons. tauto. Qed.
  Lemma dom_ne4 e : e ∈ [ci_bottom ids; ci_top ids; ci_left ids; ci_right ids] -> ci_domain ids <> e.
  Proof using Hd. rewrite !elem_of_cons, elem_of_nil. intros He. apply dom_ne. tauto. Qed.
  Lemma not_in4 a b c d x : x <> a -> x <> b -> x <> c -> x <> d -> x ∉ [a; b; c; d : nat].
  Proof. rewrite !elem_of_cons, elem_of_nil. tauto. Qed.
  Lemma rotate_k k P i j : rotate (INR k * (PI / 2)) (P i j, 0) = (turned k P i j, 0) -> rotate (INR (S k) * (PI / 2)) (P i j, 0) = (turned (S k) P i j, 0).
  Proof.
    unfold rotate, turned. cbn [fst snd]. intros H. rewrite S_INR. replace ((INR k + 1) * (PI / 2)) with (INR k * (PI / 2) + PI / 2) by lra. rewrite cos_plus, sin_plus, cos_PI2, sin_PI2. change (Nat.iter (S k) quarter (P i j)) with (quarter (Nat.iter k quarter (P i j))).
    destruct (Nat.iter k quarter (P i j)) as [a b]. injection H as Ha Hb. subst a b. unfold quarter. cbn [fst snd]. f_equal. f_equal; ring.
  Qed.
  Lemma rotate_ok k P i j : rotate (INR k * (PI / 2)) (P i j, 0) = (turned k P i j, 0).
  Proof. induction k as [|k IH]; [|by apply rotate_k]. unfold rotate, turned. change (Nat.iter 0 quarter (P i j)) with (P i j). cbn [INR fst snd]. rewrite Rmult_0_l, cos_0, sin_0. destruct (P i j) as [a b]. cbn [fst snd]. f_equal. f_equal; ring. Qed.
  Lemma turn_part k a x id ex ey P : a = INR k * (PI / 2) -> is_part x (mk_part id ex ey P) -> is_part (Match_model.deform (rotate a) x) (mk_part id ex ey (turned k P)).
  Proof. intros -> H. apply (deform_part _ x _ (turned k P) H). intros i j. apply rotate_ok. Qed.

  Lemma half_made : exists x, make_half sched shuffle g ids = Ok x /\ is_part x (mk_part (mk_sq (ci_domain ids) 1 2 (ci_cylinder ids) 4) (n_radial g) (n_circumf g / 2) (half_pt g)).
  Proof using All.
    destruct G as [Hr _ _ _ _ (m & Hm & Em) Hn _ _ _ _ Hq _ _ _ _]. assert (E2 : (n_circumf g / 2 = 4 * m)%nat) by (rewrite Em; replace (8 * m)%nat with (4 * m * 2)%nat by lia; by apply Nat.div_mul).
    unfold make_half. destruct (graded_ok (r_inner g) (r_outer g) (n_radial g) (q_radial g) Hn Hq) as (xs & -> & Lx & Nx). rewrite bind_ok. rewrite E2. destruct (linspace_nth 0 1 (4 * m)) as (ys & -> & Ly & Ny); [lia|]. rewrite bind_ok.
    destruct (square_part sched shuffle Hs Hsh (mk_sq (ci_domain ids) 1 2 (ci_cylinder ids) 4) (n_radial g) (4 * m) xs ys) as (x & -> & Hx); [lia|lia|done|done| |].
    { cbn [sq_domain sq_bottom sq_top sq_left sq_right]. apply not_in4; apply dom_ne; tauto. }
    rewrite bind_ok. eexists. split; [done|]. eapply (part_ext _ _ _ _ (fun i j => (nth i xs 0 * cos (nth j ys 0 * PI), nth i xs 0 * sin (nth j ys 0 * PI)))); [apply (deform_part _ x _ (fun i j => (nth i xs 0 * cos (nth j ys 0 * PI), nth i xs 0 * sin (nth j ys 0 * PI))) Hx); done|].
    - cbn [p_ex p_ey]. intros i j Hi Hj. cbv beta. rewrite (Nx i Hi), (Ny j Hj). unfold half_pt. cbv zeta. assert (E : (0 + INR j * ((1 - 0) / INR (4 * m))) * PI = dir g j); [|by rewrite E].
      unfold dir. rewrite Em. replace (8 * m)%nat with (2 * (4 * m))%nat by lia. rewrite (mult_INR 2). cbn [INR]. assert (INR (4 * m) <> 0) by (apply not_0_INR; lia). field. done.
  Qed.
  Lemma wake_made L n q e : 0 < L -> (0 < n)%nat -> 0 < q -> e ∈ [ci_bottom ids; ci_top ids; ci_left ids; ci_right ids] ->
    exists x, make_wake sched shuffle g ids L n q e = Ok x /\ is_part x (mk_part (mk_sq (ci_domain ids) 1 2 3 e) n (n_circumf g / 4) (wake_pt g L n q)).
  Proof using All.
    intros HL Hn Hq He. destruct G as [_ _ _ _ _ (m & Hm & Em) _ _ _ _ _ _ _ _ _ _]. assert (E2 : (n_circumf g / 4 = 2 * m)%nat) by (rewrite Em; replace (8 * m)%nat with (2 * m * 4)%nat by lia; by apply Nat.div_mul).
    unfold make_wake. destruct (graded_ok 0 L n q Hn Hq) as (xs & -> & Lx & Nx). rewrite bind_ok. rewrite E2. destruct (linspace_nth (- PI / 4) (PI / 4) (2 * m)) as (ys & -> & Ly & Ny); [lia|]. rewrite bind_ok.
    destruct (square_part sched shuffle Hs Hsh (mk_sq (ci_domain ids) 1 2 3 e) n (2 * m) xs ys) as (x & -> & Hx); [lia|lia|done|done| |].
    { cbn [sq_domain sq_bottom sq_top sq_left sq_right]. apply not_in4; [apply dom_ne; tauto..|by apply dom_ne4]. }
    rewrite bind_ok. eexists. split; [done|]. eapply (part_ext _ _ _ _ (fun i j => (nth i xs 0 + (1 - nth i xs 0 / L) * r_outer g * cos (nth j ys 0), r_outer g * sin (nth j ys 0)))); [apply (deform_part _ x _ (fun i j => (nth i xs 0 + (1 - nth i xs 0 / L) * r_outer g * cos (nth j ys 0), r_outer g * sin (nth j ys 0))) Hx); done|].
    - cbn [p_ex p_ey]. intros i j Hi Hj. cbv beta. rewrite (Nx i Hi), (Ny j Hj). unfold wake_pt. cbv zeta. assert (E : - PI / 4 + INR j * ((PI / 4 - - PI / 4) / INR (2 * m)) = dir g j - PI / 4).
      { unfold dir. rewrite Em. replace (8 * m)%nat with (4 * (2 * m))%nat by lia. rewrite (mult_INR 4). cbn [INR]. assert (INR (2 * m) <> 0) by (apply not_0_INR; lia). field. done. }
      rewrite E. f_equal. rewrite !graded_frac. field. lra.
  Qed.
  Lemma corner_made Lx nx qx Ly ny qy rid tid : 0 < Lx -> (0 < nx)%nat -> 0 < qx -> 0 < Ly -> (0 < ny)%nat -> 0 < qy -> rid ∈ [ci_bottom ids; ci_top ids; ci_left ids; ci_right ids] -> tid ∈ [ci_bottom ids; ci_top ids; ci_left ids; ci_right ids] ->
    exists x, make_corner sched shuffle g ids Lx nx qx Ly ny qy rid tid = Ok x /\ is_part x (mk_part (mk_sq (ci_domain ids) 1 tid 3 rid) nx ny (corner_pt g Lx nx qx Ly ny qy)).
  Proof using All.
    intros HLx Hnx Hqx HLy Hny Hqy Hr Ht. unfold make_corner. cbv zeta. destruct (graded_ok 0 Lx nx qx Hnx Hqx) as (xs & -> & LX & Nx). rewrite bind_ok. destruct (graded_ok 0 Ly ny qy Hny Hqy) as (ys & -> & LY & Ny). rewrite bind_ok.
    set (fx := fun x => x + (1 - x / Lx) * r_outer g * (R_sqrt.sqrt 2 / 2)). set (fy := fun y => y + (1 - y / Ly) * r_outer g * (R_sqrt.sqrt 2 / 2)).
    destruct (square_part sched shuffle Hs Hsh (mk_sq (ci_domain ids) 1 tid 3 rid) nx ny (map fx xs) (map fy ys)) as (x & -> & Hx); [lia|lia|by rewrite map_length|by rewrite map_length| |].
    { cbn [sq_domain sq_bottom sq_top sq_left sq_right]. apply not_in4; [apply dom_ne; tauto|by apply dom_ne4|apply dom_ne; tauto|by apply dom_ne4]. }
    eexists. split; [done|]. eapply part_ext; [exact Hx|]. intros i j Hi Hj. unfold grid_pt, corner_pt. assert (Hsq : R_sqrt.sqrt 2 <> 0) by (apply Rgt_not_eq, sqrt_lt_R0; lra).
    assert (E : 1 / R_sqrt.sqrt 2 = R_sqrt.sqrt 2 / 2). { pose proof (sqrt_sqrt 2 ltac:(lra)) as H2. replace (1 / R_sqrt.sqrt 2) with (R_sqrt.sqrt 2 / (R_sqrt.sqrt 2 * R_sqrt.sqrt 2)) by (field; done). by rewrite H2. }
    rewrite cos_PI4, sin_PI4, E.
    rewrite (nth_indep _ 0 (fx 0)) by (rewrite map_length; lia). rewrite (nth_indep (map fy ys) 0 (fy 0)) by (rewrite map_length; lia). rewrite !map_nth, (Nx i Hi), (Ny j Hj). unfold fx, fy. rewrite !graded_frac. f_equal; field; lra.
  Qed.

  Hypothesis (Hr0 : 0 < r_outer g).
  Lemma parts_made : exists x l, make_parts sched shuffle g ids = Ok (x, l) /\ Forall2 is_part (x :: l) (layout g ids).
  Proof using All.
    unfold make_parts. destruct half_made as (th & -> & Pth). rewrite bind_ok. pose proof G as [G1 G2 G3 G4 G5 G6 G7 G8 G9 G10 G11 G12 G13 G14 G15 G16].
    destruct (copy_part sched shuffle Hs Hsh th _ Pth) as (bh & -> & Pbh); cbn [p_ex p_ey p_ids sides sq_domain sq_bottom sq_top sq_left sq_right]; [done|destruct G6 as (m & Hm & ->); replace (8 * m)%nat with (4 * m * 2)%nat by lia; rewrite Nat.div_mul; lia| |].
    { apply not_in4; apply dom_ne; tauto. }
    rewrite bind_ok.
    assert (M : forall e, e = ci_bottom ids \/ e = ci_top ids \/ e = ci_left ids \/ e = ci_right ids -> e ∈ [ci_bottom ids; ci_top ids; ci_left ids; ci_right ids]) by (intros e He; rewrite !elem_of_cons; tauto).
    destruct (wake_made (right_offset g) (n_right g) (q_right g) (ci_right ids)) as (rw & -> & Prw); [lra|done|done|apply M; tauto|]. rewrite bind_ok.
    destruct (wake_made (left_offset g) (n_left g) (q_left g) (ci_left ids)) as (lw & -> & Plw); [lra|done|done|apply M; tauto|]. rewrite bind_ok.
    destruct (wake_made (bottom_offset g) (n_bottom g) (q_bottom g) (ci_bottom ids)) as (bw & -> & Pbw); [lra|done|done|apply M; tauto|]. rewrite bind_ok.
    destruct (wake_made (top_offset g) (n_top g) (q_top g) (ci_top ids)) as (tw & -> & Ptw); [lra|done|done|apply M; tauto|]. rewrite bind_ok.
    destruct (corner_made (right_offset g) (n_right g) (q_right g) (top_offset g) (n_top g) (q_top g) (ci_right ids) (ci_top ids)) as (c1 & -> & P1); [lra|done|done|lra|done|done|apply M; tauto|apply M; tauto|]. rewrite bind_ok.
    destruct (corner_made (top_offset g) (n_top g) (q_top g) (left_offset g) (n_left g) (q_left g) (ci_top ids) (ci_left ids)) as (c2 & -> & P2); [lra|done|done|lra|done|done|apply M; tauto|apply M; tauto|]. rewrite bind_ok.
    destruct (corner_made (left_offset g) (n_left g) (q_left g) (bottom_offset g) (n_bottom g) (q_bottom g) (ci_left ids) (ci_bottom ids)) as (c3 & -> & P3); [lra|done|done|lra|done|done|apply M; tauto|apply M; tauto|]. rewrite bind_ok.
    destruct (corner_made (bottom_offset g) (n_bottom g) (q_bottom g) (right_offset g) (n_right g) (q_right g) (ci_bottom ids) (ci_right ids)) as (c4 & -> & P4); [lra|done|done|lra|done|done|apply M; tauto|apply M; tauto|]. rewrite bind_ok. cbv zeta.
    eexists _, _. split; [done|]. unfold layout. cbv zeta.
    repeat (constructor; [first [done|apply (turn_part 1); [cbn [INR]; lra|done]|apply (turn_part 2); [cbn [INR]; lra|done]|apply (turn_part 3); [cbn [INR]; lra|done]]|]). constructor.
  Qed.
End make.
