(** Lemmas for C81: the mesh. *)
From Coq Require Import Reals Lra.
From Verif Require Import Base StdAlgo Elem_model Mesh_model Mesh_spec Mesh_proofs Prim_model Prim_spec Merge_spec Cyl_model Cyl_spec Cyl_proofs Cyl2_proofs Cyl3_proofs Cyl4_proofs.
Local Open Scope nat_scope.

Lemma node_at w i j : i < w -> (w * j + i) mod w = i /\ (w * j + i) / w = j.
Proof. intros H. rewrite Nat.mul_comm, Nat.add_comm. split; [rewrite Nat.mod_add by lia; by apply Nat.mod_small|rewrite Nat.div_add by lia; by rewrite Nat.div_small]. Qed.
Lemma part_cell x p e i j : is_part x p -> is_elem (m_domains x) e -> i < p_ex p -> j < p_ey p -> el_nodes e = cell2 (p_ex p + 1) i j -> el_verts e = cell_verts p i j.
Proof.
  intros Hp He Hi Hj En. pose proof (ip_place _ _ Hp e He) as HF. rewrite En in HF. unfold cell2 in HF. cbv zeta in HF. unfold at_node in HF.
  destruct (el_verts e) as [|v0 l0]; [by inversion HF|]. apply Forall2_cons in HF as [-> HF]. destruct l0 as [|v1 l0]; [by inversion HF|]. apply Forall2_cons in HF as [-> HF]. destruct l0 as [|v2 l0]; [by inversion HF|]. apply Forall2_cons in HF as [-> HF]. destruct l0 as [|v3 l0]; [by inversion HF|]. apply Forall2_cons in HF as [-> HF]. destruct l0; [|by inversion HF]. unfold cell_verts.
  destruct (node_at (p_ex p + 1) i j) as [-> ->]; [lia|]. destruct (node_at (p_ex p + 1) (i + 1) j) as [-> ->]; [lia|]. destruct (node_at (p_ex p + 1) i (j + 1)) as [-> ->]; [lia|]. destruct (node_at (p_ex p + 1) (i + 1) (j + 1)) as [-> ->]; [lia|]. done.
Qed.
Lemma part_sides x p d e : is_part x p -> d <> sq_domain (p_ids p) -> in_domain (m_domains x) d e -> el_type e = Line /\ on_side_of p d (el_verts e).
Proof.
  intros Hp Hd He. destruct (ip_side _ _ Hp d e Hd He) as [Ht HS]. split; [done|]. assert (Hie : is_elem (m_domains x) e) by (by exists d). pose proof (ip_place _ _ Hp e Hie) as HF.
  assert (Hn : forall n, n ∈ el_nodes e -> n mod (p_ex p + 1) <= p_ex p /\ n / (p_ex p + 1) <= p_ey p).
  { intros n Hn. assert (Hlt : n < (p_ex p + 1) * (p_ey p + 1)) by (apply (wm_nodes _ _ _ (ip_whole _ _ Hp)); by exists e). apply Nat.div_lt_upper_bound in Hlt; [|lia]. pose proof (Nat.mod_upper_bound n (p_ex p + 1)). lia. }
  assert (HG : forall Q : nat -> pt3 -> Prop, (forall n v, n ∈ el_nodes e -> at_node p n v -> Q n v) -> Forall (fun v => exists n, n ∈ el_nodes e /\ Q n v) (el_verts e)).
  { intros Q HQ. apply Forall_forall. intros v Hv. apply elem_of_list_lookup in Hv as [k Hk]. destruct (Forall2_lookup_r _ _ _ _ _ HF Hk) as (n & Hkn & Hat). exists n. assert (n ∈ el_nodes e) by (by eapply elem_of_list_lookup_2). split; [done|by apply HQ]. }
  unfold on_side_of. destruct HS as [[-> HS]|[[-> HS]|[[-> HS]|[-> HS]]]]; [left|right; left|do 2 right; left|do 3 right]; (split; [done|]); (eapply Forall_impl; [apply (HG (at_node p)); done|]); intros v (n & Hin & ->); pose proof (HS n Hin) as E; pose proof (Hn n Hin) as [? ?]; rewrite E; eauto.
Qed.

Section whole.
  Context (sched : list (element pt3) -> list (element pt3)) (shuffle : list nat -> list nat) (Hs : forall l, sched l ≡ₚ l) (Hsh : forall l, shuffle l ≡ₚ l).
  Context (mf : mesh pt3 -> mesh pt3 -> res (dmap nat)) (Hmf : matches mf).
  Context (g : cyl_geometry) (ids : cyl_ids) (G : good g) (Hr0 : (0 < r_outer g)%R).
  Context (Hd : ci_domain ids ∉ [1; 2; 3; 4; ci_bottom ids; ci_top ids; ci_left ids; ci_right ids; ci_cylinder ids]).
  Lemma layout_ids : Forall (fun p => sq_domain (p_ids p) = ci_domain ids /\ sq_domain (p_ids p) ∉ sides p) (layout g ids).
  Proof using Hd.
    unfold layout. cbv zeta. repeat constructor; unfold sides; cbn [p_ids sq_domain sq_bottom sq_top sq_left sq_right]; apply not_in4; apply (dom_ne ids Hd); tauto.
  Qed.
  Lemma mesh_made : exists y xs, makeCylinderInChannel2DMesh sched shuffle mf g ids = Ok y /\ Forall2 is_part xs (layout g ids) /\ made_of (ci_domain ids) xs y.
  Proof using All.
    unfold makeCylinderInChannel2DMesh. rewrite (proj2 (correct_iff g) G). change (throwing_assert true) with (Ok tt). rewrite bind_ok. destruct (parts_made sched shuffle Hs Hsh g ids G Hd Hr0) as (x & l & -> & HF). rewrite bind_ok. cbn [fst snd].
    assert (Hall : Forall (fun z => made_of (ci_domain ids) [z] z) (x :: l)).
    { pose proof layout_ids as HL. revert HL. generalize (x :: l) (layout g ids) HF. clear. intros xs ps HF. induction HF as [|z p xs ps Hz _ IH]; intros HL; [constructor|]. inversion HL as [|? ? [E1 E2] HL']; subst. constructor; [|by apply IH]. rewrite <- E1. by apply (part_made_of z p). }
    inversion Hall as [|? ? Hx Hl]; subst. destruct (merge_all sched shuffle Hs Hsh mf Hmf (ci_domain ids) l [x] x Hx Hl) as (y & Hy & My). exists y, (x :: l). by split.
  Qed.
End whole.

(** Shape of the cells of all parts. *)
Section cells.
  Context (g : cyl_geometry) (ids : cyl_ids) (G : good g) (Hr : (0 < r_inner g)%R).
  Definition cell_convex (p : part) : Prop := forall i j, i < p_ex p -> j < p_ey p ->
    convex4 (p_pt p i j) (p_pt p (i + 1) j) (p_pt p (i + 1) (j + 1)) (p_pt p i (j + 1)).
  Lemma turned_convex k id ex ey P : cell_convex (mk_part id ex ey P) -> cell_convex (mk_part id ex ey (turned k P)).
  Proof.
    intros H i j Hi Hj. specialize (H i j Hi Hj). cbn [p_pt] in *. unfold turned. induction k as [|k IH]; [done|]. by apply convex_quarter in IH.
  Qed.
  Lemma quarter_of_8 m : 8 * m / 4 = 2 * m. Proof. replace (8 * m) with (2 * m * 4) by lia. by apply Nat.div_mul. Qed.
  Lemma all_convex : Forall cell_convex (layout g ids).
  Proof using G Hr.
    pose proof G as [G1 G2 G3 G4 G5 (m & Hm & Em) G7 G8 G9 G10 G11 G12 G13 G14 G15 G16]. unfold layout. cbv zeta. assert (Hro : (0 < r_outer g)%R) by lra.
    assert (HH : forall id ey, cell_convex (mk_part id (n_radial g) ey (half_pt g))) by (intros id ey i j Hi Hj; cbn [p_ex p_ey p_pt] in *; by apply (half_convex g m)).
    assert (HW : forall id L n q, (r_outer g < L)%R -> (0 < q)%R -> 0 < n -> cell_convex (mk_part id n (n_circumf g / 4) (wake_pt g L n q))).
    { intros id L n q H1 H2 H3 i j Hi Hj. cbn [p_ex p_ey p_pt] in *. rewrite Em, quarter_of_8 in Hj. by apply (wake_convex g m). }
    assert (HC : forall id Lx nx qx Ly ny qy, (r_outer g < Lx)%R -> (0 < qx)%R -> 0 < nx -> (r_outer g < Ly)%R -> (0 < qy)%R -> 0 < ny -> cell_convex (mk_part id nx ny (corner_pt g Lx nx qx Ly ny qy))).
    { intros id Lx nx qx Ly ny qy H1 H2 H3 H4 H5 H6 i j Hi Hj. cbn [p_ex p_ey p_pt] in *. by apply corner_convex. }
    repeat (constructor; [try apply turned_convex; first [apply HH|by apply HW|by apply HC]|]). constructor.
  Qed.
  Definition inside (p : part) : Prop := forall i j, i <= p_ex p -> j <= p_ey p -> in_channel g (p_pt p i j) /\ off_cylinder g (p_pt p i j).
  Lemma all_inside : Forall inside (layout g ids).
  Proof using G Hr.
    pose proof G as [G1 G2 G3 G4 G5 (m & Hm & Em) G7 G8 G9 G10 G11 G12 G13 G14 G15 G16]. unfold layout. cbv zeta. assert (Hro : (0 < r_outer g)%R) by lra.
    assert (Hsq : (r_inner g * r_inner g <= r_outer g * r_outer g)%R) by (apply Rmult_le_compat; lra).
    assert (HH : forall i j, i <= n_radial g -> let p := half_pt g i j in (- r_outer g <= p.1 <= r_outer g /\ - r_outer g <= p.2 <= r_outer g /\ r_inner g * r_inner g <= p.1 * p.1 + p.2 * p.2)%R) by (intros i j Hi; by apply half_box).
    assert (HW : forall L n q i j, (r_outer g < L)%R -> (0 < q)%R -> 0 < n -> i <= n -> j <= n_circumf g / 4 -> let p := wake_pt g L n q i j in (0 <= p.1 <= L /\ - r_outer g <= p.2 <= r_outer g /\ r_outer g * r_outer g <= p.1 * p.1 + p.2 * p.2)%R).
    { intros L n q i j H1 H2 H3 H4 H5. rewrite Em, quarter_of_8 in H5. by apply (wake_box g m). }
    assert (HC : forall Lx nx qx Ly ny qy i j, (r_outer g < Lx)%R -> (0 < qx)%R -> 0 < nx -> (r_outer g < Ly)%R -> (0 < qy)%R -> 0 < ny -> i <= nx -> j <= ny ->
      let p := corner_pt g Lx nx qx Ly ny qy i j in (0 <= p.1 <= Lx /\ 0 <= p.2 <= Ly /\ r_outer g * r_outer g <= p.1 * p.1 + p.2 * p.2)%R) by (intros; by apply corner_box).
    unfold inside. repeat (constructor; [intros i j Hi Hj; cbn [p_ex p_ey p_pt] in *; rewrite ?turned_1, ?turned_2, ?turned_3; unfold in_channel, off_cylinder, quarter; cbn [fst snd];
      first [ pose proof (HH i j Hi) as (? & ? & ?) | match goal with |- context [wake_pt g ?L ?n ?q i j] => pose proof (HW L n q i j ltac:(done) ltac:(done) ltac:(done) Hi Hj) as (? & ? & ?) end
            | match goal with |- context [corner_pt g ?Lx ?nx ?qx ?Ly ?ny ?qy i j] => pose proof (HC Lx nx qx Ly ny qy i j ltac:(done) ltac:(done) ltac:(done) ltac:(done) ltac:(done) ltac:(done) Hi Hj) as (? & ? & ?) end ];
      repeat split; lra|]). constructor.
  Qed.
End cells.
