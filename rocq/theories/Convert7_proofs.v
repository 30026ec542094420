(** Proofs for C76: where the nodes are, and the conversion of a mesh. *)
From Coq Require Import Reals Lra.
From Verif Require Import Base StdAlgo Ownership_model Elem_model Elem_spec Elem_proofs Mesh_model Mesh_spec Mesh_proofs Merge_model Helpers_model Helpers_proofs Partition_model Partition_spec Poly_spec Basis_spec Poly_proofs Basis_model Basis_proofs Basis2_proofs Geom_model Geom_proofs.
From Verif Require Import Convert_model Convert_proofs Convert2_proofs Convert_spec Convert3_proofs Convert4_proofs Convert5_proofs Convert6_proofs.
Local Open Scope R_scope.

Lemma Lb_along (absc : list R) g h : (h < 2)%nat -> Lb absc1 h (nth g absc 0) = if (h =? 0)%nat then 1 - along absc g else along absc g.
Proof. intros Hh. rewrite Lb1 by done. unfold along. destruct h as [|[|h]]; cbn [Nat.eqb]; [lra|lra|lia]. Qed.
Section place.
  Context (OC : nat) (absc : list R) (Hl : length absc = (OC + 1)%nat).
  Lemma Bv_weight t k i p : (k < npe t 1)%nat -> (i < npe t OC)%nat -> node_locations t absc !! i = Some p -> length p = native_dim t /\ Bv t absc1 k 0 p = weight t absc k i.
  Proof using Hl.
    intros Hk Hi Hp. destruct (locations_ok t OC absc i Hl Hi) as (x & y & z & Hx & Hy & Hz & E). rewrite Hp in E. injection E as ->.
    pose proof (nth_lookup_Some _ _ 0 _ Hx) as Ex. pose proof (nth_lookup_Some _ _ 0 _ Hy) as Ey.
    unfold weight, Bv. replace (length absc - 1)%nat with OC by lia. change (length absc1) with 2%nat. unfold npe in Hk. unfold coord, grid_x, grid_y, grid_z in *. change (1 + 1)%nat with 2%nat in *.
    assert (H0 : (k mod 2 < 2)%nat) by (apply Nat.mod_upper_bound; lia). destruct t; cbn [native_dim take length List.length seq foldr nth nodes_per_element Nat.eqb G] in *; (split; [done|]); unfold G.
    - pose proof (nth_lookup_Some _ _ 0 _ (Hz eq_refl)) as Ez. assert ((k / 2) mod 2 < 2)%nat by (apply Nat.mod_upper_bound; lia). assert (k / (2 * 2) < 2)%nat by (apply Nat.div_lt_upper_bound; lia).
      rewrite <- Ex, <- Ey, <- Ez, !Lb_along by done. ring.
    - assert (k / 2 < 2)%nat by (apply Nat.div_lt_upper_bound; lia). rewrite <- Ex, <- Ey, !Lb_along by done. rewrite (Nat.mod_small (k / 2) 2) by done. ring.
    - rewrite (Nat.mod_small k 2) in * by lia. rewrite <- Ex, !Lb_along by lia. ring.
  Qed.
End place.
Definition at_node (t : etype) (absc : list R) (verts : list (list R)) (i a : nat) : R := rsum (npe t 1) (fun k => nth a (nth k verts []) 0 * weight t absc k i).
Lemma place_ok O absc t verts i : length absc = (O + 1)%nat -> length verts = npe t 1 -> Forall (fun v => length v = 3%nat) verts -> (i < npe t O)%nat ->
  nodePhysicalLocation t absc verts i = Ok [at_node t absc verts i 0; at_node t absc verts i 1; at_node t absc verts i 2].
Proof.
  intros Hl HV H3 Hi. unfold nodePhysicalLocation. destruct (lookup_lt_is_Some_2 (node_locations t absc) i) as [p Hp]; [by rewrite (locations_length t O)|]. rewrite (rd_ok _ _ _ Hp), bind_ok.
  assert (Hk0 : (0 < npe t 1)%nat) by (destruct t; cbn; lia). destruct (Bv_weight O absc Hl t 0 i p Hk0 Hi Hp) as [Hlp _].
  rewrite (map_ok t verts HV H3 p Hlp). unfold Xf, Xc, at_node. f_equal.
  assert (E : forall a, rsum (npe t 1) (fun k => nth a (nth k verts []) 0 * Bv t absc1 k 0 p) = rsum (npe t 1) (fun k => nth a (nth k verts []) 0 * weight t absc k i)).
  { intros a. apply rsum_ext. intros k Hk. f_equal. by apply (Bv_weight O absc Hl t k i p Hk Hi Hp). }
  by rewrite !E.
Qed.
Lemma absc1_sym : symmetric_absc 1 absc1.
Proof.
  split; [done|]. split; [done|]. split; [done|]. split.
  - intros g h H. assert (g = 0%nat) as -> by lia. assert (h = 1%nat) as -> by lia. cbn. lra.
  - intros g H. destruct g as [|[|g]]; [| |lia]; cbn; lra.
Qed.
Lemma absc1_only absc : symmetric_absc 1 absc -> absc = absc1.
Proof. intros (Hl & H0 & H1 & _). destruct absc as [|a [|b [|? ?]]]; try done. cbn in H0, H1. by subst. Qed.
Lemma vpos1 t k : (k < npe t 1)%nat -> vpos 1 t k = k.
Proof. intros Hk. destruct (vpos_ok 1 t k Hk) as [H1 H2]. apply (coord_ext t 1); [done|done|]. intros a Ha. rewrite (H2 a Ha). lia. Qed.
Section located.
  Context (OC : nat) (absc : list R) (Hsym : symmetric_absc OC absc) (HO : (1 <= OC)%nat).
  Lemma location_ok t verts i : length verts = npe t 1 -> Forall (fun v => length v = 3%nat) verts -> (i < npe t OC)%nat ->
    location absc t verts OC i = [at_node t absc verts i 0; at_node t absc verts i 1; at_node t absc verts i 2].
  Proof using Hsym HO.
    intros HV H3 Hi. unfold location. assert (Hl : length absc = (OC + 1)%nat) by apply Hsym. destruct (Nat.eqb_spec OC 1) as [->|Hne].
    - rewrite (absc1_only absc Hsym) in *. by rewrite (place_ok 1).
    - by rewrite (place_ok OC).
  Qed.
  Lemma location_vertex t verts k : length verts = npe t 1 -> Forall (fun v => length v = 3%nat) verts -> (k < npe t 1)%nat ->
    location absc t verts 1 k = location absc t verts OC (vpos OC t k).
  Proof using Hsym HO.
    intros HV H3 Hk. rewrite location_ok by (done || by apply vpos_ok). unfold location. rewrite Nat.eqb_refl, (place_ok 1) by done.
    assert (E : forall a, at_node t absc1 verts k a = at_node t absc verts (vpos OC t k) a).
    { intros a. unfold at_node. apply rsum_ext. intros l Hl. f_equal. rewrite (vpos_weight OC absc Hsym HO t k l Hk Hl). rewrite <- (vpos1 t k Hk) at 1. by apply (vpos_weight 1 absc1 absc1_sym (le_n 1)). }
    by rewrite !E.
  Qed.
  Lemma norm_distance p0 p1 p2 q0 q1 q2 (p q : nat -> R) : p 0%nat = p0 -> p 1%nat = p1 -> p 2%nat = p2 -> q 0%nat = q0 -> q 1%nat = q1 -> q 2%nat = q2 ->
    norm 3 (fun a => nth a [p0; p1; p2] 0 - nth a [q0; q1; q2] 0) = distance p q.
  Proof. clear Hsym HO. intros <- <- <- <- <- <-. unfold norm, dot, distance. f_equal. cbn -[Rpow_def.pow]. ring. Qed.
  Lemma position_at X (e : element (list R)) i a : el_verts e = map X (el_nodes e) -> length (el_nodes e) = npe (el_type e) 1 -> at_node (el_type e) absc (el_verts e) i a = position X absc e i a.
  Proof.
    clear Hsym HO. intros -> Hl. unfold at_node, position. apply rsum_ext. intros k Hk. f_equal. f_equal. destruct (lookup_lt_is_Some_2 (el_nodes e) k) as [n Hn]; [lia|]. rewrite (nth_lookup_Some _ _ _ _ Hn). apply nth_lookup_Some. by rewrite (list_lookup_fmap X), Hn.
  Qed.
  Lemma position_parts X (e : element (list R)) i a N : (forall n, n ∈ el_nodes e -> (n < N)%nat) -> length (el_nodes e) = npe (el_type e) 1 -> position X absc e i a = rsum N (fun n => nth a (X n) 0 * part_of absc e i n).
  Proof.
    clear Hsym HO. intros HN Hl. unfold position, part_of. rewrite (rsum_ext N _ (fun n => rsum (npe (el_type e) 1) (fun k => nth a (X n) 0 * ((if (nth k (el_nodes e) 0 =? n)%nat then 1 else 0) * weight (el_type e) absc k i)))) by (intros; by rewrite rsum_scal).
    rewrite rsum_swap2. apply rsum_ext. intros k Hk. destruct (lookup_lt_is_Some_2 (el_nodes e) k) as [n Hn]; [lia|]. rewrite (nth_lookup_Some _ _ _ _ Hn). rewrite (rsum_one N _ n).
    - rewrite Nat.eqb_refl. ring.
    - apply HN. by eapply elem_of_list_lookup_2.
    - intros n' _ Hne. destruct (Nat.eqb_spec n n'); [congruence|]. ring.
  Qed.
  Lemma same_position X (e f : element (list R)) i j a N : (forall n, n ∈ el_nodes e -> (n < N)%nat) -> (forall n, n ∈ el_nodes f -> (n < N)%nat) -> length (el_nodes e) = npe (el_type e) 1 -> length (el_nodes f) = npe (el_type f) 1 ->
    same_point absc e i f j -> position X absc e i a = position X absc f j a.
  Proof. clear Hsym HO. intros He Hf Hle Hlf Hs. rewrite (position_parts X e i a N), (position_parts X f j a N) by done. apply rsum_ext. intros n _. by rewrite Hs. Qed.
  Lemma same_stable (e f : element (list R)) i j : ~ ~ same_point absc e i f j -> same_point absc e i f j.
  Proof. clear Hsym HO. intros H n. destruct (Req_dec (part_of absc e i n) (part_of absc f j n)) as [|Hne]; [done|]. exfalso. apply H. intros Hs. by apply Hne. Qed.
  (** Matching by position is matching of points. *)
  Lemma matcher_ok X m (e f : element (list R)) i j N : placed X m -> resolved tolerance OC X absc m -> is_elem m e -> is_elem m f -> length (el_nodes e) = npe (el_type e) 1 -> length (el_nodes f) = npe (el_type f) 1 ->
    (forall n, n ∈ el_nodes e -> (n < N)%nat) -> (forall n, n ∈ el_nodes f -> (n < N)%nat) ->
    e = f \/ (exists a b, a <> b /\ a ∈ el_nodes e /\ b ∈ el_nodes e /\ a ∈ el_nodes f /\ b ∈ el_nodes f) -> (i < npe (el_type e) OC)%nat -> (j < npe (el_type f) OC)%nat ->
    point_matcher (location absc (el_type e) (el_verts e) OC i) (location absc (el_type f) (el_verts f) OC j) = true <-> same_point absc e i f j.
  Proof using Hsym HO.
    intros [HX Hp] Hr He Hf Hle Hlf HNe HNf Hor Hi Hj. pose proof (Hp e He) as Ve. pose proof (Hp f Hf) as Vf.
    assert (H3 : forall l, Forall (fun v => length v = 3%nat) (map X l)) by (intros l; apply Forall_forall; intros v Hv; apply elem_of_list_fmap in Hv as (n & -> & _); apply HX).
    assert (Le : length (el_verts e) = npe (el_type e) 1) by (by rewrite Ve, map_length). assert (Lf : length (el_verts f) = npe (el_type f) 1) by (by rewrite Vf, map_length).
    rewrite (location_ok (el_type e) (el_verts e) i Le) by (done || by rewrite Ve). rewrite (location_ok (el_type f) (el_verts f) j Lf) by (done || by rewrite Vf).
    rewrite !(position_at X e), !(position_at X f) by done. unfold point_matcher. rewrite (norm_distance _ _ _ _ _ _ (position X absc e i) (position X absc f j)) by done. split.
    - destruct (Rlt_dec _ _) as [Hlt|]; [|done]. intros _. apply same_stable. intros Hn. specialize (Hr e f i j He Hf Hor Hi Hj Hn). lra.
    - intros Hs. destruct (Rlt_dec _ _) as [|Hge]; [done|]. exfalso. apply Hge. unfold distance. rewrite !(same_position X e f i j _ N) by done.
      match goal with |- R_sqrt.sqrt ?u < _ => replace u with 0 by ring end. rewrite sqrt_0. unfold tolerance. apply Rinv_0_lt_compat, pow_lt. lra.
  Qed.
End located.
