(** C23. *)
From Verif Require Import Base StdAlgo Ownership_model Elem_model Elem_spec Mesh_model Mesh_spec Mesh_proofs Prim_model Prim_spec Build_proofs Prim_proofs Extrude_model Extrude_spec Extrude_proofs Extrude2_proofs Extrude3_proofs Extrude4_proofs Prim_props.
Local Arguments Nat.mul : simpl never.
Local Arguments Nat.add : simpl never.
Local Arguments Nat.sub : simpl never.

(** C23.  Extruding a valid plane mesh of lines and quadrilaterals over two or
    more heights succeeds.  The domains are the old ones and, if there are
    quadrilaterals, the back and the front.  An old domain holds exactly the
    extrusions of its elements, one for each element and layer; the back (front)
    holds exactly the quadrilaterals at the first (last) height.  Ids are
    0 ... n - 1, ascending in every vector, and n is the number of elements times
    the number of layers plus two for each quadrilateral.  Nodes are
    0 ... layers * N - 1 and all are owned. *)
Theorem extrude_valid {C} (sched : list (element (C * C * C)) -> list (element (C * C * C))) (x : mesh (C * C * C)) N zs ib fr :
  (forall l, sched l ≡ₚ l) -> plane_mesh (m_domains x) N (m_bnds x).*1 -> localSize (m_own x) = N -> 1 < length zs ->
  ib ∉ (m_domains x).*1 -> fr ∉ (m_domains x).*1 -> ib <> fr ->
  exists y, extrude sched x zs ib fr = Ok y /\ let m := m_domains x in let m' := m_domains y in
    valid_doms [1] m' /\ ascending m' /\
    map el_id (all_elems m') ≡ₚ seq 0 ((length zs - 1) * length (all_elems m) + 2 * length (filter (fun e => el_type e = Quad) (all_elems m))) /\
    (forall id e', id ∈ m.*1 -> in_domain m' id e' ->
       exists e l z z', in_domain m id e /\ zs !! l = Some z /\ zs !! (l + 1) = Some z' /\ extruded N l z z' e e') /\
    (forall id e l z z', in_domain m id e -> zs !! l = Some z -> zs !! (l + 1) = Some z' -> exists e', in_domain m' id e' /\ extruded N l z z' e e') /\
    (forall e', in_domain m' ib e' -> exists e z, is_elem m e /\ el_type e = Quad /\ zs !! 0 = Some z /\ lifted N 0 z e e') /\
    (forall e', in_domain m' fr e' -> exists e z, is_elem m e /\ el_type e = Quad /\ zs !! (length zs - 1) = Some z /\ lifted N (length zs - 1) z e e') /\
    (forall e, is_elem m e -> el_type e = Quad ->
       (exists e' z, in_domain m' ib e' /\ zs !! 0 = Some z /\ lifted N 0 z e e') /\
       (exists e' z, in_domain m' fr e' /\ zs !! (length zs - 1) = Some z /\ lifted N (length zs - 1) z e e')) /\
    (forall id, id ∈ m'.*1 <-> id ∈ m.*1 \/ ((id = ib \/ id = fr) /\ exists e, is_elem m e /\ el_type e = Quad)) /\
    (forall n, is_node m' n <-> n < length zs * N) /\
    (forall n, isOwned (m_own y) n = true <-> n < length zs * N) /\ so_shared (m_own y) = [] /\
    (forall id, id ∈ (m_bnds y).*1 <-> id ∈ (m_bnds x).*1 \/ id = ib \/ id = fr).
Proof.
  intros Hs HP HN Hz Hib Hfr Hne. destruct (extrude_run sched Hs x N zs ib fr HP HN Hz Hib Hfr) as (z0 & st & y & Hzs & Hb & Hy & Hm & Hsh & Ho & _ & _ & Hbn).
  exists y. split; [done|]. cbv zeta. rewrite Hm. set (m := m_domains x) in *. assert (Hel := elems_tag m N zs z0 ib fr st Hb).
  assert (Htag := tags_elem m N _ zs HP Hz). assert (Hz0 : forall l z, zs !! l = Some z -> zat zs z0 l = z) by (intros l z Hl; by apply nth_lookup_Some).
  assert (Hz1 : forall l, l < length zs -> zs !! l = Some (zat zs z0 l)). { intros l Hl. destruct (lookup_lt_is_Some_2 zs l Hl) as [z E]. by rewrite E, (Hz0 _ _ E). }
  assert (Hord : forall id e, in_domain m id e -> el_order e = 1) by (intros id e He; by destruct (typed_in m N _ HP id e He)).
  assert (Hext : forall id e l k, extruded N l (zat zs z0 l) (zat zs z0 (l + 1)) e (it_el (item_of N zs z0 ib fr (id, e, Layer l)) k)).
  { intros id e l k. split; [done|]. split; [done|]. split; [done|]. exists (map (set_z (zat zs z0 l)) (el_verts e)), (map (set_z (zat zs z0 (l + 1))) (el_verts e)).
    split; [done|]. split; apply at_z_map. }
  assert (Hquad : forall id e, in_domain m id e -> el_type e <> Line -> is_elem m e /\ el_type e = Quad) by (intros id e He Ht; split; [by exists id|by apply (quad_of m N _ HP id e He)]).
  assert (Hback : forall id e k, lifted N 0 (zat zs z0 0) e (it_el (item_of N zs z0 ib fr (id, e, Back)) k)) by (intros; repeat split; apply at_z_map).
  assert (Hfront : forall id e k, lifted N (length zs - 1) (zat zs z0 (length zs - 1)) e (it_el (item_of N zs z0 ib fr (id, e, Front)) k)) by (intros; repeat split; apply at_z_map).
  assert (Hput : forall t, t ∈ tags m zs -> exists k, in_domain st.1 (it_dom (item_of N zs z0 ib fr t)) (it_el (item_of N zs z0 ib fr t) k)).
  { intros t Ht. destruct (tag_elem m N zs z0 ib fr st Hb t Ht) as (k & _ & Hk). by exists k. }
  split; [exact (b_valid _ _ _ Hb)|]. split; [exact (b_asc _ _ _ Hb)|]. split.
  { rewrite (b_seq _ _ _ Hb), puts_cmds, map_length, (count_tags m N _ zs HP). done. }
  split.
  { intros id e' Hid He'. apply Hel in He' as (k & [[i e] kd] & Hk & Hi & ->). apply elem_of_list_lookup_2, Htag in Hk as [Hd Hkd].
    destruct kd as [l| |]; cbn [item_of it_dom] in Hi; [|by rewrite Hi in Hib|by rewrite Hi in Hfr]. subst i.
    exists e, l, (zat zs z0 l), (zat zs z0 (l + 1)). split; [done|]. split; [apply Hz1; lia|]. split; [apply Hz1; lia|]. apply Hext. }
  split.
  { intros id e l z z' He Hl Hl'. apply lookup_lt_Some in Hl' as Hlt. destruct (Hput (id, e, Layer l)) as (k & Hk); [apply Htag; split; [done|lia]|].
    eexists. split; [exact Hk|]. rewrite <- (Hz0 _ _ Hl), <- (Hz0 _ _ Hl'). apply Hext. }
  split.
  { intros e' He'. apply Hel in He' as (k & [[i e] kd] & Hk & Hi & ->). apply elem_of_list_lookup_2, Htag in Hk as [Hd Hkd].
    destruct kd as [l| |]; cbn [item_of it_dom] in Hi; [|clear Hi|by rewrite Hi in Hne]. { subst i. by apply (in_keys m) in Hd. }
    destruct (Hquad _ _ Hd Hkd). exists e, (zat zs z0 0). split; [done|]. split; [done|]. split; [apply Hz1; lia|apply Hback]. }
  split.
  { intros e' He'. apply Hel in He' as (k & [[i e] kd] & Hk & Hi & ->). apply elem_of_list_lookup_2, Htag in Hk as [Hd Hkd].
    destruct kd as [l| |]; cbn [item_of it_dom] in Hi; [|by rewrite Hi in Hne|clear Hi]. { subst i. by apply (in_keys m) in Hd. }
    destruct (Hquad _ _ Hd Hkd). exists e, (zat zs z0 (length zs - 1)). split; [done|]. split; [done|]. split; [apply Hz1; lia|apply Hfront]. }
  split.
  { intros e [id He] Ht. split.
    - destruct (Hput (id, e, Back)) as (k & Hk); [apply Htag; split; [done|by rewrite Ht]|]. eexists _, (zat zs z0 0). split; [exact Hk|]. split; [apply Hz1; lia|apply Hback].
    - destruct (Hput (id, e, Front)) as (k & Hk); [apply Htag; split; [done|by rewrite Ht]|]. eexists _, (zat zs z0 (length zs - 1)). split; [exact Hk|]. split; [apply Hz1; lia|apply Hfront]. }
  split.
  { intros id. rewrite (ext_keys m N zs z0 ib fr st Hb). split; (intros [H|H]; [by left|]).
    - destruct H as ([[i e] kd] & Ht & <-). apply Htag in Ht as [Hd Hkd]. destruct kd as [l| |]; cbn [item_of it_dom].
      + left. by apply (in_keys m) in Hd.
      + right. split; [by left|]. exists e. by apply (Hquad i).
      + right. split; [by right|]. exists e. by apply (Hquad i).
    - right. destruct H as [Hid (e & [i He] & Ht)]. destruct Hid as [-> | ->].
      + exists (i, e, Back). split; [|done]. apply Htag. split; [done|by rewrite Ht].
      + exists (i, e, Front). split; [|done]. apply Htag. split; [done|by rewrite Ht]. }
  split; [exact (ext_nodes m N _ zs z0 ib fr HP Hz st Hb)|]. split; [done|]. split; [done|].
  intros id. rewrite Hbn, elem_of_app, !elem_of_cons, elem_of_nil. tauto.
Qed.
Print Assumptions extrude_valid.
(** C23.  Extrusions of elements [e] and [f] of the plane: with both in the same
    layer they share the copies of the common nodes of [e] and [f] below and
    above; stacked, they share exactly the copies on the common face; two or more
    layers apart they share nothing. *)
Theorem extrude_shared_nodes {V} (m : dmap (domain (V * V * V))) N bnds (e f e' f' : element (V * V * V)) l l' z1 z2 z3 z4 n :
  plane_mesh m N bnds -> is_elem m e -> is_elem m f -> extruded N l z1 z2 e e' -> extruded N l' z3 z4 f f' -> l <= l' ->
  n ∈ el_nodes e' /\ n ∈ el_nodes f' <->
    exists c, c ∈ el_nodes e /\ c ∈ el_nodes f /\
      ((l' = l /\ (n = l * N + c \/ n = (l + 1) * N + c)) \/ (l' = l + 1 /\ n = (l + 1) * N + c)).
Proof.
  intros HP [ie He] [jf Hf] (_ & _ & Hne & _) (_ & _ & Hnf & _) Hl. rewrite Hne, Hnf, !elem_of_app, !in_shift.
  pose proof (fun n => node_lt m N bnds HP ie e n He) as Hle. pose proof (fun n => node_lt m N bnds HP jf f n Hf) as Hlf. clear HP He Hf Hne Hnf. split.
  - intros [Ha Hb].
    assert (exists a x, a ∈ el_nodes e /\ (x = l \/ x = l + 1) /\ n = x * N + a) as (a & x & Ha' & Hx & En) by (destruct Ha as [(a & ? & ?)|(a & ? & ?)]; [by exists a, l; auto|by exists a, (l + 1); auto]).
    assert (exists b y, b ∈ el_nodes f /\ (y = l' \/ y = l' + 1) /\ n = y * N + b) as (b & y & Hb' & Hy & En') by (destruct Hb as [(b & ? & ?)|(b & ? & ?)]; [by exists b, l'; auto|by exists b, (l' + 1); auto]).
    clear Ha Hb. specialize (Hle a Ha'). specialize (Hlf b Hb'). assert (x = y /\ a = b) as [-> ->].
    { assert (x = y) as ->; [|lia]. destruct (lt_eq_lt_dec x y) as [[H| ]|H]; [|done|]; exfalso.
      - assert (x * N + N <= y * N) by (rewrite <- (Nat.mul_succ_l x N); apply Nat.mul_le_mono_r; lia). lia.
      - assert (y * N + N <= x * N) by (rewrite <- (Nat.mul_succ_l y N); apply Nat.mul_le_mono_r; lia). lia. }
    exists b. split; [done|]. split; [done|]. destruct (decide (l' = l)) as [-> |]; [left; split; [done|]|right].
    + destruct Hx as [-> | ->]; auto.
    + assert (y = l + 1) as -> by lia. split; [lia|done].
  - intros (c & Hc & Hc' & [[-> [-> | ->]]|[-> ->]]); split; first [by left; exists c|by right; exists c].
Qed.
Print Assumptions extrude_shared_nodes.
(** C23.  If each side of the quadrilaterals of [dom] is shared by two of them or
    is exactly one boundary element, the same holds of the faces of the
    hexahedra, the back and the front being boundaries; and each boundary
    element is the face of exactly one hexahedron. *)
Theorem extrude_conforming {C} (sched : list (element (C * C * C)) -> list (element (C * C * C))) (x y : mesh (C * C * C)) N zs ib fr dom :
  (forall l, sched l ≡ₚ l) -> plane_mesh (m_domains x) N (m_bnds x).*1 -> localSize (m_own x) = N -> 1 < length zs ->
  ib ∉ (m_domains x).*1 -> fr ∉ (m_domains x).*1 -> dom ∈ (m_domains x).*1 ->
  (forall e, in_domain (m_domains x) dom e -> el_type e = Quad) -> NoDup (all_elems (m_domains x)) ->
  (forall e1 e2, is_elem (m_domains x) e1 -> is_elem (m_domains x) e2 -> el_nodes e1 ≡ₚ el_nodes e2 -> e1 = e2) ->
  conforming (m_domains x) dom (m_bnds x).*1 -> extrude sched x zs ib fr = Ok y ->
  conforming (m_domains y) dom ((m_bnds x).*1 ++ [ib; fr]) /\
  (boundary_attached (m_domains x) dom (m_bnds x).*1 -> (forall id e, in_domain (m_domains x) id e -> el_type e = Quad -> id = dom) ->
   boundary_attached (m_domains y) dom ((m_bnds x).*1 ++ [ib; fr])).
Proof.
  intros Hs HP HN Hz Hib Hfr Hdom Hq Hnd Hun Hc Hy. destruct (extrude_run sched Hs x N zs ib fr HP HN Hz Hib Hfr) as (z0 & st & y' & _ & Hb & Hy' & Hm & _).
  assert (y' = y) as -> by congruence. rewrite Hm. split.
  - eapply ext_conforming; done.
  - eapply ext_bnd_attached; done.
Qed.
Print Assumptions extrude_conforming.
(** C23.  Fewer than two heights, or a hexahedron in the mesh, make it throw. *)
Theorem extrude_throws {C} (sched : list (element (C * C * C)) -> list (element (C * C * C))) (x : mesh (C * C * C)) zs ib fr :
  length zs < 2 \/ (StronglySorted lt (m_domains x).*1 /\ exists e, is_elem (m_domains x) e /\ el_type e = Hex) -> extrude sched x zs ib fr = Throw.
Proof.
  intros [Hz|[Hv (e & He & Ht)]]; [|by eapply extrude_hex]. unfold extrude. destruct (Nat.ltb_spec 1 (length zs)); [lia|done].
Qed.
Print Assumptions extrude_throws.

(** The 2 x 1 square mesh with three heights. *)
Definition ex_sq := match ex_sq_mesh with Ok x => x | _ => mk_mesh [] {| so_begin := 0; so_end := 0; so_shared := [] |} [] end.
Lemma ex_sq_ok : ex_sq_mesh = Ok ex_sq.
Proof. vm_compute. reflexivity. Qed.
Definition with_id (m : dmap (domain (nat * nat * nat))) : list (nat * element (nat * nat * nat)) := concat (map (fun p => map (pair p.1) (concat (d_els p.2))) m).
Lemma with_id_elem m id e : in_domain m id e -> (id, e) ∈ with_id m.
Proof.
  intros (d & v & Hd & Hv' & He). apply elem_of_concat. exists (map (pair id) (concat (d_els d))). split.
  - apply (elem_of_list_fmap (pair id)). exists e. split; [done|]. apply elem_of_concat. by exists v.
  - apply (elem_of_list_fmap (fun p => map (pair p.1) (concat (d_els p.2)))). by exists (id, d).
Qed.
Local Opaque ex_sq.
Example extrude_example_valid : plane_mesh (m_domains ex_sq) 6 (m_bnds ex_sq).*1 /\ localSize (m_own ex_sq) = 6 /\
  (forall e, in_domain (m_domains ex_sq) 7 e -> el_type e = Quad) /\ NoDup (all_elems (m_domains ex_sq)) /\
  (forall e1 e2, is_elem (m_domains ex_sq) e1 -> is_elem (m_domains ex_sq) e2 -> el_nodes e1 ≡ₚ el_nodes e2 -> e1 = e2) /\
  conforming (m_domains ex_sq) 7 (m_bnds ex_sq).*1 /\ boundary_attached (m_domains ex_sq) 7 (m_bnds ex_sq).*1 /\
  (forall id e, in_domain (m_domains ex_sq) id e -> el_type e = Quad -> id = 7).
Proof.
  destruct (square_mesh_valid 0 [10; 20; 40] [1; 5] (mk_sq 7 1 2 3 4) (@rev _) (@rev nat)) as (x & Hx & Hv & Ha & Hn & _ & _ & _ & Hids & _ & Hq & _ & _ & Hb & _ & Hc & Hba);
    [cbn; lia|cbn; lia|apply (bool_decide_unpack _); by vm_compute|intros; symmetry; apply Permutation_rev|intros; symmetry; apply Permutation_rev|].
  assert (x = ex_sq) as -> by (pose proof ex_sq_ok as H; unfold ex_sq_mesh in H; congruence). clear Hx.
  assert (Eb : (m_bnds ex_sq).*1 = [1; 2; 3; 4]) by (by vm_compute). cbn [sq_domain sq_bottom sq_top sq_left sq_right] in *. rewrite Eb.
  set (ps := with_id (m_domains ex_sq)). pose proof (with_id_elem (m_domains ex_sq)) as Hps.
  assert (Hflat : Forall (fun p => el_type p.2 = Line /\ p.1 ∈ [1; 2; 3; 4] \/ el_type p.2 = Quad /\ p.1 = 7) ps).
  { vm_compute. repeat constructor; first [right; done|left; split; [done|]; apply (bool_decide_unpack _); by vm_compute]. }
  rewrite Forall_forall in Hflat.
  assert (Hun : Forall (fun p => Forall (fun q => sort (el_nodes p.2) = sort (el_nodes q.2) -> p = q) ps) ps).
  { vm_compute. repeat constructor; intros H; discriminate H. }
  assert (Forall (fun p => p.1 ∈ [1; 2; 3; 4] -> exists v e, v ∈ d_els p.2 /\ e ∈ v) (m_domains ex_sq)) as HF.
  { vm_compute. repeat constructor; intros _; eexists _, _; (split; [right; right; left|left]) || (split; [right; left|left]). }
  assert (Hsz : localSize (m_own ex_sq) = 6) by (by vm_compute).
  unfold ps in *. clear ps. set (X := ex_sq) in *. clearbody X.
  split; [split|].
  - exact Hv.
  - intros e [id He]. apply Hps, Hflat in He. tauto.
  - exact Hn.
  - intros id d Hid Hd. revert Hid.
    rewrite Forall_forall in HF. intros Hid. destruct (HF _ Hd Hid) as (v & e & Hv' & He). by exists e, d, v.
  - intros id b Hid Hd. destruct (Hba id b Hid Hd) as ([e s] & [He (ns & Hs & Hp)] & _). exists e, s. split; [by exists 7|]. split.
    + cbn [fst] in He. destruct (Hflat _ (Hps _ _ He)) as [[_ H]|[H _]]; cbn [fst snd] in H; [rewrite !elem_of_cons, elem_of_nil in H; lia|]. rewrite H.
      destruct (Hflat _ (Hps _ _ Hd)) as [[H' _]|[_ H']]; cbn [fst snd] in H'; [by rewrite H'|]. subst id. rewrite !elem_of_cons, elem_of_nil in Hid. lia.
    + apply side_of_iff. exists ns. by split.
  - split; [exact Hsz|]. split; [intros e He; by apply (Hq e He)|]. split.
    { apply (NoDup_fmap_1 el_id). change (NoDup (map el_id (all_elems (m_domains X)))). rewrite Hids. apply NoDup_seq. }
    split.
    { intros e1 e2 [i He1] [j He2] Hp. rewrite Forall_forall in Hun. pose proof (Hun _ (Hps _ _ He1)) as H1. rewrite Forall_forall in H1.
      assert (H2 : (i, e1) = (j, e2)); [|by injection H2]. apply H1; [by apply Hps|]. cbn [snd]. by apply sort_ext. }
    split; [done|]. split; [done|]. intros id e He Ht. destruct (Hflat _ (Hps _ _ He)) as [[H _]|[_ H]]; [cbn [snd] in H; congruence|done].
Qed.
(** Its extrusion: 4 hexahedra, 12 sides, 2 back and 2 front faces. *)
Example extrude_example : exists y, extrude (@rev _) ex_sq [0; 3; 8] 8 9 = Ok y /\ Permutation (map el_id (all_elems (m_domains y))) (seq 0 20) /\
  in_domain (m_domains y) 9 (mk_el Quad 1 [13; 14; 16; 17] [(20, 1, 8); (40, 1, 8); (20, 5, 8); (40, 5, 8)] 19) /\ so_end (m_own y) = 18.
Proof.
  eexists. split; [vm_compute; reflexivity|]. split; [|split; [|done]].
  - apply (bool_decide_unpack _). by vm_compute.
  - eexists _, _. split; [do 6 right; left|]. split; [right; left|right; left].
Qed.
(** With a hexahedron. *)
Example extrude_hex_example : exists x, ex_cu_mesh = Ok x /\ extrude (@rev _) x [0; 3; 8] 8 9 = Throw.
Proof. eexists. split; vm_compute; reflexivity. Qed.
