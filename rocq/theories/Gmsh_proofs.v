(** Proofs for C50 and C64: elements. *)
From Coq Require Import QArith Lqa.
From Verif Require Import Base StdAlgo Elem_model Mesh_model Mesh_proofs Merge_model Gmsh_model Gmsh_spec.
Local Open Scope nat_scope.

Lemma Qle_bool_neg a b : negb (Qle_bool a b) = true <-> (b < a)%Q.
Proof. rewrite negb_true_iff. split; intros H; [apply Qnot_le_lt; intros Hc; apply Qle_bool_iff in Hc; congruence|]. destruct (Qle_bool a b) eqn:E; [|done]. apply Qle_bool_iff in E. lra. Qed.
Lemma flat_spec a l b : flat (a :: l) = Ok b -> (b = true <-> forall q, q ∈ l -> (- (1 # 1000000000) < zc q - zc a < 1 # 1000000000)%Q).
Proof.
  unfold flat. change (rd (a :: l) 0) with (Ok a). rewrite bind_ok. cbn [drop]. intros [= <-]. rewrite forallb_forall. split.
  - intros H q Hq. apply elem_of_list_In in Hq. specialize (H q Hq). cbv zeta in H. apply andb_true_iff in H as [H1 H2]. apply Qle_bool_neg in H1, H2. lra.
  - intros H q Hq. apply elem_of_list_In in Hq. specialize (H q Hq). cbv zeta. apply andb_true_iff. split; apply Qle_bool_neg; lra.
Qed.
Lemma level_cons a l : level (a :: l) <-> forall q, q ∈ l -> (- (1 # 1000000000) < zc q - zc a < 1 # 1000000000)%Q.
Proof.
  unfold level. split.
  - intros H q Hq. apply (H a q); [done|by right].
  - intros H p q [= <-] Hq. apply elem_of_cons in Hq as [-> |Hq]; [lra|by apply H].
Qed.
Lemma list4 {A} (l : list A) : length l = 4 -> exists a b c d, l = [a; b; c; d].
Proof. destruct l as [|a [|b [|c [|d [|? ?]]]]]; intros H; try discriminate. eauto. Qed.
Lemma clockwise_4 a b c d : clockwise [a; b; c; d] <-> (turn a b d < 0)%Q.
Proof. unfold clockwise. split; [intros (a' & b' & c' & d' & [= <- <- <- <-] & H); done|intros H; by exists a, b, c, d]. Qed.

Theorem make_element_imported t data id : length data = length (gmsh_place t) -> exists e, makeElementFromNodeData t data id = Ok e /\ el_id e = id /\ imported t data e.
Proof.
  intros Hl. destruct t.
  - destruct data as [|x0 [|x1 [|x2 [|x3 [|x4 [|x5 [|x6 [|x7 [|? ?]]]]]]]]]; try discriminate Hl.
    eexists. split; [reflexivity|]. split; [done|]. split; [done|]. split; [done|]. split; [done|]. split; [done|]. exists false. split; [split; [done|by intros [? _]]|].
    intros i place n p Hg Hd.
    destruct i as [|[|[|[|[|[|[|[|i]]]]]]]]; try discriminate Hg; injection Hg as <-; injection Hd as ->; cbn [fst snd].
    + by exists 0. + by exists 1. + by exists 3. + by exists 2. + by exists 4. + by exists 5. + by exists 7. + by exists 6.
  - destruct (list4 data Hl) as ([n0 p0] & [n1 p1] & [n2 p2] & [n3 p3] & ->).
    unfold makeElementFromNodeData. cbn [fmap list_fmap fst snd].
    change (swap [n0; n1; n2; n3] 2 3) with (Ok [n0; n1; n3; n2]). change (swap [p0; p1; p2; p3] 2 3) with (Ok [p0; p1; p3; p2]). rewrite !bind_ok.
    destruct (flat [p0; p1; p3; p2]) as [f| |] eqn:Ef; [|discriminate Ef..]. rewrite bind_ok. apply flat_spec in Ef.
    assert (Hlev : f = true <-> level [p0; p1; p2; p3]).
    { rewrite level_cons, Ef. split; intros H q Hq; apply H; rewrite !elem_of_cons in Hq |- *; tauto. }
    change (normal_z [p0; p1; p3; p2]) with (Ok (turn p0 p1 p3)). cbv beta.
    assert (Hyes : f = true -> (turn p0 p1 p3 < 0)%Q -> imported Quad [(n0, p0); (n1, p1); (n2, p2); (n3, p3)] (mk_el Quad 1 [n0; n3; n1; n2] [p0; p3; p1; p2] id)).
    { intros Hf Ht. split; [done|]. split; [done|]. split; [done|]. split; [done|]. exists true. split; [split; [intros _|done]; split; [done|]; split; [by apply Hlev|by apply clockwise_4]|].
      intros i place n p Hg Hd. destruct i as [|[|[|[|i]]]]; try discriminate Hg; injection Hg as <-; injection Hd as <- <-.
      + by exists 0. + by exists 2. + by exists 3. + by exists 1. }
    assert (Hno : ~ (f = true /\ (turn p0 p1 p3 < 0)%Q) -> imported Quad [(n0, p0); (n1, p1); (n2, p2); (n3, p3)] (mk_el Quad 1 [n0; n1; n3; n2] [p0; p1; p3; p2] id)).
    { intros Hn. split; [done|]. split; [done|]. split; [done|]. split; [done|]. exists false. split; [split; [done|]; intros (_ & H1 & H2); destruct Hn; split; [by apply Hlev|by apply clockwise_4 in H2]|].
      intros i place n p Hg Hd. destruct i as [|[|[|[|i]]]]; try discriminate Hg; injection Hg as <-; injection Hd as <- <-.
      + by exists 0. + by exists 1. + by exists 3. + by exists 2. }
    destruct f; [|eexists; split; [reflexivity|]; split; [done|]; apply Hno; by intros [? _]].
    rewrite bind_ok. destruct (negb (Qle_bool 0 (turn p0 p1 p3))) eqn:En.
    + change (swap [n0; n1; n3; n2] 1 2) with (Ok [n0; n3; n1; n2]). change (swap [p0; p1; p3; p2] 1 2) with (Ok [p0; p3; p1; p2]). rewrite !bind_ok. eexists. split; [reflexivity|]. split; [done|]. apply Hyes; [done|by apply Qle_bool_neg].
    + eexists. split; [reflexivity|]. split; [done|]. apply Hno. intros [_ H]. apply Qle_bool_neg in H. congruence.
  - destruct data as [|x0 [|x1 [|? ?]]]; try discriminate Hl. eexists. split; [reflexivity|]. split; [done|]. split; [done|]. split; [done|]. split; [done|]. split; [done|]. exists false. split; [split; [done|by intros [? _]]|].
    intros i place n p Hg Hd. destruct i as [|[|i]]; try discriminate Hg; injection Hg as <-; injection Hd as ->; cbn [fst snd]; [by exists 0|by exists 1].
Qed.

(** What [imported] says about quads. *)
Lemma imported_quad a b c d e : imported Quad [a; b; c; d] e ->
  (el_nodes e = [a.1; b.1; d.1; c.1] /\ el_verts e = [a.2; b.2; d.2; c.2] /\ ~ (level [a.2; b.2; c.2; d.2] /\ (turn a.2 b.2 d.2 < 0)%Q)) \/
  (el_nodes e = [a.1; d.1; b.1; c.1] /\ el_verts e = [a.2; d.2; b.2; c.2] /\ (turn a.2 b.2 d.2 < 0)%Q).
Proof.
  intros (_ & _ & L1 & L2 & m & Hm & H).
  destruct (list4 _ L1) as (x0 & x1 & x2 & x3 & En), (list4 _ L2) as (y0 & y1 & y2 & y3 & Ev). rewrite En, Ev in *.
  assert (Hp : forall i place x, gmsh_place Quad !! i = Some place -> [a; b; c; d] !! i = Some x -> exists j, lex_place Quad !! j = Some (if m then rev place else place) /\ [x0; x1; x2; x3] !! j = Some x.1 /\ [y0; y1; y2; y3] !! j = Some x.2).
  { intros i place [n p] Hg Hx. by apply (H i place n p). }
  cbn [fmap list_fmap] in Hm. rewrite clockwise_4 in Hm.
  destruct (Hp 0 _ _ eq_refl eq_refl) as (j0 & E0 & A0 & B0), (Hp 1 _ _ eq_refl eq_refl) as (j1 & E1 & A1 & B1), (Hp 2 _ _ eq_refl eq_refl) as (j2 & E2 & A2 & B2), (Hp 3 _ _ eq_refl eq_refl) as (j3 & E3 & A3 & B3).
  destruct m; cbn in E0, E1, E2, E3;
    destruct j0 as [|[|[|[|?]]]]; try discriminate E0; destruct j1 as [|[|[|[|?]]]]; try discriminate E1; destruct j2 as [|[|[|[|?]]]]; try discriminate E2; destruct j3 as [|[|[|[|?]]]]; try discriminate E3;
    cbn in A0, A1, A2, A3, B0, B1, B2, B3; injection A0 as ->; injection A1 as ->; injection A2 as ->; injection A3 as ->; injection B0 as ->; injection B1 as ->; injection B2 as ->; injection B3 as ->.
  - right. split; [done|]. split; [done|]. by apply Hm.
  - left. split; [done|]. split; [done|]. intros [H1 H2]. discriminate (proj2 Hm (conj eq_refl (conj H1 H2))).
Qed.
Lemma jacobian_corners a b c d x y :
  (jacobian a b c d x y == (1 - x) * (1 - y) * turn a b c + (1 + x) * (1 - y) * turn b d a + (1 - x) * (1 + y) * turn c a d + (1 + x) * (1 + y) * turn d c b)%Q.
Proof. unfold jacobian, turn. cbv zeta. ring. Qed.
