(** Proofs for C76: the tables of edges and faces, and the intersection of elements. *)
From Verif Require Import Base StdAlgo Elem_model Elem_spec Elem_proofs Mesh_model Mesh_spec Mesh_proofs Merge_model Merge_proofs Convert_model Convert_proofs Convert_spec Convert3_proofs Convert4_proofs.
Local Open Scope nat_scope.

Definition side_cube (t : etype) (s : nat) : list (option bool) :=
  match t, s with
  | Hex, 0 => [None; None; Some false] | Hex, 1 => [None; None; Some true]
  | Hex, 2 => [None; Some false; None] | Hex, 3 => [None; Some true; None]
  | Hex, 4 => [Some false; None; None] | Hex, _ => [Some true; None; None]
  | Quad, 0 => [None; Some false] | Quad, 1 => [None; Some true] | Quad, 2 => [Some false; None] | Quad, _ => [Some true; None]
  | Line, 0 => [Some false] | Line, _ => [Some true]
  end.
Definition join_cube (a b : list (option bool)) : list (option bool) := zip_with (fun x y => match x with None => y | _ => x end) a b.
Definition cube_of (t : etype) (dim : nat) : list (list (option bool)) :=
  match t, dim with
  | Line, 1 => [[None]]
  | Quad, 1 => map (side_cube Quad) [0; 1; 2; 3]
  | Quad, 2 => [[None; None]]
  | Hex, 1 => map (fun p : nat * nat => join_cube (side_cube Hex p.1) (side_cube Hex p.2)) [(0, 2); (0, 3); (0, 4); (0, 5); (1, 2); (1, 3); (1, 4); (1, 5); (2, 4); (2, 5); (3, 4); (3, 5)]
  | Hex, 2 => map (side_cube Hex) [0; 1; 2; 3; 4; 5]
  | _, _ => []
  end.
Lemma cube_of_ok t dim cs : cs ∈ cube_of t dim -> length cs = native_dim t /\ n_free cs = dim.
Proof.
  destruct t, dim as [|[|[|dim]]]; cbn; intros H; repeat (apply elem_of_cons in H as [->|H]; [done|]); by apply elem_of_nil in H.
Qed.
Lemma cube_of_all t dim cs : length cs = native_dim t -> n_free cs = dim -> dim = 1 \/ dim = 2 -> cs ∈ cube_of t dim.
Proof.
  intros Hl Hf Hd. unfold n_free in Hf. destruct t; cbn [native_dim] in *; repeat (let o := fresh "o" in destruct cs as [|o cs]; cbn [List.length] in *; try lia);
    repeat match goal with o : option bool |- _ => destruct o as [[]|] end; cbn in Hf; subst dim; try lia; cbn; apply (bool_decide_unpack _); vm_compute; exact I.
Qed.
Lemma on_cube_cons1 x O i : on_cube [x] O i <-> (forall b, x = Some b -> coord O i 0 = if b then O else 0).
Proof. split; [intros H b ->; by apply (H 0)|intros H [|[|a]] b Hb; cbn in Hb; simplify_eq; by apply H]. Qed.
Lemma on_cube_cons2 x y O i : on_cube [x; y] O i <-> (forall b, x = Some b -> coord O i 0 = if b then O else 0) /\ (forall b, y = Some b -> coord O i 1 = if b then O else 0).
Proof. split; [intros H; split; intros b ->; [by apply (H 0)|by apply (H 1)]|intros [H1 H2] [|[|[|a]]] b Hb; cbn in Hb; simplify_eq; [by apply H1|by apply H2]]. Qed.
Lemma on_cube_cons3 x y z O i : on_cube [x; y; z] O i <-> (forall b, x = Some b -> coord O i 0 = if b then O else 0) /\ (forall b, y = Some b -> coord O i 1 = if b then O else 0) /\ (forall b, z = Some b -> coord O i 2 = if b then O else 0).
Proof. split; [intros H; split; [|split]; intros b ->; [by apply (H 0)|by apply (H 1)|by apply (H 2)]|intros (H1 & H2 & H3) [|[|[|[|a]]]] b Hb; cbn in Hb; simplify_eq; [by apply H1|by apply H2|by apply H3]]. Qed.
Lemma some_eq (b : bool) (x : nat) O : (forall b', Some b = Some b' -> x = if b' then O else 0) <-> x = if b then O else 0.
Proof. split; [intros H; by apply H|intros H b' [= <-]; done]. Qed.
Lemma none_eq (P : bool -> Prop) : (forall b', None = Some b' -> P b') <-> True.
Proof. split; [done|intros _ b'; done]. Qed.
Lemma side_cube_ok t O s i : s < n_sides t -> on_side t O s i <-> i < npe t O /\ on_cube (side_cube t s) O i.
Proof.
  intros Hs. unfold on_side. destruct t; cbn in Hs; destruct s as [|[|[|[|[|[|s]]]]]]; try lia; cbn [side_cube];
    rewrite ?on_cube_cons1, ?on_cube_cons2, ?on_cube_cons3, ?some_eq, ?none_eq; unfold coord; cbv iota; tauto.
Qed.
Definition lists_cube (t : etype) (O : nat) (cs : list (option bool)) (l : list nat) : Prop := StronglySorted lt l /\ forall i, i ∈ l <-> i < npe t O /\ on_cube cs O i.
Lemma side_lists t O : Forall2 (lists_cube t O) (map (side_cube t) (seq 0 (n_sides t))) (boundary_table t O).
Proof.
  apply Forall2_same_length_lookup_2; [rewrite map_length, seq_length; by rewrite (table_length t O)|]. intros s cs l Hcs Hl. rewrite map_lookup in Hcs. destruct (seq 0 (n_sides t) !! s) as [s'|] eqn:Es; [|done]. apply lookup_seq in Es as [-> Hs]. injection Hcs as <-. cbn.
  destruct (side_table_ok t O s l Hl) as [H1 H2]. split; [done|]. intros i. rewrite H2. by apply side_cube_ok.
Qed.
(** Intersections of the sides of a hexahedron. *)
Lemma inter_ok O a b la lb : lists_cube Hex O a la -> lists_cube Hex O b lb -> StronglySorted lt (side_intersection la lb) /\ forall i, i ∈ side_intersection la lb <-> i < npe Hex O /\ on_cube a O i /\ on_cube b O i.
Proof.
  intros [Sa Ha] [Sb Hb]. unfold side_intersection. rewrite !sort_id by (by apply strict_sorted). split; [by apply set_intersection_sorted|]. intros i. rewrite set_intersection_elem by done. rewrite Ha, Hb. tauto.
Qed.
Lemma two_length (l : list nat) i j : i ∈ l -> j ∈ l -> i <> j -> (2 <=? length l) = true.
Proof. intros Hi Hj Hne. destruct l as [|x [|y l]]; [by apply elem_of_nil in Hi| |done]. apply elem_of_list_singleton in Hi, Hj. congruence. Qed.
Lemma inter_long O a b x y la lb : 1 <= O -> lists_cube Hex O (side_cube Hex a) la -> lists_cube Hex O (side_cube Hex b) lb -> (a, b) = (x, y) -> (a, b) ∈ [(0, 2); (0, 3); (0, 4); (0, 5); (1, 2); (1, 3); (1, 4); (1, 5); (2, 4); (2, 5); (3, 4); (3, 5)] ->
  (2 <=? length (side_intersection la lb)) = true /\ lists_cube Hex O (join_cube (side_cube Hex a) (side_cube Hex b)) (side_intersection la lb).
Proof.
  intros HO Ha Hb _ Hin. destruct (inter_ok O _ _ la lb Ha Hb) as [Hs He].
  assert (HE : forall i, i ∈ side_intersection la lb <-> i < npe Hex O /\ on_cube (join_cube (side_cube Hex a) (side_cube Hex b)) O i).
  { intros i. rewrite He. repeat (apply elem_of_cons in Hin as [[= -> ->]|Hin]; [cbn; rewrite !on_cube_cons3, !some_eq, !none_eq; tauto|]). by apply elem_of_nil in Hin. }
  split; [|split; [done|exact HE]].
  assert (Hcs : join_cube (side_cube Hex a) (side_cube Hex b) ∈ cube_of Hex 1).
  { cbn. repeat (apply elem_of_cons in Hin as [[= -> ->]|Hin]; [cbn; apply (bool_decide_unpack _); vm_compute; exact I|]). by apply elem_of_nil in Hin. }
  set (cs := join_cube _ _) in *. destruct (cube_of_ok Hex 1 cs Hcs) as [Hl Hf].
  assert (exists ax, cs !! ax = Some None) as [ax Hax].
  { clear -Hl Hf. unfold n_free in Hf. destruct cs as [|o0 [|o1 [|o2 [|? ?]]]]; try done. destruct o0 as [b0|]; [|by exists 0]. destruct o1 as [b1|]; [|by exists 1]. destruct o2 as [b2|]; [|by exists 2]. done. }
  destruct (cube_point O Hex cs (fun _ => 0) Hl ltac:(intros; cbv beta; lia)) as (i & Hi & Hion & Hic). destruct (cube_point O Hex cs (fun _ => O) Hl ltac:(intros; cbv beta; lia)) as (j & Hj & Hjon & Hjc).
  apply (two_length _ i j); [by apply HE|by apply HE|]. intros ->. specialize (Hjc ax Hax). specialize (Hic ax Hax). cbv beta in *. lia.
Qed.
Lemma inter_short O a b la lb : 1 <= O -> lists_cube Hex O (side_cube Hex a) la -> lists_cube Hex O (side_cube Hex b) lb -> (a, b) ∈ [(0, 1); (2, 3); (4, 5)] -> (2 <=? length (side_intersection la lb)) = false.
Proof.
  intros HO Ha Hb Hin. destruct (inter_ok O _ _ la lb Ha Hb) as [_ He]. destruct (side_intersection la lb) as [|i l]; [done|]. exfalso.
  assert (Hi : i ∈ i :: l) by left. apply He in Hi as (_ & H1 & H2).
  repeat (apply elem_of_cons in Hin as [[= -> ->]|Hin]; [cbn in H1, H2; rewrite on_cube_cons3, !some_eq, !none_eq in H1, H2; unfold coord in *; lia|]). by apply elem_of_nil in Hin.
Qed.
Lemma features_ok t O dim : 1 <= O -> dim = 1 \/ dim = 2 -> Forall2 (lists_cube t O) (cube_of t dim) (outer_features t O dim).
Proof.
  intros HO Hd. assert (Hall : forall cs, (forall i, on_cube cs O i) -> lists_cube t O cs (seq 0 (npe t O))).
  { intros cs Hcs. split; [apply sorted_seq|]. intros i. rewrite elem_of_seq. split; [intros [_ Hi]; split; [lia|apply Hcs]|intros [Hi _]; lia]. }
  assert (Hsides := side_lists t O). unfold outer_features. destruct Hd as [-> | ->], t; cbn [native_dim Nat.eqb Nat.ltb Nat.leb orb Nat.sub cube_of].
  - (* edges of a hexahedron *)
    remember (boundary_table Hex O) as T eqn:ET. cbn [n_sides seq map] in Hsides.
    destruct T as [|l0 [|l1 [|l2 [|l3 [|l4 [|l5 [|? ?]]]]]]]; try (exfalso; apply Forall2_length in Hsides; cbn in Hsides; lia).
    rewrite !Forall2_cons in Hsides. destruct Hsides as (H0 & H1 & H2 & H3 & H4 & H5 & _).
    assert (Hin : forall p, p ∈ [(0, 2); (0, 3); (0, 4); (0, 5); (1, 2); (1, 3); (1, 4); (1, 5); (2, 4); (2, 5); (3, 4); (3, 5)] -> p ∈ [(0, 2); (0, 3); (0, 4); (0, 5); (1, 2); (1, 3); (1, 4); (1, 5); (2, 4); (2, 5); (3, 4); (3, 5)]) by done.
    pose proof (inter_short O 0 1 _ _ HO H0 H1 ltac:(repeat (first [left | right]))) as S01. pose proof (inter_short O 2 3 _ _ HO H2 H3 ltac:(repeat (first [left | right]))) as S23. pose proof (inter_short O 4 5 _ _ HO H4 H5 ltac:(repeat (first [left | right]))) as S45.
    destruct (inter_long O 0 2 _ _ _ _ HO H0 H2 eq_refl ltac:(repeat (first [left | right]))) as [L02 C02]. destruct (inter_long O 0 3 _ _ _ _ HO H0 H3 eq_refl ltac:(repeat (first [left | right]))) as [L03 C03].
    destruct (inter_long O 0 4 _ _ _ _ HO H0 H4 eq_refl ltac:(repeat (first [left | right]))) as [L04 C04]. destruct (inter_long O 0 5 _ _ _ _ HO H0 H5 eq_refl ltac:(repeat (first [left | right]))) as [L05 C05].
    destruct (inter_long O 1 2 _ _ _ _ HO H1 H2 eq_refl ltac:(repeat (first [left | right]))) as [L12 C12]. destruct (inter_long O 1 3 _ _ _ _ HO H1 H3 eq_refl ltac:(repeat (first [left | right]))) as [L13 C13].
    destruct (inter_long O 1 4 _ _ _ _ HO H1 H4 eq_refl ltac:(repeat (first [left | right]))) as [L14 C14]. destruct (inter_long O 1 5 _ _ _ _ HO H1 H5 eq_refl ltac:(repeat (first [left | right]))) as [L15 C15].
    destruct (inter_long O 2 4 _ _ _ _ HO H2 H4 eq_refl ltac:(repeat (first [left | right]))) as [L24 C24]. destruct (inter_long O 2 5 _ _ _ _ HO H2 H5 eq_refl ltac:(repeat (first [left | right]))) as [L25 C25].
    destruct (inter_long O 3 4 _ _ _ _ HO H3 H4 eq_refl ltac:(repeat (first [left | right]))) as [L34 C34]. destruct (inter_long O 3 5 _ _ _ _ HO H3 H5 eq_refl ltac:(repeat (first [left | right]))) as [L35 C35].
    unfold edge_table, intersect_side_with. cbn [map List.filter]. rewrite S01, S23, S45, L02, L03, L04, L05, L12, L13, L14, L15, L24, L25, L34, L35. cbn [app map fst snd].
    repeat (constructor; [assumption|]). constructor.
  - exact Hsides.
  - constructor; [|constructor]. apply Hall. intros i. by rewrite on_cube_cons1, none_eq.
  - exact Hsides.
  - constructor; [|constructor]. apply Hall. intros i. by rewrite on_cube_cons2, !none_eq.
  - constructor.
Qed.
