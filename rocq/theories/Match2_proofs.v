(** Lemmas for C80: keys and the search. *)
From Coq Require Import QArith Qabs Qround Lqa.
From Verif Require Import Base StdAlgo Ownership_model Elem_model Mesh_model Mesh_spec Merge_spec Spatial_model Spatial_proofs Match_model Match_spec Match_proofs.
Local Open Scope nat_scope.

Definition within (B : Q) (a : fl) : Prop := match a with Some x => (Qabs x <= B)%Q | None => True end.
Lemma foldl_min_in l a : foldl fl_min a l ∈ a :: l.
Proof.
  revert a. induction l as [|b l IH]; intros a; cbn [foldl]; [left|]. specialize (IH (fl_min a b)). apply elem_of_cons in IH as [-> |H]; [|do 2 right; done].
  unfold fl_min. destruct (fl_lt a b); [left|right; left].
Qed.
Lemma fold_min_within B l : Forall (within B) l -> within B (fold_min l).
Proof. intros H. destruct l as [|a l]; [done|]. cbn [fold_min]. pose proof (foldl_min_in l a) as Hi. rewrite Forall_forall in H. by apply H. Qed.
Definition step_ok (d : fl) : Prop := match d with Some q => (minimum_dx <= q)%Q | None => True end.
Definition entry_ok (c : list fl) : Prop := c = nan_point \/ exists v, c = coords v /\ moderate v.
Lemma column_within E d : (forall p, p ∈ E -> entry_ok p.2) -> Forall (within 100000) (column d E).
Proof.
  intros H. unfold column. apply Forall_forall. intros a Ha. apply elem_of_list_fmap in Ha as (p & -> & Hp). destruct (H p Hp) as [-> |(v & -> & H1 & H2 & H3)].
  - unfold nan_point. destruct d as [|[|[|d]]]; done.
  - unfold coords. destruct d as [|[|[|d]]]; done.
Qed.
Lemma within_half a b : within 100000 a -> within 100000 b -> within 100000 (fl1 (Qmult (1 # 2)) (fl2 Qplus a (fl1 Qopp b))).
Proof. destruct a as [a|], b as [b|]; try done. cbn [within fl1 fl2]. intros H1 H2. apply Qabs_Qle_condition in H1, H2. apply Qabs_Qle_condition. split; lra. Qed.
Lemma neg_within E d : (forall p, p ∈ E -> entry_ok p.2) -> within 100000 (fold_min (map (fl1 Qopp) (column d E))).
Proof.
  intros H. apply fold_min_within. pose proof (column_within E d H) as Hc. induction Hc as [|a l Ha _ IH]; cbn; constructor; [|done]. destruct a as [a|]; [|done]. cbn [within fl1] in *. by rewrite Qabs_opp.
Qed.
Lemma step_is (d : fl) : step_ok (let a := fl1 Qabs d in if fl_lt a (Some minimum_dx) then Some minimum_dx else a).
Proof.
  cbv zeta. destruct d as [q|]; cbn [fl1 fl_lt]; [|done]. destruct (Qle_bool minimum_dx (Qabs q)) eqn:E; cbn [negb step_ok]; [by apply Qle_bool_iff|apply Qle_refl].
Qed.
Lemma init_ok root E : (forall p, p ∈ E -> entry_ok p.2) -> exists d0 d1 d2 o0 o1 o2, initSpaceHashTable root E = ([d0; d1; d2], [o0; o1; o2]) /\
  step_ok d0 /\ step_ok d1 /\ step_ok d2 /\ within 100000 o0 /\ within 100000 o1 /\ within 100000 o2.
Proof.
  intros H. unfold initSpaceHashTable, bounds. cbn [seq map zip_with]. eexists _, _, _, _, _, _. split; [reflexivity|]. split; [apply step_is|]. split; [apply step_is|]. split; [apply step_is|].
  split; [|split]; (apply within_half; [apply fold_min_within, column_within; exact H|apply neg_within; exact H]).
Qed.

Section keys.
  Context (odd : fl -> Z) (Hodd : (min64 < odd None < max64)%Z).
  Lemma snap_range x x0 d : within 100000 x -> within 100000 x0 -> step_ok d -> (min64 < snap odd x x0 d < max64)%Z.
  Proof.
    unfold snap. destruct x as [x|], x0 as [x0|], d as [d|]; cbn [fl2]; try (intros; exact Hodd). cbn [within step_ok]. intros Hx H0 Hd.
    apply Qabs_Qle_condition in Hx, H0. unfold minimum_dx in Hd. assert (Hd0 : (0 < d)%Q) by lra.
    assert (Hq : ((-4000000000000000000 # 1) <= (x - x0) / d <= (4000000000000000000 # 1))%Q).
    { split; [apply Qle_shift_div_l|apply Qle_shift_div_r]; lra. }
    pose proof (lround_bounds ((x - x0) / d)) as Hb. set (z := lround ((x - x0) / d)) in *. assert (H1 : (inject_Z (-4000000000000000001) <= inject_Z z)%Q) by (unfold inject_Z at 1; lra). assert (H2 : (inject_Z z <= inject_Z 4000000000000000001)%Q) by (unfold inject_Z at 2; lra).
    rewrite <- Zle_Qle in H1, H2. assert (Hz : in64 z = true) by (unfold in64, min64, max64; apply andb_true_intro; split; apply Z.leb_le; lia). rewrite Hz. unfold min64, max64. lia.
  Qed.
  Lemma lround_comp p q : (p == q)%Q -> lround p = lround q.
  Proof. intros H. unfold lround. rewrite (Qleb_comp 0%Q 0%Q (Qeq_refl 0%Q) p q H). destruct (Qle_bool 0 q); [by rewrite H|]. f_equal. by rewrite H. Qed.
  Lemma snap_comp x y x0 d : (x == y)%Q -> within 100000 (Some x) -> within 100000 x0 -> step_ok d -> snap odd (Some x) x0 d = snap odd (Some y) x0 d.
  Proof.
    intros E Hx H0 Hd. assert (Hy : within 100000 (Some y)) by (cbn [within] in *; by rewrite <- E). pose proof (snap_range _ _ _ Hx H0 Hd) as R1. pose proof (snap_range _ _ _ Hy H0 Hd) as R2. revert R1 R2. unfold snap. destruct x0 as [x0|], d as [d|]; cbn [fl2]; try done.
    assert (El : lround ((x - x0) / d) = lround ((y - x0) / d)) by (apply lround_comp; by rewrite E). rewrite El. destruct (in64 (lround ((y - x0) / d))) eqn:Ez; [done|].
    intros R1 R2. exfalso. cbn [within step_ok] in *. apply Qabs_Qle_condition in Hy, H0. unfold minimum_dx in Hd. assert (Hd0 : (0 < d)%Q) by lra.
    assert (Hq : ((-4000000000000000000 # 1) <= (y - x0) / d <= (4000000000000000000 # 1))%Q).
    { split; [apply Qle_shift_div_l|apply Qle_shift_div_r]; lra. }
    pose proof (lround_bounds ((y - x0) / d)) as Hb. set (z := lround ((y - x0) / d)) in *. assert (H1 : (inject_Z (-4000000000000000001) <= inject_Z z)%Q) by (unfold inject_Z at 1; lra). assert (H2 : (inject_Z z <= inject_Z 4000000000000000001)%Q) by (unfold inject_Z at 2; lra).
    rewrite <- Zle_Qle in H1, H2. assert (Hz : in64 z = true) by (unfold in64, min64, max64; apply andb_true_intro; split; apply Z.leb_le; lia). congruence.
  Qed.
  Context (d0 d1 d2 o0 o1 o2 : fl) (S0 : step_ok d0) (S1 : step_ok d1) (S2 : step_ok d2) (O0 : within 100000 o0) (O1 : within 100000 o1) (O2 : within 100000 o2).
  Notation dx := [d0; d1; d2]. Notation origin := [o0; o1; o2].
  Lemma key_ok c : entry_ok c -> exists z0 z1 z2, point_key odd dx origin c = [z0; z1; z2] /\ (min64 < z0 < max64)%Z /\ (min64 < z1 < max64)%Z /\ (min64 < z2 < max64)%Z.
  Proof.
    intros Hc. assert (exists a0 a1 a2, c = [a0; a1; a2] /\ within 100000 a0 /\ within 100000 a1 /\ within 100000 a2) as (a0 & a1 & a2 & -> & A0 & A1 & A2).
    { destruct Hc as [-> |(v & -> & H)]; eexists _, _, _; (split; [reflexivity|]); done. }
    unfold point_key. cbn [zip_with map fst snd]. eexists _, _, _. split; [reflexivity|]. split; [|split]; by apply snap_range.
  Qed.
  Lemma key_same v w : moderate v -> same_point v w -> point_key odd dx origin (coords v) = point_key odd dx origin (coords w).
  Proof.
    intros (M0 & M1 & M2) (E0 & E1 & E2). unfold point_key, coords. cbn [zip_with map fst snd]. rewrite (snap_comp _ _ o0 d0 E0), (snap_comp _ _ o1 d1 E1), (snap_comp _ _ o2 d2 E2) by done. done.
  Qed.
  Lemma add_key_ok c o : entry_ok c -> o ∈ offsets 3 -> exists k, add_key (point_key odd dx origin c) o = Ok k.
  Proof.
    intros Hc Ho. destruct (key_ok c Hc) as (z0 & z1 & z2 & -> & Z0 & Z1 & Z2). apply offsets_elem in Ho as [Hl Hf]. destruct o as [|a [|b [|e [|? o]]]]; try done. rewrite !Forall_cons in Hf. destruct Hf as (Ha & Hb & He & _).
    unfold add_key. cbn [zip_with map_res fst snd].
    assert (Hi : forall z a, (min64 < z < max64)%Z -> (-1 <= a <= 1)%Z -> in64 (z + a) = true) by (intros z y Hz Hy; unfold in64; apply andb_true_intro; split; apply Z.leb_le; lia).
    rewrite !Hi by done. eexists. reflexivity.
  Qed.
  Lemma add_zero c : entry_ok c -> add_key (point_key odd dx origin c) [0; 0; 0]%Z = Ok (point_key odd dx origin c).
  Proof.
    intros Hc. destruct (key_ok c Hc) as (z0 & z1 & z2 & -> & Z0 & Z1 & Z2). unfold add_key. cbn [zip_with map_res fst snd]. rewrite !Z.add_0_r.
    assert (Hi : forall z, (min64 < z < max64)%Z -> in64 z = true) by (intros z Hz; unfold in64; apply andb_true_intro; split; apply Z.leb_le; lia). rewrite !Hi by done. reflexivity.
  Qed.
  Lemma find_in_ok E c ofs : entry_ok c -> (forall o, o ∈ ofs -> o ∈ offsets 3) -> exists r, find_in (bucket odd dx origin E) (point_key odd dx origin c) c ofs = Ok r /\
    (forall b, r = Some b -> exists c', (b, c') ∈ E /\ close c c' = true) /\
    (r = None -> [0; 0; 0]%Z ∈ ofs -> forall b c', (b, c') ∈ E -> point_key odd dx origin c' = point_key odd dx origin c -> close c c' = false).
  Proof.
    intros Hc. induction ofs as [|o ofs IH]; intros Ho; cbn [find_in].
    - exists None. split; [done|]. split; [done|]. intros _ H. by apply elem_of_nil in H.
    - destruct (add_key_ok c o Hc (Ho o ltac:(left))) as [k Hk]. rewrite Hk, bind_ok. destruct (List.find (fun q => close c q.2) (bucket odd dx origin E k)) as [[b c']|] eqn:Ef.
      + exists (Some b). split; [done|]. split; [|done]. intros ? [= <-]. apply List.find_some in Ef as [Hin Hcl]. exists c'. split; [|done]. apply elem_of_list_In. unfold bucket in Hin. by apply List.filter_In in Hin as [? _].
      + destruct IH as (r & Hr & H1 & H2); [intros; apply Ho; by right|]. exists r. split; [done|]. split; [done|]. intros Hn Hz b c' Hin Hkey. apply elem_of_cons in Hz as [<- |Hz]; [|by eapply H2].
        rewrite add_zero in Hk by done. injection Hk as <-. apply (List.find_none _ _ Ef (b, c')). unfold bucket. apply List.filter_In. split; [by apply elem_of_list_In|]. cbn [snd]. by apply bool_decide_eq_true.
  Qed.
End keys.
Lemma close_near v w : close (coords v) (coords w) = true <-> near v w.
Proof.
  unfold close, coords, near. cbn [zip_with map foldl fl2 fl_lt]. rewrite negb_true_iff. split.
  - intros H. apply Qnot_le_lt. intros Hle. apply not_true_iff_false in H. apply H. apply Qle_bool_iff. rewrite Qplus_0_l. exact Hle.
  - intros H. apply not_true_iff_false. intros Hle. apply Qle_bool_iff in Hle. apply (Qlt_not_le _ _ H). rewrite Qplus_0_l in Hle. exact Hle.
Qed.
Lemma close_nan c : length c = 3 -> close c nan_point = false /\ close nan_point c = false.
Proof. unfold close, nan_point. destruct c as [|a [|b [|e [|? c]]]]; try done. intros _. by destruct a, b, e. Qed.
