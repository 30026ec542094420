(** Proofs for C76: weights and faces. *)
From Coq Require Import Reals Lra.
From Verif Require Import Base StdAlgo Elem_model Elem_spec Elem_proofs Poly_spec Poly_proofs Mesh_model Mesh_spec Mesh_proofs Convert_model Convert_spec.
Local Open Scope R_scope.
Notation npe := nodes_per_element.

Lemma coord_le t O i a : (i < npe t O)%nat -> (a < native_dim t)%nat -> (coord O i a <= O)%nat.
Proof.
  intros Hi Ha. unfold coord, grid_x, grid_y, grid_z. set (n := (O + 1)%nat) in *. assert (Hn : (0 < n)%nat) by (unfold n; lia).
  pose proof (Nat.mod_upper_bound i n ltac:(lia)). pose proof (Nat.mod_upper_bound (i / n) n ltac:(lia)).
  destruct t; cbn in *; destruct a as [|[|[|a]]]; try lia.
  assert (i / (n * n) < n)%nat; [|lia]. apply Nat.div_lt_upper_bound; [nia|]. fold n in Hi. lia.
Qed.
Definition index_of (t : etype) (O : nat) (c : nat -> nat) : nat :=
  match t with Line => c 0%nat | Quad => c 0%nat + (O + 1) * c 1%nat | Hex => c 0%nat + (O + 1) * (c 1%nat + (O + 1) * c 2%nat) end.
Lemma index_ok t O c : (forall a, (a < native_dim t)%nat -> (c a <= O)%nat) ->
  (index_of t O c < npe t O)%nat /\ forall a, (a < native_dim t)%nat -> coord O (index_of t O c) a = c a.
Proof.
  intros Hc. set (n := (O + 1)%nat). assert (Hlt : forall a, (a < native_dim t)%nat -> (c a < n)%nat) by (intros a Ha; specialize (Hc a Ha); unfold n; lia). clear Hc.
  assert (H0 : (c 0 < n)%nat) by (apply Hlt; destruct t; cbn; lia).
  assert (E1 : forall x y, (x < n)%nat -> ((x + n * y) `mod` n = x /\ (x + n * y) / n = y)%nat).
  { intros x y Hx. split; [rewrite Nat.mul_comm, Nat.mod_add by lia; by apply Nat.mod_small|rewrite Nat.mul_comm, Nat.div_add by lia; rewrite Nat.div_small by lia; lia]. }
  unfold index_of, coord, grid_x, grid_y, grid_z, npe. fold n. destruct t; cbn [native_dim] in *.
  - assert (c 1 < n)%nat by (apply Hlt; lia). assert (c 2 < n)%nat by (apply Hlt; lia). destruct (E1 (c 0%nat) (c 1%nat + n * c 2%nat)%nat H0) as [A B]. destruct (E1 (c 1%nat) (c 2%nat) ltac:(done)) as [C D]. split.
    + assert (c 1 + n * c 2 < n * n)%nat by nia. nia.
    + intros [|[|[|a]]] Ha; [done|by rewrite B| |lia]. rewrite <- Nat.div_div by lia. by rewrite B, D.
  - assert (c 1 < n)%nat by (apply Hlt; lia). destruct (E1 (c 0%nat) (c 1%nat) H0) as [A B]. split; [nia|]. intros [|[|a]] Ha; [done| |lia]. rewrite B. by apply Nat.mod_small.
  - split; [done|]. intros [|a] Ha; [|lia]. by apply Nat.mod_small.
Qed.
Lemma coord_ext t O i j : (i < npe t O)%nat -> (j < npe t O)%nat -> (forall a, (a < native_dim t)%nat -> coord O i a = coord O j a) -> i = j.
Proof.
  unfold coord, grid_x, grid_y, grid_z, npe. set (n := (O + 1)%nat). assert (Hn : n <> 0%nat) by (unfold n; lia). intros Hi Hj H.
  pose proof (H 0%nat ltac:(destruct t; cbn; lia)) as H0. cbv beta iota in H0. pose proof (Nat.div_mod i n Hn) as Di. pose proof (Nat.div_mod j n Hn) as Dj. destruct t; cbn [native_dim] in *.
  - pose proof (H 1%nat ltac:(lia)) as H1. pose proof (H 2%nat ltac:(lia)) as H2. cbv beta iota in H1, H2. rewrite <- !Nat.div_div in H2 by lia. pose proof (Nat.div_mod (i / n) n Hn). pose proof (Nat.div_mod (j / n) n Hn). congruence.
  - pose proof (H 1%nat ltac:(lia)) as H1. cbv beta iota in H1. rewrite !Nat.mod_small in H1 by (apply Nat.div_lt_upper_bound; lia). congruence.
  - rewrite !Nat.mod_small in H0 by done. done.
Qed.
Lemma vertex_bit t k a : (k < npe t 1)%nat -> (a < native_dim t)%nat -> coord 1 k a = 0%nat \/ coord 1 k a = 1%nat.
Proof. intros Hk Ha. pose proof (coord_le t 1 k a Hk Ha). lia. Qed.

Section weights.
  Context (OC : nat) (absc : list R) (Hsym : symmetric_absc OC absc) (HO : (1 <= OC)%nat).
  Notation s := (along absc).
  Notation W t k i := (weight t absc k i).
  Lemma absc_len : (length absc - 1 = OC)%nat. Proof using Hsym HO. destruct Hsym as (H & _). lia. Qed.
  Lemma s_0 : s 0 = 0. Proof using Hsym HO. unfold along. destruct Hsym as (_ & -> & _). lra. Qed.
  Lemma s_O : s OC = 1. Proof using Hsym HO. unfold along. destruct Hsym as (_ & _ & -> & _). lra. Qed.
  Lemma s_lt g h : (g < h <= OC)%nat -> s g < s h. Proof using Hsym HO. intros H. unfold along. destruct Hsym as (_ & _ & _ & H1 & _). specialize (H1 g h H). lra. Qed.
  Lemma s_inj g h : (g <= OC)%nat -> (h <= OC)%nat -> s g = s h -> g = h.
  Proof using Hsym HO. intros Hg Hh E. destruct (Nat.lt_trichotomy g h) as [H|[H|H]]; [|done|]; [pose proof (s_lt g h ltac:(lia))|pose proof (s_lt h g ltac:(lia))]; lra. Qed.
  Lemma s_flip g : (g <= OC)%nat -> s (OC - g) = 1 - s g. Proof using Hsym HO. intros H. unfold along. destruct Hsym as (_ & _ & _ & _ & H1). rewrite (H1 g H). lra. Qed.
  Lemma s_pos g : (0 < g <= OC)%nat -> 0 < s g. Proof using Hsym HO. intros H. pose proof (s_lt 0 g H). rewrite s_0 in *. lra. Qed.
  Lemma s_lt1 g : (g < OC)%nat -> 0 < 1 - s g. Proof using Hsym HO. intros H. pose proof (s_lt g OC ltac:(lia)). rewrite s_O in *. lra. Qed.
  Lemma s_ge g : (g <= OC)%nat -> 0 <= s g <= 1.
  Proof using Hsym HO. intros H. pose proof s_0. pose proof s_O. destruct (decide (g = 0%nat)) as [->|]; [lra|]. destruct (decide (g = OC)) as [->|]; [lra|]. pose proof (s_pos g ltac:(lia)). pose proof (s_lt1 g ltac:(lia)). lra. Qed.
  (** Weights written out. *)
  Definition fac (k i a : nat) : R := if (coord 1 k a =? 0)%nat then 1 - s (coord OC i a) else s (coord OC i a).
  Lemma weight_eq t k i : W t k i = match t with Line => fac k i 0 | Quad => fac k i 0 * fac k i 1 | Hex => fac k i 0 * fac k i 1 * fac k i 2 end.
  Proof using Hsym HO. unfold weight, fac. rewrite absc_len. destruct t; cbn [seq native_dim foldr]; ring. Qed.
  Lemma weight_pos t k i : (forall a, (a < native_dim t)%nat -> 0 < fac k i a) -> 0 < W t k i.
  Proof using Hsym HO. intros H. rewrite weight_eq. destruct t; cbn in H; repeat apply Rmult_lt_0_compat; apply H; lia. Qed.
  Lemma weight_zero t k i a : (a < native_dim t)%nat -> fac k i a = 0 -> W t k i = 0.
  Proof using Hsym HO. intros Ha E. rewrite weight_eq. destruct t; cbn in Ha; destruct a as [|[|[|a]]]; try lia; rewrite E; ring. Qed.
  (** The coordinates are recovered from the weights. *)
  Lemma weights_coord t i a : (a < native_dim t)%nat -> rsum (npe t 1) (fun k => (if (coord 1 k a =? 0)%nat then 0 else 1) * W t k i) = s (coord OC i a).
  Proof using Hsym HO.
    intros Ha. rewrite (rsum_ext _ _ (fun k => (if (coord 1 k a =? 0)%nat then 0 else 1) * match t with Line => fac k i 0 | Quad => fac k i 0 * fac k i 1 | Hex => fac k i 0 * fac k i 1 * fac k i 2 end)) by (intros; by rewrite weight_eq).
    destruct t; cbn in Ha; destruct a as [|[|[|a]]]; try lia; cbn -[along coord]; unfold fac;
      repeat match goal with |- context [(coord 1 ?k ?a =? 0)%nat] => let v := eval vm_compute in (coord 1 k a =? 0)%nat in change (coord 1 k a =? 0)%nat with v end; cbv iota; ring.
  Qed.
  Lemma weights_inj t i j : (i < npe t OC)%nat -> (j < npe t OC)%nat -> (forall k, (k < npe t 1)%nat -> W t k i = W t k j) -> i = j.
  Proof using Hsym HO.
    intros Hi Hj H. apply (coord_ext t OC); [done|done|]. intros a Ha. apply s_inj; [by eapply coord_le|by eapply coord_le|]. rewrite <- !(weights_coord t _ a Ha). apply rsum_ext. intros k Hk. by rewrite H.
  Qed.
  (** Vertices. *)
  Definition vpos (t : etype) (k : nat) : nat := index_of t OC (fun a => (OC * coord 1 k a)%nat).
  Lemma vpos_ok t k : (k < npe t 1)%nat -> (vpos t k < npe t OC)%nat /\ forall a, (a < native_dim t)%nat -> coord OC (vpos t k) a = (OC * coord 1 k a)%nat.
  Proof. clear Hsym HO. intros Hk. apply index_ok. intros a Ha. destruct (vertex_bit t k a Hk Ha) as [-> | ->]; lia. Qed.
  Lemma vpos_inj t k l : (k < npe t 1)%nat -> (l < npe t 1)%nat -> vpos t k = vpos t l -> k = l.
  Proof using HO.
    intros Hk Hl E. apply (coord_ext t 1 _ _ Hk Hl). intros a Ha. destruct (vpos_ok t k Hk) as [_ H1]. destruct (vpos_ok t l Hl) as [_ H2]. specialize (H1 a Ha). specialize (H2 a Ha). rewrite E, H2 in H1. nia.
  Qed.
  Lemma vpos_weight t k l : (k < npe t 1)%nat -> (l < npe t 1)%nat -> W t l (vpos t k) = if (l =? k)%nat then 1 else 0.
  Proof using Hsym HO.
    intros Hk Hl. destruct (vpos_ok t k Hk) as [_ Hc].
    assert (Hf : forall a, (a < native_dim t)%nat -> fac l (vpos t k) a = if (coord 1 l a =? coord 1 k a)%nat then 1 else 0).
    { intros a Ha. unfold fac. rewrite (Hc a Ha). destruct (vertex_bit t k a Hk Ha) as [-> | ->], (vertex_bit t l a Hl Ha) as [-> | ->]; cbn [Nat.eqb]; rewrite ?Nat.mul_0_r, ?Nat.mul_1_r, ?s_0, ?s_O; lra. }
    destruct (Nat.eqb_spec l k) as [->|Hne].
    - rewrite weight_eq. destruct t; rewrite !Hf by (cbn; lia); rewrite !Nat.eqb_refl; ring.
    - assert (exists a, (a < native_dim t)%nat /\ coord 1 l a <> coord 1 k a) as (a & Ha & Hd).
      { destruct (decide (Exists (fun a => coord 1 l a <> coord 1 k a) (seq 0 (native_dim t)))) as [H|H].
        - apply Exists_exists in H as (a & Ha & H). apply elem_of_seq in Ha. exists a. split; [lia|done].
        - exfalso. apply Hne, (coord_ext t 1 _ _ Hl Hk). intros a Ha. destruct (decide (coord 1 l a = coord 1 k a)); [done|]. exfalso. apply H, Exists_exists. exists a. split; [apply elem_of_seq; lia|done]. }
      apply (weight_zero t l _ a Ha). rewrite (Hf a Ha). by destruct (Nat.eqb_spec (coord 1 l a) (coord 1 k a)).
  Qed.
  (** A vertex with positive weight, with a given bit on one axis. *)
  Lemma positive_vertex t i a (b : bool) : (i < npe t OC)%nat -> (a < native_dim t)%nat -> coord OC i a <> (if b then 0 else OC)%nat ->
    exists k, (k < npe t 1)%nat /\ coord 1 k a = (if b then 1 else 0)%nat /\ 0 < W t k i.
  Proof using Hsym HO.
    intros Hi Ha Hne. set (c := fun x => if decide (x = a) then (if b then 1 else 0)%nat else if decide (coord OC i x = 0%nat) then 0%nat else 1%nat).
    destruct (index_ok t 1 c) as [Hk Hc]; [intros x _; unfold c; repeat case_decide; destruct b; lia|]. exists (index_of t 1 c). split; [done|]. split; [rewrite Hc by done; unfold c; by rewrite decide_True by done|].
    apply weight_pos. intros x Hx. unfold fac. rewrite (Hc x Hx). pose proof (coord_le t OC i x Hi Hx) as Hle. unfold c. destruct (decide (x = a)) as [->|Hxa].
    - destruct b; cbn [Nat.eqb]; [apply s_pos; lia|apply s_lt1; lia].
    - case_decide as H0; cbn [Nat.eqb]; [apply s_lt1; lia|apply s_pos; lia].
  Qed.
  Lemma not_vertex t i : (i < npe t OC)%nat -> (~ exists k, (k < npe t 1)%nat /\ i = vpos t k) -> exists a, (a < native_dim t)%nat /\ (0 < coord OC i a < OC)%nat.
  Proof using HO.
    intros Hi Hn. destruct (decide (Exists (fun a => 0 < coord OC i a < OC)%nat (seq 0 (native_dim t)))) as [H|H].
    - apply Exists_exists in H as (a & Ha & H). apply elem_of_seq in Ha. exists a. split; [lia|done].
    - exfalso. apply Hn. set (c := fun x => if decide (coord OC i x = 0%nat) then 0%nat else 1%nat).
      destruct (index_ok t 1 c) as [Hk Hc]; [intros x _; unfold c; case_decide; lia|]. exists (index_of t 1 c). split; [done|]. destruct (vpos_ok t _ Hk) as [Hv Hvc].
      apply (coord_ext t OC); [done|done|]. intros a Ha. rewrite (Hvc a Ha), (Hc a Ha). unfold c. pose proof (coord_le t OC i a Hi Ha) as Hle. case_decide as H0; [lia|].
      destruct (decide (coord OC i a = OC)); [lia|]. exfalso. apply H, Exists_exists. exists a. split; [apply elem_of_seq; lia|lia].
  Qed.

  (** ** Edges and faces *)
  Ltac cubes cs t H :=
    destruct t; cbn [native_dim] in *; repeat (let o := fresh "o" in destruct cs as [|o cs]; cbn [List.length] in *; try lia);
    repeat match goal with o : option bool |- _ => destruct o as [[]|] end; cbn in H; try lia.
  Ltac bits := repeat match goal with |- context [(coord 1 ?k ?a =? 0)%nat] => let v := eval vm_compute in (coord 1 k a =? 0)%nat in change (coord 1 k a =? 0)%nat with v end; cbv iota.
  Definition on_cubeb (cs : list (option bool)) (O i : nat) : bool :=
    forallb (fun ao : nat * option bool => match ao.2 with Some b => (coord O i ao.1 =? if b then O else 0)%nat | None => true end) (indexed cs).
  Lemma on_cubeb_ok cs O i : on_cubeb cs O i = true <-> on_cube cs O i.
  Proof.
    clear Hsym HO. unfold on_cubeb. rewrite forallb_forall. split.
    - intros H a b Hab. specialize (H (a, Some b)). rewrite <- elem_of_list_In in H. unfold indexed in H. apply Nat.eqb_eq. apply H. by apply (Mesh_proofs.find_zip_seq cs (a, Some b)).
    - intros H [a o] Ha. apply elem_of_list_In in Ha. unfold indexed in Ha. apply (Mesh_proofs.find_zip_seq cs (a, o)) in Ha. cbn in *. destruct o as [b|]; [|done]. apply Nat.eqb_eq. by apply H.
  Qed.
  Definition adjb (t : etype) (k l : nat) : bool := (length (List.filter (fun y => negb (coord 1 k y =? coord 1 l y)%nat) (seq 0 (native_dim t))) =? 1)%nat.
  Lemma adjb_ok t k l : adjb t k l = true <-> exists x, (x < native_dim t)%nat /\ forall y, (y < native_dim t)%nat -> coord 1 k y = coord 1 l y <-> y <> x.
  Proof.
    clear Hsym HO. unfold adjb. split.
    - destruct t; cbn [native_dim seq List.filter]; repeat match goal with |- context [(?a =? ?b)%nat] => lazymatch b with 1%nat => fail | _ => destruct (Nat.eqb_spec a b) end end; cbn; intros ?; try done;
        first [exists 0%nat; split; [lia|intros [|[|[|y]]] Hy; try lia; tauto] | exists 1%nat; split; [lia|intros [|[|[|y]]] Hy; try lia; tauto] | exists 2%nat; split; [lia|intros [|[|[|y]]] Hy; try lia; tauto]].
    - intros (x & Hx & H). assert (Hb : forall y, (y < native_dim t)%nat -> (coord 1 k y =? coord 1 l y)%nat = negb (y =? x)%nat).
      { intros y Hy. destruct (Nat.eqb_spec y x) as [->|Hne]; cbn; [apply Nat.eqb_neq; intros E; by apply (H x Hx) in E|apply Nat.eqb_eq; by apply H]. }
      destruct t; cbn [native_dim seq List.filter] in *; rewrite !Hb by lia; destruct x as [|[|[|x]]]; try lia; done.
  Qed.
  (** Points of a cube with given free coordinates. *)
  Lemma cube_point t cs (u : nat -> nat) : length cs = native_dim t -> (forall a, (u a <= OC)%nat) -> exists i, (i < npe t OC)%nat /\ on_cube cs OC i /\ forall a, cs !! a = Some None -> coord OC i a = u a.
  Proof.
    clear Hsym HO. intros Hl Hu. set (c := fun a => match cs !! a with Some (Some true) => OC | Some (Some false) => 0%nat | _ => u a end).
    destruct (index_ok t OC c) as [Hi Hc]; [intros a _; unfold c; destruct (cs !! a) as [[[]|]|]; [lia|lia|apply Hu|apply Hu]|]. exists (index_of t OC c). split; [done|].
    assert (Ha : forall a o, cs !! a = Some o -> (a < native_dim t)%nat) by (intros a o H; apply lookup_lt_Some in H; lia). split.
    - intros a b Hab. rewrite (Hc a) by (by eapply Ha). unfold c. rewrite Hab. by destruct b.
    - intros a Hab. rewrite (Hc a) by (by eapply Ha). unfold c. by rewrite Hab.
  Qed.
  Lemma cube1 t cs : length cs = native_dim t -> n_free cs = 1%nat -> exists a k0 k1, cs !! a = Some None /\ (k0 < npe t 1)%nat /\ (k1 < npe t 1)%nat /\ k0 <> k1 /\
    (forall k, (k < npe t 1)%nat -> on_cube cs 1 k <-> k = k0 \/ k = k1) /\
    forall i D, on_cube cs OC i -> rsum (npe t 1) (fun k => D k * W t k i) = D k0 * (1 - s (coord OC i a)) + D k1 * s (coord OC i a).
  Proof using Hsym HO.
    intros Hl Hf. pose proof s_0 as S0. pose proof s_O as S1. unfold n_free in Hf.
    cubes cs t Hf;
    lazymatch goal with |- exists a k0 k1, ?c !! a = _ /\ (_ < npe ?t 1)%nat /\ _ =>
      let l := eval vm_compute in (List.filter (on_cubeb c 1) (seq 0 (npe t 1))) in
      let ax := eval vm_compute in (List.filter (fun a => match c !! a with Some None => true | _ => false end) (seq 0 3)) in
      lazymatch l with [?k0; ?k1] => lazymatch ax with [?a] => exists a, k0, k1 end end end;
    (split; [done|]; split; [cbn; lia|]; split; [cbn; lia|]; split; [lia|]; split;
     [intros k Hk; rewrite <- on_cubeb_ok; cbn in Hk; destruct k as [|[|[|[|[|[|[|[|k]]]]]]]]; try lia; (split; [intros E; vm_compute in E; try discriminate; tauto|intros [E|E]; try discriminate; reflexivity])|]);
    (intros i D Hon;
     try (pose proof (Hon 0%nat true eq_refl) as C0); try (pose proof (Hon 0%nat false eq_refl) as C0);
     try (pose proof (Hon 1%nat true eq_refl) as C1); try (pose proof (Hon 1%nat false eq_refl) as C1);
     try (pose proof (Hon 2%nat true eq_refl) as C2); try (pose proof (Hon 2%nat false eq_refl) as C2);
     cbn [npe Nat.mul Nat.add rsum]; rewrite !weight_eq; unfold fac; bits;
     try rewrite !C0; try rewrite !C1; try rewrite !C2; rewrite ?S0, ?S1; ring).
  Qed.
  Lemma cube2 t cs : length cs = native_dim t -> n_free cs = 2%nat -> exists a b k00 k10 k01 k11, cs !! a = Some None /\ cs !! b = Some None /\ a <> b /\
    (k00 < npe t 1)%nat /\ (k10 < npe t 1)%nat /\ (k01 < npe t 1)%nat /\ (k11 < npe t 1)%nat /\ NoDup [k00; k10; k01; k11] /\
    (forall k, (k < npe t 1)%nat -> on_cube cs 1 k <-> k = k00 \/ k = k10 \/ k = k01 \/ k = k11) /\
    (adjb t k00 k11 = false /\ adjb t k11 k00 = false /\ adjb t k10 k01 = false /\ adjb t k01 k10 = false /\ adjb t k00 k10 = true /\ adjb t k00 k01 = true /\ adjb t k10 k11 = true /\ adjb t k01 k11 = true /\
     adjb t k10 k00 = true /\ adjb t k01 k00 = true /\ adjb t k11 k10 = true /\ adjb t k11 k01 = true) /\
    forall i D, on_cube cs OC i -> rsum (npe t 1) (fun k => D k * W t k i) =
      D k00 * ((1 - s (coord OC i a)) * (1 - s (coord OC i b))) + D k10 * (s (coord OC i a) * (1 - s (coord OC i b))) +
      D k01 * ((1 - s (coord OC i a)) * s (coord OC i b)) + D k11 * (s (coord OC i a) * s (coord OC i b)).
  Proof using Hsym HO.
    intros Hl Hf. pose proof s_0 as S0. pose proof s_O as S1. unfold n_free in Hf.
    cubes cs t Hf;
    lazymatch goal with |- exists a b k00 k10 k01 k11, ?c !! a = _ /\ _ /\ _ /\ (_ < npe ?t 1)%nat /\ _ =>
      let l := eval vm_compute in (List.filter (on_cubeb c 1) (seq 0 (npe t 1))) in
      let ax := eval vm_compute in (List.filter (fun a => match c !! a with Some None => true | _ => false end) (seq 0 3)) in
      lazymatch l with [?k0; ?k1; ?k2; ?k3] => lazymatch ax with [?a; ?b] => exists a, b, k0, k1, k2, k3 end end end;
    (split; [done|]; split; [done|]; split; [lia|]; split; [cbn; lia|]; split; [cbn; lia|]; split; [cbn; lia|]; split; [cbn; lia|]; split; [apply (bool_decide_unpack _); vm_compute; exact I|]; split;
     [intros k Hk; rewrite <- on_cubeb_ok; cbn in Hk; destruct k as [|[|[|[|[|[|[|[|k]]]]]]]]; try lia; (split; [intros E; vm_compute in E; try discriminate; tauto|intros [E|[E|[E|E]]]; try discriminate; reflexivity])|]);
    (split; [repeat split; reflexivity|]);
    (intros i D Hon;
     try (pose proof (Hon 0%nat true eq_refl) as C0); try (pose proof (Hon 0%nat false eq_refl) as C0);
     try (pose proof (Hon 1%nat true eq_refl) as C1); try (pose proof (Hon 1%nat false eq_refl) as C1);
     try (pose proof (Hon 2%nat true eq_refl) as C2); try (pose proof (Hon 2%nat false eq_refl) as C2);
     cbn [npe Nat.mul Nat.add rsum]; rewrite !weight_eq; unfold fac; bits;
     try rewrite !C0; try rewrite !C1; try rewrite !C2; rewrite ?S0, ?S1; ring).
  Qed.
End weights.
