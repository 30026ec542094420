(** Proofs for C76: points shared by elements. *)
From Coq Require Import Reals Lra.
From Verif Require Import Base StdAlgo Elem_model Elem_spec Elem_proofs Poly_spec Poly_proofs Mesh_model Mesh_spec Mesh_proofs Convert_model Convert_spec Convert3_proofs.
Local Open Scope R_scope.

Lemma square_match (J : nat -> nat -> Prop) a00 a10 a01 a11 b00 b10 b01 b11 :
  b00 = a00 \/ b00 = a10 \/ b00 = a01 \/ b00 = a11 -> b10 = a00 \/ b10 = a10 \/ b10 = a01 \/ b10 = a11 ->
  b01 = a00 \/ b01 = a10 \/ b01 = a01 \/ b01 = a11 -> b11 = a00 \/ b11 = a10 \/ b11 = a01 \/ b11 = a11 ->
  b00 <> b10 -> b00 <> b01 -> b00 <> b11 -> b10 <> b01 -> b10 <> b11 -> b01 <> b11 -> ~ J b00 b11 ->
  J a00 a10 -> J a00 a01 -> J a10 a11 -> J a01 a11 -> J a10 a00 -> J a01 a00 -> J a11 a10 -> J a11 a01 ->
  (b00 = a00 /\ b10 = a10 /\ b01 = a01 /\ b11 = a11) \/ (b00 = a00 /\ b10 = a01 /\ b01 = a10 /\ b11 = a11) \/
  (b00 = a10 /\ b10 = a00 /\ b01 = a11 /\ b11 = a01) \/ (b00 = a01 /\ b10 = a11 /\ b01 = a00 /\ b11 = a10) \/
  (b00 = a11 /\ b10 = a01 /\ b01 = a10 /\ b11 = a00) \/ (b00 = a10 /\ b10 = a11 /\ b01 = a00 /\ b11 = a01) \/
  (b00 = a01 /\ b10 = a00 /\ b01 = a11 /\ b11 = a10) \/ (b00 = a11 /\ b10 = a10 /\ b01 = a01 /\ b11 = a00).
Proof.
  intros M00 M10 M01 M11 E1 E2 E3 E4 E5 E6 HJ J1 J2 J3 J4 J5 J6 J7 J8.
  destruct M00 as [-> |[-> |[-> | ->]]]; destruct M11 as [-> |[-> |[-> | ->]]]; try (by destruct E3); try contradiction;
    destruct M10 as [-> |[-> |[-> | ->]]]; try (by destruct E1); try (by destruct E5); destruct M01 as [-> |[-> |[-> | ->]]]; try (by destruct E2); try (by destruct E4); try (by destruct E6); tauto.
Qed.

Section shared.
  Context (OC : nat) (absc : list R) (Hsym : symmetric_absc OC absc) (HO : (1 <= OC)%nat) {V : Type}.
  Notation el := (element V).
  Notation s := (along absc).
  Notation W t k i := (weight t absc k i).
  Notation same := (same_point absc).
  Definition good (e : el) : Prop := length (el_nodes e) = npe (el_type e) 1 /\ NoDup (el_nodes e).
  Notation d := (fun a n : nat => if (a =? n)%nat then 1 else 0).
  Lemma same_refl (e : el) i : same e i e i. Proof. by intros n. Qed.
  Lemma same_sym (e f : el) i j : same e i f j -> same f j e i. Proof. intros H n. by rewrite H. Qed.
  Lemma same_trans (e f g : el) i j k : same e i f j -> same f j g k -> same e i g k. Proof. intros H1 H2 n. by rewrite H1. Qed.
  Lemma nth_node (e : el) k n : el_nodes e !! k = Some n -> nth k (el_nodes e) 0%nat = n.
  Proof. apply nth_lookup_Some. Qed.
  Lemma node_lookup (e : el) k : good e -> (k < npe (el_type e) 1)%nat -> el_nodes e !! k = Some (nth k (el_nodes e) 0%nat).
  Proof. intros [Hl _] Hk. destruct (lookup_lt_is_Some_2 (el_nodes e) k) as [n Hn]; [lia|]. by rewrite (nth_node e k n Hn). Qed.
  Lemma node_inj (e : el) k l : good e -> (k < npe (el_type e) 1)%nat -> (l < npe (el_type e) 1)%nat -> nth k (el_nodes e) 0%nat = nth l (el_nodes e) 0%nat -> k = l.
  Proof. intros Hg Hk Hl E. eapply (NoDup_lookup _ k l _ (proj2 Hg)); [by apply node_lookup|]. rewrite E. by apply node_lookup. Qed.
  Lemma part_eq (e : el) i n k : good e -> el_nodes e !! k = Some n -> part_of absc e i n = W (el_type e) k i.
  Proof.
    intros Hg Hk. assert (Hkl : (k < npe (el_type e) 1)%nat) by (apply lookup_lt_Some in Hk; destruct Hg; lia). unfold part_of. rewrite (rsum_one _ _ k Hkl).
    - rewrite (nth_node e k n Hk), Nat.eqb_refl. ring.
    - intros l Hl Hne. destruct (Nat.eqb_spec (nth l (el_nodes e) 0%nat) n) as [E|]; [|ring]. exfalso. apply Hne. apply (node_inj e l k Hg Hl Hkl). by rewrite E, (nth_node e k n Hk).
  Qed.
  Lemma part_zero (e : el) i n : good e -> n ∉ el_nodes e -> part_of absc e i n = 0.
  Proof.
    intros Hg Hn. unfold part_of. apply rsum_zero. intros k Hk. destruct (Nat.eqb_spec (nth k (el_nodes e) 0%nat) n) as [E|]; [|ring]. exfalso. apply Hn. rewrite <- E. eapply elem_of_list_lookup_2. by apply node_lookup.
  Qed.
  Lemma same_inj (e : el) i j : good e -> (i < npe (el_type e) OC)%nat -> (j < npe (el_type e) OC)%nat -> same e i e j -> i = j.
  Proof using Hsym HO.
    intros Hg Hi Hj H. apply (weights_inj OC absc Hsym HO (el_type e)); [done|done|]. intros k Hk. rewrite <- !(part_eq e _ _ k Hg (node_lookup e k Hg Hk)). apply H.
  Qed.
  Lemma same_vertex (e f : el) k j n : good e -> good f -> el_nodes e !! k = Some n -> (j < npe (el_type f) OC)%nat ->
    same e (vpos OC (el_type e) k) f j <-> exists k', el_nodes f !! k' = Some n /\ j = vpos OC (el_type f) k'.
  Proof using Hsym HO.
    intros Hg Hgf Hk Hj. assert (Hvd : forall (g : el) k n x, good g -> el_nodes g !! k = Some n -> part_of absc g (vpos OC (el_type g) k) x = d n x).
    { clear -Hsym HO. intros g k n x Hg Hk. assert (Hkl : (k < npe (el_type g) 1)%nat) by (apply lookup_lt_Some in Hk; destruct Hg; lia). destruct (decide (x ∈ el_nodes g)) as [Hx|Hx].
      - apply elem_of_list_lookup in Hx as [l Hl]. assert (Hll : (l < npe (el_type g) 1)%nat) by (apply lookup_lt_Some in Hl; destruct Hg; lia). rewrite (part_eq g _ x l Hg Hl), (vpos_weight OC absc Hsym HO _ k l Hkl Hll). destruct (Nat.eqb_spec l k) as [->|Hne].
        + assert (n = x) as -> by congruence. by rewrite Nat.eqb_refl.
        + destruct (Nat.eqb_spec n x) as [->|]; [|done]. exfalso. apply Hne. by apply (NoDup_lookup _ l k x (proj2 Hg)).
      - rewrite (part_zero g _ x Hg Hx). destruct (Nat.eqb_spec n x) as [->|]; [|done]. exfalso. apply Hx. by eapply elem_of_list_lookup_2. }
    split.
    - intros H. pose proof (H n) as Hn. rewrite (Hvd e k n n Hg Hk), Nat.eqb_refl in Hn. destruct (decide (n ∈ el_nodes f)) as [Hf|Hf]; [|rewrite (part_zero f _ n Hgf Hf) in Hn; lra].
      apply elem_of_list_lookup in Hf as [k' Hk']. exists k'. split; [done|]. assert (Hkl : (k' < npe (el_type f) 1)%nat) by (apply lookup_lt_Some in Hk'; destruct Hgf; lia).
      apply (same_inj f); [done|done|by apply vpos_ok|]. intros x. rewrite <- H, (Hvd e k n x Hg Hk), (Hvd f k' n x Hgf Hk'). done.
    - intros (k' & Hk' & ->) x. by rewrite (Hvd e k n x Hg Hk), (Hvd f k' n x Hgf Hk').
  Qed.
  (** The vertices a shared point depends on are shared. *)
  Lemma support_common (e f : el) i j k : good e -> good f -> same f j e i -> (k < npe (el_type e) 1)%nat -> 0 < W (el_type e) k i ->
    exists n, el_nodes e !! k = Some n /\ n ∈ el_nodes f.
  Proof.
    intros Hg Hgf Hs Hk Hw. exists (nth k (el_nodes e) 0%nat). split; [by apply node_lookup|]. destruct (decide (nth k (el_nodes e) 0%nat ∈ el_nodes f)) as [|Hn]; [done|]. exfalso.
    pose proof (Hs (nth k (el_nodes e) 0%nat)) as E. rewrite (part_zero f _ _ Hgf Hn), (part_eq e i _ k Hg (node_lookup e k Hg Hk)) in E. lra.
  Qed.
  Lemma two_common (e f : el) i j : good e -> good f -> same f j e i -> (i < npe (el_type e) OC)%nat -> (~ exists k, (k < npe (el_type e) 1)%nat /\ i = vpos OC (el_type e) k) ->
    exists a b, a <> b /\ a ∈ el_nodes e /\ b ∈ el_nodes e /\ a ∈ el_nodes f /\ b ∈ el_nodes f.
  Proof using Hsym HO.
    intros Hg Hgf Hs Hi Hn. destruct (not_vertex OC HO (el_type e) i Hi Hn) as (x & Hx & Hc).
    destruct (positive_vertex OC absc Hsym HO (el_type e) i x true Hi Hx) as (k & Hk & Bk & Wk); [lia|]. destruct (positive_vertex OC absc Hsym HO (el_type e) i x false Hi Hx) as (l & Hl & Bl & Wl); [lia|].
    destruct (support_common e f i j k Hg Hgf Hs Hk Wk) as (a & Ha & Haf). destruct (support_common e f i j l Hg Hgf Hs Hl Wl) as (b & Hb & Hbf). exists a, b.
    split; [|split; [by eapply elem_of_list_lookup_2|split; [by eapply elem_of_list_lookup_2|done]]]. intros ->. assert (k = l) as -> by (by apply (NoDup_lookup _ k l b (proj2 Hg))). congruence.
  Qed.
  Lemma support_cube (e f : el) cs i j : good e -> good f -> same f j e i -> (i < npe (el_type e) OC)%nat -> length cs = native_dim (el_type e) ->
    (forall n, n ∈ el_nodes e -> n ∈ el_nodes f -> cube_nodes e cs n) -> on_cube cs OC i.
  Proof using Hsym HO.
    intros Hg Hgf Hs Hi Hl Hc a b Hab. assert (Ha : (a < native_dim (el_type e))%nat) by (apply lookup_lt_Some in Hab; lia).
    destruct (decide (coord OC i a = if b then OC else 0%nat)) as [|Hne]; [done|]. exfalso.
    destruct (positive_vertex OC absc Hsym HO (el_type e) i a (negb b) Hi Ha) as (k & Hk & Bk & Wk); [destruct b; cbn; done|].
    destruct (support_common e f i j k Hg Hgf Hs Hk Wk) as (n & Hn & Hnf). destruct (Hc n ltac:(by eapply elem_of_list_lookup_2) Hnf) as (k' & Hk' & Hon). assert (k' = k) as -> by (by apply (NoDup_lookup _ k' k n (proj2 Hg))).
    specialize (Hon a b Hab). rewrite Bk in Hon. by destruct b.
  Qed.
  Lemma joined_ok (e : el) k l a b : good e -> el_nodes e !! k = Some a -> el_nodes e !! l = Some b -> joined e a b <-> adjb (el_type e) k l = true.
  Proof.
    intros Hg Hk Hl. rewrite adjb_ok. unfold joined. split.
    - intros (k' & l' & x & Hk' & Hl' & Hx & H). exists x. split; [done|]. assert (k' = k) as -> by (by apply (NoDup_lookup _ k' k a (proj2 Hg))). assert (l' = l) as -> by (by apply (NoDup_lookup _ l' l b (proj2 Hg))). done.
    - intros (x & Hx & H). by exists k, l, x.
  Qed.
  Lemma sum_parts (e : el) i n : part_of absc e i n = rsum (npe (el_type e) 1) (fun k => (fun k => d (nth k (el_nodes e) 0%nat) n) k * W (el_type e) k i).
  Proof. done. Qed.
  (** Every point of a common edge or face is a point of both elements. *)
  Lemma match_exists (e f : el) ce cf i : good e -> good f -> length ce = native_dim (el_type e) -> length cf = native_dim (el_type f) -> n_free ce = n_free cf -> (n_free ce = 1 \/ n_free ce = 2)%nat ->
    (forall n, cube_nodes e ce n <-> cube_nodes f cf n) -> (forall a b, cube_nodes e ce a -> cube_nodes e ce b -> joined e a b <-> joined f a b) ->
    (i < npe (el_type e) OC)%nat -> on_cube ce OC i -> exists j, (j < npe (el_type f) OC)%nat /\ on_cube cf OC j /\ same f j e i.
  Proof using Hsym HO.
    intros Hg Hgf Hle Hlf Hfree [H1|H2] Hset Hedge Hi Hon.
    - destruct (cube1 OC absc Hsym HO _ ce Hle H1) as (a & k0 & k1 & Ha & K0 & K1 & Kn & Kon & Ksum). destruct (cube1 OC absc Hsym HO _ cf Hlf ltac:(lia)) as (b & l0 & l1 & Hb & L0 & L1 & Ln & Lon & Lsum).
      assert (Hax : (a < native_dim (el_type e))%nat) by (apply lookup_lt_Some in Ha; lia). pose proof (coord_le _ OC i a Hi Hax) as Hcl. set (g := coord OC i a) in *.
      set (N := fun k => nth k (el_nodes e) 0%nat). set (M := fun k => nth k (el_nodes f) 0%nat).
      assert (Hn : N k0 <> N k1) by (intros E; apply Kn; by apply (node_inj e)). assert (Hm : M l0 <> M l1) by (intros E; apply Ln; by apply (node_inj f)).
      assert (HM : forall l, l = l0 \/ l = l1 -> M l = N k0 \/ M l = N k1).
      { intros l Hl. assert (Hll : (l < npe (el_type f) 1)%nat) by (destruct Hl as [-> | ->]; done). assert (cube_nodes e ce (M l)) as (k & Hk & Hkon) by (apply Hset; exists l; split; [by apply node_lookup|by apply Lon]).
        assert (Hkl : (k < npe (el_type e) 1)%nat) by (apply lookup_lt_Some in Hk; destruct Hg; lia). apply (Kon k Hkl) in Hkon. rewrite <- (nth_node e k _ Hk). destruct Hkon as [-> | ->]; auto. }
      destruct (HM l0 ltac:(auto)) as [E0|E0], (HM l1 ltac:(auto)) as [E1|E1]; try congruence.
      + destruct (cube_point OC (el_type f) cf (fun _ => g) Hlf ltac:(done)) as (j & Hj & Hjon & Hjc). exists j. split; [done|]. split; [done|]. intros n. rewrite !sum_parts, (Ksum i _ Hon), (Lsum j _ Hjon), (Hjc b Hb). fold g. fold (N k0) (N k1) (M l0) (M l1). rewrite E0, E1. done.
      + destruct (cube_point OC (el_type f) cf (fun _ => (OC - g)%nat) Hlf ltac:(intros; cbv beta; lia)) as (j & Hj & Hjon & Hjc). exists j. split; [done|]. split; [done|]. intros n. rewrite !sum_parts, (Ksum i _ Hon), (Lsum j _ Hjon), (Hjc b Hb). fold g. fold (N k0) (N k1) (M l0) (M l1). rewrite E0, E1, (s_flip OC absc Hsym HO g Hcl). ring.
    - destruct (cube2 OC absc Hsym HO _ ce Hle H2) as (a & b & k00 & k10 & k01 & k11 & Ha & Hb & Hab & K00 & K10 & K01 & K11 & Kn & Kon & Kadj & Ksum).
      destruct (cube2 OC absc Hsym HO _ cf Hlf ltac:(lia)) as (p & q & l00 & l10 & l01 & l11 & Hp & Hq & Hpq & L00 & L10 & L01 & L11 & Ln & Lon & Ladj & Lsum).
      assert (Hax : (a < native_dim (el_type e))%nat) by (apply lookup_lt_Some in Ha; lia). assert (Hbx : (b < native_dim (el_type e))%nat) by (apply lookup_lt_Some in Hb; lia).
      pose proof (coord_le _ OC i a Hi Hax) as Hgl. pose proof (coord_le _ OC i b Hi Hbx) as Hhl. set (g := coord OC i a) in *. set (h := coord OC i b) in *.
      set (N := fun k => nth k (el_nodes e) 0%nat). set (M := fun k => nth k (el_nodes f) 0%nat).
      assert (HM : forall l, (l < npe (el_type f) 1)%nat -> l = l00 \/ l = l10 \/ l = l01 \/ l = l11 -> cube_nodes e ce (M l) /\ (M l = N k00 \/ M l = N k10 \/ M l = N k01 \/ M l = N k11)).
      { intros l Hll Hl. assert (Hcn : cube_nodes e ce (M l)) by (apply Hset; exists l; split; [by apply node_lookup|by apply Lon]). split; [done|]. destruct Hcn as (k & Hk & Hkon).
        assert (Hkl : (k < npe (el_type e) 1)%nat) by (apply lookup_lt_Some in Hk; destruct Hg; lia). apply (Kon k Hkl) in Hkon. rewrite <- (nth_node e k _ Hk). destruct Hkon as [-> |[-> |[-> | ->]]]; auto. }
      destruct (HM l00 L00 ltac:(auto)) as [C00 M00]. destruct (HM l10 L10 ltac:(auto)) as [C10 M10]. destruct (HM l01 L01 ltac:(auto)) as [C01 M01]. destruct (HM l11 L11 ltac:(auto)) as [C11 M11].
      assert (HJe : forall k l, (k < npe (el_type e) 1)%nat -> (l < npe (el_type e) 1)%nat -> joined e (N k) (N l) <-> adjb (el_type e) k l = true) by (intros; apply joined_ok; [done|by apply node_lookup|by apply node_lookup]).
      assert (HJf : forall k l, (k < npe (el_type f) 1)%nat -> (l < npe (el_type f) 1)%nat -> joined f (M k) (M l) <-> adjb (el_type f) k l = true) by (intros; apply joined_ok; [done|by apply node_lookup|by apply node_lookup]).
      assert (Hne : forall k l, (k < npe (el_type f) 1)%nat -> (l < npe (el_type f) 1)%nat -> k <> l -> M k <> M l) by (intros k l Hk Hl Hd E; apply Hd; by apply (node_inj f)).
      rewrite !NoDup_cons, !not_elem_of_cons in Ln. destruct Ln as ((D1 & D2 & D3 & _) & (D4 & D5 & _) & (D6 & _) & _ & _).
      pose proof (Hne _ _ L00 L10 D1) as E1. pose proof (Hne _ _ L00 L01 D2) as E2. pose proof (Hne _ _ L00 L11 D3) as E3. pose proof (Hne _ _ L10 L01 D4) as E4. pose proof (Hne _ _ L10 L11 D5) as E5. pose proof (Hne _ _ L01 L11 D6) as E6.
      destruct Ladj as (A1 & _ & A2 & _). destruct Kadj as (_ & _ & _ & _ & B1 & B2 & B3 & B4 & B5 & B6 & B7 & B8).
      assert (J1 : ~ joined e (M l00) (M l11)) by (rewrite (Hedge _ _ C00 C11), (HJf _ _ L00 L11); congruence).
      assert (Fin : forall u v, (u <= OC)%nat -> (v <= OC)%nat -> (forall n, d (M l00) n * ((1 - s u) * (1 - s v)) + d (M l10) n * (s u * (1 - s v)) + d (M l01) n * ((1 - s u) * s v) + d (M l11) n * (s u * s v)
        = d (N k00) n * ((1 - s g) * (1 - s h)) + d (N k10) n * (s g * (1 - s h)) + d (N k01) n * ((1 - s g) * s h) + d (N k11) n * (s g * s h)) -> exists j, (j < npe (el_type f) OC)%nat /\ on_cube cf OC j /\ same f j e i).
      { intros u v Hu Hv H. destruct (cube_point OC (el_type f) cf (fun x => if decide (x = p) then u else v) Hlf ltac:(intros x; cbv beta; case_decide; done)) as (j & Hj & Hjon & Hjc). exists j. split; [done|]. split; [done|]. intros n. rewrite !sum_parts, (Ksum i _ Hon), (Lsum j _ Hjon), (Hjc p Hp), (Hjc q Hq).
        rewrite decide_True by done. rewrite decide_False by done. apply H. }
      assert (Hsq := square_match (joined e) (N k00) (N k10) (N k01) (N k11) (M l00) (M l10) (M l01) (M l11) M00 M10 M01 M11 E1 E2 E3 E4 E5 E6 J1
        (proj2 (HJe _ _ K00 K10) B1) (proj2 (HJe _ _ K00 K01) B2) (proj2 (HJe _ _ K10 K11) B3) (proj2 (HJe _ _ K01 K11) B4)
        (proj2 (HJe _ _ K10 K00) B5) (proj2 (HJe _ _ K01 K00) B6) (proj2 (HJe _ _ K11 K10) B7) (proj2 (HJe _ _ K11 K01) B8)).
      pose proof (s_flip OC absc Hsym HO g Hgl) as Fg. pose proof (s_flip OC absc Hsym HO h Hhl) as Fh. clear -Fin Hsq Fg Fh Hgl Hhl.
      destruct Hsq as [Z|[Z|[Z|[Z|[Z|[Z|[Z|Z]]]]]]]; destruct Z as (Z1 & Z2 & Z3 & Z4); rewrite Z1, Z2, Z3, Z4 in Fin; clear Z1 Z2 Z3 Z4.
      + apply (Fin g h Hgl Hhl). intros. ring.
      + apply (Fin h g Hhl Hgl). intros. ring.
      + apply (Fin (OC - g)%nat h); [lia|lia|]. intros. rewrite Fg. ring.
      + apply (Fin g (OC - h)%nat); [lia|lia|]. intros. rewrite Fh. ring.
      + apply (Fin (OC - g)%nat (OC - h)%nat); [lia|lia|]. intros. rewrite Fg, Fh. ring.
      + apply (Fin h (OC - g)%nat); [lia|lia|]. intros. rewrite Fg. ring.
      + apply (Fin (OC - h)%nat g); [lia|lia|]. intros. rewrite Fh. ring.
      + apply (Fin (OC - h)%nat (OC - g)%nat); [lia|lia|]. intros. rewrite Fg, Fh. ring.
  Qed.
End shared.
