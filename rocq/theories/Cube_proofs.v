From Verif Require Import Base StdAlgo Ownership_model Elem_model Elem_spec Elem_proofs Mesh_model Mesh_spec Mesh_proofs Prim_model Prim_spec Build_proofs Prim_proofs Square_proofs.
Local Arguments Nat.mul : simpl never.
Local Arguments Nat.add : simpl never.
Local Arguments Nat.sub : simpl never.
Local Arguments Nat.modulo : simpl never.
Local Arguments Nat.div : simpl never.

Lemma six_distinct (a b c d e f : nat) : NoDup [a; b; c; d; e; f] -> (a <> b /\ a <> c /\ a <> d /\ a <> e /\ a <> f) /\
  (b <> c /\ b <> d /\ b <> e /\ b <> f) /\ (c <> d /\ c <> e /\ c <> f) /\ (d <> e /\ d <> f) /\ e <> f.
Proof. rewrite !NoDup_cons, !elem_of_cons. tauto. Qed.

Section cube.
  Context {C : Type} (zero : C) (distx disty distz : list C) (ids : cube_ids).
  Notation pt := (C * C * C)%type.
  Notation nx := (length distx).
  Notation ny := (length disty).
  Notation nz := (length distz).
  Notation ex := (length distx - 1).
  Notation ey := (length disty - 1).
  Notation ez := (length distz - 1).
  Notation bnds := [cu_back ids; cu_front ids; cu_bottom ids; cu_top ids; cu_left ids; cu_right ids].
  Context (Hx : 2 <= nx) (Hy : 2 <= ny) (Hz : 2 <= nz) (Hids : NoDup (cu_domain ids :: bnds)).
  Definition cN (x y z : nat) : nat := nx * ny * z + nx * y + x.
  Definition cP (i j k : nat) : pt := (nth i distx zero, nth j disty zero, nth k distz zero).
  Lemma cN_x x y z : x < nx -> cN x y z `mod` nx = x.
  Proof. intros H. unfold cN. replace (nx * ny * z + nx * y + x) with (x + (ny * z + y) * nx) by lia. rewrite Nat.mod_add by lia. by apply Nat.mod_small. Qed.
  Lemma cN_yz x y z : x < nx -> cN x y z / nx = ny * z + y.
  Proof. intros H. unfold cN. replace (nx * ny * z + nx * y + x) with (x + (ny * z + y) * nx) by lia. rewrite Nat.div_add by lia. rewrite Nat.div_small by done. lia. Qed.
  Lemma cN_y x y z : x < nx -> y < ny -> (cN x y z / nx) `mod` ny = y.
  Proof. intros H H'. rewrite cN_yz by done. replace (ny * z + y) with (y + z * ny) by lia. rewrite Nat.mod_add by lia. by apply Nat.mod_small. Qed.
  Lemma cN_z x y z : x < nx -> y < ny -> cN x y z / (nx * ny) = z.
  Proof.
    intros H H'. rewrite <- Nat.div_div by lia. rewrite cN_yz by done. replace (ny * z + y) with (y + z * ny) by lia.
    rewrite Nat.div_add by lia. rewrite Nat.div_small by done. lia.
  Qed.
  Lemma point3_ok i j k : i < nx -> j < ny -> k < nz -> point3 distx disty distz i j k = Ok (cP i j k).
  Proof. intros Hi Hj Hk. unfold point3. rewrite (rd_nth _ _ zero Hi), bind_ok, (rd_nth _ _ zero Hj), bind_ok, (rd_nth _ _ zero Hk), bind_ok. done. Qed.

  Notation trip := (nat * nat * nat)%type.
  (** Grid points of a cell and of a face, in the order of their nodes. *)
  Definition hpts (c : trip) : list trip :=
    let x := c.1.1 in let y := c.1.2 in let z := c.2 in
    [(x, y, z); (x + 1, y, z); (x, y + 1, z); (x + 1, y + 1, z); (x, y, z + 1); (x + 1, y, z + 1); (x, y + 1, z + 1); (x + 1, y + 1, z + 1)].
  Inductive face := FZ (x y z : nat) | FY (x y z : nat) | FX (x y z : nat).
  Definition fpts (f : face) : list trip :=
    match f with
    | FZ x y z => [(x, y, z); (x + 1, y, z); (x, y + 1, z); (x + 1, y + 1, z)]
    | FY x y z => [(x, y, z); (x + 1, y, z); (x, y, z + 1); (x + 1, y, z + 1)]
    | FX x y z => [(x, y, z); (x, y + 1, z); (x, y, z + 1); (x, y + 1, z + 1)]
    end.
  Definition tN (p : trip) : nat := cN p.1.1 p.1.2 p.2.
  Definition tP (p : trip) : pt := cP p.1.1 p.1.2 p.2.
  Definition hex (c : trip) : item pt := mk_it (cu_domain ids) Hex (map tN (hpts c)) (map tP (hpts c)).
  Definition fnodes (f : face) : list nat := map tN (fpts f).
  Definition fdom (f : face) : nat :=
    match f with
    | FZ _ _ z => if z =? 0 then cu_back ids else cu_front ids
    | FY _ y _ => if y =? 0 then cu_bottom ids else cu_top ids
    | FX x _ _ => if x =? 0 then cu_left ids else cu_right ids
    end.
  Definition fitem (f : face) : item pt := mk_it (fdom f) Quad (fnodes f) (map tP (fpts f)).
  Definition fvalid (f : face) : Prop :=
    match f with FZ x y z => x < ex /\ y < ey /\ z < nz | FY x y z => x < ex /\ y < ny /\ z < ez | FX x y z => x < nx /\ y < ey /\ z < ez end.
  Definition fonb (f : face) : Prop :=
    match f with
    | FZ x y z => x < ex /\ y < ey /\ (z = 0 \/ z = ez)
    | FY x y z => x < ex /\ z < ez /\ (y = 0 \/ y = ey)
    | FX x y z => y < ey /\ z < ez /\ (x = 0 \/ x = ex)
    end.
  Definition cu_side (c : trip) (s : nat) : face :=
    let x := c.1.1 in let y := c.1.2 in let z := c.2 in
    match s with 0 => FZ x y z | 1 => FZ x y (z + 1) | 2 => FY x y z | 3 => FY x (y + 1) z | 4 => FX x y z | _ => FX (x + 1) y z end.
  Definition cu_in (c : trip) : Prop := c.1.1 < ex /\ c.1.2 < ey /\ c.2 < ez.

  Definition loop {A} (n1 n2 : nat) (g : nat -> nat -> list A) : list A :=
    concat (map (fun i => concat (map (fun j => g i j) (seq 0 n2))) (seq 0 n1)).
  Lemma loop_elem {A} n1 n2 (g : nat -> nat -> list A) a : a ∈ loop n1 n2 g <-> exists i j, i < n1 /\ j < n2 /\ a ∈ g i j.
  Proof.
    unfold loop. rewrite elem_of_concat. split.
    - intros (l & Ha & Hl). apply (elem_of_list_fmap (fun i => concat (map (fun j => g i j) (seq 0 n2)))) in Hl as (i & -> & Hi). apply elem_of_concat in Ha as (l & Ha & Hl).
      apply (elem_of_list_fmap (fun j => g i j)) in Hl as (j & -> & Hj). apply elem_of_seq in Hi, Hj. exists i, j. split; [lia|]. split; [lia|done].
    - intros (i & j & Hi & Hj & Ha). eexists. split; [|apply (elem_of_list_fmap_1 (fun i => concat (map (fun j => g i j) (seq 0 n2)))), elem_of_seq; split; [|apply Hi]; lia].
      apply elem_of_concat. eexists. split; [exact Ha|]. apply (elem_of_list_fmap_1 (fun j => g i j)), elem_of_seq. lia.
  Qed.
  Lemma loop_nodup {A} n1 n2 (g : nat -> nat -> list A) : (forall i j, NoDup (g i j)) ->
    (forall i j i' j' a, a ∈ g i j -> a ∈ g i' j' -> i = i' /\ j = j') -> NoDup (loop n1 n2 g).
  Proof.
    intros H1 H2. apply nodup_concat_map; [apply NoDup_seq| |].
    - intros i _. apply nodup_concat_map; [apply NoDup_seq|auto|]. intros a b x _ _ Ha Hb. by destruct (H2 _ _ _ _ _ Ha Hb).
    - intros i i' x _ _ Ha Hb. apply elem_of_concat in Ha as (l & Ha & Hl), Hb as (l' & Hb & Hl').
      apply (elem_of_list_fmap (fun j => g i j)) in Hl as (j & -> & _). apply (elem_of_list_fmap (fun j => g i' j)) in Hl' as (j' & -> & _). by destruct (H2 _ _ _ _ _ Ha Hb).
  Qed.
  Lemma loop_length {A} n1 n2 (g : nat -> nat -> list A) k : (forall i j, length (g i j) = k) -> length (loop n1 n2 g) = n1 * n2 * k.
  Proof.
    intros H. unfold loop. rewrite length_concat, map_map.
    assert (Hin : forall i, length (concat (map (fun j => g i j) (seq 0 n2))) = n2 * k).
    { intros i. rewrite length_concat, map_map. induction n2 as [|n IH]; [done|]. rewrite seq_S, map_app, sum_app, IH. cbn [map]. rewrite H. unfold sum. cbn [foldr]. lia. }
    induction n1 as [|n IH]; [done|]. rewrite seq_S, map_app, sum_app, IH. cbn [map]. rewrite Hin. unfold sum. cbn [foldr]. lia.
  Qed.
  Lemma loop_map {A B} (h : A -> B) n1 n2 g : map h (loop n1 n2 g) = loop n1 n2 (fun i j => map h (g i j)).
  Proof.
    unfold loop. rewrite concat_map, map_map. f_equal. apply map_ext. intros i. rewrite concat_map, map_map. done.
  Qed.

  Definition ccells : list trip := concat (map (fun iz => loop ey ex (fun iy ix => [(ix, iy, iz)])) (seq 0 ez)).
  Definition zfaces : list face := loop ey ex (fun iy ix => [FZ ix iy 0; FZ ix iy ez]).
  Definition yfaces : list face := loop ez ex (fun iz ix => [FY ix 0 iz; FY ix ey iz]).
  Definition xfaces : list face := loop ez ey (fun iz iy => [FX 0 iy iz; FX ex iy iz]).
  Definition faces : list face := zfaces ++ yfaces ++ xfaces.
  Definition cu_items : list (item pt) := map hex ccells ++ map fitem faces.
  Definition cu_cmds : list (cmd pt) := map Touch (cu_domain ids :: bnds) ++ map Put cu_items.
  Lemma cu_puts : puts cu_cmds = cu_items.
  Proof. unfold cu_cmds. rewrite puts_app. cbn [map puts omap list_omap app]. unfold puts. induction cu_items as [|i l IH]; [done|]. cbn. by rewrite IH. Qed.
  Lemma ccells_elem c : c ∈ ccells <-> cu_in c.
  Proof.
    unfold ccells, cu_in. rewrite elem_of_concat. split.
    - intros (l & Hc & Hl). apply (elem_of_list_fmap (fun iz => loop ey ex (fun iy ix => [(ix, iy, iz)]))) in Hl as (iz & -> & Hiz). apply elem_of_seq in Hiz.
      apply loop_elem in Hc as (iy & ix & H1 & H2 & Hc). apply elem_of_list_singleton in Hc as ->. cbn. lia.
    - destruct c as [[x y] z]. cbn. intros (H1 & H2 & H3). exists (loop ey ex (fun iy ix => [(ix, iy, z)])). split.
      + apply loop_elem. exists y, x. split; [done|]. split; [done|left].
      + apply (elem_of_list_fmap_1 (fun iz => loop ey ex (fun iy ix => [(ix, iy, iz)]))), elem_of_seq. lia.
  Qed.
  Lemma faces_elem f : f ∈ faces <-> fonb f.
  Proof.
    unfold faces, zfaces, yfaces, xfaces. rewrite !elem_of_app, !loop_elem. split.
    - intros [(a & b & H1 & H2 & Hf)|[(a & b & H1 & H2 & Hf)|(a & b & H1 & H2 & Hf)]]; rewrite !elem_of_cons, elem_of_nil in Hf; destruct Hf as [-> |[-> |[]]]; cbn; lia.
    - destruct f as [x y z|x y z|x y z]; cbn [fonb]; intros (H1 & H2 & H3); [left|right; left|right; right]; [exists y, x|exists z, x|exists z, y];
        (split; [done|]; split; [done|]); rewrite !elem_of_cons; destruct H3 as [-> | ->]; auto.
  Qed.
  Lemma citems_elem i : i ∈ cu_items <-> (exists c, cu_in c /\ i = hex c) \/ (exists f, fonb f /\ i = fitem f).
  Proof.
    unfold cu_items. rewrite elem_of_app, (elem_of_list_fmap hex), (elem_of_list_fmap fitem). setoid_rewrite ccells_elem. setoid_rewrite faces_elem. naive_solver.
  Qed.
  Lemma fdom_bnd f : fdom f ∈ bnds.
  Proof. destruct f; cbn [fdom]; destruct (_ =? 0); rewrite !elem_of_cons; tauto. Qed.
  Lemma elem_of_bnds id : id = cu_back ids \/ id = cu_front ids \/ id = cu_bottom ids \/ id = cu_top ids \/ id = cu_left ids \/ id = cu_right ids -> id ∈ bnds.
  Proof. rewrite !elem_of_cons. tauto. Qed.
  Lemma cdom_not_bnd : cu_domain ids ∉ bnds.
  Proof. by apply NoDup_cons in Hids as [? _]. Qed.
  Lemma cu_cell i : i ∈ cu_items /\ it_dom i = cu_domain ids <-> exists c, cu_in c /\ i = hex c.
  Proof.
    rewrite citems_elem. split.
    - intros [[H|(f & _ & ->)] Hd]; [done|]. exfalso. apply cdom_not_bnd. rewrite <- Hd. apply fdom_bnd.
    - intros (c & Hc & ->). split; [left; by exists c|done].
  Qed.
  Lemma cu_bnd i : i ∈ cu_items /\ it_dom i ∈ bnds <-> exists f, fonb f /\ i = fitem f.
  Proof.
    rewrite citems_elem. split.
    - intros [[(c & _ & ->)|H] Hd]; [|done]. by apply cdom_not_bnd in Hd.
    - intros (f & Hf & ->). split; [right; by exists f|apply fdom_bnd].
  Qed.
  Lemma hex_inj c c' : cu_in c -> cu_in c' -> hex c = hex c' -> c = c'.
  Proof.
    intros (H1 & H2 & H3) (H1' & H2' & H3'). destruct c as [[x y] z], c' as [[x' y'] z']. cbn [fst snd] in *. intros E.
    apply (f_equal (fun i => nth 0 (it_nodes i) 0)) in E. cbn in E. unfold tN in E. cbn [fst snd] in E.
    assert (x = x') by (rewrite <- (cN_x x y z), <- (cN_x x' y' z') by lia; by rewrite E).
    assert (y = y') by (rewrite <- (cN_y x y z), <- (cN_y x' y' z') by lia; by rewrite E).
    assert (z = z') by (rewrite <- (cN_z x y z), <- (cN_z x' y' z') by lia; by rewrite E). by subst.
  Qed.
  Lemma face_inj f g : fvalid f -> fvalid g -> fnodes f ≡ₚ fnodes g -> f = g.
  Proof.
    intros Hf Hg Hp.
    assert (Hsx : sum (map (fun n => n `mod` nx) (fnodes f)) = sum (map (fun n => n `mod` nx) (fnodes g))) by (apply sum_perm; by rewrite Hp).
    assert (Hsy : sum (map (fun n => (n / nx) `mod` ny) (fnodes f)) = sum (map (fun n => (n / nx) `mod` ny) (fnodes g))) by (apply sum_perm; by rewrite Hp).
    assert (Hsz : sum (map (fun n => n / (nx * ny)) (fnodes f)) = sum (map (fun n => n / (nx * ny)) (fnodes g))) by (apply sum_perm; by rewrite Hp).
    assert (Hc : forall f, fvalid f -> map (fun n => n `mod` nx) (fnodes f) = map (fun p => p.1.1) (fpts f) /\
      map (fun n => (n / nx) `mod` ny) (fnodes f) = map (fun p => p.1.2) (fpts f) /\ map (fun n => n / (nx * ny)) (fnodes f) = map snd (fpts f)).
    { clear f g Hf Hg Hp Hsx Hsy Hsz. intros f Hf. unfold fnodes. rewrite !map_map.
      assert (Hin : forall p, p ∈ fpts f -> p.1.1 < nx /\ p.1.2 < ny).
      { intros p Hpf. destruct f; cbn [fvalid fpts] in *; rewrite !elem_of_cons, elem_of_nil in Hpf; destruct Hpf as [-> |[-> |[-> |[-> |[]]]]]; cbn; lia. }
      split; [|split]; apply map_ext_in; intros p Hpp; apply elem_of_list_In, Hin in Hpp as [? ?]; [by apply cN_x|by apply cN_y|by apply cN_z]. }
    destruct (Hc f Hf) as (F1 & F2 & F3), (Hc g Hg) as (G1 & G2 & G3). rewrite F1, G1 in Hsx. rewrite F2, G2 in Hsy. rewrite F3, G3 in Hsz.
    destruct f, g; cbn [fpts map fst snd] in *; unfold sum in *; cbn [foldr] in *; f_equal; lia.
  Qed.
  Lemma fonb_valid f : fonb f -> fvalid f.
  Proof. destruct f; cbn; lia. Qed.
  Lemma fitem_inj f g : fvalid f -> fvalid g -> fitem f = fitem g -> f = g.
  Proof. intros Hf Hg E. apply face_inj; [done|done|]. apply (f_equal it_nodes) in E. cbn [fitem it_nodes] in E. by rewrite E. Qed.
  Lemma ccells_nodup : NoDup ccells.
  Proof.
    apply nodup_concat_map; [apply NoDup_seq| |].
    - intros iz _. apply loop_nodup; [intros; apply NoDup_singleton|]. intros i j i' j' a Ha%elem_of_list_singleton Hb%elem_of_list_singleton. naive_solver.
    - intros a b c _ _ Ha Hb. apply loop_elem in Ha as (? & ? & _ & _ & Ha%elem_of_list_singleton). apply loop_elem in Hb as (? & ? & _ & _ & Hb%elem_of_list_singleton). naive_solver.
  Qed.
  Lemma two_nodup {A} (a b : A) : a <> b -> NoDup [a; b].
  Proof. intros H. apply NoDup_cons. split; [by intros ->%elem_of_list_singleton|apply NoDup_singleton]. Qed.
  Lemma faces_nodup : NoDup faces.
  Proof.
    assert (Hd : forall A (a b c : A), a ∈ [b; c] -> a = b \/ a = c).
    { intros A a b c H. rewrite !elem_of_cons, elem_of_nil in H. tauto. }
    assert (Hzf : forall f, f ∈ zfaces -> exists x y z, f = FZ x y z).
    { intros f Hf. apply loop_elem in Hf as (? & ? & _ & _ & [-> | ->]%Hd); eauto. }
    assert (Hyf : forall f, f ∈ yfaces -> exists x y z, f = FY x y z).
    { intros f Hf. apply loop_elem in Hf as (? & ? & _ & _ & [-> | ->]%Hd); eauto. }
    assert (Hxf : forall f, f ∈ xfaces -> exists x y z, f = FX x y z).
    { intros f Hf. apply loop_elem in Hf as (? & ? & _ & _ & [-> | ->]%Hd); eauto. }
    unfold faces. apply NoDup_app. split; [|split].
    - apply loop_nodup; [intros; apply two_nodup; injection; lia|]. intros i j i' j' a Ha%Hd Hb%Hd. naive_solver.
    - intros f Hf Hg. apply Hzf in Hf as (? & ? & ? & ->). apply elem_of_app in Hg as [Hg|Hg]; [apply Hyf in Hg|apply Hxf in Hg]; naive_solver.
    - apply NoDup_app. split; [|split].
      + apply loop_nodup; [intros; apply two_nodup; injection; lia|]. intros i j i' j' a Ha%Hd Hb%Hd. naive_solver.
      + intros f Hf Hg. apply Hyf in Hf as (? & ? & ? & ->). apply Hxf in Hg. naive_solver.
      + apply loop_nodup; [intros; apply two_nodup; injection; lia|]. intros i j i' j' a Ha%Hd Hb%Hd. naive_solver.
  Qed.
  Lemma citems_nodup : NoDup cu_items.
  Proof.
    apply NoDup_app. split; [|split].
    - apply nodup_map_in; [apply ccells_nodup|]. intros a b Ha Hb. apply ccells_elem in Ha, Hb. by apply hex_inj.
    - intros i Hi Hj. apply (elem_of_list_fmap hex) in Hi as (c & -> & _). apply (elem_of_list_fmap fitem) in Hj as (f & E & _).
      apply (f_equal it_type) in E. done.
    - apply nodup_map_in; [apply faces_nodup|]. intros a b Ha Hb. apply faces_elem, fonb_valid in Ha, Hb. by apply fitem_inj.
  Qed.
  Lemma cu_sides c k s ns : cu_in c -> side_nodes (it_el (hex c) k) s ns <-> s < 6 /\ ns ≡ₚ fnodes (cu_side c s).
  Proof.
    intros Hc. destruct c as [[x y] z]. split.
    - intros Hs. pose proof (proj1 Hs) as Hlt. cbn [it_el el_type hex it_type n_sides] in Hlt. split; [done|].
      destruct s as [|[|[|[|[|[|s]]]]]]; [| | | | | |lia]; (eapply side_nodes_iff in Hs; [exact Hs|reflexivity|]); cbn; repeat constructor.
    - intros [Hlt Hp]. destruct s as [|[|[|[|[|[|s]]]]]]; [| | | | | |lia]; (eapply side_nodes_iff; [reflexivity| |exact Hp]); cbn; repeat constructor.
  Qed.
  Lemma cu_comb c s : cu_in c -> s < 6 ->
     (exists c' s', ~ (c' = c /\ s' = s) /\ shared_by cu_in cu_side 6 (cu_side c s) c' s' /\ ~ fonb (cu_side c s) /\
        forall c2 s2, shared_by cu_in cu_side 6 (cu_side c s) c2 s2 -> (c2 = c /\ s2 = s) \/ (c2 = c' /\ s2 = s')) \/
     (fonb (cu_side c s) /\ forall c2 s2, shared_by cu_in cu_side 6 (cu_side c s) c2 s2 -> c2 = c /\ s2 = s).
  Proof.
    destruct c as [[x y] z]. unfold cu_in, shared_by. cbn [fst snd]. intros (H1 & H2 & H3) Hs.
    assert (Hall : forall f c2 s2, s2 < 6 -> cu_side c2 s2 = f -> match f with
      | FZ a b c => c2.1.1 = a /\ c2.1.2 = b /\ (c2.2 = c /\ s2 = 0 \/ c2.2 + 1 = c /\ s2 = 1)
      | FY a b c => c2.1.1 = a /\ c2.2 = c /\ (c2.1.2 = b /\ s2 = 2 \/ c2.1.2 + 1 = b /\ s2 = 3)
      | FX a b c => c2.1.2 = b /\ c2.2 = c /\ (c2.1.1 = a /\ s2 = 4 \/ c2.1.1 + 1 = a /\ s2 = 5) end).
    { intros f c2 s2 Hlt <-. destruct s2 as [|[|[|[|[|[|s2]]]]]]; cbn; lia. }
    assert (Heq : forall a b c a' b' c' : nat, a = a' -> b = b' -> c = c' -> (a, b, c) = (a', b', c')) by congruence.
    Ltac bnd Hall Heq := split; [lia|]; intros [[a b] c] s2 (Hin & Hlt & Hf); pose proof (Hall _ _ _ Hlt Hf) as Ha; cbn in Ha, Hin; split; [apply Heq|]; lia.
    Ltac shr Hall Heq := split; [intros [[= E] _]; lia|]; split; [cbn; split; [lia|]; split; [lia|]; f_equal; lia|]; split; [lia|];
      intros [[a b] c] s2 (_ & Hlt & Hf); pose proof (Hall _ _ _ Hlt Hf) as Ha; cbn in Ha; destruct Ha as (Ha1 & Ha2 & [Ha3|Ha3]);
      first [left; split; [apply Heq|]; lia|right; split; [apply Heq|]; lia].
    destruct s as [|[|[|[|[|[|s]]]]]]; [| | | | | |lia]; cbn [cu_side fst snd fonb].
    - destruct (Nat.eq_dec z 0) as [Hz0|Hz0]; [right; bnd Hall Heq|left; exists (x, y, z - 1), 1; shr Hall Heq].
    - destruct (Nat.eq_dec (z + 1) ez) as [Hz0|Hz0]; [right; bnd Hall Heq|left; exists (x, y, z + 1), 0; shr Hall Heq].
    - destruct (Nat.eq_dec y 0) as [Hz0|Hz0]; [right; bnd Hall Heq|left; exists (x, y - 1, z), 3; shr Hall Heq].
    - destruct (Nat.eq_dec (y + 1) ey) as [Hz0|Hz0]; [right; bnd Hall Heq|left; exists (x, y + 1, z), 2; shr Hall Heq].
    - destruct (Nat.eq_dec x 0) as [Hz0|Hz0]; [right; bnd Hall Heq|left; exists (x - 1, y, z), 5; shr Hall Heq].
    - destruct (Nat.eq_dec (x + 1) ex) as [Hz0|Hz0]; [right; bnd Hall Heq|left; exists (x + 1, y, z), 4; shr Hall Heq].
  Qed.
  Lemma cu_on f : fonb f -> exists c s, shared_by cu_in cu_side 6 f c s.
  Proof.
    destruct f as [x y z|x y z|x y z]; cbn [fonb]; intros (H1 & H2 & H3); unfold shared_by, cu_in; destruct H3 as [-> | ->].
    - exists (x, y, 0), 0. cbn. split; [lia|]. split; [lia|]. f_equal; lia.
    - exists (x, y, ez - 1), 1. cbn. split; [lia|]. split; [lia|]. f_equal; lia.
    - exists (x, 0, z), 2. cbn. split; [lia|]. split; [lia|]. f_equal; lia.
    - exists (x, ey - 1, z), 3. cbn. split; [lia|]. split; [lia|]. f_equal; lia.
    - exists (0, y, z), 4. cbn. split; [lia|]. split; [lia|]. f_equal; lia.
    - exists (ex - 1, y, z), 5. cbn. split; [lia|]. split; [lia|]. f_equal; lia.
  Qed.
  Context (sched : list (element pt) -> list (element pt)) (shuffle : list nat -> list nat)
    (Hsched : forall l, sched l ≡ₚ l) (Hshuffle : forall l, shuffle l ≡ₚ l).
  Definition cu_dim (id : nat) : nat := if id =? cu_domain ids then 3 else 2.
  Lemma cu_run : exists st, for_each exec cu_cmds ([], 0) = Ok st /\ built cu_dim cu_cmds st.
  Proof.
    apply run_ok. intros i Hi. assert (Hin : i ∈ cu_items).
    { rewrite <- cu_puts. unfold puts. apply elem_of_list_omap. by exists (Put i). }
    apply citems_elem in Hin as [(c & Hc & ->)|(f & Hf & ->)].
    - split; [|done]. cbn. unfold cu_dim. by rewrite Nat.eqb_refl.
    - split; [|by destruct f]. cbn [fitem it_type it_dom native_dim]. unfold cu_dim. destruct (Nat.eqb_spec (fdom f) (cu_domain ids)) as [E|]; [|done].
      exfalso. apply cdom_not_bnd. rewrite <- E. apply fdom_bnd.
  Qed.
  Lemma cu_model : makeCubeMesh sched shuffle distx disty distz ids =
    (st ← for_each exec cu_cmds ([], 0); make_mesh2 sched shuffle st.1 0 (nx * ny * nz) bnds).
  Proof.
    unfold makeCubeMesh. cbv zeta. destruct (Nat.eqb_spec nx 0); [lia|]. destruct (Nat.eqb_spec ny 0); [lia|]. destruct (Nat.eqb_spec nz 0); [lia|]. cbn [orb].
    assert (Hput1 : forall A (l : list A) (g : A -> item pt), concat (map (fun x => [Put (g x)]) l) = map Put (map g l)).
    { intros A l g. induction l as [|a l IH]; [done|]. cbn [map concat app]. by rewrite IH. }
    unfold cu_cmds, cu_items, faces. rewrite !map_app, !for_each_app.
    change (for_each exec (map Touch (cu_domain ids :: bnds)) ([], 0)) with (Ok (foldl (fun m id => touch (V := pt) id m) [] (cu_domain ids :: bnds), 0)).
    rewrite bind_ok. set (st0 := (foldl _ _ _, 0)). rewrite for_each_app.
    rewrite (for_each_exec _ (fun iz => map Put (map hex (loop ey ex (fun iy ix => [(ix, iy, iz)]))))).
    2:{ intros iz st Hiz. apply elem_of_seq in Hiz. rewrite (for_each_exec _ (fun iy => map Put (map hex (concat (map (fun ix => [(ix, iy, iz)]) (seq 0 ex)))))).
        - unfold loop. f_equal. by rewrite !concat_map, !map_map.
        - clear st. intros iy st Hiy. apply elem_of_seq in Hiy. rewrite (for_each_exec _ (fun ix => [Put (hex (ix, iy, iz))])).
          + f_equal. rewrite !concat_map, !map_map. done.
          + clear st. intros ix st Hix. apply elem_of_seq in Hix. rewrite !point3_ok by lia. rewrite !bind_ok.
            cbn [for_each exec hex hpts map it_dom it_type it_nodes it_verts fst snd]. unfold tN, tP. cbn [fst snd]. unfold cN at 1.
            replace (nx * ny * iz + nx * iy + ix + 1) with (cN (ix + 1) iy iz) by (unfold cN; lia).
            replace (nx * ny * iz + nx * (iy + 1) + ix + 1) with (cN (ix + 1) (iy + 1) iz) by (unfold cN; lia).
            replace (nx * ny * (iz + 1) + nx * iy + ix + 1) with (cN (ix + 1) iy (iz + 1)) by (unfold cN; lia).
            replace (nx * ny * (iz + 1) + nx * (iy + 1) + ix + 1) with (cN (ix + 1) (iy + 1) (iz + 1)) by (unfold cN; lia).
            fold (cN ix iy iz). fold (cN ix (iy + 1) iz). fold (cN ix iy (iz + 1)). fold (cN ix (iy + 1) (iz + 1)). by destruct (emplace _ _ _ _ st). }
    replace (concat (map (fun iz => map Put (map hex (loop ey ex (fun iy ix => [(ix, iy, iz)])))) (seq 0 ez))) with (map Put (map hex ccells)).
    2:{ unfold ccells. by rewrite !concat_map, !map_map. }
    destruct (for_each exec (map Put (map hex ccells)) st0) as [st1| |]; [|done|done]. rewrite !bind_ok. rewrite for_each_app.
    assert (Hq : 0 <> ez /\ 0 <> ey /\ 0 <> ex) by lia. destruct Hq as (Q1 & Q2 & Q3).
    rewrite (for_each_exec _ (fun iy => map Put (map fitem (concat (map (fun ix => [FZ ix iy 0; FZ ix iy ez]) (seq 0 ex)))))).
    2:{ intros iy st Hiy. apply elem_of_seq in Hiy. rewrite (for_each_exec _ (fun ix => map Put (map fitem [FZ ix iy 0; FZ ix iy ez]))).
        - f_equal. by rewrite !concat_map, !map_map.
        - clear st. intros ix st Hix. apply elem_of_seq in Hix. rewrite !point3_ok by lia. rewrite !bind_ok.
          replace (nx * iy + ix) with (cN ix iy 0) by (unfold cN; lia). replace (cN ix iy 0 + 1) with (cN (ix + 1) iy 0) by (unfold cN; lia).
          replace (nx * (iy + 1) + ix) with (cN ix (iy + 1) 0) by (unfold cN; lia). replace (cN ix (iy + 1) 0 + 1) with (cN (ix + 1) (iy + 1) 0) by (unfold cN; lia).
          cbn [for_each exec map fitem fnodes fpts fdom it_dom it_type it_nodes it_verts fst snd]. unfold tN, tP. cbn [fst snd].
          replace (0 =? 0) with true by done. destruct (Nat.eqb_spec ez 0); [lia|].
          destruct (emplace _ _ _ _ st) as [st'| |]; [|done|done]. rewrite !bind_ok.
          replace (cN ix iy 0 + nx * ny * ez) with (cN ix iy ez) by (unfold cN; lia). replace (cN (ix + 1) iy 0 + nx * ny * ez) with (cN (ix + 1) iy ez) by (unfold cN; lia).
          replace (cN ix (iy + 1) 0 + nx * ny * ez) with (cN ix (iy + 1) ez) by (unfold cN; lia). replace (cN (ix + 1) (iy + 1) 0 + nx * ny * ez) with (cN (ix + 1) (iy + 1) ez) by (unfold cN; lia).
          by destruct (emplace _ _ _ _ st'). }
    replace (concat (map (fun iy => map Put (map fitem (concat (map (fun ix => [FZ ix iy 0; FZ ix iy ez]) (seq 0 ex))))) (seq 0 ey))) with (map Put (map fitem zfaces)).
    2:{ unfold zfaces, loop. by rewrite !concat_map, !map_map. }
    destruct (for_each exec (map Put (map fitem zfaces)) st1) as [st2| |]; [|done|done]. rewrite !bind_ok. rewrite for_each_app.
    rewrite (for_each_exec _ (fun iz => map Put (map fitem (concat (map (fun ix => [FY ix 0 iz; FY ix ey iz]) (seq 0 ex)))))).
    2:{ intros iz st Hiy. apply elem_of_seq in Hiy. rewrite (for_each_exec _ (fun ix => map Put (map fitem [FY ix 0 iz; FY ix ey iz]))).
        - f_equal. by rewrite !concat_map, !map_map.
        - clear st. intros ix st Hix. apply elem_of_seq in Hix. rewrite !point3_ok by lia. rewrite !bind_ok.
          replace (nx * ny * iz + ix) with (cN ix 0 iz) by (unfold cN; lia). replace (cN ix 0 iz + 1) with (cN (ix + 1) 0 iz) by (unfold cN; lia).
          replace (nx * ny * (iz + 1) + ix) with (cN ix 0 (iz + 1)) by (unfold cN; lia). replace (cN ix 0 (iz + 1) + 1) with (cN (ix + 1) 0 (iz + 1)) by (unfold cN; lia).
          cbn [for_each exec map fitem fnodes fpts fdom it_dom it_type it_nodes it_verts fst snd]. unfold tN, tP. cbn [fst snd].
          replace (0 =? 0) with true by done. destruct (Nat.eqb_spec ey 0); [lia|].
          destruct (emplace _ _ _ _ st) as [st'| |]; [|done|done]. rewrite !bind_ok.
          replace (cN ix 0 iz + nx * ey) with (cN ix ey iz) by (unfold cN; lia). replace (cN (ix + 1) 0 iz + nx * ey) with (cN (ix + 1) ey iz) by (unfold cN; lia).
          replace (cN ix 0 (iz + 1) + nx * ey) with (cN ix ey (iz + 1)) by (unfold cN; lia). replace (cN (ix + 1) 0 (iz + 1) + nx * ey) with (cN (ix + 1) ey (iz + 1)) by (unfold cN; lia).
          by destruct (emplace _ _ _ _ st'). }
    replace (concat (map (fun iz => map Put (map fitem (concat (map (fun ix => [FY ix 0 iz; FY ix ey iz]) (seq 0 ex))))) (seq 0 ez))) with (map Put (map fitem yfaces)).
    2:{ unfold yfaces, loop. by rewrite !concat_map, !map_map. }
    destruct (for_each exec (map Put (map fitem yfaces)) st2) as [st3| |]; [|done|done]. rewrite !bind_ok.
    rewrite (for_each_exec _ (fun iz => map Put (map fitem (concat (map (fun iy => [FX 0 iy iz; FX ex iy iz]) (seq 0 ey)))))).
    2:{ intros iz st Hiy. apply elem_of_seq in Hiy. rewrite (for_each_exec _ (fun iy => map Put (map fitem [FX 0 iy iz; FX ex iy iz]))).
        - f_equal. by rewrite !concat_map, !map_map.
        - clear st. intros iy st Hix. apply elem_of_seq in Hix. rewrite !point3_ok by lia. rewrite !bind_ok.
          replace (nx * ny * iz + nx * iy) with (cN 0 iy iz) by (unfold cN; lia). replace (nx * ny * iz + nx * (iy + 1)) with (cN 0 (iy + 1) iz) by (unfold cN; lia).
          replace (nx * ny * (iz + 1) + nx * iy) with (cN 0 iy (iz + 1)) by (unfold cN; lia). replace (nx * ny * (iz + 1) + nx * (iy + 1)) with (cN 0 (iy + 1) (iz + 1)) by (unfold cN; lia).
          cbn [for_each exec map fitem fnodes fpts fdom it_dom it_type it_nodes it_verts fst snd]. unfold tN, tP. cbn [fst snd].
          replace (0 =? 0) with true by done. destruct (Nat.eqb_spec ex 0); [lia|].
          destruct (emplace _ _ _ _ st) as [st'| |]; [|done|done]. rewrite !bind_ok.
          replace (cN 0 iy iz + ex) with (cN ex iy iz) by (unfold cN; lia). replace (cN 0 (iy + 1) iz + ex) with (cN ex (iy + 1) iz) by (unfold cN; lia).
          replace (cN 0 iy (iz + 1) + ex) with (cN ex iy (iz + 1)) by (unfold cN; lia). replace (cN 0 (iy + 1) (iz + 1) + ex) with (cN ex (iy + 1) (iz + 1)) by (unfold cN; lia).
          by destruct (emplace _ _ _ _ st'). }
    replace (concat (map (fun iz => map Put (map fitem (concat (map (fun iy => [FX 0 iy iz; FX ex iy iz]) (seq 0 ey))))) (seq 0 ez))) with (map Put (map fitem xfaces)).
    2:{ unfold xfaces, loop. by rewrite !concat_map, !map_map. }
    done.
  Qed.
  Lemma ccells_length : length ccells = ex * ey * ez.
  Proof.
    unfold ccells. rewrite length_concat, map_map.
    assert (Hl : forall iz : nat, length (loop ey ex (fun iy ix => [(ix, iy, iz)])) = ey * ex * 1) by (intros; by apply loop_length).
    induction ez as [|k IH]; [cbn; lia|]. rewrite seq_S, map_app, sum_app. rewrite IH. cbn [map]. rewrite Hl. unfold sum. cbn [foldr]. lia.
  Qed.
  Lemma citems_length : length cu_items = ex * ey * ez + 2 * ex * ey + 2 * ex * ez + 2 * ey * ez.
  Proof.
    unfold cu_items, faces, zfaces, yfaces, xfaces. rewrite app_length, !map_length, !app_length, ccells_length.
    rewrite !(loop_length _ _ _ 2) by done. lia.
  Qed.
  Definition on_cube (n : nat) (v : pt) : Prop :=
    exists x y z, distx !! (n `mod` nx) = Some x /\ disty !! ((n / nx) `mod` ny) = Some y /\ distz !! (n / (nx * ny)) = Some z /\ v = (x, y, z).
  Lemma cP_grid (p : trip) : p.1.1 < nx -> p.1.2 < ny -> p.2 < nz -> tN p < nx * ny * nz /\ on_cube (tN p) (tP p).
  Proof.
    destruct p as [[i j] k]. cbn [fst snd]. intros Hi Hj Hk. unfold tN, tP. cbn [fst snd]. split.
    - unfold cN. assert (nx * j + i < nx * ny) by nia. assert (nx * ny * k + nx * ny <= nx * ny * nz) by nia. lia.
    - exists (nth i distx zero), (nth j disty zero), (nth k distz zero). rewrite cN_x, cN_y, cN_z by done.
      split; [by apply nth_lookup_lt|]. split; [by apply nth_lookup_lt|]. split; [by apply nth_lookup_lt|done].
  Qed.
  Lemma pts_grid l : (forall p, p ∈ l -> p.1.1 < nx /\ p.1.2 < ny /\ p.2 < nz) -> Forall2 (fun n v => n < nx * ny * nz /\ on_cube n v) (map tN l) (map tP l).
  Proof.
    intros H. induction l as [|p l IH]; [constructor|]. cbn [map]. constructor; [|apply IH; intros q Hq; apply H; by right].
    destruct (H p) as (? & ? & ?); [left|]. by apply cP_grid.
  Qed.
  Lemma fpts_in f p : fvalid f -> p ∈ fpts f -> p.1.1 < nx /\ p.1.2 < ny /\ p.2 < nz.
  Proof. intros Hf Hp. destruct f; cbn [fvalid fpts] in *; rewrite !elem_of_cons, elem_of_nil in Hp; destruct Hp as [-> |[-> |[-> |[-> |[]]]]]; cbn; lia. Qed.
  Lemma citems_grid i : i ∈ cu_items -> Forall2 (fun n v => n < nx * ny * nz /\ on_cube n v) (it_nodes i) (it_verts i).
  Proof.
    intros Hi. apply citems_elem in Hi as [(c & Hc & ->)|(f & Hf & ->)].
    - unfold cu_in in Hc. cbn [hex it_nodes it_verts]. apply pts_grid. intros p Hp. unfold hpts in Hp. cbv zeta in Hp.
      rewrite !elem_of_cons, elem_of_nil in Hp. destruct Hp as [-> |[-> |[-> |[-> |[-> |[-> |[-> |[-> |[]]]]]]]]]; cbn; lia.
    - apply pts_grid. intros p. apply fpts_in. by apply fonb_valid.
  Qed.
  Lemma cgrid_covered n : n < nx * ny * nz -> exists c, cu_in c /\ n ∈ it_nodes (hex c).
  Proof.
    intros Hn. assert (Hd : n = nx * (n / nx) + n `mod` nx) by (apply Nat.div_mod; lia).
    assert (Hd' : n / nx = ny * (n / nx / ny) + (n / nx) `mod` ny) by (apply Nat.div_mod; lia).
    assert (Hm : n = cN (n `mod` nx) ((n / nx) `mod` ny) (n / nx / ny)). { unfold cN. rewrite <- Nat.mul_assoc, <- Nat.mul_add_distr_l, <- Hd'. exact Hd. }
    assert (n `mod` nx < nx) by (apply Nat.mod_upper_bound; lia). assert ((n / nx) `mod` ny < ny) by (apply Nat.mod_upper_bound; lia).
    assert (n / nx / ny < nz) by (apply Nat.div_lt_upper_bound; [lia|]; apply Nat.div_lt_upper_bound; lia).
    clear Hd Hd'. set (x := n `mod` nx) in *. set (y := (n / nx) `mod` ny) in *. set (z := n / nx / ny) in *. clearbody x y z.
    set (h := fun a e => if a <? e then 0 else 1).
    assert (Hh : forall a e, 1 <= e -> a < e + 1 -> a - h a e + h a e = a /\ a - h a e < e /\ (h a e = 0 \/ h a e = 1)).
    { intros a e He Ha. unfold h. destruct (Nat.ltb_spec a e); lia. }
    destruct (Hh x ex) as (A1 & A2 & A3); [lia..|]. destruct (Hh y ey) as (B1 & B2 & B3); [lia..|]. destruct (Hh z ez) as (C1 & C2 & C3); [lia..|].
    exists (x - h x ex, y - h y ey, z - h z ez). split; [unfold cu_in; cbn; lia|]. rewrite Hm. cbn [hex it_nodes].
    replace (cN x y z) with (tN (x - h x ex + h x ex, y - h y ey + h y ey, z - h z ez + h z ez)) by (unfold tN; cbn [fst snd]; by rewrite A1, B1, C1).
    apply (elem_of_list_fmap_1 tN). unfold hpts. cbn [fst snd]. cbv zeta.
    generalize (x - h x ex) (y - h y ey) (z - h z ez). intros x' y' z'. rewrite !elem_of_cons.
    destruct A3 as [-> | ->], B3 as [-> | ->], C3 as [-> | ->]; rewrite ?Nat.add_0_r; tauto.
  Qed.
  Lemma cube_ok : exists x, makeCubeMesh sched shuffle distx disty distz ids = Ok x /\
    let m := m_domains x in
    valid_doms [1] m /\ ascending m /\
    (forall i, is_node m i <-> i < nx * ny * nz) /\
    so_begin (m_own x) = 0 /\ so_end (m_own x) = nx * ny * nz /\ so_shared (m_own x) = [] /\
    map el_id (all_elems m) ≡ₚ seq 0 (ex * ey * ez + 2 * ex * ey + 2 * ex * ez + 2 * ey * ez) /\
    (forall e, is_elem m e -> Forall2 on_cube (el_nodes e) (el_verts e)) /\
    (forall e, in_domain m (cu_domain ids) e -> el_type e = Hex /\ el_id e < ex * ey * ez /\ exists ix iy iz, ix < ex /\ iy < ey /\ iz < ez /\ el_nodes e = map tN (hpts (ix, iy, iz))) /\
    (forall ix iy iz, ix < ex -> iy < ey -> iz < ez -> exists e, in_domain m (cu_domain ids) e /\ el_nodes e = map tN (hpts (ix, iy, iz))) /\
    (forall b n, n ∈ el_nodes b ->
        (in_domain m (cu_back ids) b -> n / (nx * ny) = 0) /\ (in_domain m (cu_front ids) b -> n / (nx * ny) = ez) /\
        (in_domain m (cu_bottom ids) b -> (n / nx) `mod` ny = 0) /\ (in_domain m (cu_top ids) b -> (n / nx) `mod` ny = ey) /\
        (in_domain m (cu_left ids) b -> n `mod` nx = 0) /\ (in_domain m (cu_right ids) b -> n `mod` nx = ex)) /\
    (forall id, id ∈ (m_bnds x).*1 <-> id ∈ bnds) /\ (forall id, id ∈ m.*1 <-> id ∈ cu_domain ids :: bnds) /\
    conforming m (cu_domain ids) bnds /\ boundary_attached m (cu_domain ids) bnds.
  Proof.
    rewrite cu_model. destruct cu_run as ([m k] & Hrun & Hb). rewrite Hrun, bind_ok. cbn [fst].
    pose proof (b_valid _ _ _ Hb) as Hv. destruct Hb as [H1 H2 H3 H4 H5 H6 H7 H8 H9]. cbn [fst snd] in *. rewrite cu_puts in *.
    set (bs0 := bnds).
    assert (Hside : forall c s, cu_in c -> s < 6 -> fvalid (cu_side c s)).
    { intros [[a b] c] s (Ha & Hb' & Hc') Hs. cbn in *. destruct s as [|[|[|[|[|[|s]]]]]]; cbn; lia. }
    assert (Hconf : conforming m (cu_domain ids) bs0).
    { eapply (conforming_ok cu_items m (cu_domain ids) bs0 fnodes fvalid fonb cu_in hex cu_side 6 fitem); auto using citems_nodup, cu_cell, cu_bnd, cu_sides, fonb_valid, face_inj, cu_comb.
      intros c c' Hc Hc'. by apply hex_inj. }
    assert (Hatt : boundary_attached m (cu_domain ids) bs0).
    { eapply (attached_ok cu_items m (cu_domain ids) bs0 fnodes fvalid fonb cu_in hex cu_side 6 fitem); auto using citems_nodup, cu_cell, cu_bnd, cu_sides, fonb_valid, face_inj, cu_comb, cu_on. }
    assert (Hnode : forall i, is_node m i -> i < nx * ny * nz).
    { intros i (e & (id & He) & Hi). apply H8 in He as (k' & it & Hk & _ & ->). cbn [it_el el_nodes] in Hi.
      pose proof (citems_grid it ltac:(by eapply elem_of_list_lookup_2)) as Hg. apply elem_of_list_lookup in Hi as [j Hj].
      destruct (Forall2_lookup_l _ _ _ _ _ Hg Hj) as (v & _ & Hlt & _). done. }
    assert (Hhex : forall c, cu_in c -> exists k, in_domain m (cu_domain ids) (it_el (hex c) k)).
    { intros c Hc. destruct (proj2 (cu_cell (hex c))) as [Hin _]; [by exists c|]. apply elem_of_list_lookup in Hin as [k' Hk']. exists k'. apply H8. by exists k', (hex c). }
    destruct (finish sched shuffle m (nx * ny * nz) bs0 Hv Hsched Hshuffle) as (so & bs & Hm & Hb0 & He0 & Hsh & Hbs & Hbk).
    - intros id d Hid Hd. assert (Hne : d_dim d <> None).
      { intros Hn. assert (Hf : exists f, fonb f /\ fdom f = id).
        { unfold bs0 in Hid. rewrite !elem_of_cons, elem_of_nil in Hid. destruct Hid as [-> |[-> |[-> |[-> |[-> |[-> |[]]]]]]].
          - exists (FZ 0 0 0). cbn. split; [lia|done].
          - exists (FZ 0 0 ez). cbn. split; [lia|]. destruct (Nat.eqb_spec ez 0); [lia|done].
          - exists (FY 0 0 0). cbn. split; [lia|done].
          - exists (FY 0 ey 0). cbn. split; [lia|]. destruct (Nat.eqb_spec ey 0); [lia|done].
          - exists (FX 0 0 0). cbn. split; [lia|done].
          - exists (FX ex 0 0). cbn. split; [lia|]. destruct (Nat.eqb_spec ex 0); [lia|done]. }
        destruct Hf as (f & Hf & Hfd). pose proof (proj1 (H7 id d Hd) Hn) as Hno. apply (Hno (fitem f)); [|done]. apply citems_elem. right. by exists f. }
      destruct (d_dim d) as [x|] eqn:Ex; [|done]. exists x. split; [done|].
      assert (x = 2) as ->. { rewrite (H6 _ _ _ Hd Ex). unfold cu_dim. destruct (Nat.eqb_spec id (cu_domain ids)) as [-> |]; [|done]. by apply cdom_not_bnd in Hid. }
      destruct (Hhex (0, 0, 0)) as (k' & d' & v & Hd' & Hv' & He'); [unfold cu_in; cbn; lia|]. exists (cu_domain ids), d'. split; [done|].
      rewrite Forall_forall in H4. destruct (H4 _ Hd') as [_ Hdd]. cbn [snd] in Hdd. rewrite (Hdd _ _ Hv' He'). done.
    - intros b id Hid Hb. eapply (bnd_attached cu_items m (cu_domain ids) bs0 fnodes fvalid fonb cu_in hex cu_side 6 fitem) with (D := 2); eauto using citems_nodup, cu_cell, cu_bnd, cu_sides, fonb_valid, face_inj, cu_comb, cu_on.
      apply H8 in Hb as (k' & i & Hk & Hi & ->). destruct (proj1 (cu_bnd i)) as (f & _ & ->); [split; [by eapply elem_of_list_lookup_2|by rewrite Hi]|]. done.
    - done.
    - exists (mk_mesh m so bs). split; [done|]. cbv zeta. cbn [m_domains m_own m_bnds]. split; [done|]. split; [done|]. split; [|split; [done|split; [done|split; [done|split; [|split; [|split; [|split; [|split; [|split; [done|split; [|split; done]]]]]]]]]]].
      + intros i. split; [apply Hnode|]. intros Hi. destruct (cgrid_covered i Hi) as (c & Hc & Hin). destruct (Hhex c Hc) as [k' He].
        exists (it_el (hex c) k'). split; [by eexists|done].
      + rewrite H9. by rewrite citems_length.
      + intros e (id & He). apply H8 in He as (k' & it & Hk & _ & ->). cbn [it_el el_nodes el_verts].
        eapply Forall2_impl; [apply (citems_grid it); by eapply elem_of_list_lookup_2|]. by intros ? ? [_ ?].
      + intros e He. apply H8 in He as (k' & i & Hk & Hi & ->).
        destruct (proj1 (cu_cell i)) as (c & Hc & ->); [split; [by eapply elem_of_list_lookup_2|done]|]. split; [done|]. cbn [it_el el_id el_nodes hex it_nodes].
        destruct c as [[a b] c]. destruct Hc as (Hc1 & Hc2 & Hc3). split; [|by exists a, b, c].
        unfold cu_items in Hk. apply lookup_app_Some in Hk as [Hk|[_ Hk]].
        * apply lookup_lt_Some in Hk. rewrite map_length, ccells_length in Hk. done.
        * apply elem_of_list_lookup_2, (elem_of_list_fmap fitem) in Hk as (f & E & _). apply (f_equal it_type) in E. done.
      + intros ix iy iz Hix Hiy Hiz. destruct (Hhex (ix, iy, iz)) as [k' He]; [done|]. by eexists.
      + intros b n Hn. assert (Hcase : forall id, id ∈ bs0 -> in_domain m id b -> exists f, fonb f /\ id = fdom f /\ exists p, p ∈ fpts f /\ n = tN p).
        { intros id Hid Hb. apply H8 in Hb as (k' & i & Hk & Hi & ->). destruct (proj1 (cu_bnd i)) as (f & Hf & ->); [split; [by eapply elem_of_list_lookup_2|by rewrite Hi]|].
          exists f. split; [done|]. split; [by rewrite <- Hi|]. cbn [it_el el_nodes fitem it_nodes] in Hn. apply (elem_of_list_fmap tN) in Hn as (p & -> & Hp). by exists p. }
        assert (Hn7 : NoDup bs0) by (by apply NoDup_cons in Hids as [_ ?]). apply six_distinct in Hn7 as ((D1 & D2 & D3 & D4 & D5) & (D6 & D7 & D8 & D9) & (D10 & D11 & D12) & (D13 & D14) & D15).
        assert (Hz' : forall p, p.1.1 < nx -> p.1.2 < ny -> tN p / (nx * ny) = p.2) by (intros [[a1 a2] a3]; apply cN_z).
        assert (Hy' : forall p, p.1.1 < nx -> p.1.2 < ny -> (tN p / nx) `mod` ny = p.1.2) by (intros [[a1 a2] a3]; apply cN_y).
        assert (Hx' : forall p, p.1.1 < nx -> tN p `mod` nx = p.1.1) by (intros [[a1 a2] a3]; apply cN_x).
        assert (Hpl : forall f p, fonb f -> p ∈ fpts f -> match f with FZ _ _ z => p.2 = z | FY _ y _ => p.1.2 = y | FX x _ _ => p.1.1 = x end).
        { intros f p _ Hp. destruct f; cbn [fpts] in Hp; rewrite !elem_of_cons, elem_of_nil in Hp; destruct Hp as [-> |[-> |[-> |[-> |[]]]]]; done. }
        clear - Hcase D1 D2 D3 D4 D5 D6 D7 D8 D9 D10 D11 D12 D13 D14 D15 Hz' Hy' Hx' Hpl Hx Hy Hz.
        assert (Hpin : forall f p, fonb f -> p ∈ fpts f -> p.1.1 < nx /\ p.1.2 < ny /\ p.2 < nz) by (intros f p Hf; apply fpts_in; by apply fonb_valid).
        split; [|split; [|split; [|split; [|split]]]]; intros Hb.
        * destruct (Hcase (cu_back ids)) as (f & Hf & Hfd & p & Hp & ->); [apply elem_of_bnds; by left|exact Hb|].
          destruct (Hpin f p Hf Hp) as (P1 & P2 & P3). pose proof (Hpl f p Hf Hp) as P4. rewrite (Hz' p P1 P2).
          clear Hcase Hz' Hy' Hx' Hpl Hpin Hb Hp.
          destruct f as [x y z|x y z|x y z]; cbn [fonb fdom] in Hf, Hfd.
          all: match type of Hfd with _ = (if ?a =? 0 then _ else _) => destruct (Nat.eqb_spec a 0) end.
          all: first [clear D1 D2 D3 D4 D5 D6 D7 D8 D9 D10 D11 D12 D13 D14 D15 Hfd; lia|exfalso; clear - Hfd D1 D2 D3 D4 D5 D6 D7 D8 D9 D10 D11 D12 D13 D14 D15; congruence].
        * destruct (Hcase (cu_front ids)) as (f & Hf & Hfd & p & Hp & ->); [apply elem_of_bnds; do 1 right; by left|exact Hb|].
          destruct (Hpin f p Hf Hp) as (P1 & P2 & P3). pose proof (Hpl f p Hf Hp) as P4. rewrite (Hz' p P1 P2).
          clear Hcase Hz' Hy' Hx' Hpl Hpin Hb Hp.
          destruct f as [x y z|x y z|x y z]; cbn [fonb fdom] in Hf, Hfd.
          all: match type of Hfd with _ = (if ?a =? 0 then _ else _) => destruct (Nat.eqb_spec a 0) end.
          all: first [clear D1 D2 D3 D4 D5 D6 D7 D8 D9 D10 D11 D12 D13 D14 D15 Hfd; lia|exfalso; clear - Hfd D1 D2 D3 D4 D5 D6 D7 D8 D9 D10 D11 D12 D13 D14 D15; congruence].
        * destruct (Hcase (cu_bottom ids)) as (f & Hf & Hfd & p & Hp & ->); [apply elem_of_bnds; do 2 right; by left|exact Hb|].
          destruct (Hpin f p Hf Hp) as (P1 & P2 & P3). pose proof (Hpl f p Hf Hp) as P4. rewrite (Hy' p P1 P2).
          clear Hcase Hz' Hy' Hx' Hpl Hpin Hb Hp.
          destruct f as [x y z|x y z|x y z]; cbn [fonb fdom] in Hf, Hfd.
          all: match type of Hfd with _ = (if ?a =? 0 then _ else _) => destruct (Nat.eqb_spec a 0) end.
          all: first [clear D1 D2 D3 D4 D5 D6 D7 D8 D9 D10 D11 D12 D13 D14 D15 Hfd; lia|exfalso; clear - Hfd D1 D2 D3 D4 D5 D6 D7 D8 D9 D10 D11 D12 D13 D14 D15; congruence].
        * destruct (Hcase (cu_top ids)) as (f & Hf & Hfd & p & Hp & ->); [apply elem_of_bnds; do 3 right; by left|exact Hb|].
          destruct (Hpin f p Hf Hp) as (P1 & P2 & P3). pose proof (Hpl f p Hf Hp) as P4. rewrite (Hy' p P1 P2).
          clear Hcase Hz' Hy' Hx' Hpl Hpin Hb Hp.
          destruct f as [x y z|x y z|x y z]; cbn [fonb fdom] in Hf, Hfd.
          all: match type of Hfd with _ = (if ?a =? 0 then _ else _) => destruct (Nat.eqb_spec a 0) end.
          all: first [clear D1 D2 D3 D4 D5 D6 D7 D8 D9 D10 D11 D12 D13 D14 D15 Hfd; lia|exfalso; clear - Hfd D1 D2 D3 D4 D5 D6 D7 D8 D9 D10 D11 D12 D13 D14 D15; congruence].
        * destruct (Hcase (cu_left ids)) as (f & Hf & Hfd & p & Hp & ->); [apply elem_of_bnds; do 4 right; by left|exact Hb|].
          destruct (Hpin f p Hf Hp) as (P1 & P2 & P3). pose proof (Hpl f p Hf Hp) as P4. rewrite (Hx' p P1).
          clear Hcase Hz' Hy' Hx' Hpl Hpin Hb Hp.
          destruct f as [x y z|x y z|x y z]; cbn [fonb fdom] in Hf, Hfd.
          all: match type of Hfd with _ = (if ?a =? 0 then _ else _) => destruct (Nat.eqb_spec a 0) end.
          all: first [clear D1 D2 D3 D4 D5 D6 D7 D8 D9 D10 D11 D12 D13 D14 D15 Hfd; lia|exfalso; clear - Hfd D1 D2 D3 D4 D5 D6 D7 D8 D9 D10 D11 D12 D13 D14 D15; congruence].
        * destruct (Hcase (cu_right ids)) as (f & Hf & Hfd & p & Hp & ->); [apply elem_of_bnds; do 5 right; done|exact Hb|].
          destruct (Hpin f p Hf Hp) as (P1 & P2 & P3). pose proof (Hpl f p Hf Hp) as P4. rewrite (Hx' p P1).
          clear Hcase Hz' Hy' Hx' Hpl Hpin Hb Hp.
          destruct f as [x y z|x y z|x y z]; cbn [fonb fdom] in Hf, Hfd.
          all: match type of Hfd with _ = (if ?a =? 0 then _ else _) => destruct (Nat.eqb_spec a 0) end.
          all: first [clear D1 D2 D3 D4 D5 D6 D7 D8 D9 D10 D11 D12 D13 D14 D15 Hfd; lia|exfalso; clear - Hfd D1 D2 D3 D4 D5 D6 D7 D8 D9 D10 D11 D12 D13 D14 D15; congruence].
      + intros id. rewrite H3. unfold cu_cmds. rewrite map_app, elem_of_app. cbn [map c_dom]. split; [|by left]. intros [?|H]; [done|].
        rewrite map_map in H. apply (elem_of_list_fmap (fun i => c_dom (Put i))) in H as (i & -> & Hi). cbn [c_dom].
        apply citems_elem in Hi as [(c & _ & ->)|(f & _ & ->)]; [left|right; apply fdom_bnd].
  Qed.
End cube.
