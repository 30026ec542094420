From Verif Require Import Base StdAlgo Ownership_model Elem_model Elem_spec Elem_proofs Mesh_model Mesh_spec Mesh_proofs Prim_model Prim_spec Build_proofs Prim_proofs.
Local Arguments Nat.mul : simpl never.
Local Arguments Nat.add : simpl never.
Local Arguments Nat.sub : simpl never.
Local Arguments Nat.modulo : simpl never.
Local Arguments Nat.div : simpl never.

Lemma sum_perm l l' : l ≡ₚ l' -> sum l = sum l'.
Proof. induction 1; cbn [sum foldr] in *; unfold sum in *; cbn [foldr] in *; lia. Qed.
Lemma rd_nth {A} (l : list A) i d : i < length l -> rd l i = Ok (nth i l d).
Proof. intros H. destruct (lookup_lt_is_Some_2 l i H) as [a Ha]. rewrite (rd_ok _ _ _ Ha). by rewrite (nth_lookup_Some _ _ _ _ Ha). Qed.
Lemma nth_lookup_lt {A} (l : list A) i d : i < length l -> l !! i = Some (nth i l d).
Proof. intros H. destruct (lookup_lt_is_Some_2 l i H) as [a Ha]. by rewrite (nth_lookup_Some _ _ _ _ Ha). Qed.

Section square.
  Context {C : Type} (zero : C) (distx disty : list C) (ids : square_ids).
  Notation pt := (C * C * C)%type.
  Notation nx := (length distx).
  Notation ny := (length disty).
  Notation ex := (length distx - 1).
  Notation ey := (length disty - 1).
  Context (Hx : 2 <= nx) (Hy : 2 <= ny)
    (Hids : sq_domain ids ∉ [sq_bottom ids; sq_top ids; sq_left ids; sq_right ids]).
  Definition sN (x y : nat) : nat := nx * y + x.
  Definition sP (i j : nat) : pt := (nth i distx zero, nth j disty zero, zero).
  Lemma sN_x x y : x < nx -> sN x y `mod` nx = x.
  Proof. intros H. unfold sN. rewrite Nat.add_comm, Nat.mul_comm, Nat.mod_add by lia. by apply Nat.mod_small. Qed.
  Lemma sN_y x y : x < nx -> sN x y / nx = y.
  Proof. intros H. unfold sN. rewrite Nat.add_comm, Nat.mul_comm, Nat.div_add by lia. rewrite Nat.div_small by done. lia. Qed.
  Lemma sN_inj x y x' y' : x < nx -> x' < nx -> sN x y = sN x' y' -> x = x' /\ y = y'.
  Proof. intros H H' E. split; [rewrite <- (sN_x x y H), <- (sN_x x' y' H')|rewrite <- (sN_y x y H), <- (sN_y x' y' H')]; by rewrite E. Qed.
  Lemma point2_ok i j : i < nx -> j < ny -> point2 zero distx disty i j = Ok (sP i j).
  Proof. intros Hi Hj. unfold point2. rewrite (rd_nth _ _ zero Hi), bind_ok, (rd_nth _ _ zero Hj), bind_ok. done. Qed.

  Definition quad (c : nat * nat) : item pt :=
    mk_it (sq_domain ids) Quad [sN c.1 c.2; sN (c.1 + 1) c.2; sN c.1 (c.2 + 1); sN (c.1 + 1) (c.2 + 1)]
      [sP c.1 c.2; sP (c.1 + 1) c.2; sP c.1 (c.2 + 1); sP (c.1 + 1) (c.2 + 1)].
  (** Edges of the grid. *)
  Inductive edge := HE (x y : nat) | VE (x y : nat).
  Definition ends (f : edge) : (nat * nat) * (nat * nat) :=
    match f with HE x y => ((x, y), (x + 1, y)) | VE x y => ((x, y), (x, y + 1)) end.
  Definition enodes (f : edge) : list nat := let p := ends f in [sN p.1.1 p.1.2; sN p.2.1 p.2.2].
  Definition edom (f : edge) : nat :=
    match f with HE _ y => if y =? 0 then sq_bottom ids else sq_top ids | VE x _ => if x =? 0 then sq_left ids else sq_right ids end.
  Definition eitem (f : edge) : item pt :=
    let p := ends f in mk_it (edom f) Line (enodes f) [sP p.1.1 p.1.2; sP p.2.1 p.2.2].
  Definition evalid (f : edge) : Prop := match f with HE x y => x < ex /\ y < ny | VE x y => x < nx /\ y < ey end.
  Definition eonb (f : edge) : Prop := match f with HE x y => x < ex /\ (y = 0 \/ y = ey) | VE x y => y < ey /\ (x = 0 \/ x = ex) end.
  Definition sq_side (c : nat * nat) (s : nat) : edge :=
    match s with 0 => HE c.1 c.2 | 1 => HE c.1 (c.2 + 1) | 2 => VE c.1 c.2 | _ => VE (c.1 + 1) c.2 end.
  Definition sq_in (c : nat * nat) : Prop := c.1 < ex /\ c.2 < ey.

  Definition cells : list (nat * nat) := concat (map (fun iy => map (fun ix => (ix, iy)) (seq 0 ex)) (seq 0 ey)).
  Definition hedges : list edge := concat (map (fun ix => [HE ix 0; HE ix ey]) (seq 0 ex)).
  Definition vedges : list edge := concat (map (fun iy => [VE 0 iy; VE ex iy]) (seq 0 ey)).
  Definition sq_items : list (item pt) := map quad cells ++ map eitem (hedges ++ vedges).
  Definition sq_cmds : list (cmd pt) :=
    map Touch [sq_domain ids; sq_bottom ids; sq_top ids; sq_left ids; sq_right ids] ++ map Put sq_items.
  Lemma sq_puts : puts sq_cmds = sq_items.
  Proof.
    unfold sq_cmds. rewrite puts_app. cbn [map puts omap list_omap app]. unfold puts. induction sq_items as [|i l IH]; [done|]. cbn. by rewrite IH.
  Qed.
  Lemma cells_elem c : c ∈ cells <-> sq_in c.
  Proof.
    unfold cells, sq_in. rewrite elem_of_concat. split.
    - intros (l & Hc & Hl). apply (elem_of_list_fmap (fun iy => map (fun ix => (ix, iy)) (seq 0 ex))) in Hl as (iy & -> & Hiy).
      apply (elem_of_list_fmap (fun ix => (ix, iy))) in Hc as (ix & -> & Hix). apply elem_of_seq in Hix, Hiy. cbn. lia.
    - destruct c as [ix iy]. cbn. intros [H1 H2]. exists (map (fun ix => (ix, iy)) (seq 0 ex)). split.
      + apply (elem_of_list_fmap_1 (fun ix => (ix, iy))), elem_of_seq. lia.
      + apply (elem_of_list_fmap_1 (fun iy => map (fun ix => (ix, iy)) (seq 0 ex))), elem_of_seq. lia.
  Qed.
  Lemma edges_elem f : f ∈ hedges ++ vedges <-> eonb f.
  Proof.
    unfold hedges, vedges. rewrite elem_of_app, !elem_of_concat. split.
    - intros [(l & Hf & Hl)|(l & Hf & Hl)].
      + apply (elem_of_list_fmap (fun ix => [HE ix 0; HE ix ey])) in Hl as (ix & -> & Hi). apply elem_of_seq in Hi.
        rewrite !elem_of_cons, elem_of_nil in Hf. destruct Hf as [-> |[-> |[]]]; cbn; lia.
      + apply (elem_of_list_fmap (fun iy => [VE 0 iy; VE ex iy])) in Hl as (iy & -> & Hi). apply elem_of_seq in Hi.
        rewrite !elem_of_cons, elem_of_nil in Hf. destruct Hf as [-> |[-> |[]]]; cbn; lia.
    - destruct f as [x y|x y]; cbn [eonb].
      + intros [H1 H2]. left. exists [HE x 0; HE x ey]. split; [rewrite !elem_of_cons; destruct H2 as [-> | ->]; auto|].
        apply (elem_of_list_fmap_1 (fun ix => [HE ix 0; HE ix ey])), elem_of_seq. lia.
      + intros [H1 H2]. right. exists [VE 0 y; VE ex y]. split; [rewrite !elem_of_cons; destruct H2 as [-> | ->]; auto|].
        apply (elem_of_list_fmap_1 (fun iy => [VE 0 iy; VE ex iy])), elem_of_seq. lia.
  Qed.
  Lemma items_elem i : i ∈ sq_items <-> (exists c, sq_in c /\ i = quad c) \/ (exists f, eonb f /\ i = eitem f).
  Proof.
    unfold sq_items. rewrite elem_of_app, (elem_of_list_fmap quad), (elem_of_list_fmap eitem). setoid_rewrite cells_elem. setoid_rewrite edges_elem. naive_solver.
  Qed.
  Lemma edom_bnd f : edom f ∈ [sq_bottom ids; sq_top ids; sq_left ids; sq_right ids].
  Proof. destruct f; cbn [edom]; destruct (_ =? 0); rewrite !elem_of_cons; auto. Qed.
  Lemma dom_not_bnd : sq_domain ids ∉ [sq_bottom ids; sq_top ids; sq_left ids; sq_right ids].
  Proof. exact Hids. Qed.
  Lemma sq_cell i : i ∈ sq_items /\ it_dom i = sq_domain ids <-> exists c, sq_in c /\ i = quad c.
  Proof.
    rewrite items_elem. split.
    - intros [[H|(f & _ & ->)] Hd]; [done|]. exfalso. apply dom_not_bnd. rewrite <- Hd. apply edom_bnd.
    - intros (c & Hc & ->). split; [left; by exists c|done].
  Qed.
  Lemma sq_bnd i : i ∈ sq_items /\ it_dom i ∈ [sq_bottom ids; sq_top ids; sq_left ids; sq_right ids] <-> exists f, eonb f /\ i = eitem f.
  Proof.
    rewrite items_elem. split.
    - intros [[(c & _ & ->)|H] Hd]; [|done]. by apply dom_not_bnd in Hd.
    - intros (f & Hf & ->). split; [right; by exists f|apply edom_bnd].
  Qed.
  Lemma quad_inj c c' : c.1 < ex -> c'.1 < ex -> quad c = quad c' -> c = c'.
  Proof.
    intros H H'. destruct c as [x y], c' as [x' y']. cbn in *. intros [= E _]. destruct (sN_inj x y x' y') as [-> ->]; [lia|lia|done|done].
  Qed.
  Lemma edge_inj f g : evalid f -> evalid g -> enodes f ≡ₚ enodes g -> f = g.
  Proof.
    intros Hf Hg Hp.
    assert (Hsx : sum (map (fun n => n `mod` nx) (enodes f)) = sum (map (fun n => n `mod` nx) (enodes g))) by (apply sum_perm; by rewrite Hp).
    assert (Hsy : sum (map (fun n => n / nx) (enodes f)) = sum (map (fun n => n / nx) (enodes g))) by (apply sum_perm; by rewrite Hp).
    destruct f as [x y|x y], g as [x' y'|x' y']; cbn [evalid enodes ends fst snd map] in *;
      rewrite !sN_x in Hsx by lia; rewrite !sN_y in Hsy by lia; unfold sum in *; cbn [foldr] in *; f_equal; lia.
  Qed.
  Lemma eitem_inj f g : evalid f -> evalid g -> eitem f = eitem g -> f = g.
  Proof. intros Hf Hg E. apply edge_inj; [done|done|]. apply (f_equal it_nodes) in E. cbn [eitem it_nodes] in E. by rewrite E. Qed.
  Lemma eonb_valid f : eonb f -> evalid f.
  Proof. destruct f; cbn; lia. Qed.
  Lemma nodup_map_in {A B} (g : A -> B) l : NoDup l -> (forall a b, a ∈ l -> b ∈ l -> g a = g b -> a = b) -> NoDup (map g l).
  Proof.
    induction 1 as [|a l Hn Hnd IH]; intros Hg; [constructor|]. cbn [map]. apply NoDup_cons. split.
    - intros Hin. apply (elem_of_list_fmap g) in Hin as (b & Hb & Hbl). assert (a = b) as -> by (apply Hg; [left|by right|done]). done.
    - apply IH. intros b c Hb Hc. apply Hg; by right.
  Qed.
  Lemma cells_nodup : NoDup cells.
  Proof.
    apply nodup_concat_map; [apply NoDup_seq| |].
    - intros iy _. apply nodup_map_in; [apply NoDup_seq|]. congruence.
    - intros a b c _ _ Ha Hb. apply (elem_of_list_fmap (fun ix => (ix, a))) in Ha as (? & -> & _). apply (elem_of_list_fmap (fun ix => (ix, b))) in Hb as (? & E & _). congruence.
  Qed.
  Lemma edges_nodup : NoDup (hedges ++ vedges).
  Proof.
    apply NoDup_app. split; [|split].
    - apply nodup_concat_map; [apply NoDup_seq| |].
      + intros ix _. apply NoDup_cons. split; [|apply NoDup_singleton]. intros H%elem_of_list_singleton. injection H. lia.
      + intros a b f _ _ Ha Hb. rewrite !elem_of_cons, elem_of_nil in Ha, Hb. naive_solver.
    - intros f Hf Hg. apply elem_of_concat in Hf as (l & Hf & Hl). apply elem_of_concat in Hg as (l' & Hg & Hl').
      apply (elem_of_list_fmap (fun ix => [HE ix 0; HE ix ey])) in Hl as (? & -> & _). apply (elem_of_list_fmap (fun iy => [VE 0 iy; VE ex iy])) in Hl' as (? & -> & _).
      rewrite !elem_of_cons, elem_of_nil in Hf, Hg. naive_solver.
    - apply nodup_concat_map; [apply NoDup_seq| |].
      + intros ix _. apply NoDup_cons. split; [|apply NoDup_singleton]. intros H%elem_of_list_singleton. injection H. lia.
      + intros a b f _ _ Ha Hb. rewrite !elem_of_cons, elem_of_nil in Ha, Hb. naive_solver.
  Qed.
  Lemma items_nodup : NoDup sq_items.
  Proof.
    apply NoDup_app. split; [|split].
    - apply nodup_map_in; [apply cells_nodup|]. intros a b Ha Hb. apply cells_elem in Ha as [Ha _], Hb as [Hb _]. by apply quad_inj.
    - intros i Hi Hj. apply (elem_of_list_fmap quad) in Hi as (c & -> & _). apply (elem_of_list_fmap eitem) in Hj as (f & E & _).
      apply (f_equal it_type) in E. done.
    - apply nodup_map_in; [apply edges_nodup|]. intros a b Ha Hb. apply edges_elem, eonb_valid in Ha, Hb. by apply eitem_inj.
  Qed.
  Lemma sq_sides c k s ns : sq_in c -> side_nodes (it_el (quad c) k) s ns <-> s < 4 /\ ns ≡ₚ enodes (sq_side c s).
  Proof.
    intros Hc. split.
    - intros Hs. pose proof (proj1 Hs) as Hlt. cbn [it_el el_type quad it_type n_sides] in Hlt. split; [done|].
      destruct s as [|[|[|[|s]]]]; [| | | |lia]; (eapply side_nodes_iff in Hs; [exact Hs|reflexivity|]); cbn; repeat constructor.
    - intros [Hlt Hp]. destruct s as [|[|[|[|s]]]]; [| | | |lia]; (eapply side_nodes_iff; [reflexivity| |exact Hp]); cbn; repeat constructor.
  Qed.
  Lemma sq_comb c s : sq_in c -> s < 4 ->
     (exists c' s', ~ (c' = c /\ s' = s) /\ shared_by sq_in sq_side 4 (sq_side c s) c' s' /\ ~ eonb (sq_side c s) /\
        forall c2 s2, shared_by sq_in sq_side 4 (sq_side c s) c2 s2 -> (c2 = c /\ s2 = s) \/ (c2 = c' /\ s2 = s')) \/
     (eonb (sq_side c s) /\ forall c2 s2, shared_by sq_in sq_side 4 (sq_side c s) c2 s2 -> c2 = c /\ s2 = s).
  Proof.
    destruct c as [x y]. unfold sq_in, shared_by. cbn [fst snd]. intros [H1 H2] Hs.
    assert (Hall : forall f c2 s2, s2 < 4 -> sq_side c2 s2 = f -> match f with
      | HE a b => (c2.1 = a /\ c2.2 = b /\ s2 = 0) \/ (c2.1 = a /\ c2.2 + 1 = b /\ s2 = 1)
      | VE a b => (c2.1 = a /\ c2.2 = b /\ s2 = 2) \/ (c2.1 + 1 = a /\ c2.2 = b /\ s2 = 3) end).
    { intros f c2 s2 Hlt <-. destruct s2 as [|[|[|[|s2]]]]; cbn; lia. }
    destruct s as [|[|[|[|s]]]]; [| | | |lia]; cbn [sq_side fst snd eonb].
    - destruct (Nat.eq_dec y 0) as [->|Hy0]; [right|left].
      + split; [lia|]. intros [a b] s2 (_ & Hlt & Hf). pose proof (Hall _ _ _ Hlt Hf) as Ha. cbn in Ha. split; [f_equal|]; lia.
      + exists (x, y - 1), 1. split; [intros [[= E] _]; lia|]. split; [cbn; split; [lia|]; split; [lia|]; f_equal; lia|]. split; [lia|].
        intros [a b] s2 (_ & Hlt & Hf). pose proof (Hall _ _ _ Hlt Hf) as Ha. cbn in Ha. destruct Ha as [Ha|Ha]; [left|right]; (split; [f_equal|]; lia).
    - destruct (Nat.eq_dec (y + 1) ey) as [Hy0|Hy0]; [right|left].
      + split; [lia|]. intros [a b] s2 (Hin & Hlt & Hf). pose proof (Hall _ _ _ Hlt Hf) as Ha. cbn in Ha, Hin. split; [f_equal|]; lia.
      + exists (x, y + 1), 0. split; [intros [[= E] _]; lia|]. split; [cbn; split; [lia|]; split; [lia|]; f_equal; lia|]. split; [lia|].
        intros [a b] s2 (_ & Hlt & Hf). pose proof (Hall _ _ _ Hlt Hf) as Ha. cbn in Ha. destruct Ha as [Ha|Ha]; [right|left]; (split; [f_equal|]; lia).
    - destruct (Nat.eq_dec x 0) as [->|Hx0]; [right|left].
      + split; [lia|]. intros [a b] s2 (_ & Hlt & Hf). pose proof (Hall _ _ _ Hlt Hf) as Ha. cbn in Ha. split; [f_equal|]; lia.
      + exists (x - 1, y), 3. split; [intros [[= E] _]; lia|]. split; [cbn; split; [lia|]; split; [lia|]; f_equal; lia|]. split; [lia|].
        intros [a b] s2 (_ & Hlt & Hf). pose proof (Hall _ _ _ Hlt Hf) as Ha. cbn in Ha. destruct Ha as [Ha|Ha]; [left|right]; (split; [f_equal|]; lia).
    - destruct (Nat.eq_dec (x + 1) ex) as [Hx0|Hx0]; [right|left].
      + split; [lia|]. intros [a b] s2 (Hin & Hlt & Hf). pose proof (Hall _ _ _ Hlt Hf) as Ha. cbn in Ha, Hin. split; [f_equal|]; lia.
      + exists (x + 1, y), 2. split; [intros [[= E] _]; lia|]. split; [cbn; split; [lia|]; split; [lia|]; f_equal; lia|]. split; [lia|].
        intros [a b] s2 (_ & Hlt & Hf). pose proof (Hall _ _ _ Hlt Hf) as Ha. cbn in Ha. destruct Ha as [Ha|Ha]; [right|left]; (split; [f_equal|]; lia).
  Qed.
  Lemma sq_on f : eonb f -> exists c s, shared_by sq_in sq_side 4 f c s.
  Proof.
    destruct f as [x y|x y]; cbn; intros [H1 H2]; unfold shared_by, sq_in.
    - destruct H2 as [-> | ->]; [exists (x, 0), 0|exists (x, ey - 1), 1]; cbn; (split; [lia|]; split; [lia|]; f_equal; lia).
    - destruct H2 as [-> | ->]; [exists (0, y), 2|exists (ex - 1, y), 3]; cbn; (split; [lia|]; split; [lia|]; f_equal; lia).
  Qed.

  Context (sched : list (element pt) -> list (element pt)) (shuffle : list nat -> list nat)
    (Hsched : forall l, sched l ≡ₚ l) (Hshuffle : forall l, shuffle l ≡ₚ l).
  Definition sq_dim (id : nat) : nat := if id =? sq_domain ids then 2 else 1.
  Lemma sq_run : exists st, for_each exec sq_cmds ([], 0) = Ok st /\ built sq_dim sq_cmds st.
  Proof.
    apply run_ok. intros i Hi. assert (Hin : i ∈ sq_items).
    { rewrite <- sq_puts. unfold puts. apply elem_of_list_omap. by exists (Put i). }
    apply items_elem in Hin as [(c & Hc & ->)|(f & Hf & ->)].
    - split; [|done]. cbn. unfold sq_dim. by rewrite Nat.eqb_refl.
    - split; [|by destruct f]. cbn [eitem it_type it_dom native_dim]. unfold sq_dim. destruct (Nat.eqb_spec (edom f) (sq_domain ids)) as [E|]; [|done].
      exfalso. apply dom_not_bnd. rewrite <- E. apply edom_bnd.
  Qed.
  Lemma sq_model : makeSquareMesh zero sched shuffle distx disty ids =
    (st ← for_each exec sq_cmds ([], 0); make_mesh2 sched shuffle st.1 0 (nx * ny) [sq_bottom ids; sq_top ids; sq_left ids; sq_right ids]).
  Proof.
    unfold makeSquareMesh. cbv zeta. destruct (Nat.eqb_spec nx 0); [lia|]. destruct (Nat.eqb_spec ny 0); [lia|]. cbn [orb].
    unfold sq_cmds, sq_items. rewrite map_app, !for_each_app.
    change (for_each exec (map Touch [sq_domain ids; sq_bottom ids; sq_top ids; sq_left ids; sq_right ids]) ([], 0))
      with (Ok (foldl (fun m id => touch (V := pt) id m) [] [sq_domain ids; sq_bottom ids; sq_top ids; sq_left ids; sq_right ids], 0)).
    rewrite bind_ok. set (st0 := (foldl _ _ _, 0)). rewrite for_each_app.
    rewrite (for_each_exec _ (fun iy => map (fun ix => Put (quad (ix, iy))) (seq 0 ex))).
    2:{ intros iy st Hiy. apply elem_of_seq in Hiy. rewrite (for_each_exec _ (fun ix => [Put (quad (ix, iy))])).
        - f_equal. induction (seq 0 ex) as [|a l IH]; [done|]. cbn [map concat app]. by rewrite IH.
        - intros ix st' Hix. apply elem_of_seq in Hix. rewrite !point2_ok by lia. rewrite !bind_ok. cbn [for_each exec quad it_dom it_type it_nodes it_verts fst snd].
          replace (nx * iy + ix + 1) with (sN (ix + 1) iy) by (unfold sN; lia). replace (nx * (iy + 1) + ix + 1) with (sN (ix + 1) (iy + 1)) by (unfold sN; lia).
          fold (sN ix iy). fold (sN ix (iy + 1)). by destruct (emplace _ _ _ _ st'). }
    replace (concat (map (fun iy => map (fun ix => Put (quad (ix, iy))) (seq 0 ex)) (seq 0 ey))) with (map Put (map quad cells)).
    2:{ unfold cells. rewrite map_map, concat_map, map_map. f_equal. apply map_ext. intros iy. by rewrite map_map. }
    destruct (for_each exec (map Put (map quad cells)) st0) as [st1| |]; [|done|done]. rewrite !bind_ok.
    rewrite (map_app eitem), (map_app Put), for_each_app.
    rewrite (for_each_exec _ (fun ix => map Put (map eitem [HE ix 0; HE ix ey]))).
    2:{ intros ix st Hix. apply elem_of_seq in Hix. rewrite !point2_ok by lia. rewrite !bind_ok.
        assert (Hn : [ix; ix + 1] = [sN ix 0; sN (ix + 1) 0]) by (unfold sN; f_equal; [|f_equal]; lia). rewrite Hn.
        cbn [for_each exec map eitem enodes ends edom it_dom it_type it_nodes it_verts fst snd].
        replace (0 =? 0) with true by done. destruct (Nat.eqb_spec ey 0); [lia|].
        destruct (emplace _ _ _ _ st) as [st'| |]; [|done|done]. rewrite !bind_ok.
        replace (sN ix 0 + nx * ey) with (sN ix ey) by (unfold sN; lia). replace (sN (ix + 1) 0 + nx * ey) with (sN (ix + 1) ey) by (unfold sN; lia).
        by destruct (emplace _ _ _ _ st'). }
    replace (concat (map (fun ix => map Put (map eitem [HE ix 0; HE ix ey])) (seq 0 ex))) with (map Put (map eitem hedges)).
    2:{ unfold hedges. rewrite map_map, concat_map, map_map. f_equal. }
    destruct (for_each exec (map Put (map eitem hedges)) st1) as [st2| |]; [|done|done]. rewrite !bind_ok.
    rewrite (for_each_exec _ (fun iy => map Put (map eitem [VE 0 iy; VE ex iy]))).
    2:{ intros iy st Hiy. apply elem_of_seq in Hiy. rewrite !point2_ok by lia. rewrite !bind_ok.
        cbn [for_each exec map eitem enodes ends edom it_dom it_type it_nodes it_verts fst snd].
        replace (0 =? 0) with true by done. destruct (Nat.eqb_spec ex 0); [lia|].
        replace (iy * nx) with (sN 0 iy) by (unfold sN; lia). replace ((iy + 1) * nx) with (sN 0 (iy + 1)) by (unfold sN; lia).
        destruct (emplace _ _ _ _ st) as [st'| |]; [|done|done]. rewrite !bind_ok.
        replace (sN 0 iy + ex) with (sN ex iy) by (unfold sN; lia). replace (sN 0 (iy + 1) + ex) with (sN ex (iy + 1)) by (unfold sN; lia).
        by destruct (emplace _ _ _ _ st'). }
    replace (concat (map (fun iy => map Put (map eitem [VE 0 iy; VE ex iy])) (seq 0 ey))) with (map Put (map eitem vedges)).
    2:{ unfold vedges. rewrite map_map, concat_map, map_map. f_equal. }
    done.
  Qed.
  Lemma cells_length : length cells = ex * ey.
  Proof.
    unfold cells. rewrite length_concat, map_map. induction ey as [|k IH]; [cbn; lia|].
    rewrite seq_S, map_app, sum_app. rewrite IH. cbn [map]. rewrite map_length, seq_length. unfold sum. cbn [foldr]. lia.
  Qed.
  Lemma pair_length {A B} (g : A -> list B) l : (forall a, length (g a) = 2) -> length (concat (map g l)) = 2 * length l.
  Proof. intros H. induction l as [|a l IH]; [done|]. cbn [map concat List.length]. rewrite app_length, H, IH. lia. Qed.
  Lemma items_length : length sq_items = ex * ey + 2 * ex + 2 * ey.
  Proof.
    unfold sq_items. rewrite app_length, !map_length, app_length, cells_length. unfold hedges, vedges. rewrite !pair_length by done. rewrite !seq_length. lia.
  Qed.
  Definition on_grid (n : nat) (v : pt) : Prop := exists x y, distx !! (n `mod` nx) = Some x /\ disty !! (n / nx) = Some y /\ v = (x, y, zero).
  Lemma sP_grid i j : i < nx -> j < ny -> sN i j < nx * ny /\ on_grid (sN i j) (sP i j).
  Proof.
    intros Hi Hj. split; [unfold sN; nia|]. exists (nth i distx zero), (nth j disty zero). rewrite sN_x, sN_y by done.
    split; [by apply nth_lookup_lt|]. split; [by apply nth_lookup_lt|done].
  Qed.
  Lemma items_grid i : i ∈ sq_items -> Forall2 (fun n v => n < nx * ny /\ on_grid n v) (it_nodes i) (it_verts i).
  Proof.
    intros Hi. apply items_elem in Hi as [(c & Hc & ->)|(f & Hf & ->)].
    - unfold sq_in in Hc. cbn [quad it_nodes it_verts]. do 4 (constructor; [apply sP_grid; lia|]). constructor.
    - apply eonb_valid in Hf. destruct f; cbn in Hf; cbn [eitem enodes ends it_nodes it_verts fst snd]; do 2 (constructor; [apply sP_grid; lia|]); constructor.
  Qed.
  Lemma grid_covered n : n < nx * ny -> exists c, sq_in c /\ n ∈ it_nodes (quad c).
  Proof.
    intros Hn. assert (Hm : n = sN (n `mod` nx) (n / nx)) by (unfold sN; apply Nat.div_mod; lia).
    assert (n `mod` nx < nx) by (apply Nat.mod_upper_bound; lia). assert (n / nx < ny) by (apply Nat.div_lt_upper_bound; lia).
    set (x := n `mod` nx) in *. set (y := n / nx) in *. clearbody x y.
    exists ((if x <? ex then x else x - 1), (if y <? ey then y else y - 1)). unfold sq_in. cbn [fst snd quad it_nodes]. rewrite Hm.
    destruct (Nat.ltb_spec x ex), (Nat.ltb_spec y ey); (split; [lia|]); rewrite !elem_of_cons.
    - auto.
    - right; right; left. f_equal; lia.
    - right; left. f_equal; lia.
    - right; right; right; left. f_equal; lia.
  Qed.
  Lemma square_ok : exists x, makeSquareMesh zero sched shuffle distx disty ids = Ok x /\
    let m := m_domains x in let bnds := [sq_bottom ids; sq_top ids; sq_left ids; sq_right ids] in
    valid_doms [1] m /\ ascending m /\
    (forall i, is_node m i <-> i < nx * ny) /\
    so_begin (m_own x) = 0 /\ so_end (m_own x) = nx * ny /\ so_shared (m_own x) = [] /\
    map el_id (all_elems m) ≡ₚ seq 0 (ex * ey + 2 * ex + 2 * ey) /\
    (forall e, is_elem m e -> Forall2 on_grid (el_nodes e) (el_verts e)) /\
    (forall e, in_domain m (sq_domain ids) e -> el_type e = Quad /\ el_id e < ex * ey /\ exists ix iy, ix < ex /\ iy < ey /\ el_nodes e = [sN ix iy; sN (ix + 1) iy; sN ix (iy + 1); sN (ix + 1) (iy + 1)]) /\
    (forall ix iy, ix < ex -> iy < ey -> exists e, in_domain m (sq_domain ids) e /\ el_nodes e = [sN ix iy; sN (ix + 1) iy; sN ix (iy + 1); sN (ix + 1) (iy + 1)]) /\
    (forall d b, d ∈ bnds -> in_domain m d b ->
       (d = sq_bottom ids /\ forall n, n ∈ el_nodes b -> n / nx = 0) \/ (d = sq_top ids /\ forall n, n ∈ el_nodes b -> n / nx = ey) \/
       (d = sq_left ids /\ forall n, n ∈ el_nodes b -> n `mod` nx = 0) \/ (d = sq_right ids /\ forall n, n ∈ el_nodes b -> n `mod` nx = ex)) /\
    (forall f, eonb f -> exists b, in_domain m (edom f) b /\ el_nodes b = enodes f) /\
    (forall id, id ∈ (m_bnds x).*1 <-> id ∈ bnds) /\ (forall id, id ∈ m.*1 <-> id ∈ sq_domain ids :: bnds) /\
    conforming m (sq_domain ids) bnds /\ boundary_attached m (sq_domain ids) bnds.
  Proof.
    rewrite sq_model. destruct sq_run as ([m k] & Hrun & Hb). rewrite Hrun, bind_ok. cbn [fst].
    pose proof (b_valid _ _ _ Hb) as Hv. destruct Hb as [H1 H2 H3 H4 H5 H6 H7 H8 H9]. cbn [fst snd] in *. rewrite sq_puts in *.
    set (bnds := [sq_bottom ids; sq_top ids; sq_left ids; sq_right ids]).
    assert (Hconf : conforming m (sq_domain ids) bnds).
    { eapply (conforming_ok sq_items m (sq_domain ids) bnds enodes evalid eonb sq_in quad sq_side 4 eitem); auto using items_nodup, sq_cell, sq_bnd, sq_sides, eonb_valid, edge_inj, sq_comb.
      - intros c c' [Hc _] [Hc' _]. by apply quad_inj.
      - intros [a b] s [Ha Hb'] Hs. cbn in *. destruct s as [|[|[|[|s]]]]; cbn; lia. }
    assert (Hatt : boundary_attached m (sq_domain ids) bnds).
    { eapply (attached_ok sq_items m (sq_domain ids) bnds enodes evalid eonb sq_in quad sq_side 4 eitem); auto using items_nodup, sq_cell, sq_bnd, sq_sides, eonb_valid, edge_inj, sq_comb, sq_on.
      intros [a b] s [Ha Hb'] Hs. cbn in *. destruct s as [|[|[|[|s]]]]; cbn; lia. }
    assert (Hnode : forall i, is_node m i -> i < nx * ny).
    { intros i (e & (id & He) & Hi). apply H8 in He as (k' & it & Hk & _ & ->). cbn [it_el el_nodes] in Hi.
      pose proof (items_grid it ltac:(by eapply elem_of_list_lookup_2)) as Hg. apply elem_of_list_lookup in Hi as [j Hj].
      destruct (Forall2_lookup_l _ _ _ _ _ Hg Hj) as (v & _ & Hlt & _). done. }
    assert (Hquad : forall c, sq_in c -> exists k, in_domain m (sq_domain ids) (it_el (quad c) k)).
    { intros c Hc. destruct (proj2 (sq_cell (quad c))) as [Hin _]; [by exists c|]. apply elem_of_list_lookup in Hin as [k' Hk']. exists k'. apply H8. by exists k', (quad c). }
    destruct (finish sched shuffle m (nx * ny) bnds Hv Hsched Hshuffle) as (so & bs & Hm & Hb0 & He0 & Hsh & Hbs & Hbk).
    - intros id d Hid Hd. assert (Hne : d_dim d <> None).
      { intros Hn. assert (Hf : exists f, eonb f /\ edom f = id).
        { unfold bnds in Hid. rewrite !elem_of_cons, elem_of_nil in Hid. destruct Hid as [-> |[-> |[-> |[-> |[]]]]].
          - exists (HE 0 0). cbn. split; [lia|done].
          - exists (HE 0 ey). cbn. split; [lia|]. destruct (Nat.eqb_spec ey 0); [lia|done].
          - exists (VE 0 0). cbn. split; [lia|done].
          - exists (VE ex 0). cbn. split; [lia|]. destruct (Nat.eqb_spec ex 0); [lia|done]. }
        destruct Hf as (f & Hf & Hfd). pose proof (proj1 (H7 id d Hd) Hn) as Hno. apply (Hno (eitem f)); [|done]. apply items_elem. right. by exists f. }
      destruct (d_dim d) as [x|] eqn:Ex; [|done]. exists x. split; [done|].
      assert (x = 1) as ->. { rewrite (H6 _ _ _ Hd Ex). unfold sq_dim. destruct (Nat.eqb_spec id (sq_domain ids)) as [-> |]; [|done]. by apply dom_not_bnd in Hid. }
      destruct (Hquad (0, 0)) as (k' & d' & v & Hd' & Hv' & He'); [unfold sq_in; cbn; lia|]. exists (sq_domain ids), d'. split; [done|].
      rewrite Forall_forall in H4. destruct (H4 _ Hd') as [_ Hdd]. cbn [snd] in Hdd. rewrite (Hdd _ _ Hv' He'). done.
    - intros b id Hid Hb. eapply (bnd_attached sq_items m (sq_domain ids) bnds enodes evalid eonb sq_in quad sq_side 4 eitem) with (D := 1); eauto using items_nodup, sq_cell, sq_bnd, sq_sides, eonb_valid, edge_inj, sq_comb, sq_on.
      + intros [a b'] s [Ha Hb'] Hs. cbn in *. destruct s as [|[|[|[|s]]]]; cbn; lia.
      + apply H8 in Hb as (k' & i & Hk & Hi & ->). destruct (proj1 (sq_bnd i)) as (f & _ & ->); [split; [by eapply elem_of_list_lookup_2|by rewrite Hi]|]. done.
    - done.
    - exists (mk_mesh m so bs). split; [done|]. cbv zeta. cbn [m_domains m_own m_bnds]. split; [done|]. split; [done|]. split; [|split; [done|split; [done|split; [done|split; [|split; [|split; [|split; [|split; [|split; [|split; [done|split; [|split; done]]]]]]]]]]]].
      + intros i. split; [apply Hnode|]. intros Hi. destruct (grid_covered i Hi) as (c & Hc & Hin). destruct (Hquad c Hc) as [k' He].
        exists (it_el (quad c) k'). split; [by eexists|done].
      + rewrite H9. by rewrite items_length.
      + intros e (id & He). apply H8 in He as (k' & it & Hk & _ & ->). cbn [it_el el_nodes el_verts].
        eapply Forall2_impl; [apply (items_grid it); by eapply elem_of_list_lookup_2|]. by intros ? ? [_ ?].
      + intros e He. apply H8 in He as (k' & i & Hk & Hi & ->).
        destruct (proj1 (sq_cell i)) as (c & Hc & ->); [split; [by eapply elem_of_list_lookup_2|done]|]. split; [done|]. cbn [it_el el_id el_nodes quad it_nodes].
        destruct Hc as [Hc1 Hc2]. split; [|by exists c.1, c.2].
        unfold sq_items in Hk. apply lookup_app_Some in Hk as [Hk|[_ Hk]].
        * apply lookup_lt_Some in Hk. rewrite map_length, cells_length in Hk. done.
        * apply elem_of_list_lookup_2, (elem_of_list_fmap eitem) in Hk as (f & E & _). apply (f_equal it_type) in E. done.
      + intros ix iy Hix Hiy. destruct (Hquad (ix, iy)) as [k' He]; [done|]. by eexists.
      + intros d b Hd Hb. apply H8 in Hb as (k' & i & Hk & Hi & ->). destruct (proj1 (sq_bnd i)) as (f & Hf & ->); [split; [by eapply elem_of_list_lookup_2|by rewrite Hi]|].
        cbn [it_el el_nodes eitem it_nodes it_dom] in *. subst d.
        assert (Hen : forall n, n ∈ enodes f -> n = sN (ends f).1.1 (ends f).1.2 \/ n = sN (ends f).2.1 (ends f).2.2).
        { intros n Hn. unfold enodes in Hn. rewrite !elem_of_cons, elem_of_nil in Hn. tauto. }
        destruct f as [x y|x y]; cbn [eonb edom ends fst snd] in *.
        * destruct (Nat.eqb_spec y 0) as [Ey|Ey]; [left|right; left]; (split; [done|]; intros n Hn; apply Hen in Hn as [-> | ->]; rewrite sN_y; lia).
        * destruct (Nat.eqb_spec x 0) as [Ey|Ey]; [right; right; left|right; right; right]; (split; [done|]; intros n Hn; apply Hen in Hn as [-> | ->]; rewrite sN_x; lia).
      + intros f Hf. destruct (proj2 (sq_bnd (eitem f))) as [Hin _]; [by exists f|]. apply elem_of_list_lookup in Hin as [k' Hk']. exists (it_el (eitem f) k'). split; [|done]. apply H8. by exists k', (eitem f).
      + intros id. rewrite H3. unfold sq_cmds. rewrite map_app, elem_of_app. cbn [map c_dom]. split; [|by left]. intros [?|H]; [done|].
        rewrite map_map in H. apply (elem_of_list_fmap (fun i => c_dom (Put i))) in H as (i & -> & Hi). cbn [c_dom].
        apply items_elem in Hi as [(c & _ & ->)|(f & _ & ->)]; [left|right; apply edom_bnd].
  Qed.
End square.
