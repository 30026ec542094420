From Verif Require Import Base StdAlgo Ownership_model Elem_model Elem_spec Elem_proofs Mesh_model Mesh_spec Mesh_proofs Prim_model Prim_spec Build_proofs Prim_proofs Square_proofs Cube_proofs.
Local Arguments Nat.mul : simpl never.
Local Arguments Nat.add : simpl never.
Local Arguments Nat.sub : simpl never.

(** Grids without cells: only elements of one dimension are made, and the
    boundary views have no parents. *)
Section flat.
  Context {V : Type} (D : nat).
  Definition nice (cs : list (cmd V)) : Prop := forall i, Put i ∈ cs -> native_dim (it_type i) = D /\ it_typed i.
  Definition runs (g : build V -> res (build V)) : Prop := exists cs, nice cs /\ forall st, g st = for_each exec cs st.
  Lemma runs_bind g h : runs g -> runs h -> runs (fun st => st' ← g st; h st').
  Proof.
    intros (c1 & N1 & E1) (c2 & N2 & E2). exists (c1 ++ c2). split.
    - intros i [Hi|Hi]%elem_of_app; auto.
    - intros st. rewrite for_each_app, E1. destruct (for_each exec c1 st); [|done|done]. rewrite !bind_ok. apply E2.
  Qed.
  Lemma runs_each {A} (f : A -> build V -> res (build V)) l : (forall a, a ∈ l -> runs (f a)) -> runs (for_each f l).
  Proof.
    induction l as [|a l IH]; intros H; [by exists []; split; [intros i Hi%elem_of_nil|]|].
    apply (runs_bind (f a) (for_each f l)); [apply H; left|]. apply IH. intros b Hb. apply H. by right.
  Qed.
  Lemma runs_emplace id t ns vs : native_dim t = D -> it_typed (mk_it id t ns vs) -> runs (emplace id t ns vs).
  Proof.
    intros H1 H2. exists [Put (mk_it id t ns vs)]. split; [|intros st; cbn [for_each exec it_dom it_type it_nodes it_verts]; by destruct (emplace id t ns vs st)].
    intros i Hi. apply elem_of_list_singleton in Hi. by injection Hi as ->.
  Qed.
  Lemma runs_ext g h : (forall st, g st = h st) -> runs g -> runs h.
  Proof. intros E (cs & N & H). exists cs. split; [done|]. intros st. by rewrite <- E. Qed.
  Lemma flat_throw sched shuffle g (t : list nat) n ids id :
    (forall l, sched l ≡ₚ l) -> (forall l, shuffle l ≡ₚ l) -> runs g -> id ∈ ids -> id ∈ t ->
    (st ← g (foldl (fun m id => touch id m) [] t, 0); make_mesh2 sched shuffle st.1 0 n ids) = Throw.
  Proof.
    intros Hs Hsh (cs & Hn & Hg) Hid Ht.
    assert (Htr : forall m k, for_each exec (map Touch t) (m, k) = Ok (foldl (fun m id => touch (V := V) id m) m t, k)).
    { clear. induction t as [|a t IH]; intros m k; [done|]. cbn [map for_each exec foldl fst snd]. rewrite bind_ok. apply IH. }
    rewrite Hg. specialize (Htr [] 0).
    assert (Hall : for_each exec (map Touch t ++ cs) ([], 0) = for_each exec cs (foldl (fun m id => touch id m) [] t, 0)) by (by rewrite for_each_app, Htr, bind_ok).
    rewrite <- Hall. destruct (run_ok (fun _ => D) (map Touch t ++ cs)) as (st & -> & Hb).
    { intros i [Hi|Hi]%elem_of_app; [|by apply Hn]. apply elem_of_list_fmap in Hi as (? & ? & _). done. }
    rewrite bind_ok. pose proof (b_valid _ _ _ Hb) as Hv. pose proof (mesh2_ok [1] sched shuffle st.1 0 n ids Hv Hs Hsh) as Hm.
    destruct (init_ok [1] sched st.1 ids Hv Hs) as [(r & Hr & _ & Hk & Hvw)|[Hr _]]; rewrite Hr in Hm; [|done]. exfalso.
    pose proof (proj2 (Hk id) Hid) as Hir. apply elem_of_list_fmap in Hir as ([id' v] & E & Hir). cbn in E. subst id'.
    destruct (proj1 (views_ok_iff [1] sched st.1 [id] Hv Hs)) as [Hp _]; [by exists v; apply Hvw|].
    assert (Hin : id ∈ st.1.*1). { apply (b_ids _ _ _ Hb). rewrite map_app. apply elem_of_app. left. rewrite map_map. cbn [c_dom]. by rewrite map_id. }
    apply elem_of_list_fmap in Hin as ([id' d] & E & Hin). cbn in E. subst id'.
    destruct (Hp id d) as (dim & H1 & id' & d' & Hd' & H2); [left|done|].
    pose proof (b_dims _ _ _ Hb _ _ _ Hin H1). pose proof (b_dims _ _ _ Hb _ _ _ Hd' H2). lia.
  Qed.
  Lemma flat_throw3 sched shuffle f1 f2 f3 (t : list nat) n ids id :
    (forall l, sched l ≡ₚ l) -> (forall l, shuffle l ≡ₚ l) -> runs f1 -> runs f2 -> runs f3 -> id ∈ ids -> id ∈ t ->
    (st ← f1 (foldl (fun m id => touch id m) [] t, 0); st ← f2 st; st ← f3 st; make_mesh2 sched shuffle st.1 0 n ids) = Throw.
  Proof.
    intros Hs Hsh H1 H2 H3 Hid Ht. pose proof (flat_throw sched shuffle _ t n ids id Hs Hsh (runs_bind _ _ H1 (runs_bind _ _ H2 H3)) Hid Ht) as H. cbv beta in H.
    destruct (f1 _) as [s1| |]; [|done|done]. rewrite bind_ok. rewrite bind_ok in H.
    destruct (f2 s1) as [s2| |]; [|done|done]. rewrite bind_ok. rewrite bind_ok in H. exact H.
  Qed.
  Lemma flat_throw4 sched shuffle f1 f2 f3 f4 (t : list nat) n ids id :
    (forall l, sched l ≡ₚ l) -> (forall l, shuffle l ≡ₚ l) -> runs f1 -> runs f2 -> runs f3 -> runs f4 -> id ∈ ids -> id ∈ t ->
    (st ← f1 (foldl (fun m id => touch id m) [] t, 0); st ← f2 st; st ← f3 st; st ← f4 st; make_mesh2 sched shuffle st.1 0 n ids) = Throw.
  Proof.
    intros Hs Hsh H1 H2 H3 H4 Hid Ht. pose proof (flat_throw3 sched shuffle _ _ _ t n ids id Hs Hsh H1 H2 (runs_bind _ _ H3 H4) Hid Ht) as H. cbv beta in H.
    destruct (f1 _) as [s1| |]; [|done|done]. rewrite bind_ok. rewrite bind_ok in H.
    destruct (f2 s1) as [s2| |]; [|done|done]. rewrite bind_ok. rewrite bind_ok in H.
    destruct (f3 s2) as [s3| |]; [|done|done]. rewrite bind_ok. rewrite bind_ok in H. exact H.
  Qed.
End flat.
Section degen.
  Context {C : Type} (zero : C).
  Notation pt := (C * C * C)%type.
  Context (sched : list (element pt) -> list (element pt)) (shuffle : list nat -> list nat)
    (Hsched : forall l, sched l ≡ₚ l) (Hshuffle : forall l, shuffle l ≡ₚ l).
  Lemma square_flat (distx disty : list C) ids : length distx < 2 \/ length disty < 2 -> makeSquareMesh zero sched shuffle distx disty ids = Throw.
  Proof.
    intros Hd. unfold makeSquareMesh. cbv zeta. destruct (Nat.eqb_spec (length distx) 0); [done|]. destruct (Nat.eqb_spec (length disty) 0); [done|]. cbn [orb].
    apply (flat_throw3 1 sched shuffle) with (t := [sq_domain ids; sq_bottom ids; sq_top ids; sq_left ids; sq_right ids]) (id := sq_bottom ids); [done|done| | | |left|right; left].
    - apply runs_each. intros iy Hiy. apply runs_each. intros ix Hix. apply elem_of_seq in Hiy, Hix. lia.
    - apply runs_each. intros ix Hix. apply elem_of_seq in Hix.
      eapply runs_ext; [intros st; symmetry; rewrite !(point2_ok zero) by lia; rewrite !bind_ok; reflexivity|]. apply runs_bind; by apply runs_emplace.
    - apply runs_each. intros ix Hix. apply elem_of_seq in Hix.
      eapply runs_ext; [intros st; symmetry; rewrite !(point2_ok zero) by lia; rewrite !bind_ok; reflexivity|]. apply runs_bind; by apply runs_emplace.
  Qed.
  Lemma cube_flat (distx disty distz : list C) ids : length distx <> 0 -> length disty <> 0 -> length distz <> 0 ->
    length distx < 2 \/ length disty < 2 \/ length distz < 2 -> makeCubeMesh sched shuffle distx disty distz ids = Throw.
  Proof.
    intros Nx Ny Nz Hd. unfold makeCubeMesh. cbv zeta. destruct (Nat.eqb_spec (length distx) 0); [done|]. destruct (Nat.eqb_spec (length disty) 0); [done|]. destruct (Nat.eqb_spec (length distz) 0); [done|]. cbn [orb].
    apply (flat_throw4 2 sched shuffle) with (t := [cu_domain ids; cu_back ids; cu_front ids; cu_bottom ids; cu_top ids; cu_left ids; cu_right ids]) (id := cu_back ids); [done|done| | | | |left|right; left].
    - apply runs_each. intros iz Hiz. apply runs_each. intros iy Hiy. apply runs_each. intros ix Hix. apply elem_of_seq in Hiz, Hiy, Hix. lia.
    - apply runs_each. intros iy Hiy. apply runs_each. intros ix Hix. apply elem_of_seq in Hiy, Hix. destruct distx as [|zr dx]; [done|].
      eapply runs_ext; [intros st; symmetry; rewrite !(point3_ok zr) by lia; rewrite !bind_ok; reflexivity|]. apply runs_bind; by apply runs_emplace.
    - apply runs_each. intros iy Hiy. apply runs_each. intros ix Hix. apply elem_of_seq in Hiy, Hix. destruct distx as [|zr dx]; [done|].
      eapply runs_ext; [intros st; symmetry; rewrite !(point3_ok zr) by lia; rewrite !bind_ok; reflexivity|]. apply runs_bind; by apply runs_emplace.
    - apply runs_each. intros iy Hiy. apply runs_each. intros ix Hix. apply elem_of_seq in Hiy, Hix. destruct distx as [|zr dx]; [done|].
      eapply runs_ext; [intros st; symmetry; rewrite !(point3_ok zr) by lia; rewrite !bind_ok; reflexivity|]. apply runs_bind; by apply runs_emplace.
  Qed.

  (** ** Line mesh *)
  Lemma line_ok (distx : list C) dom : length distx <> 0 -> exists x, makeLineMesh zero sched shuffle distx dom = Ok x /\
    valid_doms [1] (m_domains x) /\ ascending (m_domains x) /\ (m_domains x).*1 = [dom] /\
    (forall e, in_domain (m_domains x) dom e <-> exists k x0 x1, distx !! k = Some x0 /\ distx !! (k + 1) = Some x1 /\
       e = mk_el Line 1 [k; k + 1] [(x0, zero, zero); (x1, zero, zero)] k) /\
    map el_id (all_elems (m_domains x)) ≡ₚ seq 0 (length distx - 1) /\
    so_begin (m_own x) = 0 /\ so_end (m_own x) = length distx /\ so_shared (m_own x) = [] /\ m_bnds x = [].
  Proof.
    intros Hne. set (nx := length distx). unfold makeLineMesh. cbv zeta. fold nx. destruct (Nat.eqb_spec nx 0); [done|].
    set (seg := fun k => mk_it dom Line [k; k + 1] [(nth k distx zero, zero, zero); (nth (k + 1) distx zero, zero, zero)] : item pt).
    set (cs := Touch dom :: map Put (map seg (seq 0 (nx - 1)))).
    rewrite (for_each_exec _ (fun k => [Put (seg k)])).
    2:{ intros k st Hk. apply elem_of_seq in Hk. rewrite !(rd_nth _ _ zero) by (fold nx; lia). rewrite !bind_ok. cbn [for_each exec seg it_dom it_type it_nodes it_verts]. by destruct (emplace _ _ _ _ st). }
    replace (concat (map (fun k => [Put (seg k)]) (seq 0 (nx - 1)))) with (map Put (map seg (seq 0 (nx - 1)))).
    2:{ rewrite map_map. induction (seq 0 (nx - 1)) as [|a l IH]; [done|]. cbn [map concat app]. by rewrite IH. }
    assert (Hcs : for_each exec cs ([], 0) = for_each exec (map Put (map seg (seq 0 (nx - 1)))) (touch dom [], 0)) by (unfold cs; cbn [for_each exec fst snd]; by rewrite bind_ok).
    rewrite <- Hcs. assert (Hputs : puts cs = map seg (seq 0 (nx - 1))).
    { unfold cs, puts. cbn. induction (map seg (seq 0 (nx - 1))) as [|a l IH]; [done|]. cbn. by rewrite IH. }
    destruct (run_ok (fun _ => 1) cs) as ([m k] & -> & Hb).
    { intros i Hi. unfold cs in Hi. apply elem_of_cons in Hi as [?|Hi]; [done|]. rewrite map_map in Hi.
      apply (elem_of_list_fmap (fun x => Put (seg x))) in Hi as (j & E & _). by injection E as ->. }
    pose proof (b_valid _ _ _ Hb) as Hv. destruct Hb as [B1 B2 B3 B4 B5 B6 B7 B8 B9]. cbn [fst snd] in *. rewrite Hputs in *. rewrite bind_ok. cbn [fst].
    assert (Hel : forall e, in_domain m dom e <-> exists k x0 x1, distx !! k = Some x0 /\ distx !! (k + 1) = Some x1 /\
       e = mk_el Line 1 [k; k + 1] [(x0, zero, zero); (x1, zero, zero)] k).
    { intros e. rewrite B8. split.
      - intros (j & i & Hj & _ & ->). apply list_lookup_fmap_Some in Hj as (x & Hj & ->). apply lookup_seq in Hj as [-> Hj]. cbn in Hj.
        exists j, (nth j distx zero), (nth (j + 1) distx zero). split; [apply nth_lookup_lt; fold nx; lia|]. split; [apply nth_lookup_lt; fold nx; lia|done].
      - intros (j & x0 & x1 & H0 & H1 & ->). exists j, (seg j). pose proof (lookup_lt_Some _ _ _ H1) as Hlt. fold nx in Hlt.
        split; [|split; [done|]].
        + change (map seg (seq 0 (nx - 1))) with (seg <$> seq 0 (nx - 1)). rewrite list_lookup_fmap, lookup_seq_lt by lia. done.
        + unfold it_el, seg. cbn [it_type it_nodes it_verts]. f_equal. rewrite (nth_lookup distx j), (nth_lookup distx (j + 1)), H0, H1. done. }
    assert (Hkeys : m.*1 = [dom]).
    { apply strict_ext; [done|repeat constructor|]. intros id. rewrite B3. unfold cs. cbn [map c_dom]. rewrite map_map. cbn [c_dom seg]. rewrite map_map. cbn [it_dom].
      rewrite elem_of_cons, elem_of_list_singleton. split; [|by left]. intros [?|H]; [done|]. by apply (elem_of_list_fmap (fun _ => dom)) in H as (? & -> & _). }
    assert (Hnode : forall i, is_node m i -> i < nx).
    { intros i (e & (id & He) & Hi). assert (id = dom) as ->.
      { apply elem_of_list_singleton. rewrite <- Hkeys. destruct He as (d & v & Hd & _). by apply (elem_of_list_fmap_1 fst) in Hd. }
      apply Hel in He as (j & x0 & x1 & _ & H1 & ->). apply lookup_lt_Some in H1. fold nx in H1. cbn [el_nodes] in Hi.
      rewrite !elem_of_cons, elem_of_nil in Hi. destruct Hi as [-> |[-> |[]]]; lia. }
    destruct (finish sched shuffle m nx [] Hv Hsched Hshuffle) as (so & bs & Hm & Hb0 & He0 & Hsh & Hbs & Hbk).
    - intros id d Hid. by apply elem_of_nil in Hid.
    - intros b id Hid. by apply elem_of_nil in Hid.
    - done.
    - exists (mk_mesh m so bs). cbn [m_domains m_own m_bnds]. split; [done|]. split; [done|]. split; [done|]. split; [done|]. split; [done|]. split; [rewrite B9; by rewrite map_length, seq_length|].
      split; [done|]. split; [done|]. split; [done|]. destruct bs as [|b bs]; [done|]. exfalso. eapply elem_of_nil. apply (Hbk b.1). left.
  Qed.
End degen.
