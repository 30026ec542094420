(** C79: the marks of getDirichletDofs. *)
From Verif Require Merge_proofs.
From Verif Require Import Base StdAlgo Ownership_model Ownership_proofs Elem_model Mesh_model Mesh_spec Mesh_proofs Helpers_model Helpers_proofs Partition_model Dofs_model Dofs_spec Sparsity_model Sparsity_spec Sparsity_proofs Sparsity2_proofs Sparsity4_proofs Dirichlet_model Dirichlet_spec Dirichlet_proofs LocalBC_model Assembly_model Assembly_spec Assembly_proofs Assembly2_proofs Assembly3_proofs Assembly4_proofs Assembly6_proofs.
Local Arguments Nat.mul : simpl never.
Local Arguments Nat.add : simpl never.
Local Arguments Nat.sub : simpl never.

(** Setting marks. *)
Lemma set_marks_ok ids ds : forall marks, NoDup ids -> length marks = length ids -> (forall d, d ∈ ds -> exists k, d = Some k /\ k ∈ ids) ->
  exists marks', for_each (set_mark ids) ds marks = Ok marks' /\ length marks' = length ids /\ forall i k v, ids !! i = Some k -> marks !! i = Some v -> exists v', marks' !! i = Some v' /\ (0 < v' <-> 0 < v \/ Some k ∈ ds).
Proof.
  induction ds as [|d ds IH]; intros marks Hn Hl Hd.
  - exists marks. split; [done|]. split; [done|]. intros i k v _ Hv. exists v. split; [done|]. split; [by left|]. intros [?|Hx]; [done|by apply elem_of_nil in Hx].
  - destruct (Hd d ltac:(left)) as (k0 & -> & Hk0). destruct (index_of_elem _ _ Hk0) as [i0 Hi0]. assert (E0 : set_mark ids (Some k0) marks = Ok (<[i0 := 1]> marks)) by (unfold set_mark; rewrite Hi0; apply index_of_some in Hi0; apply wr_ok; rewrite Hl; by eapply lookup_lt_Some). apply index_of_some in Hi0. cbn [for_each]. rewrite E0, bind_ok.
    destruct (IH (<[i0 := 1]> marks) Hn) as (marks' & E & L & H); [by rewrite insert_length|intros; apply Hd; by right|]. exists marks'. split; [done|]. split; [done|]. intros i k v Hi Hv. setoid_rewrite elem_of_cons. destruct (decide (i = i0)) as [-> |Hne].
    + assert (k = k0) as -> by congruence. destruct (H i0 k0 1 Hi) as (v' & Hv' & E'); [apply list_lookup_insert; by eapply lookup_lt_Some|]. exists v'. split; [done|]. rewrite E'. split; [intros _; right; by left|intros _; left; lia].
    + destruct (H i k v Hi) as (v' & Hv' & E'); [by rewrite list_lookup_insert_ne|]. exists v'. split; [done|]. rewrite E'. split; [tauto|]. intros [?|[[= ->]|?]]; [by left| |by right]. destruct Hne. exact (NoDup_lookup _ _ _ _ Hn Hi Hi0).
Qed.
Lemma concat_elem {A} (ls : list (list A)) x : x ∈ concat ls <-> exists l, l ∈ ls /\ x ∈ l.
Proof. rewrite elem_of_list_In, in_concat. split; intros (l & H1 & H2); exists l; rewrite !elem_of_list_In in *; done. Qed.
Lemma map_res_elem {A B} (f : A -> res B) l bs y : map_res f l = Ok bs -> y ∈ bs <-> exists x, x ∈ l /\ f x = Ok y.
Proof.
  intros E. apply map_res_inv in E. split.
  - intros Hy. apply elem_of_list_lookup in Hy as [k Hk]. destruct (Forall2_lookup_r _ _ _ _ _ E Hk) as (x & Hx & Ex). exists x. split; [by eapply elem_of_list_lookup_2|done].
  - intros (x & Hx & Ex). apply elem_of_list_lookup in Hx as [k Hk]. destruct (Forall2_lookup_l _ _ _ _ _ E Hk) as (y' & Hy & Ey). assert (y' = y) as -> by congruence. by eapply elem_of_list_lookup_2.
Qed.
Lemma map_res_bound {A B} (f : A -> res B) l : (forall x, x ∈ l -> exists y, f x = Ok y) -> exists bs, map_res f l = Ok bs.
Proof. intros H. destruct (map_res_ex f l H) as (bs & E & _). eauto. Qed.

Section dirichlet.
  Context {V : Type} (D : nat) (meshes : list (mesh V)) (ranks : list arank) (pdef : list (list nat * list bool)) (T : nat) (W : aworld D meshes ranks pdef T) (def : bc_def) (HD : def_ok D meshes ranks def).
  Definition prescribed_here (m : mesh V) (r : arank) (d : nat) : Prop :=
    exists doms inds dom e n f, (doms, inds) ∈ bd_defs def /\ dom ∈ doms /\ f ∈ inds /\ in_domain (m_domains m) dom e /\ n ∈ el_nodes e /\ unknown_no (ar_map r) n f = Some d.
  Lemma def_marks_ok b m r : meshes !! b = Some m -> ranks !! b = Some r -> exists ds, def_marks m (ar_map r) def = Ok ds /\ (forall d, Some d ∈ ds <-> prescribed_here m r d) /\ None ∉ ds.
  Proof using W HD.
    intros Hm Hr. destruct (pairs_in meshes ranks b m r Hm Hr) as [Hp Hp']. destruct (us_keys _ _ _ _ (aw_usable _ _ _ _ _ W) m (ar_map r) Hp') as [Hk Hkeys]. pose proof (us_domains _ _ _ _ (aw_usable _ _ _ _ _ W) m (ar_map r) Hp') as Hdk.
    unfold def_marks. set (fn := fun (inds : list nat) (n : nat) => match hm_find n (dm_map (ar_map r)) with Some row => map_res (rd row) inds | None => Throw end). set (fe := fun (inds : list nat) (e : element V) => rows ← map_res (fn inds) (el_nodes e); Ok (concat rows)).
    set (fx := fun x : list nat * list nat => map_res (fe x.2) (visit_elems (m_domains m) x.1)).
    assert (Hn : forall doms inds dom e n, (doms, inds) ∈ bd_defs def -> dom ∈ doms -> in_domain (m_domains m) dom e -> n ∈ el_nodes e -> exists row, hm_find n (dm_map (ar_map r)) = Some row /\ fn inds n = Ok (map (unknown_no (ar_map r) n) inds)).
    { intros doms inds dom e n Hd Hdom He Hne. assert (Hin : n ∈ (dm_map (ar_map r)).*1) by (apply (Hkeys e n); [by exists dom|done]). destruct (hm_find n (dm_map (ar_map r))) as [row|] eqn:E; [|by apply hm_find_None in E]. exists row. split; [done|]. unfold fn. rewrite E. apply map_res_ok. intros f Hf. rewrite unknown_find, E.
      destruct (us_rows _ _ _ _ (aw_usable _ _ _ _ _ W) m (ar_map r) n row Hp') as [Lr _]; [by apply (hm_find_elem _ _ _ Hk)|]. destruct (lookup_lt_is_Some_2 row f) as [o Ho]; [rewrite Lr; by apply (proj1 (do_inds _ _ _ _ HD) doms inds)|]. rewrite Ho. by apply rd_ok. }
    assert (He : forall doms inds dom e, (doms, inds) ∈ bd_defs def -> dom ∈ doms -> in_domain (m_domains m) dom e -> fe inds e = Ok (concat (map (fun n => map (unknown_no (ar_map r) n) inds) (el_nodes e)))).
    { intros doms inds dom e Hd Hdom He. unfold fe. rewrite (map_res_ok _ (fun n => map (unknown_no (ar_map r) n) inds)); [done|]. intros n Hne. by destruct (Hn doms inds dom e n Hd Hdom He Hne) as (row & _ & ->). }
    destruct (map_res_bound fx (bd_defs def)) as [ls El]. { intros [doms inds] Hd. unfold fx. cbn [fst snd]. apply map_res_bound. intros e Hve. apply visit_elem in Hve as (dom & Hdom & Hin); [|done]. eexists. by apply (He doms inds dom). }
    change (map_res _ (bd_defs def)) with (map_res fx (bd_defs def)). rewrite El, bind_ok. eexists. split; [reflexivity|].
    assert (Hel : forall o, o ∈ concat (concat ls) <-> exists doms inds dom e n f, (doms, inds) ∈ bd_defs def /\ dom ∈ doms /\ f ∈ inds /\ in_domain (m_domains m) dom e /\ n ∈ el_nodes e /\ o = unknown_no (ar_map r) n f).
    { intros o. rewrite concat_elem. split.
      - intros (l & Hl & Ho). apply concat_elem in Hl as (l' & Hl' & Hl). apply (map_res_elem _ _ _ _ El) in Hl' as ([doms inds] & Hd & E). unfold fx in E. cbn [fst snd] in E. apply (map_res_elem _ _ _ _ E) in Hl as (e & Hve & Ee). apply visit_elem in Hve as (dom & Hdom & Hin); [|done]. rewrite (He doms inds dom e Hd Hdom Hin) in Ee. injection Ee as <-.
        apply concat_elem in Ho as (l2 & Hl2 & Ho). apply elem_of_list_fmap in Hl2 as (n & -> & Hne). apply elem_of_list_fmap in Ho as (f & -> & Hf). by exists doms, inds, dom, e, n, f.
      - intros (doms & inds & dom & e & n & f & Hd & Hdom & Hf & Hin & Hne & ->). exists (concat (map (fun n => map (unknown_no (ar_map r) n) inds) (el_nodes e))). split.
        + apply concat_elem. destruct (map_res_bound (fe inds) (visit_elems (m_domains m) doms)) as [l' El']. { intros e' Hve. apply visit_elem in Hve as (dom' & Hdom' & Hin'); [|done]. eexists. by apply (He doms inds dom'). }
          exists l'. split; [apply (map_res_elem _ _ _ _ El); by exists (doms, inds)|]. apply (map_res_elem _ _ _ _ El'). exists e. split; [apply visit_elem; [done|by exists dom]|by apply (He doms inds dom)].
        + apply concat_elem. exists (map (unknown_no (ar_map r) n) inds). split; apply elem_of_list_fmap; [by exists n|by exists f]. }
    split.
    - intros d. rewrite Hel. split; intros (doms & inds & dom & e & n & f & H1 & H2 & H3 & H4 & H5 & H6); exists doms, inds, dom, e, n, f; done.
    - intros Hx. apply Hel in Hx as (doms & inds & dom & e & n & f & H1 & H2 & H3 & H4 & H5 & H6). destruct (do_active _ _ _ _ HD m r doms inds dom e n f Hp H1 H2 H3 H4 H5) as [d Hd]. congruence.
  Qed.
  Context (norms : list (list nat)) (Ln : length norms = length ranks) (Hnu : forall b r l d, ranks !! b = Some r -> norms !! b = Some l -> d ∈ l -> exists n f, unknown_no (ar_map r) n f = Some d).
  (** What rank [b] marks. *)
  Definition marked (b d : nat) : Prop := exists m r l, meshes !! b = Some m /\ ranks !! b = Some r /\ norms !! b = Some l /\ (prescribed_here m r d \/ d ∈ l).
  Lemma marked_cols b r d : ranks !! b = Some r -> marked b d -> d ∈ col_map r.
  Proof using W Hnu.
    intros Hr (m & r' & l & Hm & Hr' & Hl & H). assert (r' = r) as -> by congruence. assert (exists n f, unknown_no (ar_map r) n f = Some d) as (n & f & Hu). { destruct H as [(doms & inds & dom & e & n & f & _ & _ & _ & _ & _ & Hu)|Hd]; [by exists n, f|by eapply Hnu]. }
    apply (local_in _ _ _ _ _ W b r d Hr). by apply (unknown_local _ _ _ _ _ W b r n f d Hr).
  Qed.
  Lemma mark_ok b m r l : meshes !! b = Some m -> ranks !! b = Some r -> norms !! b = Some l -> exists marks, mark_rank r m def l = Ok marks /\ length marks = length (col_map r) /\
    forall i d, col_map r !! i = Some d -> exists v, marks !! i = Some v /\ (0 < v <-> marked b d).
  Proof using W HD Hnu.
    clear Ln. intros Hm Hr Hl. destruct (def_marks_ok b m r Hm Hr) as (ds & E & Hds & Hno). unfold mark_rank. rewrite E, bind_ok. destruct (rows_at _ _ _ _ _ W b r Hr) as (_ & _ & R3 & _).
    assert (Hx : forall d, Some d ∈ ds ++ map Some l <-> marked b d). { intros d. rewrite elem_of_app, Hds, elem_of_list_fmap. split; [intros [H|(x & [= <-] & H)]; exists m, r, l; tauto|]. intros (m' & r' & l' & Hm' & Hr' & Hl' & [H|H]); [left; congruence|right; exists d; split; [done|congruence]]. }
    destruct (set_marks_ok (col_map r) (ds ++ map Some l) (replicate (length (col_map r)) 0) R3) as (marks & E' & L & H); [by rewrite replicate_length| |].
    { intros o Ho. destruct o as [d|]; [exists d; split; [done|]; apply (marked_cols b r d Hr); by apply Hx|]. exfalso. apply elem_of_app in Ho as [Ho|Ho]; [done|]. apply elem_of_list_fmap in Ho as (? & ? & _). done. }
    exists marks. split; [done|]. split; [done|]. intros i d Hi. destruct (H i d 0 Hi) as (v & Hv & Ev); [apply lookup_replicate_2; by eapply lookup_lt_Some|]. exists v. split; [done|]. rewrite Ev, Hx. split; [intros [?|?]; [lia|done]|by right].
  Qed.
  Lemma marks_all : exists marks, map_res (fun z : (mesh V * arank) * list nat => mark_rank z.1.2 z.1.1 def z.2) (zip (zip meshes ranks) norms) = Ok marks /\ length marks = length ranks /\
    forall b r mk, ranks !! b = Some r -> marks !! b = Some mk -> length mk = length (col_map r) /\ forall i d, col_map r !! i = Some d -> exists v, mk !! i = Some v /\ (0 < v <-> marked b d).
  Proof using W HD Hnu Ln.
    pose proof (aw_length _ _ _ _ _ W) as Lm. set (f := fun z : (mesh V * arank) * list nat => mark_rank z.1.2 z.1.1 def z.2). destruct (map_res_ex f (zip (zip meshes ranks) norms)) as (marks & E & HF).
    { intros [[m r] l] Hx. apply elem_of_list_lookup in Hx as [b Hb]. apply lookup_zip_with_Some in Hb as (x & l' & E & Hx & Hl). injection E as <- <-. apply lookup_zip_with_Some in Hx as (m' & r' & E & Hm & Hr). injection E as <- <-. destruct (mark_ok b m r l Hm Hr Hl) as (mk & E & _). by exists mk. }
    exists marks. split; [done|]. split; [rewrite <- (Forall2_length _ _ _ HF), !zip_with_length; lia|]. intros b r mk Hr Hmk. destruct (Forall2_lookup_r _ _ _ _ _ HF Hmk) as ([[m r'] l] & Hx & E'). apply lookup_zip_with_Some in Hx as (x & l' & Ex & Hx & Hl). injection Ex as <- <-. apply lookup_zip_with_Some in Hx as (m' & r'' & Ex & Hm & Hr'). injection Ex as <- <-. assert (r' = r) as -> by congruence.
    destruct (mark_ok b m r l Hm Hr Hl) as (mk' & E'' & H). unfold f in E'. cbn [fst snd] in E'. assert (mk' = mk) as -> by congruence. exact H.
  Qed.
  Definition anyone (d : nat) : Prop := exists b, marked b d.
  Context (marks : list (list nat)) (Lmk : length marks = length ranks) (Hmk : forall b r mk, ranks !! b = Some r -> marks !! b = Some mk -> length mk = length (col_map r) /\ forall i d, col_map r !! i = Some d -> exists v, mk !! i = Some v /\ (0 < v <-> marked b d)).
  Lemma sum_ok a r : ranks !! a = Some r -> exists ow, sum_marks ranks marks a = Ok ow /\ length ow = numOwned (sg_cols (ar_sp r)) /\ forall l, l < numOwned (sg_cols (ar_sp r)) -> exists v, ow !! l = Some v /\ (0 < v <-> anyone (so_begin (sg_cols (ar_sp r)) + l)).
  Proof using W Hnu Lmk Hmk.
    clear Ln HD. intros Ha. pose proof (lookup_lt_Some _ _ _ Ha) as Hal. destruct (lookup_lt_is_Some_2 marks a ltac:(lia)) as [mine Hmi]. unfold sum_marks. rewrite (rd_ok _ _ _ Ha), bind_ok, (rd_ok _ _ _ Hmi), bind_ok. cbv zeta. set (cols := sg_cols (ar_sp r)). destruct (Hmk a r mine Ha Hmi) as [L1 H1].
    set (body := fun l => v ← rd mine l; _).
    assert (Hb : forall l, l < numOwned cols -> exists v, body l = Ok v /\ (0 < v <-> anyone (so_begin cols + l))).
    { intros l Hl. assert (Hc : col_map r !! l = Some (so_begin cols + l)) by (by apply all_ids_owned). destruct (H1 l _ Hc) as (v0 & Hv0 & E0). unfold body. rewrite (rd_ok _ _ _ Hv0), bind_ok. set (d := so_begin cols + l) in *. assert (Hdo : dof_owned (dm_own (ar_map r)) d). { destruct (mesh_at _ _ _ _ _ W a r Ha) as [m Hm]. apply (po_owned _ _ _ _ (graph_at _ _ _ _ _ W a m r Hm Ha)). unfold dof_owned, d, numOwned in *. fold cols. lia. }
      match goal with |- exists v, for_each ?f _ _ = _ /\ _ => destruct (for_each_inv f (fun pre v => 0 < v <-> 0 < v0 \/ exists b, b ∈ pre /\ b <> a /\ marked b d) (seq 0 (length ranks)) [] v0) as (v & E & H) end.
      - split; [by left|]. intros [?|(b & Hb & _)]; [done|by apply elem_of_nil in Hb].
      - intros pre b v [post Hpost] Hv. cbn [app] in Hpost. assert (Hbl : b ∈ seq 0 (length ranks)) by (rewrite Hpost; apply elem_of_app; right; left). apply elem_of_seq in Hbl. destruct (lookup_lt_is_Some_2 ranks b ltac:(lia)) as [rb Hrb]. destruct (lookup_lt_is_Some_2 marks b ltac:(lia)) as [mb Hmb]. rewrite (rd_ok _ _ _ Hrb), bind_ok, (rd_ok _ _ _ Hmb), bind_ok. destruct (Hmk b rb mb Hrb Hmb) as [L2 H2].
        destruct (index_of d (so_shared (sg_cols (ar_sp rb)))) as [s|] eqn:Es.
        + apply index_of_some in Es. assert (Hcb : col_map rb !! (numOwned (sg_cols (ar_sp rb)) + s) = Some d) by (unfold col_map; by rewrite all_ids_shared). destruct (H2 _ d Hcb) as (x & Hx & Ex). rewrite (rd_ok _ _ _ Hx), bind_ok. eexists. split; [reflexivity|].
          assert (Hne : b <> a). { intros ->. assert (rb = r) as -> by congruence. destruct (mesh_at _ _ _ _ _ W a r Ha) as [m Hm]. apply (proj1 (po_shared _ _ _ _ (graph_at _ _ _ _ _ W a m r Hm Ha) d)); [by eapply elem_of_list_lookup_2|done]. }
          split.
          * intros Hs. assert (0 < v \/ 0 < x) as [Hv'|Hx'] by lia; [apply Hv in Hv' as [?|(b' & Hb' & ? & ?)]; [by left|right; exists b'; split; [apply elem_of_app; by left|done]]|]. right. exists b. split; [apply elem_of_app; right; left|]. split; [done|]. by apply Ex.
          * intros H. enough (0 < v \/ 0 < x) by lia. destruct H as [?|(b' & Hb' & Hne' & Hmd)]; [left; apply Hv; by left|]. apply elem_of_app in Hb' as [Hb'|Hb']; [left; apply Hv; right; by exists b'|]. apply elem_of_list_singleton in Hb' as ->. right. by apply Ex.
        + exists v. split; [done|]. rewrite Hv. split; [intros [?|(b' & Hb' & ? & ?)]; [by left|right; exists b'; split; [apply elem_of_app; by left|done]]|]. intros [?|(b' & Hb' & Hne' & Hmd)]; [by left|]. apply elem_of_app in Hb' as [Hb'|Hb']; [right; by exists b'|]. apply elem_of_list_singleton in Hb' as ->. exfalso.
          pose proof (marked_cols b rb d Hrb Hmd) as Hcb. apply all_ids_local in Hcb as [Hcb|Hcb]; [|destruct (index_of_elem _ _ Hcb) as [k Hk]; congruence]. apply Hne'. destruct (mesh_at _ _ _ _ _ W b rb Hrb) as [mm Hmm]. apply (owner_one _ _ _ _ _ W b a rb r d Hrb Ha); [|done]. by apply (po_owned _ _ _ _ (graph_at _ _ _ _ _ W b mm rb Hmm Hrb)).
      - exists v. split; [exact E|]. cbn [app] in H. rewrite H. split.
        + intros [Hv|(b & _ & _ & Hmd)]; [exists a; by apply E0|by exists b].
        + intros [b Hmd]. destruct (decide (b = a)) as [-> |Hne]; [left; by apply E0|]. right. exists b. split; [|done]. destruct Hmd as (m & rb & _ & _ & Hrb & _). apply elem_of_seq. split; [lia|]. rewrite Nat.add_0_l. by eapply lookup_lt_Some. }
    destruct (map_res_ex body (seq 0 (numOwned cols))) as (ow & E & HF). { intros l Hl. apply elem_of_seq in Hl. destruct (Hb l ltac:(lia)) as (v & Ev & _). by exists v. }
    exists ow. split; [exact E|]. pose proof (Forall2_length _ _ _ HF) as Lo. rewrite seq_length in Lo. split; [done|]. intros l Hl. assert (Hsl : seq 0 (numOwned cols) !! l = Some l) by (by apply lookup_seq_lt). destruct (Forall2_lookup_l _ _ _ _ _ HF Hsl) as (v & Hv & Ev). exists v. split; [done|]. destruct (Hb l Hl) as (v' & Ev' & H). congruence.
  Qed.
  Context (owneds : list (list nat)) (Low : length owneds = length ranks) (How : forall a r ow, ranks !! a = Some r -> owneds !! a = Some ow -> length ow = numOwned (sg_cols (ar_sp r)) /\ forall l, l < numOwned (sg_cols (ar_sp r)) -> exists v, ow !! l = Some v /\ (0 < v <-> anyone (so_begin (sg_cols (ar_sp r)) + l))).
  Lemma import_ok a r mine : ranks !! a = Some r -> owneds !! a = Some mine -> exists cols, import_marks ranks owneds r mine = Ok cols /\ length cols = length (col_map r) /\ forall i d, col_map r !! i = Some d -> exists v, cols !! i = Some v /\ (0 < v <-> anyone d).
  Proof using W Low How.
    clear Ln HD Hnu Lmk Hmk. intros Ha Hmi. destruct (How a r mine Ha Hmi) as [L1 H1]. unfold import_marks. set (body := fun g : nat => match head _ with Some b => _ | None => _ end).
    assert (Hb : forall g, g ∈ so_shared (sg_cols (ar_sp r)) -> exists v, body g = Ok v /\ (0 < v <-> anyone g)).
    { intros g Hg. destruct (mesh_at _ _ _ _ _ W a r Ha) as [m Hm]. assert (HgT : g < T). { apply (po_shared _ _ _ _ (graph_at _ _ _ _ _ W a m r Hm Ha)) in Hg as [_ [Hg|(k & _ & Hco)]]; [apply (local_lt _ _ _ _ _ W a r g Ha); by right|]. by apply (coupled_lt D meshes ranks pdef T W k g). }
      destruct (owner_some _ _ _ _ _ W g HgT) as (o & ro & Ho & Hoo). unfold body. set (pr := fun b => match ranks !! b with Some rb => isOwned (dm_own (ar_map rb)) g | None => false end). destruct (head (List.filter pr (seq 0 (length ranks)))) as [b|] eqn:Eh.
      - apply head_Some_elem_of in Eh. apply Merge_proofs.filter_elem in Eh as [Hbs Hpr]. unfold pr in Hpr. destruct (ranks !! b) as [rb|] eqn:Hrb; [|done]. apply isOwned_iff in Hpr. destruct (lookup_lt_is_Some_2 owneds b) as [ob Hob]; [rewrite Low; by eapply lookup_lt_Some|]. rewrite (rd_ok _ _ _ Hrb), bind_ok, (rd_ok _ _ _ Hob), bind_ok.
        destruct (How b rb ob Hrb Hob) as [L2 H2]. destruct (cols_at _ _ _ _ _ W b rb Hrb) as (_ & C1 & C2). assert (Hn : g - so_begin (dm_own (ar_map rb)) < numOwned (dm_own (ar_map rb))) by (unfold dof_owned, numOwned in *; lia). destruct (H2 (g - so_begin (dm_own (ar_map rb)))) as (v & Hv & Ev); [lia|]. exists v. split; [by apply rd_ok|]. rewrite Ev, C2 by lia. replace (so_begin (dm_own (ar_map rb)) + (g - so_begin (dm_own (ar_map rb)))) with g by (unfold dof_owned in Hpr; lia). done.
      - exfalso. assert (Hin : o ∈ List.filter pr (seq 0 (length ranks))). { apply Merge_proofs.filter_elem. split; [apply elem_of_seq; split; [lia|rewrite Nat.add_0_l; by eapply lookup_lt_Some]|]. unfold pr. rewrite Ho. by apply isOwned_iff. } destruct (List.filter pr (seq 0 (length ranks))); [by apply elem_of_nil in Hin|done]. }
    destruct (map_res_ex body (so_shared (sg_cols (ar_sp r)))) as (sh & E & HF). { intros g Hg. destruct (Hb g Hg) as (v & Ev & _). by exists v. }
    rewrite E, bind_ok. eexists. split; [reflexivity|]. pose proof (Forall2_length _ _ _ HF) as Ls. split; [unfold col_map; rewrite all_ids_length, app_length; unfold localSize; lia|].
    intros i d Hi. destruct (decide (i < numOwned (sg_cols (ar_sp r)))) as [Hl|Hl].
    - unfold col_map in Hi. rewrite all_ids_owned in Hi by done. injection Hi as <-. destruct (H1 i Hl) as (v & Hv & Ev). exists v. split; [|done]. rewrite lookup_app_l by lia. done.
    - assert (i = numOwned (sg_cols (ar_sp r)) + (i - numOwned (sg_cols (ar_sp r)))) as Ei by lia. unfold col_map in Hi. rewrite Ei, all_ids_shared in Hi. destruct (Forall2_lookup_l _ _ _ _ _ HF Hi) as (v & Hv & Ev). destruct (Hb d) as (v' & Ev' & H); [by eapply elem_of_list_lookup_2|]. exists v. split; [rewrite lookup_app_r by lia; by rewrite L1|]. congruence.
  Qed.
End dirichlet.
(** The extracted unknowns. *)
Lemma extract_ok ids marks (P : nat -> Prop) : length marks = length ids -> (forall i d, ids !! i = Some d -> exists v, marks !! i = Some v /\ (0 < v <-> P d)) ->
  Sorted Nat.le (extract_marked ids marks) /\ forall d, d ∈ extract_marked ids marks <-> d ∈ ids /\ P d.
Proof.
  intros L H. split; [apply sort_sorted|]. intros d. unfold extract_marked. rewrite sort_elem, elem_of_list_fmap. split.
  - intros ([d' v] & -> & Hx). apply Merge_proofs.filter_elem in Hx as [Hx Hv]. apply elem_of_list_lookup in Hx as [i Hi]. apply lookup_zip_with_Some in Hi as (? & ? & [= <- <-] & Hi & Hm). cbn [fst snd] in *. apply Nat.ltb_lt in Hv. split; [by eapply elem_of_list_lookup_2|]. destruct (H i d' Hi) as (v' & Hv' & E). apply E. congruence.
  - intros [Hd HP]. apply elem_of_list_lookup in Hd as [i Hi]. destruct (H i d Hi) as (v & Hv & E). exists (d, v). split; [done|]. apply Merge_proofs.filter_elem. split; [|cbn [fst snd]; by apply Nat.ltb_lt, E]. eapply elem_of_list_lookup_2. apply lookup_zip_with_Some. by exists d, v.
Qed.
Section all.
  Context {V : Type} (D : nat) (meshes : list (mesh V)) (ranks : list arank) (pdef : list (list nat * list bool)) (T : nat) (W : aworld D meshes ranks pdef T) (def : bc_def) (HD : def_ok D meshes ranks def) (top : nat) (Htop : T <= top).
  Notation constrained := (constrained meshes ranks def).
  Lemma dirichlet_ok : exists out, getDirichletDofs top (zip meshes ranks) def = Ok out /\ length out = length ranks /\
    forall b r rows cols, ranks !! b = Some r -> out !! b = Some (rows, cols) -> Sorted Nat.le rows /\ Sorted Nat.le cols /\
      (forall i, i ∈ rows <-> dof_owned (dm_own (ar_map r)) i /\ constrained i) /\ (forall j, j ∈ cols <-> j ∈ col_map r /\ constrained j).
  Proof using W HD Htop.
    pose proof (aw_length _ _ _ _ _ W) as Lm. unfold getDirichletDofs. cbv zeta. assert (Hsnd : map snd (zip meshes ranks) = ranks) by (apply snd_zip; lia). rewrite Hsnd. destruct (norms_ok D meshes ranks pdef T W def HD top Htop) as (norms & -> & Ln & Hn & Hnu). rewrite bind_ok.
    destruct (marks_all D meshes ranks pdef T W def HD norms Ln Hnu) as (marks & -> & Lmk & Hmk). rewrite bind_ok.
    destruct (map_res_ex (sum_marks ranks marks) (seq 0 (length ranks))) as (owneds & Eo & HFo). { intros a Ha. apply elem_of_seq in Ha. destruct (lookup_lt_is_Some_2 ranks a ltac:(lia)) as [r Hr]. destruct (sum_ok D meshes ranks pdef T W def norms Hnu marks Lmk Hmk a r Hr) as (ow & E & _). by exists ow. }
    rewrite Eo, bind_ok. assert (Low : length owneds = length ranks) by (by rewrite <- (Forall2_length _ _ _ HFo), seq_length).
    assert (How : forall a r ow, ranks !! a = Some r -> owneds !! a = Some ow -> length ow = numOwned (sg_cols (ar_sp r)) /\ forall l, l < numOwned (sg_cols (ar_sp r)) -> exists v, ow !! l = Some v /\ (0 < v <-> anyone meshes ranks def norms (so_begin (sg_cols (ar_sp r)) + l))).
    { intros a r ow Hr Ho. destruct (Forall2_lookup_r _ _ _ _ _ HFo Ho) as (a' & Ha' & E). apply lookup_seq in Ha' as [-> _]. rewrite Nat.add_0_l in E. destruct (sum_ok D meshes ranks pdef T W def norms Hnu marks Lmk Hmk a r Hr) as (ow' & E' & H). assert (ow' = ow) as -> by congruence. exact H. }
    assert (Hany : forall d, anyone meshes ranks def norms d <-> constrained d).
    { intros d. unfold Assembly_spec.constrained. rewrite <- Hn. split.
      - intros (b & m & r & l & Hm & Hr & Hl & [(doms & inds & dom & e & n & f & H)|Hd]); [left|right; by exists b, l]. exists m, r, doms, inds, dom, e, n, f. split; [by apply (pairs_in meshes ranks b)|exact H].
      - intros [(m & r & doms & inds & dom & e & n & f & Hx & H)|(b & l & Hl & Hd)].
        + apply elem_of_list_lookup in Hx as [b Hb]. apply lookup_zip_with_Some in Hb as (m' & r' & E & Hm & Hr). injection E as <- <-. destruct (lookup_lt_is_Some_2 norms b) as [l Hl]; [rewrite Ln; by eapply lookup_lt_Some|]. exists b, m, r, l. split; [done|]. split; [done|]. split; [done|]. left. by exists doms, inds, dom, e, n, f.
        + destruct (lookup_lt_is_Some_2 ranks b) as [r Hr]; [rewrite <- Ln; by eapply lookup_lt_Some|]. destruct (mesh_at _ _ _ _ _ W b r Hr) as [m Hm]. exists b, m, r, l. tauto. }
    set (fin := fun z : arank * list nat => cols ← import_marks ranks owneds z.1 z.2; Ok (extract_marked (take (length z.2) (col_map z.1)) z.2, extract_marked (col_map z.1) cols)).
    destruct (map_res_ex fin (zip ranks owneds)) as (out & E & HF). { intros [r ow] Hx. apply elem_of_list_lookup in Hx as [a Ha]. apply lookup_zip_with_Some in Ha as (r' & ow' & Ex & Hr & Ho). injection Ex as <- <-. destruct (import_ok D meshes ranks pdef T W def norms owneds Low How a r ow Hr Ho) as (cols & Ec & _). unfold fin. cbn [fst snd]. rewrite Ec, bind_ok. eauto. }
    exists out. split; [exact E|]. split; [rewrite <- (Forall2_length _ _ _ HF), zip_with_length; lia|]. intros b r rows cols Hr Hout. destruct (Forall2_lookup_r _ _ _ _ _ HF Hout) as ([r' ow] & Hx & Ef). apply lookup_zip_with_Some in Hx as (r'' & ow' & Ex & Hr' & Ho). injection Ex as <- <-. assert (r' = r) as -> by congruence.
    destruct (import_ok D meshes ranks pdef T W def norms owneds Low How b r ow Hr Ho) as (cm & Ec & Lc & Hc). unfold fin in Ef. cbn [fst snd] in Ef. rewrite Ec, bind_ok in Ef. injection Ef as <- <-. destruct (How b r ow Hr Ho) as [Lo Hol].
    destruct (extract_ok (take (length ow) (col_map r)) ow (anyone meshes ranks def norms)) as [S1 S2]; [rewrite take_length; unfold col_map; rewrite all_ids_length; unfold localSize; lia| |]. { intros i d Hi. apply lookup_take_iff in Hi as [Hlt Hi]. rewrite Lo in Hlt. unfold col_map in Hi. rewrite all_ids_owned in Hi by done. injection Hi as <-. by apply Hol. }
    destruct (extract_ok (col_map r) cm (anyone meshes ranks def norms) Lc Hc) as [S3 S4]. split; [done|]. split; [done|]. split.
    - intros i. rewrite S2, Hany. assert (i ∈ take (length ow) (col_map r) <-> dof_owned (dm_own (ar_map r)) i) as ->; [|done]. destruct (mesh_at _ _ _ _ _ W b r Hr) as [m Hm]. rewrite <- (po_owned _ _ _ _ (graph_at _ _ _ _ _ W b m r Hm Hr)). rewrite Lo. unfold col_map, all_ids. rewrite take_app_alt by (by rewrite seq_length). rewrite elem_of_seq. unfold dof_owned, numOwned. lia.
    - intros j. by rewrite S4, Hany.
  Qed.
End all.
