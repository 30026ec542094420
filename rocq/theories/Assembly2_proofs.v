(** C79: the values of all ranks. *)
From Verif Require Import Base StdAlgo Ownership_model Ownership_proofs Elem_model Mesh_model Mesh_spec Helpers_model Helpers_proofs Partition_model Dofs_model Dofs_spec Dofs_props Periodic2_proofs Sparsity_model Sparsity_spec Sparsity_proofs Sparsity2_proofs Sparsity4_proofs Sparsity_props Cond_model Cond_spec Cond3_proofs Cond6_proofs Dirichlet_model Dirichlet_spec Dirichlet_proofs LocalBC_model Assembly_model Assembly_spec Assembly_proofs.
Local Arguments Nat.mul : simpl never.
Local Arguments Nat.add : simpl never.
Local Arguments Nat.sub : simpl never.

Section world.
  Context {V : Type} (D : nat) (meshes : list (mesh V)) (ranks : list arank) (pdef : list (list nat * list bool)) (T : nat) (W : aworld D meshes ranks pdef T).
  Lemma mesh_at b r : ranks !! b = Some r -> exists m, meshes !! b = Some m.
  Proof using W. intros Hr. apply lookup_lt_is_Some_2. rewrite (aw_length _ _ _ _ _ W). by eapply lookup_lt_Some. Qed.
  Lemma pair_at b m r : meshes !! b = Some m -> ranks !! b = Some r -> zip meshes ranks !! b = Some (m, r) /\ zip meshes (map ar_map ranks) !! b = Some (m, ar_map r).
  Proof using Type. intros Hm Hr. split; apply lookup_zip_with_Some; eexists _, _; (split; [reflexivity|]); (split; [done|]); [done|]. change (map ar_map ranks) with (ar_map <$> ranks). by rewrite list_lookup_fmap, Hr. Qed.
  Lemma own_at b r : ranks !! b = Some r -> own_ok (dm_own (ar_map r)).
  Proof using W. intros Hr. destruct (mesh_at b r Hr) as [m Hm]. eapply usable_own; [exact (aw_usable _ _ _ _ _ W)|]. by apply pair_at. Qed.
  Lemma graph_at b m r : meshes !! b = Some m -> ranks !! b = Some r -> pattern_ok (dm_own (ar_map r)) (coupled false pdef m (ar_map r))
      (fun k c => exists m' r', (m', r') ∈ zip meshes ranks /\ coupled false pdef m' (ar_map r') k c) (ar_sp r).
  Proof using W. intros Hm Hr. apply (aw_graph _ _ _ _ _ W). eapply elem_of_list_lookup_2. by apply (pair_at b). Qed.
  Lemma cols_at b r : ranks !! b = Some r -> own_ok (sg_cols (ar_sp r)) /\ numOwned (sg_cols (ar_sp r)) = numOwned (dm_own (ar_map r)) /\ (0 < numOwned (dm_own (ar_map r)) -> so_begin (sg_cols (ar_sp r)) = so_begin (dm_own (ar_map r))).
  Proof using W.
    intros Hr. destruct (mesh_at b r Hr) as [m Hm]. pose proof (graph_at b m r Hm Hr) as P. destruct (po_range _ _ _ _ P) as [E1 E2]. pose proof (own_at b r Hr) as (O1 & O2 & O3). pose proof (po_owned _ _ _ _ P) as Po. unfold dof_owned, numOwned in *. split; [|split].
    - split; [lia|]. split; [exact (po_sorted _ _ _ _ P)|]. intros k Hk. rewrite (po_owned _ _ _ _ P). by apply (po_shared _ _ _ _ P).
    - lia.
    - intros H. destruct (Po (so_begin (dm_own (ar_map r)))) as [_ H1]. specialize (H1 ltac:(lia)). destruct (Po (so_begin (sg_cols (ar_sp r)))) as [H2 _]. specialize (H2 ltac:(lia)). lia.
  Qed.
  Lemma find_row b r n row : ranks !! b = Some r -> hm_find n (dm_map (ar_map r)) = Some row -> (n, row) ∈ dm_map (ar_map r).
  Proof using W.
    intros Hr. destruct (mesh_at b r Hr) as [m Hm]. apply hm_find_elem. apply (us_keys _ _ _ _ (aw_usable _ _ _ _ _ W) m). eapply elem_of_list_lookup_2. by apply (pair_at b).
  Qed.
  Lemma unknown_local b r n f d : ranks !! b = Some r -> unknown_no (ar_map r) n f = Some d -> dof_local (dm_own (ar_map r)) d /\ f < D.
  Proof using W.
    intros Hr Hd. destruct (mesh_at b r Hr) as [m Hm]. rewrite unknown_find in Hd. destruct (hm_find n (dm_map (ar_map r))) as [row|] eqn:E; [|done]. apply (find_row b) in E; [|done]. destruct (row !! f) as [x|] eqn:Ef; [|done]. subst x.
    destruct (us_rows _ _ _ _ (aw_usable _ _ _ _ _ W) m (ar_map r) n row) as [H1 H2]; [eapply elem_of_list_lookup_2; by apply (pair_at b)|done|]. split; [by apply (H2 f)|]. rewrite <- H1. by eapply lookup_lt_Some.
  Qed.
  Lemma local_in b r d : ranks !! b = Some r -> dof_local (dm_own (ar_map r)) d -> d ∈ row_map r /\ d ∈ col_map r.
  Proof using W.
    intros Hr Hd. destruct (mesh_at b r Hr) as [m Hm]. pose proof (graph_at b m r Hm Hr) as P. split; [by apply all_ids_local|]. apply all_ids_local. destruct (decide (isOwned (dm_own (ar_map r)) d = true)) as [E|E].
    - left. apply (po_owned _ _ _ _ P). by apply isOwned_iff.
    - right. apply (po_shared _ _ _ _ P). rewrite isOwned_iff in E. split; [done|]. left. destruct Hd as [Hd|Hd]; [|done]. done.
  Qed.
  Lemma own_nth b r : ranks !! b = Some r -> map (fun x : mesh V * dof_map => dm_own x.2) (zip meshes (map ar_map ranks)) !! b = Some (dm_own (ar_map r)).
  Proof using W. intros Hr. destruct (mesh_at b r Hr) as [m Hm]. change (map ?f ?l) with (f <$> l). rewrite list_lookup_fmap. change (ar_map <$> ranks) with (map ar_map ranks). by rewrite (proj2 (pair_at b m r Hm Hr)). Qed.
  Lemma owner_one a b r r' d : ranks !! a = Some r -> ranks !! b = Some r' -> dof_owned (dm_own (ar_map r)) d -> dof_owned (dm_own (ar_map r')) d -> a = b.
  Proof using W.
    intros Ha Hb H1 H2. apply (owned_iff _ _ (us_cons _ _ _ _ (aw_usable _ _ _ _ _ W)) a _ d (own_nth a r Ha)) in H1. apply (owned_iff _ _ (us_cons _ _ _ _ (aw_usable _ _ _ _ _ W)) b _ d (own_nth b r' Hb)) in H2. by eapply owns_unique.
  Qed.
  Lemma local_lt b r d : ranks !! b = Some r -> dof_local (dm_own (ar_map r)) d -> d < T.
  Proof using W.
    intros Hr. destruct (mesh_at b r Hr) as [m Hm]. assert (Hp : (m, ar_map r) ∈ zip meshes (map ar_map ranks)) by (eapply elem_of_list_lookup_2; by apply (pair_at b)). intros [Hd|Hd]; [|by apply (us_shared _ _ _ _ (aw_usable _ _ _ _ _ W) m (ar_map r) Hp)].
    apply (owned_iff _ _ (us_cons _ _ _ _ (aw_usable _ _ _ _ _ W)) b _ d (own_nth b r Hr)) in Hd. apply owns_total in Hd. by rewrite (counts_total _ _ (us_cons _ _ _ _ (aw_usable _ _ _ _ _ W))) in Hd.
  Qed.
  Lemma owner_some d : d < T -> exists a r, ranks !! a = Some r /\ dof_owned (dm_own (ar_map r)) d.
  Proof using W.
    intros Hd. destruct (owner_ex _ _ (us_cons _ _ _ _ (aw_usable _ _ _ _ _ W)) d Hd) as (a & o & Ho & Hod). change (map ?f ?l) with (f <$> l) in Ho. rewrite list_lookup_fmap in Ho. destruct (zip meshes (map ar_map ranks) !! a) as [[m g]|] eqn:E; [|done]. injection Ho as <-. apply lookup_zip_with_Some in E as (m' & g' & [= -> ->] & Hm & Hg). change (map ar_map ranks) with (ar_map <$> ranks) in Hg. rewrite list_lookup_fmap in Hg. destruct (ranks !! a) as [r|] eqn:Er; [|done]. injection Hg as <-. eauto.
  Qed.
  Lemma rows_at b r : ranks !! b = Some r -> length (sg_rows (ar_sp r)) = length (row_map r) /\ NoDup (row_map r) /\ NoDup (col_map r) /\
    (forall l inds, sg_rows (ar_sp r) !! l = Some inds -> NoDup inds /\ forall c, c ∈ inds -> c < length (col_map r)) /\
    (forall n f d, unknown_no (ar_map r) n f = Some d -> d ∈ row_map r /\ d ∈ col_map r).
  Proof using W.
    intros Hr. destruct (mesh_at b r Hr) as [m Hm]. pose proof (graph_at b m r Hm Hr) as P. split; [unfold row_map; rewrite all_ids_length; apply (po_len _ _ _ _ P)|]. split; [apply all_ids_nodup; by eapply own_at|]. split; [apply all_ids_nodup; by apply (cols_at b)|]. split.
    - intros l inds Hl. destruct (po_rows _ _ _ _ P l inds Hl) as (H1 & H2 & _). split; [by apply strict_nodup|]. intros c Hc. unfold col_map. rewrite all_ids_length. by apply (proj1 (Forall_forall _ _) H2).
    - intros n f d Hd. apply (local_in b r d Hr). by apply (unknown_local b r n f d Hr).
  Qed.
  (** The columns stored in a row. *)
  Lemma stored b m r l i inds : meshes !! b = Some m -> ranks !! b = Some r -> row_map r !! l = Some i -> sg_rows (ar_sp r) !! l = Some inds ->
    (dof_owned (dm_own (ar_map r)) i -> forall j, (exists m' r', (m', r') ∈ zip meshes ranks /\ coupled false pdef m' (ar_map r') i j) <-> exists c, c ∈ inds /\ col_map r !! c = Some j) /\
    (~ dof_owned (dm_own (ar_map r)) i -> forall j, coupled false pdef m (ar_map r) i j <-> exists c, c ∈ inds /\ col_map r !! c = Some j).
  Proof using W.
    intros Hm Hr Hl Hi. pose proof (graph_at b m r Hm Hr) as P. destruct (po_rows _ _ _ _ P l inds Hi) as (_ & _ & k & Hk & H1 & H2). apply all_ids_global in Hk. assert (k = i) as -> by (unfold row_map in Hl; congruence). unfold col_at in H1, H2.
    split; intros Ho j; [rewrite (H1 Ho j)|rewrite (H2 Ho j)]; split; intros (c & Hc & Hj); exists c; (split; [done|]); by apply all_ids_global.
  Qed.
End world.

Section values.
  Context {F : Type} (zero one : F) (add mul sub : F -> F -> F) (opp : F -> F) (Rth : ring_theory zero one add mul sub opp (@eq F)).
  Add Ring Fring : Rth.
  Notation Sig := (Cond_spec.Sig zero add).
  Notation only := (Cond_spec.only zero).
  Notation Sig_perm := (Sig_perm zero one add mul sub opp Rth).
  Notation Sig_app := (Sig_app zero one add mul sub opp Rth).
  Notation Sig_0 := (Sig_0 zero one add mul sub opp Rth).
  Context {V : Type} (D : nat) (meshes : list (mesh V)) (ranks : list arank) (pdef : list (list nat * list bool)) (T : nat) (W : aworld D meshes ranks pdef T).
  (** Entries that are not coupled. *)
  Lemma mat_part_0 b m r cs i j : meshes !! b = Some m -> ranks !! b = Some r -> (forall c, c ∈ cs -> covered pdef m (ar_map r) c) -> ~ coupled false pdef m (ar_map r) i j -> mat_part zero add (ar_map r) cs i j = zero.
  Proof using Rth W.
    intros Hm Hr Hc Hn. unfold mat_part. apply Sig_0. intros c Hcs. destruct (Hc c Hcs) as ((ids & bits & dom & e & Hp & Hd & He & En & Hb) & _). apply Sig_0. intros k _. destruct (decide (loc_dof (ar_map r) c k = Some i)) as [Ei|Ei]; [|by apply only_false]. rewrite only_true by done.
    apply Sig_0. intros l _. destruct (decide (loc_dof (ar_map r) c l = Some j)) as [Ej|Ej]; [|by apply only_false]. exfalso. apply Hn. exists ids, bits, dom, e. split; [done|]. split; [done|]. split; [done|].
    assert (Hu : forall k d, loc_dof (ar_map r) c k = Some d -> el_unknown false (ar_map r) bits e d).
    { clear Ei Ej. intros k' d Hk. unfold loc_dof in Hk. destruct (c_nodes c !! _) as [n|] eqn:E1; [|done]. destruct (c_fields c !! _) as [f|] eqn:E2; [|done]. rewrite unknown_find in Hk. destruct (hm_find n (dm_map (ar_map r))) as [row|] eqn:E3; [|done]. destruct (row !! f) as [x|] eqn:E4; [|done]. subst x.
      exists n, row, f. split; [unfold primary; rewrite <- En; by eapply elem_of_list_lookup_2|]. split; [by eapply find_row|]. split; [|done]. apply Hb. by eapply elem_of_list_lookup_2. }
    split; [by eapply Hu|by eapply Hu].
  Qed.
  Lemma rhs_part_0 b r cs i q : ranks !! b = Some r -> ~ dof_local (dm_own (ar_map r)) i -> rhs_part zero add (ar_map r) cs i q = zero.
  Proof using Rth W.
    intros Hr Hn. unfold rhs_part. apply Sig_0. intros c _. apply Sig_0. intros k _. apply only_false. intros Hk. apply Hn. unfold loc_dof in Hk. destruct (c_nodes c !! _) as [n|]; [|done]. destruct (c_fields c !! _) as [f|]; [|done]. by apply (unknown_local D meshes ranks pdef T W b r n f i Hr).
  Qed.
  Lemma mat_part_0' b r cs i j : ranks !! b = Some r -> ~ dof_local (dm_own (ar_map r)) i -> mat_part zero add (ar_map r) cs i j = zero.
  Proof using Rth W.
    intros Hr Hn. unfold mat_part. apply Sig_0. intros c _. apply Sig_0. intros k _. apply only_false. intros Hk. apply Hn. unfold loc_dof in Hk. destruct (c_nodes c !! _) as [n|]; [|done]. destruct (c_fields c !! _) as [f|]; [|done]. by apply (unknown_local D meshes ranks pdef T W b r n f i Hr).
  Qed.
  (** Adding a received row. *)
  Lemma sum_into_ok colmap inds xs vals : NoDup colmap -> NoDup inds -> length vals = length inds ->
    exists vals', for_each (sum_into add colmap inds) xs vals = Ok vals' /\ length vals' = length inds /\
      forall p c j v, inds !! p = Some c -> colmap !! c = Some j -> vals !! p = Some v -> vals' !! p = Some (add v (Sig xs (fun x => only (x.1 = j) x.2))).
  Proof using Rth.
    intros Hcm Hin. revert vals. induction xs as [|[j0 w] xs IH]; intros vals Hl.
    - exists vals. split; [done|]. split; [done|]. intros p c j v _ _ ->. f_equal. cbn. ring.
    - cbn [for_each]. assert (exists vals1, sum_into add colmap inds (j0, w) vals = Ok vals1 /\ length vals1 = length inds /\ forall p c j v, inds !! p = Some c -> colmap !! c = Some j -> vals !! p = Some v -> vals1 !! p = Some (add v (only (j0 = j) w))) as (vals1 & E1 & L1 & H1).
      { unfold sum_into. cbn [fst snd]. destruct (index_of j0 colmap) as [c0|] eqn:E0; [|].
        - apply index_of_some in E0. destruct (index_of c0 inds) as [p0|] eqn:Ep.
          + apply index_of_some in Ep. destruct (lookup_lt_is_Some_2 vals p0) as [v0 Hv0]; [rewrite Hl; by eapply lookup_lt_Some|]. rewrite (rd_ok _ _ _ Hv0), bind_ok, wr_ok by (by eapply lookup_lt_Some). eexists. split; [reflexivity|]. split; [by rewrite insert_length|].
            intros p c j v Hp Hc Hv. destruct (decide (p = p0)) as [-> |Hne].
            * assert (c = c0) as -> by congruence. assert (j = j0) as -> by congruence. rewrite list_lookup_insert by (by eapply lookup_lt_Some). rewrite only_true by done. congruence.
            * rewrite list_lookup_insert_ne by done. rewrite only_false; [rewrite Hv; f_equal; ring|]. intros ->. apply Hne. assert (c = c0) as -> by exact (NoDup_lookup _ _ _ _ Hcm Hc E0). exact (NoDup_lookup _ _ _ _ Hin Hp Ep).
          + exists vals. split; [done|]. split; [done|]. intros p c j v Hp Hc Hv. rewrite only_false; [rewrite Hv; f_equal; ring|]. intros ->. assert (c = c0) as -> by exact (NoDup_lookup _ _ _ _ Hcm Hc E0). rewrite (index_of_nodup c0 inds p) in Ep by done. done.
        - exists vals. split; [done|]. split; [done|]. intros p c j v Hp Hc Hv. rewrite only_false; [rewrite Hv; f_equal; ring|]. intros ->. rewrite (index_of_nodup j colmap c) in E0 by done. done. }
      rewrite E1, bind_ok. destruct (IH vals1 L1) as (vals' & E' & L' & H'). exists vals'. split; [done|]. split; [done|]. intros p c j v Hp Hc Hv. rewrite (H' p c j _ Hp Hc (H1 p c j v Hp Hc Hv)). rewrite Sig_cons. cbn [fst snd]. f_equal. ring.
  Qed.
  Lemma Sig_zip (cols : list nat) (vals : list F) j p v : NoDup cols -> length vals = length cols -> cols !! p = Some j -> vals !! p = Some v -> Sig (zip cols vals) (fun x => only (x.1 = j) x.2) = v.
  Proof using Rth.
    revert vals p. induction cols as [|c cols IH]; intros vals p Hn Hl Hp Hv; [done|]. destruct vals as [|w vals]; [done|]. apply NoDup_cons in Hn as [Hc Hn]. change (zip (c :: cols) (w :: vals)) with ((c, w) :: zip cols vals). rewrite Sig_cons. cbn [fst snd]. destruct p as [|p].
    - injection Hp as ->. injection Hv as ->. rewrite only_true by done. rewrite Sig_0; [ring|]. intros [c' w'] Hx. apply only_false. cbn. intros ->. apply Hc. apply elem_of_list_lookup in Hx as [k Hk]. apply lookup_zip_with_Some in Hk as (? & ? & [= <- <-] & Hk & _). by eapply elem_of_list_lookup_2.
    - cbn in Hp, Hv. rewrite only_false; [|intros ->; apply Hc; by eapply elem_of_list_lookup_2]. rewrite (IH vals p); [ring|done|cbn in Hl; lia|done|done].
  Qed.
  Lemma Sig_zip_0 (cols : list nat) (vals : list F) j : j ∉ cols -> Sig (zip cols vals) (fun x => only (x.1 = j) x.2) = zero.
  Proof using Rth. intros Hn. apply Sig_0. intros [c' w'] Hx. apply only_false. cbn. intros ->. apply Hn. apply elem_of_list_lookup in Hx as [k Hk]. apply lookup_zip_with_Some in Hk as (? & ? & [= <- <-] & Hk & _). by eapply elem_of_list_lookup_2. Qed.
  Lemma map_rd_ok (ids inds : list nat) : (forall c, c ∈ inds -> c < length ids) -> exists cols, map_res (rd ids) inds = Ok cols /\ Forall2 (fun c j => ids !! c = Some j) inds cols.
  Proof using Type.
    intros H. destruct (map_res_ex (rd ids) inds) as (cols & E & HF); [intros c Hc; destruct (lookup_lt_is_Some_2 ids c (H c Hc)) as [j Hj]; exists j; by apply rd_ok|]. exists cols. split; [done|]. eapply Forall2_impl; [exact HF|]. intros c j Hc. by apply rd_inv in Hc.
  Qed.
  Lemma cols_nodup (ids inds cols : list nat) : NoDup ids -> NoDup inds -> Forall2 (fun c j => ids !! c = Some j) inds cols -> NoDup cols.
  Proof using Type.
    intros H1 H2 H. apply NoDup_alt. intros p q j Hp Hq. destruct (Forall2_lookup_r _ _ _ _ _ H Hp) as (c & Hc & Ec). destruct (Forall2_lookup_r _ _ _ _ _ H Hq) as (c' & Hc' & Ec'). assert (c = c') as <- by exact (NoDup_lookup _ _ _ _ H1 Ec Ec'). exact (NoDup_lookup _ _ _ _ H2 Hc Hc').
  Qed.
End values.
