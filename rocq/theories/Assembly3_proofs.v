(** C79: the end of the assembly. *)
From Verif Require Import Base StdAlgo Ownership_model Ownership_proofs Elem_model Mesh_model Mesh_spec Helpers_model Helpers_proofs Partition_model Dofs_model Dofs_spec Sparsity_model Sparsity_spec Sparsity_proofs Sparsity2_proofs Sparsity4_proofs Cond_model Cond_spec Cond3_proofs Cond6_proofs Dirichlet_model Dirichlet_spec Dirichlet_proofs LocalBC_model Assembly_model Assembly_spec Assembly_proofs Assembly2_proofs.
Local Arguments Nat.mul : simpl never.
Local Arguments Nat.add : simpl never.
Local Arguments Nat.sub : simpl never.

Section values.
  Context {F : Type} (zero one : F) (add mul sub : F -> F -> F) (opp : F -> F) (Rth : ring_theory zero one add mul sub opp (@eq F)).
  Add Ring Fring : Rth.
  Notation Sig := (Cond_spec.Sig zero add).
  Notation only := (Cond_spec.only zero).
  Notation Sig_perm := (Sig_perm zero one add mul sub opp Rth).
  Notation Sig_app := (Sig_app zero one add mul sub opp Rth).
  Notation Sig_0 := (Sig_0 zero one add mul sub opp Rth).
  Context {V : Type} (D : nat) (meshes : list (mesh V)) (ranks : list arank) (pdef : list (list nat * list bool)) (T : nat) (W : aworld D meshes ranks pdef T).
  Context (nr : nat) (calls : list (list (call F))) (sts : list (lsys F)) (from : nat -> list nat) (Hfrom : forall l, from l ≡ₚ seq 0 (length ranks)).
  Context (HC : calls_ok meshes ranks pdef calls).
  Notation MP r cs := (mat_part zero add (ar_map r) cs).
  Notation RP r cs := (rhs_part zero add (ar_map r) cs).
  Context (Hsts : length sts = length ranks) (Hright : forall b r cs st, ranks !! b = Some r -> calls !! b = Some cs -> sts !! b = Some st -> right nr r st (MP r cs) (RP r cs)).
  Lemma all_at b : b < length ranks -> exists m r cs st, meshes !! b = Some m /\ ranks !! b = Some r /\ calls !! b = Some cs /\ sts !! b = Some st.
  Proof using W HC Hsts.
    intros Hb. destruct HC as [HC1 _]. destruct (lookup_lt_is_Some_2 ranks b Hb) as [r Hr]. destruct (mesh_at _ _ _ _ _ W b r Hr) as [m Hm]. destruct (lookup_lt_is_Some_2 calls b ltac:(lia)) as [cs Hcs]. destruct (lookup_lt_is_Some_2 sts b ltac:(lia)) as [st Hst]. by exists m, r, cs, st.
  Qed.
  (** The parts of the system, by rank. *)
  Definition mpart (i j b : nat) : F := match ranks !! b, calls !! b with Some r, Some cs => MP r cs i j | _, _ => zero end.
  Definition rpart (i q b : nat) : F := match ranks !! b, calls !! b with Some r, Some cs => RP r cs i q | _, _ => zero end.
  Lemma Amat_parts i j : Amat zero add ranks calls i j = Sig (seq 0 (length ranks)) (mpart i j).
  Proof using HC.
    clear Hsts. unfold Amat. destruct HC as [HC1 _]. assert (Hz : length (zip ranks calls) = length ranks) by (rewrite zip_with_length; lia). rewrite <- Hz. destruct (zip ranks calls) as [|z zs] eqn:Ez; [done|]. rewrite <- Ez. apply (Sig_idx zero add _ z).
    intros k [r cs] Hk. apply lookup_zip_with_Some in Hk as (? & ? & [= <- <-] & H1 & H2). unfold mpart. by rewrite H1, H2.
  Qed.
  Lemma Bvec_parts i q : Bvec zero add ranks calls i q = Sig (seq 0 (length ranks)) (rpart i q).
  Proof using HC.
    clear Hsts. unfold Bvec. destruct HC as [HC1 _]. assert (Hz : length (zip ranks calls) = length ranks) by (rewrite zip_with_length; lia). rewrite <- Hz. destruct (zip ranks calls) as [|z zs] eqn:Ez; [done|]. rewrite <- Ez. apply (Sig_idx zero add _ z).
    intros k [r cs] Hk. apply lookup_zip_with_Some in Hk as (? & ? & [= <- <-] & H1 & H2). unfold rpart. by rewrite H1, H2.
  Qed.
  Lemma Sig_but n a (h : nat -> F) : a < n -> add (h a) (Sig (seq 0 n) (fun b => only (b <> a) (h b))) = Sig (seq 0 n) h.
  Proof using Rth.
    clear Hsts. intros Ha. rewrite <- (Sig_one zero one add mul sub opp Rth (seq 0 n) a h) by (apply NoDup_seq || (apply elem_of_seq; lia)). rewrite <- (Sig_add zero one add mul sub opp Rth). apply Sig_ext. intros b _. destruct (decide (b = a)) as [-> |Hne]; [rewrite only_true by done; rewrite only_false by congruence; ring|rewrite only_false by done; rewrite only_true by done; ring].
  Qed.
  (** What the other ranks send. *)
  Lemma packed_row_ok a b ra rb sb i : ranks !! a = Some ra -> ranks !! b = Some rb -> sts !! b = Some sb -> dof_owned (dm_own (ar_map ra)) i ->
    exists xs, packed_row rb sb i = Ok xs /\ forall j, Sig xs (fun x => only (x.1 = j) x.2) = only (b <> a) (mpart i j b).
  Proof using Rth W HC Hsts Hright.
    intros Ha Hb Hsb Hi. destruct (all_at b ltac:(by eapply lookup_lt_Some)) as (m & r & cs & st & Hm & Hr & Hcs & Hst). assert (r = rb) as -> by congruence. assert (st = sb) as -> by congruence. pose proof (Hright b rb cs sb Hb Hcs Hsb) as R. destruct (rows_at _ _ _ _ _ W b rb Hb) as (R1 & R2 & R3 & R4 & R5). pose proof (own_at _ _ _ _ _ W b rb Hb) as Ho.
    unfold packed_row. cbv zeta. destruct (index_of i (so_shared (dm_own (ar_map rb)))) as [s|] eqn:Es.
    - apply index_of_some in Es. assert (Hl : row_map rb !! (numOwned (dm_own (ar_map rb)) + s) = Some i) by (unfold row_map; by rewrite all_ids_shared). set (l := numOwned (dm_own (ar_map rb)) + s) in *. assert (Hno : ~ dof_owned (dm_own (ar_map rb)) i) by (apply (proj2 (proj2 Ho)); by eapply elem_of_list_lookup_2).
      destruct (lookup_lt_is_Some_2 (sg_rows (ar_sp rb)) l) as [inds Hi']; [rewrite R1; by eapply lookup_lt_Some|]. destruct (Forall2_lookup_l _ _ _ _ _ (ri_vlen _ _ _ _ _ R) Hi') as (vals & Hv & Lv). rewrite (rd_ok _ _ _ Hi'), bind_ok, (rd_ok _ _ _ Hv), bind_ok. destruct (R4 l inds Hi') as [N1 N2].
      destruct (map_rd_ok (col_map rb) inds N2) as (cols & Ec & HF). rewrite Ec, bind_ok. eexists. split; [reflexivity|]. intros j. assert (Hne : b <> a) by (intros ->; assert (ra = rb) by congruence; by subst). rewrite only_true by done. unfold mpart. rewrite Hb, Hcs.
      destruct (decide (j ∈ cols)) as [Hj|Hj].
      + apply elem_of_list_lookup in Hj as [p Hp]. destruct (Forall2_lookup_r _ _ _ _ _ HF Hp) as (c & Hc & Ec'). apply (Sig_zip zero one add mul sub opp Rth _ _ _ p); [exact (cols_nodup _ _ _ R3 N1 HF)|rewrite Lv; by eapply Forall2_length|done|]. by eapply (ri_vals _ _ _ _ _ R).
      + rewrite (Sig_zip_0 zero one add mul sub opp Rth) by done. symmetry. destruct HC as [_ HC2]. eapply (mat_part_0 zero one add mul sub opp Rth D meshes ranks pdef T W b m rb); [done|done|intros c Hc; by eapply HC2|]. intros Hco. apply (proj2 (stored _ _ _ _ _ W b m rb l i inds Hm Hb Hl Hi') Hno) in Hco as (c & Hc & Ec').
        apply Hj. apply elem_of_list_lookup in Hc as [p Hp]. destruct (Forall2_lookup_l _ _ _ _ _ HF Hp) as (j' & Hj' & Ej'). assert (j' = j) as -> by congruence. by eapply elem_of_list_lookup_2.
    - exists []. split; [done|]. intros j. change (zero = only (b <> a) (mpart i j b)). destruct (decide (b = a)) as [-> |Hne]; [symmetry; apply only_false; congruence|]. rewrite only_true by done. unfold mpart. rewrite Hb, Hcs. symmetry. apply (mat_part_0' zero one add mul sub opp Rth D meshes ranks pdef T W b rb); [done|]. intros [Hi'|Hi'].
      + apply Hne. by eapply (owner_one _ _ _ _ _ W b a rb ra i).
      + destruct (index_of_elem _ _ Hi') as [k Hk]. congruence.
  Qed.
  Lemma packed_rhs_ok a b ra rb sb i : ranks !! a = Some ra -> ranks !! b = Some rb -> sts !! b = Some sb -> dof_owned (dm_own (ar_map ra)) i ->
    exists x, packed_rhs zero nr rb sb i = Ok x /\ length x = nr /\ forall q, q < nr -> x !! q = Some (only (b <> a) (rpart i q b)).
  Proof using Rth W HC Hsts Hright.
    intros Ha Hb Hsb Hi. destruct (all_at b ltac:(by eapply lookup_lt_Some)) as (m & r & cs & st & Hm & Hr & Hcs & Hst). assert (r = rb) as -> by congruence. assert (st = sb) as -> by congruence. pose proof (Hright b rb cs sb Hb Hcs Hsb) as R.
    unfold packed_rhs. destruct (index_of i (so_shared (sg_cols (ar_sp rb)))) as [s|] eqn:Es.
    - apply index_of_some in Es. assert (Hl : col_map rb !! (numOwned (sg_cols (ar_sp rb)) + s) = Some i) by (unfold col_map; by rewrite all_ids_shared). destruct (ri_rlen _ _ _ _ _ R) as [L1 L2]. destruct (lookup_lt_is_Some_2 (l_rhs sb) (numOwned (sg_cols (ar_sp rb)) + s)) as [x Hx]; [rewrite L1; by eapply lookup_lt_Some|].
      exists x. rewrite (rd_ok _ _ _ Hx). split; [done|]. split; [exact (proj1 (Forall_lookup _ _) L2 _ _ Hx)|]. intros q Hq. rewrite (ri_rhs _ _ _ _ _ R _ i x q Hl Hx Hq). f_equal.
      assert (Hne : b <> a). { intros ->. assert (ra = rb) by congruence. subst. destruct (cols_at _ _ _ _ _ W a rb Ha) as ((_ & _ & H) & _). apply (H i); [by eapply elem_of_list_lookup_2|]. by apply (po_owned _ _ _ _ (graph_at _ _ _ _ _ W a m rb Hm Hb)). }
      rewrite only_true by done. unfold rpart. by rewrite Hb, Hcs.
    - exists (replicate nr zero). split; [done|]. split; [apply replicate_length|]. intros q Hq. rewrite lookup_replicate_2 by done. f_equal. destruct (decide (b = a)) as [-> |Hne]; [symmetry; apply only_false; congruence|]. rewrite only_true by done. unfold rpart. rewrite Hb, Hcs. symmetry. apply (rhs_part_0 zero one add mul sub opp Rth D meshes ranks pdef T W b rb); [done|]. intros Hloc.
      destruct (local_in _ _ _ _ _ W b rb i Hb Hloc) as [_ Hc]. apply all_ids_local in Hc as [Hc|Hc].
      + apply Hne. apply (owner_one _ _ _ _ _ W b a rb ra i Hb Ha); [|done]. by apply (po_owned _ _ _ _ (graph_at _ _ _ _ _ W b m rb Hm Hb)).
      + destruct (index_of_elem _ _ Hc) as [k Hk]. congruence.
  Qed.
  (** The owned rows of a rank hold the matrix [A] and the right-hand sides [B]. *)
  Definition okrank (A B : nat -> nat -> F) (r : arank) (st : lsys F) : Prop :=
    forall l, l < numOwned (dm_own (ar_map r)) -> (exists inds vals, sg_rows (ar_sp r) !! l = Some inds /\ l_vals st !! l = Some vals /\ length vals = length inds /\
        forall p c j, inds !! p = Some c -> col_map r !! c = Some j -> vals !! p = Some (A (so_begin (dm_own (ar_map r)) + l) j)) /\
      l_rhs st !! l = Some (map (B (so_begin (dm_own (ar_map r)) + l)) (seq 0 nr)).
  Lemma row_loop a ra i inds bs vals : ranks !! a = Some ra -> dof_owned (dm_own (ar_map ra)) i -> NoDup inds -> (forall b, b ∈ bs -> b < length ranks) -> length vals = length inds ->
    exists vals', for_each (fun b vals => rb ← rd ranks b; sb ← rd sts b; xs ← packed_row rb sb i; for_each (sum_into add (col_map ra) inds) xs vals) bs vals = Ok vals' /\ length vals' = length inds /\
      forall p c j v, inds !! p = Some c -> col_map ra !! c = Some j -> vals !! p = Some v -> vals' !! p = Some (add v (Sig bs (fun b => only (b <> a) (mpart i j b)))).
  Proof using Rth W HC Hsts Hright.
    intros Ha Hi Hnd. revert vals. induction bs as [|b bs IH]; intros vals Hb Hl.
    - exists vals. split; [done|]. split; [done|]. intros p c j v _ _ ->. f_equal. cbn. ring.
    - cbn [for_each]. destruct (all_at b (Hb b ltac:(left))) as (m & rb & cs & sb & Hm & Hrb & Hcs & Hsb). rewrite (rd_ok _ _ _ Hrb), bind_ok, (rd_ok _ _ _ Hsb), bind_ok. destruct (packed_row_ok a b ra rb sb i Ha Hrb Hsb Hi) as (xs & Ex & Hx). rewrite Ex, bind_ok.
      destruct (sum_into_ok zero one add mul sub opp Rth (col_map ra) inds xs vals) as (v1 & E1 & L1 & H1); [by apply (rows_at _ _ _ _ _ W a ra Ha)|done|done|]. rewrite E1, bind_ok. destruct (IH v1) as (v2 & E2 & L2 & H2); [intros; apply Hb; by right|done|]. exists v2. split; [done|]. split; [done|].
      intros p c j v Hp Hc Hv. rewrite (H2 p c j _ Hp Hc (H1 p c j v Hp Hc Hv)). rewrite Hx, Sig_cons. f_equal. ring.
  Qed.
  Lemma rhs_loop a ra i bs v : ranks !! a = Some ra -> dof_owned (dm_own (ar_map ra)) i -> (forall b, b ∈ bs -> b < length ranks) -> length v = nr ->
    exists v', for_each (fun b v => rb ← rd ranks b; sb ← rd sts b; x ← packed_rhs zero nr rb sb i; Ok (zip_with add v x)) bs v = Ok v' /\ length v' = nr /\
      forall q y, v !! q = Some y -> v' !! q = Some (add y (Sig bs (fun b => only (b <> a) (rpart i q b)))).
  Proof using Rth W HC Hsts Hright.
    intros Ha Hi. revert v. induction bs as [|b bs IH]; intros v Hb Hl.
    - exists v. split; [done|]. split; [done|]. intros q y ->. f_equal. cbn. ring.
    - cbn [for_each]. destruct (all_at b (Hb b ltac:(left))) as (m & rb & cs & sb & Hm & Hrb & Hcs & Hsb). rewrite (rd_ok _ _ _ Hrb), bind_ok, (rd_ok _ _ _ Hsb), bind_ok. destruct (packed_rhs_ok a b ra rb sb i Ha Hrb Hsb Hi) as (x & Ex & Lx & Hx). rewrite Ex, !bind_ok.
      destruct (IH (zip_with add v x)) as (v2 & E2 & L2 & H2); [intros; apply Hb; by right|rewrite zip_with_length; lia|]. exists v2. split; [done|]. split; [done|].
      intros q y Hq. assert (q < nr) by (rewrite <- Hl; by eapply lookup_lt_Some). rewrite (H2 q (add y (only (b <> a) (rpart i q b)))); [rewrite Sig_cons; f_equal; ring|]. apply lookup_zip_with_Some. eexists _, _. split; [reflexivity|]. split; [done|]. by apply Hx.
  Qed.
  Lemma end_ok a ra : ranks !! a = Some ra -> exists st, end_rank zero add nr ranks sts from a = Ok st /\ okrank (Amat zero add ranks calls) (Bvec zero add ranks calls) ra st.
  Proof using Rth W HC Hsts Hright Hfrom.
    intros Ha. pose proof (lookup_lt_Some _ _ _ Ha) as Hal. destruct (all_at a Hal) as (m & r & cs & st & Hm & Hr & Hcs & Hst). assert (r = ra) as -> by congruence. pose proof (Hright a ra cs st Ha Hcs Hst) as R. destruct (rows_at _ _ _ _ _ W a ra Ha) as (R1 & R2 & R3 & R4 & R5).
    unfold end_rank. rewrite (rd_ok _ _ _ Ha), bind_ok, (rd_ok _ _ _ Hst), bind_ok. cbv zeta. set (own := dm_own (ar_map ra)) in *. set (n := numOwned own).
    assert (Hi : forall l, l < n -> row_map ra !! l = Some (so_begin own + l) /\ dof_owned own (so_begin own + l) /\ col_map ra !! l = Some (so_begin own + l)).
    { intros l Hl. split; [by apply all_ids_owned|]. split; [unfold dof_owned, n, numOwned in *; lia|]. destruct (cols_at _ _ _ _ _ W a ra Ha) as (_ & C1 & C2). fold own in C1, C2. rewrite <- C2 by (fold n; lia). apply all_ids_owned. rewrite C1. done. }
    assert (Hbs : forall l b, b ∈ from l -> b < length ranks) by (intros l b Hb; rewrite Hfrom in Hb; apply elem_of_seq in Hb; lia).
    set (fv := fun l => inds ← rd (sg_rows (ar_sp ra)) l; _).
    assert (Hv : forall l, l < n -> exists inds vals, sg_rows (ar_sp ra) !! l = Some inds /\ fv l = Ok vals /\ length vals = length inds /\ forall p c j, inds !! p = Some c -> col_map ra !! c = Some j -> vals !! p = Some (Amat zero add ranks calls (so_begin own + l) j)).
    { intros l Hl. destruct (Hi l Hl) as (I1 & I2 & I3). destruct (lookup_lt_is_Some_2 (sg_rows (ar_sp ra)) l) as [inds Hin]; [rewrite R1; by eapply lookup_lt_Some|]. destruct (Forall2_lookup_l _ _ _ _ _ (ri_vlen _ _ _ _ _ R) Hin) as (vals0 & Hv0 & Lv0).
      destruct (row_loop a ra (so_begin own + l) inds (from l) vals0 Ha I2 (proj1 (R4 l inds Hin)) (Hbs l) Lv0) as (vals & E & L & H). exists inds, vals. split; [done|]. split; [unfold fv; rewrite (rd_ok _ _ _ Hin), bind_ok, (rd_ok _ _ _ Hv0), bind_ok; exact E|]. split; [done|].
      intros p c j Hp Hc. rewrite (H p c j _ Hp Hc (ri_vals _ _ _ _ _ R l _ inds vals0 p c j I1 Hin Hv0 Hp Hc)). f_equal. rewrite (Sig_perm _ _ _ (Hfrom l)), Amat_parts. rewrite <- (Sig_but _ a (mpart (so_begin own + l) j) Hal). f_equal. unfold mpart. by rewrite Ha, Hcs. }
    destruct (map_res_ex fv (seq 0 n)) as (vals & Ev & HFv). { intros l Hl. apply elem_of_seq in Hl. destruct (Hv l ltac:(lia)) as (inds & v & _ & E & _). eauto. }
    rewrite Ev, bind_ok. set (fb := fun l => v ← rd (l_rhs st) l; _).
    assert (Hb : forall l, l < n -> fb l = Ok (map (Bvec zero add ranks calls (so_begin own + l)) (seq 0 nr))).
    { intros l Hl. destruct (Hi l Hl) as (I1 & I2 & I3). destruct (ri_rlen _ _ _ _ _ R) as [L1 L2]. destruct (lookup_lt_is_Some_2 (l_rhs st) l) as [b0 Hb0]; [rewrite L1; by eapply lookup_lt_Some|]. assert (Lb : length b0 = nr) by exact (proj1 (Forall_lookup _ _) L2 _ _ Hb0).
      destruct (rhs_loop a ra (so_begin own + l) (from l) b0 Ha I2 (Hbs l) Lb) as (v & E & L & H). unfold fb. rewrite (rd_ok _ _ _ Hb0), bind_ok, E. f_equal. apply list_eq_same_length with nr; [by rewrite map_length, seq_length|done|]. intros q x y Hq Hx Hy. rewrite (H q _ (ri_rhs _ _ _ _ _ R l _ b0 q I3 Hb0 Hq)) in Hx. injection Hx as <-.
      change (map ?f (seq 0 nr)) with (f <$> seq 0 nr) in Hy. rewrite list_lookup_fmap, lookup_seq_lt in Hy by done. injection Hy as <-. rewrite Nat.add_0_l, (Sig_perm _ _ _ (Hfrom l)), Bvec_parts. rewrite <- (Sig_but _ a (rpart (so_begin own + l) q) Hal). f_equal. unfold rpart. by rewrite Ha, Hcs. }
    rewrite (map_res_ok fb (fun l => map (Bvec zero add ranks calls (so_begin own + l)) (seq 0 nr))), bind_ok by (intros l Hl; apply elem_of_seq in Hl; apply Hb; lia).
    eexists. split; [reflexivity|]. intros l Hl. fold own in Hl |- *. fold n in Hl. cbn [l_vals l_rhs]. split.
    - destruct (Hv l Hl) as (inds & v & Hin & E & L & H). exists inds, v. split; [done|]. split; [|done]. assert (Hsl : seq 0 n !! l = Some l) by (by apply lookup_seq_lt). destruct (Forall2_lookup_l _ _ _ _ _ HFv Hsl) as (v' & Hv' & E'). rewrite lookup_app_l by (by eapply lookup_lt_Some). rewrite Hv'. congruence.
    - rewrite lookup_app_l by (by rewrite map_length, seq_length). change (map ?f (seq 0 n)) with (f <$> seq 0 n). by rewrite list_lookup_fmap, lookup_seq_lt.
  Qed.
End values.
