(** C75: diagonal and right-hand side. *)
From Verif Require Import Base StdAlgo Elem_proofs Merge_model Merge_proofs Dofs_model Ownership_spec Ownership_proofs ImportExport_spec NodeVals_model NodeVals_spec NodeVals_proofs NodeVals_props Exch_proofs LocalBC_model LocalBC_proofs Cond_spec Cond3_proofs MatFree_model MatFree_spec MatFree_proofs MatFree2_proofs MatFree3_proofs MatFree4_proofs.

Section rank.
  Context {F : Type} (zero one : F) (add mul sub : F -> F -> F) (opp : F -> F) (Rth : ring_theory zero one add mul sub opp eq).
  Add Ring Fring5 : Rth.
  Notation fsum := (fsum zero add).
  Notation Sig := (Cond_spec.Sig zero add).
  Notation only := (Cond_spec.only zero).
  Lemma Sig_sub {A} (l : list A) f h : Sig l (fun a => sub (f a) (h a)) = sub (Sig l f) (Sig l h).
  Proof using Rth. induction l as [|a l IH]; [rewrite !Sig_nil; ring|]. rewrite !Sig_cons, IH. ring. Qed.
  Context (counts : list nat) (shareds : list (list nat)) (HT : tables counts shareds) (b c : nat) (sh : list nat) (Hc : counts !! b = Some c) (Hsh : shareds !! b = Some sh).
  Context (dir : nat -> bool) (bc : dbc) (Hbc : bc_ok counts shareds dir b bc).
  Notation s := (length sh).
  Notation local := (local_of counts shareds b).
  Notation hit := (hits counts shareds b).
  Context (nr : nat) (V : nat -> nat -> F) (vals : list (list F)) (Lv : length vals = nr) (HV : forall r col g l, vals !! r = Some col -> local g = Some l -> col !! l = Some (V g r)).
  Context (m : local_dof_map).
  Notation part := (job_part zero add counts shareds b m).
  (** What a job adds to column 0 and to column [1 + r] of [g]. *)
  Definition init_part (j : job F) (K B : nat -> nat -> F) (g r' : nat) : F :=
    match r' with
    | 0 => Sig (seq 0 (n_dofs j)) (fun i => only (hit g (job_dof m j i) = true) (K i i))
    | S r => sub (Sig (seq 0 (n_dofs j)) (fun i => only (hit g (job_dof m j i) = true) (B i r))) (Sig (seq 0 (N counts)) (fun h => only (dir h = true) (mul (part K j g h) (V h r))))
    end.
  Lemma inds_ok (j : job F) : getDirichletDofInds (map (job_dof m j) (seq 0 (n_dofs j))) bc = List.filter (fun i => isDirichletDof bc (job_dof m j i)) (seq 0 (n_dofs j)).
  Proof using.
    clear. unfold getDirichletDofInds. rewrite map_length, seq_length. destruct (bcs_exist bc) eqn:E.
    - apply filter_ext_in. intros i Hi%elem_of_list_In%elem_of_seq. by rewrite map_lookup, lookup_seq_lt by lia.
    - symmetry. assert (Hf : forall d, isDirichletDof bc d = false) by (intros d; rewrite <- bcs_dir, E; done). generalize (seq 0 (n_dofs j)). induction l as [|i l IH]; [done|]. cbn [List.filter]. by rewrite Hf.
  Qed.
  Lemma init_job_ok border j K B : job_ok m (if border : bool then c + s else c) j -> initialises zero add mul sub nr j K B ->
    exists cells, init_job zero border c s nr vals bc m j = Ok cells /\ (forall z, z ∈ cells -> z.1.1 < (if border then c + s else c) /\ z.1.2 < 1 + nr) /\
      forall g l r', local g = Some l -> r' < 1 + nr -> fsum (at_cell l r' cells) = init_part j K B g r'.
  Proof using Rth HT Hc Hsh Hbc Lv HV.
    intros Hj HI. assert (Hj' : job_ok m (c + s) j) by (eapply job_weaken; [|done]; destruct border; lia).
    unfold init_job. rewrite (getDofs_ok border c s m j Hj), bind_ok. cbv zeta. rewrite inds_ok. set (inds := List.filter (fun i => isDirichletDof bc (job_dof m j i)) (seq 0 (n_dofs j))).
    assert (Hinds : forall k, k ∈ inds -> k < n_dofs j) by (intros k Hk; apply filter_In' in Hk as [Hk%elem_of_seq _]; lia).
    pose (vl := fun k r => Sig (seq 0 (N counts)) (fun h => only (hit h (job_dof m j k) = true) (V h r))).
    assert (Hvl : forall k, k < n_dofs j -> exists h l, local h = Some l /\ job_dof m j k = Some l /\ forall r, vl k r = V h r).
    { intros k Hk. destruct Hj' as [_ Hd]. destruct (Hd k Hk) as (l & El & Hl). destruct (hit_sum zero one add mul sub opp Rth counts shareds HT b c sh Hc Hsh l (fun h => V h 0) Hl) as (h & Hh & _). exists h, l. split; [done|]. split; [done|]. intros r. unfold vl. rewrite El. destruct (hit_sum zero one add mul sub opp Rth counts shareds HT b c sh Hc Hsh l (fun h => V h r) Hl) as (h' & Hh' & ->). by rewrite (local_inj counts shareds HT b h' h l Hh' Hh). }
    unfold gatherDirichletVals. rewrite (map_res_ok _ (fun k => map (vl k) (seq 0 nr))).
    2: { intros k Hk%Hinds. rewrite (rd_ok _ _ (job_dof m j k)) by (by apply dofs_at_seq). rewrite bind_ok. destruct (Hvl k Hk) as (h & l & Hh & El & Hr). rewrite El. apply map_res_ok. intros r Hrr%elem_of_seq. destruct (lookup_lt_is_Some_2 vals r ltac:(lia)) as [col Hcol]. rewrite (rd_ok _ _ _ Hcol), bind_ok, Hr. apply rd_ok. by eapply HV. }
    rewrite bind_ok. destruct (HI inds (fun k r => nth r (nth k (map (fun k => map (vl k) (seq 0 nr)) inds) []) zero) Hinds) as (d & rhs & E & Hd & Hrhs). rewrite E, bind_ok.
    pose (val := fun i r' => match r' with 0 => d i | S r => rhs i r end).
    rewrite map_length, seq_length. rewrite (map_res_ok _ (cells_of mul None one (1 + nr) m j val)).
    2: { intros i Hi%elem_of_seq. rewrite (rd_ok _ _ (job_dof m j i)) by (apply dofs_at_seq; lia). rewrite bind_ok. rewrite (cell_ok border c s m j Hj true) by (lia || by right). rewrite bind_ok. rewrite (map_res_ok _ (fun r => (lofs m j i, S r, rhs i r))) by (intros r _; apply (cell_ok border c s m j Hj); [lia|by left]). rewrite bind_ok. f_equal. unfold cells_of. cbn [isDirichletDof plus seq map]. f_equal; [f_equal; unfold val; ring|]. rewrite <- seq_shift, map_map. apply map_ext. intros r. f_equal. unfold val. ring. }
    rewrite bind_ok. eexists. split; [done|]. fold (job_cells mul None one (1 + nr) m j val). split.
    - intros z Hz. by eapply job_cells_in.
    - intros g l r' Hl Hr. rewrite (job_cells_sum zero one add mul sub opp Rth border c s None one (1 + nr) m j Hj) by done. cbn [isDirichletDof].
      transitivity (Sig (seq 0 (n_dofs j)) (fun i => only (hit g (job_dof m j i) = true) (val i r'))).
      { apply Sig_ext. intros i _. apply only_ext; [symmetry; by apply hit_iff|]. intros _. ring. }
      destruct r' as [|r]; cbn [init_part val].
      + apply Sig_ext. intros i Hi%elem_of_seq. f_equal. apply Hd. lia.
      + transitivity (Sig (seq 0 (n_dofs j)) (fun i => sub (only (hit g (job_dof m j i) = true) (B i r)) (only (hit g (job_dof m j i) = true) (Sig (seq 0 (N counts)) (fun h => only (dir h = true) (mul (Sig (seq 0 (n_dofs j)) (fun k => only (hit h (job_dof m j k) = true) (K i k))) (V h r))))))).
        * apply Sig_ext. intros i Hi%elem_of_seq. unfold Cond_spec.only at 1 2 3. destruct (decide (hit g (job_dof m j i) = true)); [|ring]. rewrite Hrhs by lia. f_equal.
          rewrite (Sig_ext zero add (seq 0 (length inds)) _ (fun t => mul (K i (nth t inds 0)) (vl (nth t inds 0) r))).
          2: { intros t Ht%elem_of_seq. f_equal. destruct (lookup_lt_is_Some_2 inds t ltac:(lia)) as [k Hk]. rewrite (nth_lookup_Some _ _ _ _ Hk). erewrite (nth_lookup_Some _ t); [|by rewrite map_lookup, Hk]. erewrite (nth_lookup_Some _ r); [done|]. rewrite map_lookup, lookup_seq_lt by lia. done. }
          rewrite (Sig_nth zero add inds 0 (fun k => mul (K i k) (vl k r))). unfold inds. rewrite (Sig_filter zero one add mul sub opp Rth).
          transitivity (Sig (seq 0 (n_dofs j)) (fun k => Sig (seq 0 (N counts)) (fun h => only (dir h = true) (mul (only (hit h (job_dof m j k) = true) (K i k)) (V h r))))).
          -- apply Sig_ext. intros k Hk%elem_of_seq. destruct (Hvl k ltac:(lia)) as (h0 & l0 & Hh0 & El0 & _). rewrite El0, (dir_at counts shareds b dir bc Hbc h0 l0 Hh0). unfold vl. rewrite El0, (Sig_mul_l zero one add mul sub opp Rth), (only_Sig zero one add mul sub opp Rth). apply Sig_ext. intros h _.
             destruct (hit h (Some l0)) eqn:Eh.
             ++ assert (h = h0) as ->. { unfold hits in Eh. destruct (local h) as [l1|] eqn:E1; [|done]. apply Nat.eqb_eq in Eh. subst l1. by eapply local_inj. } rewrite !(only_true _ (true = true)) by done. done.
             ++ rewrite !(only_false _ (false = true)) by done. unfold Cond_spec.only. destruct (decide (dir h0 = true)), (decide (dir h = true)); ring.
          -- rewrite (Sig_swap zero one add mul sub opp Rth). apply Sig_ext. intros h _. rewrite (Sig_mul_r zero one add mul sub opp Rth), (only_Sig zero one add mul sub opp Rth). done.
        * rewrite Sig_sub. f_equal. rewrite (Sig_ext zero add _ _ (fun i => Sig (seq 0 (N counts)) (fun h => only (dir h = true) (mul (only (hit g (job_dof m j i) = true) (Sig (seq 0 (n_dofs j)) (fun k => only (hit h (job_dof m j k) = true) (K i k)))) (V h r))))).
          -- rewrite (Sig_swap zero one add mul sub opp Rth). apply Sig_ext. intros h _. unfold job_part. by rewrite (Sig_mul_r zero one add mul sub opp Rth), (only_Sig zero one add mul sub opp Rth).
          -- intros i _. rewrite (only_Sig zero one add mul sub opp Rth). apply Sig_ext. intros h _. generalize (Sig (seq 0 (n_dofs j)) (fun k => only (hit h (job_dof m j k) = true) (K i k))). intros S0. unfold Cond_spec.only. destruct (decide (hit g (job_dof m j i) = true)), (decide (dir h = true)); ring.
  Qed.
  Lemma init_jobs_ok border js (K B : job F -> nat -> nat -> F) : (forall j, j ∈ js -> job_ok m (if border : bool then c + s else c) j) -> (forall j, j ∈ js -> initialises zero add mul sub nr j (K j) (B j)) ->
    exists cells, init_jobs zero border c s nr vals bc m js = Ok cells /\ (forall z, z ∈ cells -> z.1.1 < (if border then c + s else c) /\ z.1.2 < 1 + nr) /\
      forall g l r', local g = Some l -> r' < 1 + nr -> fsum (at_cell l r' cells) = Sig js (fun j => init_part j (K j) (B j) g r').
  Proof using Rth HT Hc Hsh Hbc Lv HV.
    unfold init_jobs. induction js as [|j js IH]; intros Hj HK.
    - exists []. split; [done|]. split; [intros z Hz; by apply elem_of_nil in Hz|]. done.
    - destruct IH as (cells & E & Hz & Hs); [intros; apply Hj; by right|intros; apply HK; by right|]. apply bind_inv in E as (ls & Els & [= <-]).
      destruct (init_job_ok border j (K j) (B j) (Hj j ltac:(left)) (HK j ltac:(left))) as (cj & Ej & Bj & Sj).
      cbn [map_res]. rewrite Ej, bind_ok, Els, !bind_ok. eexists. split; [done|]. cbn [concat]. split.
      + intros z Hz'. apply elem_of_app in Hz' as [Hz'|Hz']; [by apply Bj|by apply Hz].
      + intros g l r' Hl Hr. rewrite at_cell_app, (fsum_app zero add (A0 zero one add mul sub opp Rth) (AA zero one add mul sub opp Rth)), (Hs g l r' Hl Hr), (Sj g l r' Hl Hr), Sig_cons. done.
  Qed.
End rank.

(** handle_dirichlet_dof. *)
Section impose.
  Context {F : Type} (one : F).
  Lemma impose_ok c nr (vals cols : list (list F)) (val : nat -> nat -> F) order : length vals = nr -> (forall d, d ∈ order -> d < c) -> (forall d r vcol, d ∈ order -> vals !! r = Some vcol -> vcol !! d = Some (val d r)) ->
    length cols = 1 + nr -> (forall col, col ∈ cols -> length col = c) ->
    exists cols', impose one nr vals order cols = Ok cols' /\ length cols' = 1 + nr /\
      forall r' col, cols !! r' = Some col -> exists col', cols' !! r' = Some col' /\ length col' = c /\ forall l, col' !! l = if decide (l ∈ order) then Some (match r' with 0 => one | S r => val l r end) else col !! l.
  Proof.
    intros Lv Hd Hval. revert cols. induction order as [|d order IH]; intros cols Lc Hcols.
    - exists cols. split; [done|]. split; [done|]. intros r' col Hr. exists col. split; [done|]. split; [apply Hcols; by eapply elem_of_list_lookup_2|]. intros l. rewrite decide_False by apply not_elem_of_nil. done.
    - unfold impose. cbn [for_each]. destruct (lookup_lt_is_Some_2 cols 0 ltac:(lia)) as [diag Hdiag]. rewrite (rd_ok _ _ _ Hdiag), bind_ok. pose proof (Hd d ltac:(left)) as Hdc. pose proof (Hcols diag ltac:(by eapply elem_of_list_lookup_2)) as Ldiag. rewrite wr_ok by lia. rewrite bind_ok, wr_ok by lia. rewrite bind_ok. set (cols0 := <[0 := <[d := one]> diag]> cols).
      assert (Hloop : forall k, k <= nr -> exists cols1, for_each (fun r cols => col ← rd cols (1 + r); vcol ← rd vals r; v ← rd vcol d; col ← wr col d v; wr cols (1 + r) col) (seq 0 k) cols0 = Ok cols1 /\ length cols1 = 1 + nr /\
        forall r' col, cols !! r' = Some col -> exists col', cols1 !! r' = Some col' /\ length col' = c /\ forall l, col' !! l = if decide (l = d /\ r' <= k) then Some (match r' with 0 => one | S r => val l r end) else col !! l).
      { induction k as [|k IHk]; intros Hk.
        - exists cols0. split; [done|]. split; [unfold cols0; by rewrite insert_length|]. intros r' col Hr. unfold cols0. destruct r' as [|r'].
          + rewrite list_lookup_insert by lia. rewrite Hdiag in Hr. injection Hr as <-. eexists. split; [done|]. rewrite insert_length. split; [done|]. intros l. destruct (decide (l = d /\ 0 <= 0)) as [[-> _]|Hne]; [apply list_lookup_insert; lia|]. apply list_lookup_insert_ne. lia.
          + rewrite list_lookup_insert_ne by lia. exists col. split; [done|]. split; [apply Hcols; by eapply elem_of_list_lookup_2|]. intros l. rewrite decide_False by lia. done.
        - destruct (IHk ltac:(lia)) as (cols1 & E1 & L1 & H1). rewrite seq_S, for_each_app, E1, bind_ok. cbn [for_each plus]. destruct (lookup_lt_is_Some_2 cols (S k) ltac:(lia)) as [col0 Hcol0]. destruct (H1 _ _ Hcol0) as (col1 & Hcol1 & Lcol1 & Hl1). rewrite (rd_ok _ _ _ Hcol1), bind_ok. destruct (lookup_lt_is_Some_2 vals k ltac:(lia)) as [vcol Hvcol]. rewrite (rd_ok _ _ _ Hvcol), bind_ok, (rd_ok _ _ _ (Hval d k vcol ltac:(left) Hvcol)), bind_ok. rewrite wr_ok by lia. rewrite bind_ok, wr_ok by lia. rewrite bind_ok.
          eexists. split; [done|]. split; [by rewrite insert_length|]. intros r' col Hr. destruct (decide (r' = S k)) as [-> |Hne].
          + rewrite list_lookup_insert by lia. eexists. split; [done|]. rewrite insert_length. split; [done|]. rewrite Hcol0 in Hr. injection Hr as <-. intros l. destruct (decide (l = d /\ S k <= S k)) as [[-> _]|Hn]; [apply list_lookup_insert; lia|]. rewrite list_lookup_insert_ne by lia. rewrite Hl1, decide_False by lia. done.
          + rewrite list_lookup_insert_ne by lia. destruct (H1 r' col Hr) as (col' & Hc' & Lc' & Hl'). exists col'. split; [done|]. split; [done|]. intros l. rewrite Hl'. destruct (decide (l = d /\ r' <= k)), (decide (l = d /\ r' <= S k)); try done; lia. }
      destruct (Hloop nr ltac:(lia)) as (cols1 & E1 & L1 & H1). rewrite E1, bind_ok. fold (impose one nr vals order cols1).
      destruct (IH ltac:(intros; apply Hd; by right) ltac:(intros ?????; eapply Hval; [by right|done]) cols1 L1) as (cols2 & E2 & L2 & H2).
      { intros col Hcol. apply elem_of_list_lookup in Hcol as [r' Hr']. pose proof (lookup_lt_Some _ _ _ Hr'). destruct (lookup_lt_is_Some_2 cols r' ltac:(lia)) as [col0 Hcol0]. destruct (H1 _ _ Hcol0) as (col1 & Hcol1 & Lcol1 & _). congruence. }
      exists cols2. split; [done|]. split; [done|]. intros r' col Hr. destruct (H1 _ _ Hr) as (col1 & Hcol1 & Lcol1 & Hl1). destruct (H2 _ _ Hcol1) as (col2 & Hcol2 & Lcol2 & Hl2). exists col2. split; [done|]. split; [done|]. intros l. rewrite Hl2, Hl1. pose proof (lookup_lt_Some _ _ _ Hr) as Hrlt. destruct (decide (l ∈ order)) as [Hl|Hl]; [rewrite decide_True by (by right); done|]. destruct (decide (l = d /\ r' <= nr)) as [[-> _]|Hne]; [rewrite decide_True by left; done|]. rewrite decide_False; [done|]. rewrite elem_of_cons. intros [-> |?]; [lia|done].
  Qed.
End impose.

Section world.
  Context {F : Type} (zero one : F) (add mul sub : F -> F -> F) (opp : F -> F) (Rth : ring_theory zero one add mul sub opp eq).
  Add Ring Fring6 : Rth.
  Notation fsum := (fsum zero add).
  Notation Sig := (Cond_spec.Sig zero add).
  Notation only := (Cond_spec.only zero).
  Context (counts : list nat) (shareds : list (list nat)) (ranks : list (mf_rank F)) (dir : nat -> bool) (HW : mf_world counts shareds ranks dir).
  Context (K B : job F -> nat -> nat -> F) (nr : nat) (V : nat -> nat -> F).
  Definition all_initialise : Prop := forall b r j, ranks !! b = Some r -> j ∈ mr_border r ++ mr_interior r -> initialises zero add mul sub nr j (K j) (B j).
  Notation ipart b rk j g r' := (init_part zero add mul sub counts shareds b dir V (mr_map rk) j (K j) (B j) g r').
  Lemma init_cells_ok (vals : list (list (list F))) b c sh rk v : all_initialise -> holds_all counts shareds nr V vals -> counts !! b = Some c -> shareds !! b = Some sh -> ranks !! b = Some rk -> vals !! b = Some v ->
    exists cb ci, init_cells zero c (length sh) nr rk v = Ok (cb, ci) /\ (forall z, z ∈ cb -> z.1.1 < c + length sh /\ z.1.2 < 1 + nr) /\ (forall z, z ∈ ci -> z.1.1 < c /\ z.1.2 < 1 + nr) /\
      forall g l r', local_of counts shareds b g = Some l -> r' < 1 + nr -> fsum (at_cell l r' (cb ++ ci)) = Sig (mr_border rk ++ mr_interior rk) (fun j => ipart b rk j g r').
  Proof using Rth HW.
    intros HI [_ Hv] Hc Hsh Hrk Hvb. destruct (Hv b v Hvb) as [Lv HV]. destruct HW as [HT HL HB HIn HBC]. clear HW. specialize (HBC b rk Hrk).
    destruct (init_jobs_ok zero one add mul sub opp Rth counts shareds HT b c sh Hc Hsh dir (mr_bc rk) HBC nr V v Lv HV (mr_map rk) true (mr_border rk) K B) as (cb & Eb & Bb & Sb).
    { intros j Hj. by eapply HB. } { intros j Hj. eapply HI; [done|]. apply elem_of_app. by left. }
    destruct (init_jobs_ok zero one add mul sub opp Rth counts shareds HT b c sh Hc Hsh dir (mr_bc rk) HBC nr V v Lv HV (mr_map rk) false (mr_interior rk) K B) as (ci & Ei & Bi & Si).
    { intros j Hj. by eapply HIn. } { intros j Hj. eapply HI; [done|]. apply elem_of_app. by right. }
    exists cb, ci. unfold init_cells. rewrite Eb, bind_ok, Ei, bind_ok. split; [done|]. split; [done|]. split; [done|].
    intros g l r' Hl Hr. rewrite at_cell_app, (fsum_app zero add (A0 zero one add mul sub opp Rth) (AA zero one add mul sub opp Rth)), (Sb g l r' Hl Hr), (Si g l r' Hl Hr), (Sig_app zero one add mul sub opp Rth). done.
  Qed.
  Lemma init_result_ok (vals : list (list (list F))) b c sh rk v : all_initialise -> holds_all counts shareds nr V vals -> counts !! b = Some c -> shareds !! b = Some sh -> ranks !! b = Some rk -> vals !! b = Some v ->
    exists cb ci, init_cells zero c (length sh) nr rk v = Ok (cb, ci) /\
      forall pre post, pre ≡ₚ cb -> post ≡ₚ ci -> exists out, init_result zero add c (length sh) nr pre post = Ok out /\ length out.1 = 1 + nr /\ length out.2 = 1 + nr /\
        forall r, r < 1 + nr -> exists sent own, out.1 !! r = Some sent /\ out.2 !! r = Some own /\ length own = c /\
         (forall j, j < length sh -> sent !! j = Some (fsum (at_cell (c + j) r (cb ++ ci)))) /\
         (forall g, owns counts b g -> own !! (g - first_owned counts b) = Some (add zero (fsum (at_cell (g - first_owned counts b) r (cb ++ ci))))).
  Proof using Rth HW.
    intros HI HA Hc Hsh Hrk Hv. destruct (init_cells_ok vals b c sh rk v HI HA Hc Hsh Hrk Hv) as (cb & ci & E & B1 & B2 & _). exists cb, ci. split; [done|]. intros pre post H1 H2.
    destruct (phases_ok zero one add mul sub opp Rth c (length sh) (1 + nr) pre post cb ci (replicate (1 + nr) (replicate c zero)) zero) as (out & Eo & L1 & L2 & Ho).
    - by rewrite H1, H2.
    - intros z Hz. rewrite H2 in Hz. by apply B2.
    - intros z Hz. by apply B2.
    - intros z Hz. by apply B1.
    - intros z Hz. apply elem_of_app in Hz as [Hz|Hz]; [by apply B1|by apply B2].
    - apply replicate_length.
    - intros col Hcol. apply elem_of_replicate in Hcol as [-> _]. apply replicate_length.
    - exists out. split; [unfold init_result; rewrite <- Eo; f_equal; generalize (1 + nr); clear; induction n as [|n IHn]; [done|]; cbn [replicate map]; by rewrite IHn|]. split; [done|]. split; [done|]. intros r Hr. destruct (Ho r (replicate c zero) ltac:(by apply lookup_replicate_2)) as (sent & own & H3 & H4 & H5 & H6 & H7 & H8). exists sent, own. split; [done|]. split; [done|]. split; [done|]. split; [done|]. intros g (c' & Hc' & Hg). rewrite Hc in Hc'. injection Hc' as <-. apply H8, lookup_replicate_2. lia.
  Qed.
  Lemma ipart_none b (rk : mf_rank F) j g r' : local_of counts shareds b g = None -> ipart b rk j g r' = zero.
  Proof using Rth.
    intros Hl. destruct r' as [|r]; cbn [init_part].
    - apply (Sig_0 zero one add mul sub opp Rth). intros i _. apply only_false. by rewrite hit_none.
    - rewrite (Sig_0 zero one add mul sub opp Rth _ (fun i => only (hits counts shareds b g (job_dof (mr_map rk) j i) = true) (B j i r))) by (intros i _; apply only_false; by rewrite hit_none). rewrite (Sig_0 zero one add mul sub opp Rth); [ring|]. intros h _. rewrite (part_none zero one add mul sub opp Rth counts shareds K b rk) by done. unfold Cond_spec.only. destruct (decide (dir h = true)); ring.
  Qed.
  (** Before Dirichlet rows are set. *)
  Definition raw (g r' : nat) : F :=
    match r' with 0 => Dvec zero add counts shareds ranks K g | S r => sub (Bvec zero add counts shareds ranks B g r) (Sig (seq 0 (N counts)) (fun h => only (dir h = true) (mul (Amat zero add counts shareds ranks K g h) (V h r)))) end.
  Lemma raw_total g r' : Sig (seq 0 (length counts)) (fun b => match ranks !! b, local_of counts shareds b g with Some rk, Some l => Sig (mr_border rk ++ mr_interior rk) (fun j => ipart b rk j g r') | _, _ => zero end) = raw g r'.
  Proof using Rth HW.
    rewrite <- (mw_length _ _ _ _ HW). transitivity (Sig (seq 0 (length ranks)) (fun b => match ranks !! b with Some rk => Sig (mr_border rk ++ mr_interior rk) (fun j => ipart b rk j g r') | None => zero end)).
    - apply Sig_ext. intros b _. destruct (ranks !! b) as [rk|]; [|done]. destruct (local_of counts shareds b g) eqn:El; [done|]. symmetry. apply (Sig_0 zero one add mul sub opp Rth). intros j _. by apply ipart_none.
    - destruct r' as [|r]; cbn [raw init_part]; [done|].
      transitivity (Sig (seq 0 (length ranks)) (fun b => sub (match ranks !! b with Some rk => Sig (mr_border rk ++ mr_interior rk) (fun j => Sig (seq 0 (n_dofs j)) (fun i => only (hits counts shareds b g (job_dof (mr_map rk) j i) = true) (B j i r))) | None => zero end)
        (Sig (seq 0 (N counts)) (fun h => only (dir h = true) (mul (match ranks !! b with Some rk => Sig (mr_border rk ++ mr_interior rk) (fun j => job_part zero add counts shareds b (mr_map rk) (K j) j g h) | None => zero end) (V h r)))))).
      + apply Sig_ext. intros b _. destruct (ranks !! b) as [rk|].
        * rewrite (Sig_sub zero one add mul sub opp Rth). f_equal. rewrite (Sig_swap zero one add mul sub opp Rth). apply Sig_ext. intros h _. by rewrite (Sig_mul_r zero one add mul sub opp Rth), (only_Sig zero one add mul sub opp Rth).
        * rewrite (Sig_0 zero one add mul sub opp Rth); [ring|]. intros h _. unfold Cond_spec.only. destruct (decide (dir h = true)); ring.
      + rewrite (Sig_sub zero one add mul sub opp Rth). f_equal. rewrite (Sig_swap zero one add mul sub opp Rth). apply Sig_ext. intros h _. unfold Amat, over_jobs. by rewrite (Sig_mul_r zero one add mul sub opp Rth), (only_Sig zero one add mul sub opp Rth).
  Qed.
  Lemma raw_ok (vals : list (list (list F))) outs news : all_initialise -> holds_all counts shareds nr V vals ->
    initialised zero add counts shareds ranks nr vals outs -> all_exported add counts shareds (1 + nr) outs news -> holds counts (1 + nr) raw news.
  Proof using Rth HW.
    intros HI HA [Lo Hin] HE.
    pose (cells := fun b => match counts !! b, shareds !! b, ranks !! b, vals !! b with Some c, Some sh, Some rk, Some v => match init_cells zero c (length sh) nr rk v with Ok (cb, ci) => cb ++ ci | _ => [] end | _, _, _, _ => [] end).
    assert (Hlens : length shareds = length counts /\ length ranks = length counts /\ length vals = length counts).
    { destruct HW as [[HS _] HL _ _ _]. destruct HA as [? _]. done. }
    destruct Hlens as (LS & LR & LX).
    assert (Hex := exchange_ok zero one add mul sub opp Rth counts shareds (mw_tables _ _ _ _ HW) (1 + nr) outs news cells (fun _ _ => zero) Lo).
    eapply holds_ext; [|apply Hex; [|done]].
    - intros g r a Ho Hr. cbv beta. rewrite (A0 zero one add mul sub opp Rth), <- (raw_total g r). apply Sig_ext. intros b Hb%elem_of_seq.
      destruct (lookup_lt_is_Some_2 counts b ltac:(lia)) as [c Hc]. destruct (lookup_lt_is_Some_2 shareds b ltac:(lia)) as [sh Hsh]. destruct (lookup_lt_is_Some_2 ranks b ltac:(lia)) as [rk Hrk]. destruct (lookup_lt_is_Some_2 vals b ltac:(lia)) as [v Hv].
      destruct (init_cells_ok vals b c sh rk v HI HA Hc Hsh Hrk Hv) as (cb & ci & E & _ & _ & HS). unfold cells. rewrite Hc, Hsh, Hrk, Hv, E. destruct (local_of counts shareds b g) as [l|] eqn:El; [|done]. by apply HS.
    - intros b c sh out Hc Hsh Hout. pose proof (lookup_lt_Some _ _ _ Hc) as Hb. destruct (lookup_lt_is_Some_2 ranks b ltac:(lia)) as [rk Hrk]. destruct (lookup_lt_is_Some_2 vals b ltac:(lia)) as [v Hv].
      destruct (Hin b c sh rk v out Hc Hsh Hrk Hv Hout) as (cb & ci & pre & post & E & HP1 & HP2 & Er). destruct (init_result_ok vals b c sh rk v HI HA Hc Hsh Hrk Hv) as (cb' & ci' & E' & H). rewrite E in E'. injection E' as <- <-. destruct (H pre post HP1 HP2) as (out' & Eo & L1 & L2 & Hr). rewrite Er in Eo. injection Eo as <-. unfold cells. rewrite Hc, Hsh, Hrk, Hv, E. done.
  Qed.
  (** With the Dirichlet rows. *)
  Definition final (g r' : nat) : F := match r' with 0 => if dir g then one else Dvec zero add counts shareds ranks K g | S r => Bdir zero add mul sub counts shareds ranks dir K B V g r end.
  Definition rank_order (rk : mf_rank F) (order : list nat) : Prop := order ≡ₚ match mr_bc rk with Some (_, sorted) => sorted | None => [] end.
  Lemma final_rank (vals news : list (list (list F))) b c sh rk v new order : holds_all counts shareds nr V vals -> holds counts (1 + nr) raw news ->
    counts !! b = Some c -> shareds !! b = Some sh -> ranks !! b = Some rk -> vals !! b = Some v -> news !! b = Some new -> rank_order rk order ->
    exists new', impose one nr v order new = Ok new' /\ length new' = 1 + nr /\ forall r' col, new' !! r' = Some col -> length col = c /\ forall g, owns counts b g -> col !! (g - first_owned counts b) = Some (final g r').
  Proof using HW.
    intros [_ HA] [_ HR] Hc Hsh Hrk Hv Hn Ho. destruct (HA b v Hv) as [Lv HV]. destruct (HR b c new Hc Hn) as [Ln Hnew].
    pose proof (mw_tables _ _ _ _ HW) as HT. pose proof (mw_bc _ _ _ _ HW b rk Hrk) as HB.
    assert (Hord : (forall l, l ∈ order -> exists g, local_of counts shareds b g = Some l) /\ forall g l, local_of counts shareds b g = Some l -> l ∈ order <-> dir g = true /\ owns counts b g).
    { unfold rank_order in Ho. unfold bc_ok in HB. destruct (mr_bc rk) as [[set sorted]|].
      - destruct HB as (_ & H2 & H3 & _). split; [intros l Hl; rewrite Ho in Hl; by apply H3|]. intros g l Hl. rewrite Ho. by apply H2.
      - apply Permutation_nil_r in Ho as ->. split; [intros l Hl; by apply elem_of_nil in Hl|]. intros g l Hl. split; [intros H; by apply elem_of_nil in H|]. intros [Hd _]. by rewrite (HB g l Hl) in Hd. }
    destruct Hord as [HO1 HO2].
    destruct (impose_ok one c nr v new (fun l r => V (first_owned counts b + l) r) order Lv) as (new' & E & L' & H').
    - intros l Hl. destruct (HO1 l Hl) as [g Hg]. destruct (proj1 (HO2 g l Hg) Hl) as [_ Hgo]. by apply (owns_local counts shareds HT b c sh Hc Hsh g l Hg).
    - intros l r vcol Hl Hvc. destruct (HO1 l Hl) as [g Hg]. destruct (proj1 (HO2 g l Hg) Hl) as [_ Hgo]. destruct (local_cases counts shareds HT b c sh g l Hc Hsh Hg) as [(_ & -> & _)|(Hgs & _)].
      + replace (first_owned counts b + (g - first_owned counts b)) with g by (destruct Hgo as (? & _ & ?); lia). by eapply HV.
      + destruct HT as [_ HS]. destruct (HS b sh Hsh) as [_ HS']. by destruct (HS' g Hgs).
    - done.
    - intros col Hcol. apply elem_of_list_lookup in Hcol as [r Hr]. by destruct (Hnew r col Hr).
    - exists new'. split; [done|]. split; [done|]. intros r' col Hr. pose proof (lookup_lt_Some _ _ _ Hr) as Hlt. destruct (lookup_lt_is_Some_2 new r' ltac:(lia)) as [col0 Hcol0]. destruct (H' r' col0 Hcol0) as (col' & Hcol' & Lcol' & Hl). rewrite Hr in Hcol'. injection Hcol' as <-. split; [done|]. intros g Hg. rewrite Hl. destruct (Hnew r' col0 Hcol0) as [_ Hraw].
      assert (Hloc : local_of counts shareds b g = Some (g - first_owned counts b)). { unfold local_of. rewrite Hc, Hsh. cbn [mbind option_bind]. destruct Hg as (c' & Hc' & Hgr). rewrite Hc in Hc'. injection Hc' as <-. by rewrite decide_True by lia. }
      pose proof (HO2 g _ Hloc) as HO. replace (first_owned counts b + (g - first_owned counts b)) with g by (destruct Hg as (? & _ & ?); lia). destruct (decide (g - first_owned counts b ∈ order)) as [Hin|Hin].
      + destruct (proj1 HO Hin) as [Hdir _]. destruct r' as [|r]; cbn [final]; [by rewrite Hdir|]. unfold Bdir. by rewrite Hdir.
      + assert (Hdir : dir g = false) by (apply not_true_is_false; intros Hd; apply Hin, HO; done). rewrite (Hraw g Hg). destruct r' as [|r]; cbn [final raw]; [by rewrite Hdir|]. unfold Bdir. by rewrite Hdir.
  Qed.
End world.
