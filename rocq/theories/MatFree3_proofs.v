(** C75: what a rank adds, and the operator of all ranks. *)
From Verif Require Import Base StdAlgo Elem_proofs Merge_model Merge_proofs Dofs_model Ownership_spec Ownership_proofs ImportExport_spec NodeVals_model NodeVals_spec NodeVals_proofs NodeVals_props Exch_proofs LocalBC_model LocalBC_proofs Cond_spec Cond3_proofs MatFree_model MatFree_spec MatFree_proofs MatFree2_proofs.

Section rank.
  Context {F : Type} (zero one : F) (add mul sub : F -> F -> F) (opp : F -> F) (Rth : ring_theory zero one add mul sub opp eq).
  Add Ring Fring3 : Rth.
  Notation fsum := (fsum zero add).
  Notation Sig := (Cond_spec.Sig zero add).
  Notation only := (Cond_spec.only zero).
  Context (counts : list nat) (shareds : list (list nat)) (HT : tables counts shareds) (b c : nat) (sh : list nat) (Hc : counts !! b = Some c) (Hsh : shareds !! b = Some sh).
  Context (dir : nat -> bool) (bc : dbc) (Hbc : bc_ok counts shareds dir b bc).
  Notation s := (length sh).
  Notation local := (local_of counts shareds b).
  Notation hit := (hits counts shareds b).

  Lemma dir_at g l : local g = Some l -> isDirichletDof bc (Some l) = dir g.
  Proof using Hbc.
    clear -Hbc. intros Hl. unfold bc_ok in Hbc. unfold isDirichletDof. destruct bc as [[set sorted]|]; [|symmetry; by eapply Hbc]. destruct Hbc as (H1 & _). specialize (H1 g l Hl). apply eq_true_iff_eq. rewrite existsb_elem, <- H1. split; [intros (z & Hz & E%Nat.eqb_eq); by subst z|]. intros H. exists l. split; [done|apply Nat.eqb_refl].
  Qed.
  Lemma hit_iff g l d : local g = Some l -> hit g d = true <-> d = Some l.
  Proof using. clear. intros Hl. unfold hits. rewrite Hl. destruct d as [l'|]; [|naive_solver]. rewrite Nat.eqb_eq. naive_solver. Qed.
  Lemma hit_none g d : local g = None -> hit g d = false.
  Proof using. clear. intros Hl. unfold hits. by rewrite Hl. Qed.
  Lemma known_lt g l : local g = Some l -> g < N counts.
  Proof using HT Hc Hsh.
    intros Hl. unfold N. destruct (local_cases counts shareds HT b c sh g l Hc Hsh Hl) as [(Ho & _)|(_ & _ & _ & a & Ho)]; by eapply owns_total.
  Qed.
  (** A sum over the number of the only unknown that is hit. *)
  Lemma hit_sum l (f : nat -> F) : l < c + s -> exists h0, local h0 = Some l /\ Sig (seq 0 (N counts)) (fun h => only (hit h (Some l) = true) (f h)) = f h0.
  Proof using Rth HT Hc Hsh.
    intros Hl. destruct (local_onto counts shareds HT b c sh l Hc Hsh Hl) as [h0 H0]. exists h0. split; [done|]. rewrite (Sig_ext zero add (seq 0 (N counts)) _ (fun h => only (h = h0) (f h))).
    - apply (Sig_one zero one add mul sub opp Rth); [apply NoDup_seq|]. apply elem_of_seq. pose proof (known_lt _ _ H0). lia.
    - intros h _. apply only_ext; [|done]. split; [|intros ->; by apply (hit_iff h0 l)]. intros Hh. unfold hits in Hh. destruct (local h) as [l'|] eqn:E; [|done]. apply Nat.eqb_eq in Hh. subst l'. by eapply local_inj.
  Qed.

  Lemma owns_local g l : local g = Some l -> owns counts b g <-> l < c.
  Proof using HT Hc Hsh.
    intros Hl. destruct (local_cases counts shareds HT b c sh g l Hc Hsh Hl) as [(Ho & _ & ?)|(Hg & -> & _)]; [done|]. destruct HT as [_ HS]. destruct (HS b sh Hsh) as [_ HS']. destruct (HS' g Hg) as [Hn _]. split; [done|lia].
  Qed.

  Section eval.
    Context (X : nat -> nat -> F) (nc : nat) (alpha : F) (cols : list (list F * list F)) (Hlen : length cols = nc) (Hshape : forall col, col ∈ cols -> shape c s col).
    Context (HX : forall g l r col, local g = Some l -> cols !! r = Some col -> get c col l = Some (X g r)).
    Context (m : local_dof_map).
    Lemma xl_global j k r : k < n_dofs j -> r < nc -> job_ok m (c + s) j ->
      xl zero c cols bc m j k r = Sig (seq 0 (N counts)) (fun h => only (hit h (job_dof m j k) = true) (if dir h then zero else X h r)).
    Proof using Rth HT Hc Hsh Hbc Hlen HX.
      intros Hk Hr [_ Hd]. destruct (Hd k Hk) as (l & El & Hl). unfold xl. rewrite El. destruct (hit_sum l (fun h => if dir h then zero else X h r) Hl) as (h0 & H0 & ->). rewrite (dir_at h0 l H0). destruct (dir h0); [done|]. unfold xv. destruct (lookup_lt_is_Some_2 cols r ltac:(lia)) as [col Hcol]. rewrite Hcol. by rewrite (HX h0 l r col H0 Hcol).
    Qed.
    Lemma job_weaken lim (j : job F) : lim <= c + s -> job_ok m lim j -> job_ok m (c + s) j.
    Proof using. clear. intros Hl [H1 H2]. split; [done|]. intros i Hi. destruct (H2 i Hi) as (l & E & H). exists l. split; [done|lia]. Qed.
    (** What the job adds to [g]. *)
    Definition job_part (K : nat -> nat -> F) (j : job F) (g h : nat) : F :=
      Sig (seq 0 (n_dofs j)) (fun i => only (hit g (job_dof m j i) = true) (Sig (seq 0 (n_dofs j)) (fun k => only (hit h (job_dof m j k) = true) (K i k)))).
    Lemma job_sum border j K g l r : job_ok m (if border : bool then c + s else c) j -> local g = Some l -> r < nc ->
      fsum (at_cell l r (job_cells mul bc alpha nc m j (prod zero add mul c cols bc m j K))) =
      if dir g then zero else mul alpha (Sig (seq 0 (N counts)) (fun h => if dir h then zero else mul (job_part K j g h) (X h r))).
    Proof using Rth HT Hc Hsh Hbc Hlen HX.
      intros Hj Hl Hr. rewrite (job_cells_sum zero one add mul sub opp Rth border c s bc alpha nc m j Hj) by done. rewrite (dir_at g l Hl). destruct (dir g).
      - apply (Sig_0 zero one add mul sub opp Rth). intros i _. apply only_0.
      - assert (Hj' : job_ok m (c + s) j) by (eapply job_weaken; [|done]; destruct border; lia).
        transitivity (Sig (seq 0 (n_dofs j)) (fun i => mul alpha (Sig (seq 0 (N counts)) (fun h => if dir h then zero else mul (only (hit g (job_dof m j i) = true) (Sig (seq 0 (n_dofs j)) (fun k => only (hit h (job_dof m j k) = true) (K i k)))) (X h r))))).
        + apply Sig_ext. intros i Hi%elem_of_seq. unfold Cond_spec.only at 1 2. rewrite (decide_ext (job_dof m j i = Some l) (hit g (job_dof m j i) = true)) by (symmetry; by apply hit_iff).
          destruct (decide (hit g (job_dof m j i) = true)).
          * transitivity (mul alpha (prod zero add mul c cols bc m j K i r)); [ring|]. f_equal. unfold prod.
            transitivity (Sig (seq 0 (n_dofs j)) (fun k => Sig (seq 0 (N counts)) (fun h => mul (only (hit h (job_dof m j k) = true) (K i k)) (if dir h then zero else X h r)))).
            -- apply Sig_ext. intros k Hk%elem_of_seq. rewrite xl_global by (done || lia). rewrite (Sig_mul_l zero one add mul sub opp Rth). apply Sig_ext. intros h _. rewrite (only_mul_l zero one add mul sub opp Rth), (only_mul_r zero one add mul sub opp Rth). done.
            -- rewrite (Sig_swap zero one add mul sub opp Rth). apply Sig_ext. intros h _. destruct (dir h); [apply (Sig_0 zero one add mul sub opp Rth); intros k _; ring|]. by rewrite (Sig_mul_r zero one add mul sub opp Rth).
          * symmetry. rewrite (Sig_0 zero one add mul sub opp Rth); [ring|]. intros h _. destruct (dir h); [done|]. ring.
        + rewrite <- (Sig_mul_l zero one add mul sub opp Rth). f_equal. rewrite (Sig_swap zero one add mul sub opp Rth). apply Sig_ext. intros h _. destruct (dir h); [by apply (Sig_0 zero one add mul sub opp Rth)|]. unfold job_part. by rewrite (Sig_mul_r zero one add mul sub opp Rth).
    Qed.
    (** The additions of a list of jobs. *)
    Lemma jobs_ok border js (K : job F -> nat -> nat -> F) : (forall j, j ∈ js -> job_ok m (if border : bool then c + s else c) j) -> (forall j, j ∈ js -> applies zero add mul j (K j)) ->
      exists cells, eval_jobs zero mul border c s cols bc alpha nc m js = Ok cells /\ (forall z, z ∈ cells -> z.1.1 < (if border then c + s else c) /\ z.1.2 < nc) /\
        forall g l r, local g = Some l -> r < nc -> fsum (at_cell l r cells) = if dir g then zero else mul alpha (Sig (seq 0 (N counts)) (fun h => if dir h then zero else mul (Sig js (fun j => job_part (K j) j g h)) (X h r))).
    Proof using Rth HT Hc Hsh Hbc Hlen HX Hshape.
      unfold eval_jobs. induction js as [|j js IH]; intros Hj HK.
      - exists []. split; [done|]. split; [intros z Hz; by apply elem_of_nil in Hz|]. intros g l r _ _. destruct (dir g); [done|]. symmetry. rewrite (Sig_0 zero one add mul sub opp Rth); [cbn; ring|]. intros h _. destruct (dir h); [done|]. rewrite Sig_nil. ring.
      - destruct IH as (cells & E & Hz & Hs); [intros; apply Hj; by right|intros; apply HK; by right|]. apply bind_inv in E as (ls & Els & [= <-]).
        destruct (eval_job_ok zero add mul border c s cols bc alpha nc m j Hlen Hshape (Hj j ltac:(left)) (K j) (HK j ltac:(left))) as (cj & Ej & Pj).
        cbn [map_res]. rewrite Ej, bind_ok, Els, !bind_ok. cbn [concat]. eexists. split; [done|]. split.
        + intros z Hz'. apply elem_of_app in Hz' as [Hz'|Hz']; [|by apply Hz]. rewrite Pj in Hz'. eapply job_cells_in; [apply Hj; left|done].
        + intros g l r Hl Hr. rewrite at_cell_app, (fsum_app zero add (A0 zero one add mul sub opp Rth) (AA zero one add mul sub opp Rth)), (Hs g l r Hl Hr). rewrite (at_cell_perm zero one add mul sub opp Rth l r _ _ Pj), (job_sum border j (K j) g l r (Hj j ltac:(left)) Hl Hr). destruct (dir g); [ring|].
          transitivity (mul alpha (add (Sig (seq 0 (N counts)) (fun h => if dir h then zero else mul (job_part (K j) j g h) (X h r))) (Sig (seq 0 (N counts)) (fun h => if dir h then zero else mul (Sig js (fun j => job_part (K j) j g h)) (X h r))))); [ring|]. f_equal. rewrite <- (Sig_add zero one add mul sub opp Rth). apply Sig_ext. intros h _. destruct (dir h); [ring|]. rewrite Sig_cons. ring.
    Qed.
    Lemma dirichlet_cells_ok : exists cd, dirichlet_cells mul c s cols bc alpha nc = Ok cd /\ (forall z, z ∈ cd -> z.1.1 < c /\ z.1.2 < nc) /\
      forall g l r, local g = Some l -> r < nc -> fsum (at_cell l r cd) = only (dir g = true /\ l < c) (mul alpha (X g r)).
    Proof using Rth HT Hc Hsh Hbc Hlen HX Hshape.
      unfold bc_ok in Hbc. destruct bc as [[set sorted]|] eqn:Ebc.
      - destruct Hbc as (_ & H2 & H3 & HN). unfold dirichlet_cells.
        assert (Hgen : forall l, (forall d, d ∈ l -> d ∈ sorted) -> NoDup l -> exists ls, map_res (fun d => map_res (fun r => v ← x_at false c cols (Some d) r; cell false c s (Some d) r (mul v alpha)) (seq 0 nc)) l = Ok ls /\ (forall z, z ∈ concat ls -> z.1.1 < c /\ z.1.2 < nc) /\
          forall g d r, local g = Some d -> r < nc -> fsum (at_cell d r (concat ls)) = only (d ∈ l) (mul alpha (X g r))).
        { clear Hbc HN. induction l as [|d l IH]; intros Hin HN.
          - exists []. split; [done|]. split; [intros z Hz; by apply elem_of_nil in Hz|]. intros g d r _ _. rewrite only_false by apply not_elem_of_nil. done.
          - apply NoDup_cons in HN as [Hnd HN]. destruct IH as (ls & E & Hz & Hs); [intros; apply Hin; by right|done|]. cbn [map_res]. destruct (H3 d (Hin d ltac:(left))) as [g0 Hg0]. destruct (proj1 (H2 g0 d Hg0) (Hin d ltac:(left))) as [_ Ho].
            assert (Hd : d < c). { destruct (local_cases counts shareds HT b c sh g0 d Hc Hsh Hg0) as [(_ & _ & ?)|(Hg & _)]; [done|]. destruct HT as [_ HS]. destruct (HS b sh Hsh) as [_ HS']. by destruct (HS' g0 Hg). }
            rewrite (map_res_ok _ (fun r => (d, r, mul (X g0 r) alpha))).
            + rewrite bind_ok, E, bind_ok. eexists. split; [done|]. cbn [concat]. split.
              * intros z Hz'. apply elem_of_app in Hz' as [Hz'|Hz']; [|by apply Hz]. apply elem_of_list_In, in_map_iff in Hz' as (r & <- & Hr%elem_of_list_In%elem_of_seq). cbn. lia.
              * intros g d' r Hg Hr. rewrite at_cell_app, (fsum_app zero add (A0 zero one add mul sub opp Rth) (AA zero one add mul sub opp Rth)), (Hs g d' r Hg Hr).
                assert (Hseq : forall n a, fsum (at_cell d' r (map (fun r0 => (d, r0, mul (X g0 r0) alpha)) (seq a n))) = if decide (d = d' /\ a <= r < a + n) then mul (X g0 r) alpha else zero).
                { clear -Rth. induction n as [|n IHn]; intros a; cbn [seq map]; [rewrite decide_False by lia; done|]. rewrite at_cell_cons. destruct (Nat.eqb_spec d d') as [-> |Hne]; cbn [andb].
                  - destruct (Nat.eqb_spec a r) as [-> |Hne]; [rewrite fsum_cons, IHn, decide_False, decide_True by lia; ring|]. rewrite IHn. destruct (decide (d' = d' /\ S a <= r < S a + n)), (decide (d' = d' /\ a <= r < a + S n)); try lia; done.
                  - rewrite IHn, !decide_False by naive_solver. done. }
                rewrite Hseq. destruct (decide (d = d' /\ 0 <= r < 0 + nc)) as [[<- _]|Hne].
                -- assert (g = g0) as -> by (eapply local_inj; done). rewrite only_false by done. rewrite only_true by left. ring.
                -- assert (d <> d') by lia. rewrite (A0 zero one add mul sub opp Rth). apply only_ext; [|done]. rewrite elem_of_cons. naive_solver.
            + intros r Hr%elem_of_seq. unfold x_at. cbn [andb]. destruct (lookup_lt_is_Some_2 cols r ltac:(lia)) as [col Hcol]. rewrite (rd_ok _ _ _ Hcol), bind_ok. pose proof (HX g0 d r col Hg0 Hcol) as Hget. unfold get in Hget. rewrite (proj2 (Nat.ltb_lt d c) Hd) in Hget. rewrite (rd_ok _ _ _ Hget), bind_ok. unfold cell. by rewrite (proj2 (Nat.ltb_lt d c) Hd). }
        destruct (Hgen sorted ltac:(done) HN) as (ls & E & Hz & Hs). rewrite E, bind_ok. eexists. split; [done|]. split; [done|]. intros g l r Hl Hr. rewrite (Hs g l r Hl Hr). apply only_ext; [|done]. rewrite (H2 g l Hl). by rewrite (owns_local g l Hl).
      - exists []. split; [done|]. split; [intros z Hz; by apply elem_of_nil in Hz|]. intros g l r Hl _. rewrite only_false; [done|]. intros [Hd _]. by rewrite (Hbc g l Hl) in Hd.
    Qed.
  End eval.
End rank.
