(** C75: the operator of all ranks. *)
From Verif Require Import Base StdAlgo Elem_proofs Merge_model Merge_proofs Dofs_model Ownership_spec Ownership_proofs ImportExport_spec NodeVals_model NodeVals_spec NodeVals_proofs NodeVals_props Exch_proofs LocalBC_model LocalBC_proofs Cond_spec Cond3_proofs MatFree_model MatFree_spec MatFree_proofs MatFree2_proofs MatFree3_proofs.

Lemma zip_lookup {A B} (l : list A) (k : list B) r p : zip l k !! r = Some p -> l !! r = Some p.1 /\ k !! r = Some p.2.
Proof. revert k r. induction l as [|a l IH]; intros [|b k] [|r]; cbn; try done; [by intros [= <-]|]. apply IH. Qed.
Lemma holds_ext {F} counts nc (X X' : nat -> nat -> F) xs : (forall g r a, owns counts a g -> r < nc -> X g r = X' g r) -> holds counts nc X xs -> holds counts nc X' xs.
Proof.
  intros H [L Hx]. split; [done|]. intros b c x Hc Hb. destruct (Hx b c x Hc Hb) as [Lx Hr]. split; [done|]. intros r col Hcol. destruct (Hr r col Hcol) as [Lc Hg]. split; [done|]. intros g Ho. rewrite (Hg g Ho). f_equal. eapply H; [done|]. apply lookup_lt_Some in Hcol. lia.
Qed.
Lemma schedule_perm {F} (cb ci cd pre post : list (nat * nat * F)) : schedule cb ci cd pre post -> pre ++ post ≡ₚ cb ++ (ci ++ cd).
Proof.
  intros [(i1 & i2 & H1 & H2 & ->)|(ci' & cb' & H1 & H2 & -> & ->)].
  - rewrite H1, H2. by rewrite <- !app_assoc.
  - rewrite app_nil_r, H1, H2. rewrite app_assoc. apply Permutation_app_comm.
Qed.
Lemma schedule_post {F} (cb ci cd pre post : list (nat * nat * F)) z : schedule cb ci cd pre post -> z ∈ post -> z ∈ ci ++ cd.
Proof.
  intros [(i1 & i2 & H1 & _ & ->)|(_ & _ & _ & _ & _ & ->)] Hz; [|by apply elem_of_nil in Hz]. rewrite H1. rewrite !elem_of_app in *. naive_solver.
Qed.

Section world.
  Context {F : Type} (zero one : F) (add mul sub : F -> F -> F) (opp : F -> F) (Rth : ring_theory zero one add mul sub opp eq).
  Add Ring Fring4 : Rth.
  Notation fsum := (fsum zero add).
  Notation Sig := (Cond_spec.Sig zero add).
  Notation only := (Cond_spec.only zero).
  Context (counts : list nat) (shareds : list (list nat)) (ranks : list (mf_rank F)) (dir : nat -> bool) (HW : mf_world counts shareds ranks dir).
  Context (K : job F -> nat -> nat -> F).
  Definition all_apply : Prop := forall b r j, ranks !! b = Some r -> j ∈ mr_border r ++ mr_interior r -> applies zero add mul j (K j).
  Notation part b rk j g h := (job_part zero add counts shareds b (mr_map rk) (K j) j g h).
  (** What rank [b] adds to [g]. *)
  Definition rank_part (alpha : F) (X : nat -> nat -> F) (b : nat) (rk : mf_rank F) (c g r l : nat) : F :=
    add (if dir g then zero else mul alpha (Sig (seq 0 (N counts)) (fun h => if dir h then zero else mul (Sig (mr_border rk ++ mr_interior rk) (fun j => part b rk j g h)) (X h r))))
        (only (dir g = true /\ l < c) (mul alpha (X g r))).
  Lemma columns_hold nc X (xs imps : list (list (list F))) b c sh x imp : holds counts nc X xs -> all_imported counts shareds nc xs imps -> counts !! b = Some c -> shareds !! b = Some sh -> xs !! b = Some x -> imps !! b = Some imp ->
    length (zip x imp) = nc /\ (forall col, col ∈ zip x imp -> shape c (length sh) col) /\
    forall g l r col, local_of counts shareds b g = Some l -> zip x imp !! r = Some col -> get c col l = Some (X g r).
  Proof using HW.
    destruct HW as [HT _ _ _ _]. clear HW. intros [Lx Hx] [Li Hi] Hc Hsh Hxb Hib. destruct (Hx b c x Hc Hxb) as [L1 H1]. destruct (Hi b sh imp Hsh Hib) as [L2 H2].
    split; [rewrite zip_with_length; lia|]. split.
    - intros col Hcol. apply elem_of_list_lookup in Hcol as [r Hr]. apply zip_lookup in Hr as [E1 E2]. split; [by destruct (H1 r _ E1)|by destruct (H2 r _ E2)].
    - intros g l r col Hl Hr. apply zip_lookup in Hr as [E1 E2]. unfold get. destruct (local_cases counts shareds HT b c sh g l Hc Hsh Hl) as [(Ho & -> & Hlt)|(Hg & -> & Hlt & a & Ho)].
      + rewrite (proj2 (Nat.ltb_lt _ _) Hlt). destruct (H1 r _ E1) as [_ H]. by apply H.
      + rewrite (proj2 (Nat.ltb_ge _ _)) by lia. replace (c + entry_of sh g - c) with (entry_of sh g) by lia. destruct (H2 r _ E2) as [_ Himp]. pose proof Ho as (ca & Hca & _). pose proof (lookup_lt_Some _ _ _ Hca) as Ha. destruct (lookup_lt_is_Some_2 xs a ltac:(lia)) as [xa Hxa]. destruct (Hx a ca xa Hca Hxa) as [L3 H3].
        assert (Hrn : r < nc) by (apply lookup_lt_Some in E1; lia). destruct (lookup_lt_is_Some_2 xa r ltac:(lia)) as [o Hor]. destruct (H3 r o Hor) as [_ H4]. rewrite <- (H4 g Ho). eapply Himp; [done..|]. unfold column. rewrite map_lookup, Hxa. cbn. f_equal. by apply nth_lookup_Some.
  Qed.
  Lemma rank_cells_ok alpha nc X (xs imps : list (list (list F))) b c sh rk x imp : all_apply -> holds counts nc X xs -> all_imported counts shareds nc xs imps -> counts !! b = Some c -> shareds !! b = Some sh -> ranks !! b = Some rk -> xs !! b = Some x -> imps !! b = Some imp ->
    exists cb ci cd, rank_cells zero mul c (length sh) rk alpha nc (zip x imp) = Ok (cb, ci, cd) /\
      (forall z, z ∈ cb -> z.1.1 < c + length sh /\ z.1.2 < nc) /\ (forall z, z ∈ ci ++ cd -> z.1.1 < c /\ z.1.2 < nc) /\
      forall g l r, local_of counts shareds b g = Some l -> r < nc -> fsum (at_cell l r (cb ++ (ci ++ cd))) = rank_part alpha X b rk c g r l.
  Proof using Rth HW.
    intros HK HX HI Hc Hsh Hrk Hx Himp. destruct (columns_hold nc X xs imps b c sh x imp HX HI Hc Hsh Hx Himp) as (Lz & Sz & Gz). destruct HW as [HT HL HB HIn HBC]. clear HW. specialize (HBC b rk Hrk).
    destruct (jobs_ok zero one add mul sub opp Rth counts shareds HT b c sh Hc Hsh dir (mr_bc rk) HBC X nc alpha (zip x imp) Lz Sz Gz (mr_map rk) false (mr_interior rk) K) as (ci & Ei & Bi & Si).
    { intros j Hj. by eapply HIn. } { intros j Hj. eapply HK; [done|]. apply elem_of_app. by right. }
    destruct (jobs_ok zero one add mul sub opp Rth counts shareds HT b c sh Hc Hsh dir (mr_bc rk) HBC X nc alpha (zip x imp) Lz Sz Gz (mr_map rk) true (mr_border rk) K) as (cb & Eb & Bb & Sb).
    { intros j Hj. by eapply HB. } { intros j Hj. eapply HK; [done|]. apply elem_of_app. by left. }
    destruct (dirichlet_cells_ok zero one add mul sub opp Rth counts shareds HT b c sh Hc Hsh dir (mr_bc rk) HBC X nc alpha (zip x imp) Lz Sz Gz) as (cd & Ed & Bd & Sd).
    exists cb, ci, cd. unfold rank_cells. rewrite Ei, bind_ok, Eb, bind_ok, Ed, bind_ok. split; [done|]. split; [done|]. split.
    { intros z Hz. apply elem_of_app in Hz as [Hz|Hz]; [by apply Bi|by apply Bd]. }
    intros g l r Hl Hr. rewrite !at_cell_app, !(fsum_app zero add (A0 zero one add mul sub opp Rth) (AA zero one add mul sub opp Rth)), (Sb g l r Hl Hr), (Si g l r Hl Hr), (Sd g l r Hl Hr). unfold rank_part. rewrite (AA zero one add mul sub opp Rth). f_equal. destruct (dir g); [ring|].
    match goal with |- add (mul _ ?a) (mul _ ?b) = _ => transitivity (mul alpha (add a b)); [ring|] end. f_equal. rewrite <- (Sig_add zero one add mul sub opp Rth). apply Sig_ext. intros h _. destruct (dir h); [ring|]. rewrite (Sig_app zero one add mul sub opp Rth). ring.
  Qed.
  Lemma part_none b (rk : mf_rank F) j g h : local_of counts shareds b g = None -> part b rk j g h = zero.
  Proof using Rth. intros Hl. unfold job_part. apply (Sig_0 zero one add mul sub opp Rth). intros i _. apply only_false. by rewrite hit_none. Qed.
  (** All ranks together add the product with the matrix with Dirichlet conditions. *)
  Lemma total_part alpha X g r a : owns counts a g ->
    Sig (seq 0 (length counts)) (fun b => match counts !! b, ranks !! b, local_of counts shareds b g with Some c, Some rk, Some l => rank_part alpha X b rk c g r l | _, _, _ => zero end) =
    mul alpha (product zero add mul counts (Adir zero one add counts shareds ranks dir K) X g r).
  Proof using Rth HW.
    intros Ho. destruct HW as [HT HL HB HIn HBC]. clear HW HB HIn HBC. unfold product. destruct (dir g) eqn:Ed.
    - rewrite (Sig_ext zero add _ _ (fun b => only (b = a) (mul alpha (X g r)))).
      + rewrite (Sig_one zero one add mul sub opp Rth) by (first [apply NoDup_seq|apply elem_of_seq; pose proof (owns_lt _ _ _ Ho); lia]). f_equal. symmetry.
        rewrite (Sig_ext zero add _ _ (fun h => only (h = g) (X h r))); [apply (Sig_one zero one add mul sub opp Rth (seq 0 (N counts)) g (fun h => X h r)); [apply NoDup_seq|apply elem_of_seq; pose proof (owns_total _ _ _ Ho) as HH; unfold N; lia]|].
        intros h _. unfold Adir. rewrite Ed, (only_mul_r zero one add mul sub opp Rth). apply only_ext; [naive_solver|]. intros _. ring.
      + intros b Hb%elem_of_seq. destruct (lookup_lt_is_Some_2 counts b ltac:(lia)) as [c Hc]. destruct (lookup_lt_is_Some_2 ranks b ltac:(lia)) as [rk Hrk]. destruct HT as [HS HT']. destruct (lookup_lt_is_Some_2 shareds b ltac:(lia)) as [sh Hsh]. rewrite Hc, Hrk. destruct (local_of counts shareds b g) as [l|] eqn:El.
        * unfold rank_part. rewrite Ed, (A0 zero one add mul sub opp Rth). apply only_ext; [|done]. rewrite <- (owns_local counts shareds (conj HS HT') b c sh Hc Hsh g l El). split; [intros [_ Hob]; by eapply owns_unique|intros ->; done].
        * symmetry. apply only_false. intros ->. unfold local_of in El. rewrite Hc, Hsh in El. cbn [mbind option_bind] in El. destruct Ho as (c' & Hc' & Hr). rewrite Hc in Hc'. injection Hc' as <-. by rewrite decide_True in El by lia.
    - rewrite (Sig_ext zero add _ _ (fun b => mul alpha (Sig (seq 0 (N counts)) (fun h => if dir h then zero else mul (match ranks !! b with Some rk => Sig (mr_border rk ++ mr_interior rk) (fun j => part b rk j g h) | None => zero end) (X h r))))).
      + rewrite <- (Sig_mul_l zero one add mul sub opp Rth). f_equal. rewrite (Sig_swap zero one add mul sub opp Rth). apply Sig_ext. intros h _. unfold Adir. rewrite Ed. destruct (dir h); [rewrite (Sig_0 zero one add mul sub opp Rth) by done; ring|]. rewrite <- (Sig_mul_r zero one add mul sub opp Rth). f_equal. unfold Amat, over_jobs. rewrite HL. done.
      + intros b Hb%elem_of_seq. destruct (lookup_lt_is_Some_2 counts b ltac:(lia)) as [c Hc]. destruct (lookup_lt_is_Some_2 ranks b ltac:(lia)) as [rk Hrk]. rewrite Hc, Hrk. destruct (local_of counts shareds b g) as [l|] eqn:El.
        * unfold rank_part. rewrite Ed. rewrite only_false by naive_solver. rewrite (AC zero one add mul sub opp Rth). apply (A0 zero one add mul sub opp Rth).
        * symmetry. rewrite (Sig_0 zero one add mul sub opp Rth); [ring|]. intros h _. destruct (dir h); [done|]. rewrite (Sig_0 zero one add mul sub opp Rth); [ring|]. intros j _. by apply part_none.
  Qed.
  (** evaluate on all ranks. *)
  Lemma rank_result_ok alpha nc X Y (xs ys imps : list (list (list F))) b c sh rk x imp y : all_apply -> holds counts nc X xs -> holds counts nc Y ys -> all_imported counts shareds nc xs imps ->
    counts !! b = Some c -> shareds !! b = Some sh -> ranks !! b = Some rk -> xs !! b = Some x -> imps !! b = Some imp -> ys !! b = Some y ->
    exists cb ci cd, rank_cells zero mul c (length sh) rk alpha nc (zip x imp) = Ok (cb, ci, cd) /\
      forall pre post, schedule cb ci cd pre post -> exists out, rank_result zero add c (length sh) y pre post = Ok out /\ length out.1 = nc /\ length out.2 = nc /\
        forall r, r < nc -> exists sent own, out.1 !! r = Some sent /\ out.2 !! r = Some own /\ length own = c /\
         (forall j, j < length sh -> sent !! j = Some (fsum (at_cell (c + j) r (cb ++ (ci ++ cd))))) /\
         (forall g, owns counts b g -> own !! (g - first_owned counts b) = Some (add (Y g r) (fsum (at_cell (g - first_owned counts b) r (cb ++ (ci ++ cd)))))).
  Proof using Rth HW.
    intros HK HX [Ly HY] HI Hc Hsh Hrk Hx Himp Hy. destruct (rank_cells_ok alpha nc X xs imps b c sh rk x imp HK HX HI Hc Hsh Hrk Hx Himp) as (cb & ci & cd & E & B1 & B2 & _). exists cb, ci, cd. split; [done|]. intros pre post HS. destruct (HY b c y Hc Hy) as [Lyb Hyb].
    destruct (phases_ok zero one add mul sub opp Rth c (length sh) nc pre post cb (ci ++ cd) y zero) as (out & Eo & L1 & L2 & Ho).
    - by apply schedule_perm.
    - intros z Hz. eapply schedule_post in Hz; [|done]. by apply B2.
    - intros z Hz. by apply B2.
    - intros z Hz. by apply B1.
    - intros z Hz. apply elem_of_app in Hz as [Hz|Hz]; [by apply B1|by apply B2].
    - done.
    - intros col Hcol. apply elem_of_list_lookup in Hcol as [r Hr]. by destruct (Hyb r col Hr).
    - exists out. split; [done|]. split; [done|]. split; [done|]. intros r Hr. destruct (lookup_lt_is_Some_2 y r ltac:(lia)) as [col Hcol]. destruct (Ho r col Hcol) as (sent & own & H1 & H2 & H3 & H4 & H5 & H6). exists sent, own. split; [done|]. split; [done|]. split; [done|]. split; [done|]. intros g Hg. apply H6. destruct (Hyb r col Hcol) as [_ H]. by apply H.
  Qed.
  Lemma evaluate_total alpha nc X Y (xs ys imps : list (list (list F))) : all_apply -> holds counts nc X xs -> holds counts nc Y ys -> all_imported counts shareds nc xs imps ->
    forall b c sh rk x imp y, counts !! b = Some c -> shareds !! b = Some sh -> ranks !! b = Some rk -> xs !! b = Some x -> imps !! b = Some imp -> ys !! b = Some y ->
    exists cb ci cd, rank_cells zero mul c (length sh) rk alpha nc (zip x imp) = Ok (cb, ci, cd) /\
      forall pre post, schedule cb ci cd pre post -> exists out, rank_result zero add c (length sh) y pre post = Ok out.
  Proof using Rth HW.
    intros HK HX HY HI b c sh rk x imp y Hc Hsh Hrk Hx Himp Hy. destruct (rank_result_ok alpha nc X Y xs ys imps b c sh rk x imp y HK HX HY HI Hc Hsh Hrk Hx Himp Hy) as (cb & ci & cd & E & H). exists cb, ci, cd. split; [done|]. intros pre post HS. destruct (H pre post HS) as (out & Eo & _). by exists out.
  Qed.
  Lemma evaluate_ok alpha nc X Y (xs ys imps : list (list (list F))) outs news : all_apply -> holds counts nc X xs -> holds counts nc Y ys -> all_imported counts shareds nc xs imps ->
    evaluated zero add mul counts shareds ranks alpha nc xs ys imps outs -> all_exported add counts shareds nc outs news ->
    holds counts nc (fun g r => add (Y g r) (mul alpha (product zero add mul counts (Adir zero one add counts shareds ranks dir K) X g r))) news.
  Proof using Rth HW.
    intros HK HX HY HI [Lo Hev] HE.
    pose (cells := fun b => match counts !! b, shareds !! b, ranks !! b, xs !! b, imps !! b with Some c, Some sh, Some rk, Some x, Some imp => match rank_cells zero mul c (length sh) rk alpha nc (zip x imp) with Ok (cb, ci, cd) => cb ++ (ci ++ cd) | _ => [] end | _, _, _, _, _ => [] end).
    assert (Hlens : length shareds = length counts /\ length ranks = length counts /\ length xs = length counts /\ length imps = length counts /\ length ys = length counts).
    { destruct HW as [[HS _] HL _ _ _]. destruct HX as [? _], HY as [? _], HI as [? _]. done. }
    destruct Hlens as (LS & LR & LX & LI & LY).
    assert (Hex := exchange_ok zero one add mul sub opp Rth counts shareds (mw_tables _ _ _ _ HW) nc outs news cells Y Lo).
    eapply holds_ext; [|apply Hex; [|done]].
    - intros g r a Ho Hr. cbv beta. f_equal. rewrite <- (total_part alpha X g r a Ho). apply Sig_ext. intros b Hb%elem_of_seq.
      destruct (lookup_lt_is_Some_2 counts b ltac:(lia)) as [c Hc]. destruct (lookup_lt_is_Some_2 shareds b ltac:(lia)) as [sh Hsh]. destruct (lookup_lt_is_Some_2 ranks b ltac:(lia)) as [rk Hrk]. destruct (lookup_lt_is_Some_2 xs b ltac:(lia)) as [x Hx]. destruct (lookup_lt_is_Some_2 imps b ltac:(lia)) as [imp Himp].
      destruct (rank_cells_ok alpha nc X xs imps b c sh rk x imp HK HX HI Hc Hsh Hrk Hx Himp) as (cb & ci & cd & E & _ & _ & HS). unfold cells. rewrite Hc, Hsh, Hrk, Hx, Himp, E. destruct (local_of counts shareds b g) as [l|] eqn:El; [|done]. by apply HS.
    - intros b c sh out Hc Hsh Hout. pose proof (lookup_lt_Some _ _ _ Hc) as Hb. destruct (lookup_lt_is_Some_2 ranks b ltac:(lia)) as [rk Hrk]. destruct (lookup_lt_is_Some_2 xs b ltac:(lia)) as [x Hx]. destruct (lookup_lt_is_Some_2 imps b ltac:(lia)) as [imp Himp]. destruct (lookup_lt_is_Some_2 ys b ltac:(lia)) as [y Hy].
      destruct (Hev b c sh rk x imp y out Hc Hsh Hrk Hx Himp Hy Hout) as (cb & ci & cd & pre & post & E & HS & Er). destruct (rank_result_ok alpha nc X Y xs ys imps b c sh rk x imp y HK HX HY HI Hc Hsh Hrk Hx Himp Hy) as (cb' & ci' & cd' & E' & H). rewrite E in E'. injection E' as <- <- <-. destruct (H pre post HS) as (out' & Eo & L1 & L2 & Hr). rewrite Er in Eo. injection Eo as <-. unfold cells. rewrite Hc, Hsh, Hrk, Hx, Himp, E. done.
  Qed.
End world.
