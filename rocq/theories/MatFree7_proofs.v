(** C75: imports and exports have outcomes; elements are jobs. *)
From Verif Require Import Base StdAlgo Elem_proofs Dofs_model Ownership_spec Ownership_proofs ImportExport_spec ImportExport_proofs NodeVals_model NodeVals_spec NodeVals_proofs NodeVals_props Exch_proofs LocalBC_model Cond_spec Cond3_proofs MatFree_model MatFree_spec MatFree_proofs MatFree2_proofs MatFree3_proofs MatFree4_proofs MatFree5_proofs MatFree6_proofs.

Lemma exported_exists {V} (combine : V -> V -> V) (d : V) counts shareds arrays a c (before : list V) : counts !! a = Some c -> length before = c ->
  exists after, exported combine counts shareds arrays a before after.
Proof.
  intros Hc Lb. exists (map (fun p => match before !! p with Some old => foldl combine old (sent shareds arrays (first_owned counts a + p)) | None => d end) (seq 0 c)).
  split; [by rewrite map_length, seq_length|]. split.
  - intros g old (c' & Hc' & Hg) Hold. rewrite Hc in Hc'. injection Hc' as <-. exists (sent shareds arrays g). split; [done|]. rewrite map_lookup, lookup_seq_lt by lia. cbn. rewrite Hold. by replace (first_owned counts a + (g - first_owned counts a)) with g by lia.
  - intros p Hp. assert (Hge : c <= p). { apply Nat.nlt_ge. intros Hlt. apply (Hp (first_owned counts a + p)); [exists c; split; [done|lia]|lia]. } rewrite !lookup_ge_None_2; [done|lia|by rewrite map_length, seq_length].
Qed.
Section runs.
  Context {F : Type} (zero one : F) (add mul sub : F -> F -> F) (opp : F -> F) (Rth : ring_theory zero one add mul sub opp eq).
  Context (counts : list nat) (shareds : list (list nat)) (ranks : list (mf_rank F)) (dir : nat -> bool) (HW : mf_world counts shareds ranks dir).
  Lemma imports_exist nc (X : nat -> nat -> F) xs : holds counts nc X xs -> exists imps, all_imported counts shareds nc xs imps.
  Proof using HW.
    intros [Lx Hx]. destruct (mw_tables _ _ _ _ HW) as [LS HS].
    exists (map (fun sh => map (fun r => map (fun j => X (nth j (sort sh) 0) r) (seq 0 (length sh))) (seq 0 nc)) shareds). split; [by rewrite map_length|].
    intros b sh imp Hsh Himp. rewrite map_lookup, Hsh in Himp. cbn in Himp. injection Himp as <-. split; [by rewrite map_length, seq_length|]. intros r col Hr. rewrite map_lookup in Hr. destruct (seq 0 nc !! r) as [r'|] eqn:Er; [|done]. apply lookup_seq in Er as [-> Hrn]. injection Hr as <-. split; [by rewrite map_length, seq_length|].
    intros sh' g a o Hsh' Hg Ho Hoa. rewrite Hsh in Hsh'. injection Hsh' as <-. destruct (HS b sh Hsh) as [HN _]. assert (Hs : g ∈ sort sh) by by apply sort_elem. apply elem_of_list_lookup in Hs as [j Hj]. rewrite (entry_of_sorted _ _ _ HN Hj). pose proof (lookup_lt_Some _ _ _ Hj) as Hlt. rewrite sort_length in Hlt. rewrite map_lookup, lookup_seq_lt by done. cbn. rewrite (nth_lookup_Some _ _ _ _ Hj).
    unfold column in Hoa. rewrite map_lookup in Hoa. destruct (xs !! a) as [xa|] eqn:Ea; [|done]. injection Hoa as <-. pose proof Ho as (ca & Hca & _). destruct (Hx a ca xa Hca Ea) as [L1 H1]. destruct (lookup_lt_is_Some_2 xa r ltac:(lia)) as [col Hcol]. rewrite (nth_lookup_Some _ _ _ _ Hcol). destruct (H1 r col Hcol) as [_ H2]. symmetry. by apply H2.
  Qed.
  Lemma exports_exist nc (outs : list (list (list F) * list (list F))) : length outs = length counts -> (forall b c out, counts !! b = Some c -> outs !! b = Some out -> length out.2 = nc /\ forall r col, out.2 !! r = Some col -> length col = c) ->
    exists news, all_exported add counts shareds nc outs news.
  Proof using zero.
    intros Lo H. destruct (choose_list (length counts) (fun b new => forall out, outs !! b = Some out -> length new = nc /\ forall r before after, out.2 !! r = Some before -> new !! r = Some after -> exported add counts shareds (column r (map fst outs)) b before after)) as (news & Ln & Hn).
    - intros b Hb. destruct (lookup_lt_is_Some_2 counts b Hb) as [c Hc]. destruct (lookup_lt_is_Some_2 outs b ltac:(lia)) as [out Hout]. destruct (H b c out Hc Hout) as [L2 Hcol].
      destruct (choose_list nc (fun r after => forall before, out.2 !! r = Some before -> exported add counts shareds (column r (map fst outs)) b before after)) as (new & Lnew & Hnew).
      { intros r Hr. destruct (lookup_lt_is_Some_2 out.2 r ltac:(lia)) as [before Hbef]. destruct (exported_exists add zero counts shareds (column r (map fst outs)) b c before Hc (Hcol r before Hbef)) as [after Ha]. exists after. intros before' Hb'. rewrite Hbef in Hb'. by injection Hb' as <-. }
      exists new. intros out' Hout'. rewrite Hout in Hout'. injection Hout' as <-. split; [done|]. intros r before after Hbef Haft. destruct (Hnew r ltac:(apply lookup_lt_Some in Haft; lia)) as (after' & Ha' & Hex). rewrite Haft in Ha'. injection Ha' as <-. by apply Hex.
    - exists news. split; [done|]. intros b out new Hout Hnew. pose proof (lookup_lt_Some _ _ _ Hout). destruct (Hn b ltac:(lia)) as (new' & Hnew' & Hx). rewrite Hnew in Hnew'. injection Hnew' as <-. by apply Hx.
  Qed.
  Lemma evaluation_exists K alpha nc X Y xs ys : all_apply zero add mul ranks K -> holds counts nc X xs -> holds counts nc Y ys ->
    exists imps outs news, all_imported counts shareds nc xs imps /\ evaluated zero add mul counts shareds ranks alpha nc xs ys imps outs /\ all_exported add counts shareds nc outs news.
  Proof using Rth HW.
    intros HK HX HY. destruct (imports_exist nc X xs HX) as [imps HI]. destruct (mw_tables _ _ _ _ HW) as [LS _]. pose proof (mw_length _ _ _ _ HW) as LR. pose proof (proj1 HX) as LX. pose proof (proj1 HY) as LY. pose proof (proj1 HI) as LI.
    destruct (choose_list (length counts) (fun b out => forall c sh r x imp y, counts !! b = Some c -> shareds !! b = Some sh -> ranks !! b = Some r -> xs !! b = Some x -> imps !! b = Some imp -> ys !! b = Some y ->
      (exists cb ci cd pre post, rank_cells zero mul c (length sh) r alpha nc (zip x imp) = Ok (cb, ci, cd) /\ schedule cb ci cd pre post /\ rank_result zero add c (length sh) y pre post = Ok out) /\
      length out.2 = nc /\ forall r col, out.2 !! r = Some col -> length col = c)) as (outs & Lo & Ho).
    - intros b Hb. destruct (lookup_lt_is_Some_2 counts b Hb) as [c Hc]. destruct (lookup_lt_is_Some_2 shareds b ltac:(lia)) as [sh Hsh]. destruct (lookup_lt_is_Some_2 ranks b ltac:(lia)) as [rk Hrk]. destruct (lookup_lt_is_Some_2 xs b ltac:(lia)) as [x Hx]. destruct (lookup_lt_is_Some_2 imps b ltac:(lia)) as [imp Himp]. destruct (lookup_lt_is_Some_2 ys b ltac:(lia)) as [y Hy].
      destruct (rank_result_ok zero one add mul sub opp Rth counts shareds ranks dir HW K alpha nc X Y xs ys imps b c sh rk x imp y HK HX HY HI Hc Hsh Hrk Hx Himp Hy) as (cb & ci & cd & E & H).
      destruct (H (ci ++ cd ++ cb) []) as (out & Eo & L1 & L2 & Hr); [right; by exists ci, cb|]. exists out. intros c' sh' r' x' imp' y' E1 E2 E3 E4 E5 E6. assert (c' = c) as -> by congruence. assert (sh' = sh) as -> by congruence. assert (r' = rk) as -> by congruence. assert (x' = x) as -> by congruence. assert (imp' = imp) as -> by congruence. assert (y' = y) as -> by congruence.
      split; [exists cb, ci, cd, (ci ++ cd ++ cb), []; split; [done|]; split; [right; by exists ci, cb|done]|]. split; [done|]. intros r col Hcol. destruct (Hr r ltac:(apply lookup_lt_Some in Hcol; lia)) as (sent & own & _ & Hw & Lw & _). congruence.
    - assert (HE : evaluated zero add mul counts shareds ranks alpha nc xs ys imps outs).
      { split; [done|]. intros b c sh r x imp y out Hc Hsh Hrk Hx Himp Hy Hout. destruct (Ho b ltac:(by eapply lookup_lt_Some)) as (out' & Hout' & H). rewrite Hout in Hout'. injection Hout' as <-. by destruct (H c sh r x imp y Hc Hsh Hrk Hx Himp Hy) as [? _]. }
      destruct (exports_exist nc outs Lo) as [news HN]; [|by exists imps, outs, news]. intros b c out Hc Hout. pose proof (lookup_lt_Some _ _ _ Hc). destruct (lookup_lt_is_Some_2 shareds b ltac:(lia)) as [sh Hsh]. destruct (lookup_lt_is_Some_2 ranks b ltac:(lia)) as [rk Hrk]. destruct (lookup_lt_is_Some_2 xs b ltac:(lia)) as [x Hx]. destruct (lookup_lt_is_Some_2 imps b ltac:(lia)) as [imp Himp]. destruct (lookup_lt_is_Some_2 ys b ltac:(lia)) as [y Hy].
      destruct (Ho b ltac:(lia)) as (out' & Hout' & Hx'). rewrite Hout in Hout'. injection Hout' as <-. by destruct (Hx' c sh rk x imp y Hc Hsh Hrk Hx Himp Hy) as [_ ?].
  Qed.
  Lemma initialisation_exists K B nr V vals : all_initialise zero add mul sub ranks K B nr -> holds_all counts shareds nr V vals ->
    exists outs news, initialised zero add counts shareds ranks nr vals outs /\ all_exported add counts shareds (1 + nr) outs news.
  Proof using Rth HW.
    intros HI HA. destruct (mw_tables _ _ _ _ HW) as [LS _]. pose proof (mw_length _ _ _ _ HW) as LR. pose proof (proj1 HA) as LV.
    destruct (choose_list (length counts) (fun b out => forall c sh r v, counts !! b = Some c -> shareds !! b = Some sh -> ranks !! b = Some r -> vals !! b = Some v ->
      (exists cb ci pre post, init_cells zero c (length sh) nr r v = Ok (cb, ci) /\ pre ≡ₚ cb /\ post ≡ₚ ci /\ init_result zero add c (length sh) nr pre post = Ok out) /\
      length out.2 = 1 + nr /\ forall r col, out.2 !! r = Some col -> length col = c)) as (outs & Lo & Ho).
    - intros b Hb. destruct (lookup_lt_is_Some_2 counts b Hb) as [c Hc]. destruct (lookup_lt_is_Some_2 shareds b ltac:(lia)) as [sh Hsh]. destruct (lookup_lt_is_Some_2 ranks b ltac:(lia)) as [rk Hrk]. destruct (lookup_lt_is_Some_2 vals b ltac:(lia)) as [v Hv].
      destruct (init_result_ok zero one add mul sub opp Rth counts shareds ranks dir HW K B nr V vals b c sh rk v HI HA Hc Hsh Hrk Hv) as (cb & ci & E & H). destruct (H cb ci) as (out & Eo & L1 & L2 & Hr); [done|done|]. exists out. intros c' sh' r' v' E1 E2 E3 E4. assert (c' = c) as -> by congruence. assert (sh' = sh) as -> by congruence. assert (r' = rk) as -> by congruence. assert (v' = v) as -> by congruence.
      split; [by exists cb, ci, cb, ci|]. split; [done|]. intros r col Hcol. destruct (Hr r ltac:(apply lookup_lt_Some in Hcol; lia)) as (sent & own & _ & Hw & Lw & _). congruence.
    - assert (HE : initialised zero add counts shareds ranks nr vals outs).
      { split; [done|]. intros b c sh r v out Hc Hsh Hrk Hv Hout. destruct (Ho b ltac:(by eapply lookup_lt_Some)) as (out' & Hout' & H). rewrite Hout in Hout'. injection Hout' as <-. by destruct (H c sh r v Hc Hsh Hrk Hv) as [? _]. }
      destruct (exports_exist (1 + nr) outs Lo) as [news HN]; [|by exists outs, news]. intros b c out Hc Hout. pose proof (lookup_lt_Some _ _ _ Hc). destruct (lookup_lt_is_Some_2 shareds b ltac:(lia)) as [sh Hsh]. destruct (lookup_lt_is_Some_2 ranks b ltac:(lia)) as [rk Hrk]. destruct (lookup_lt_is_Some_2 vals b ltac:(lia)) as [v Hv].
      destruct (Ho b ltac:(lia)) as (out' & Hout' & Hx'). rewrite Hout in Hout'. injection Hout' as <-. by destruct (Hx' c sh rk v Hc Hsh Hrk Hv) as [_ ?].
  Qed.
End runs.
