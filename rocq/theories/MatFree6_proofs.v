(** C75: applyImpl column by column, and algebra of the matrices. *)
From Verif Require Import Base StdAlgo Elem_proofs Dofs_model Ownership_spec Ownership_proofs ImportExport_spec NodeVals_model NodeVals_spec NodeVals_proofs NodeVals_props Exch_proofs LocalBC_model LocalBC_spec LocalBC_proofs LocalBC_props Cond_spec Cond3_proofs MatFree_model MatFree_spec MatFree_proofs MatFree2_proofs MatFree3_proofs MatFree4_proofs MatFree5_proofs.

Section columns.
  Context {F : Type}.
  Lemma put_other rs r : forall (l news : list (list F)), r ∉ rs -> put_columns rs l news !! r = l !! r.
  Proof.
    unfold put_columns. induction rs as [|a rs IH]; intros l [|n news] Hr; try done. cbn [zip zip_with foldl]. apply not_elem_of_cons in Hr as [Hne Hr]. cbn [fst snd]. rewrite IH by done. by apply list_lookup_insert_ne.
  Qed.
  Lemma put_length rs : forall (l news : list (list F)), length (put_columns rs l news) = length l.
  Proof. unfold put_columns. induction rs as [|a rs IH]; intros l [|n news]; try done. cbn [zip zip_with foldl]. by rewrite IH, insert_length. Qed.
  Lemma put_at rs k r : forall (l news : list (list F)), NoDup rs -> rs !! k = Some r -> r < length l -> k < length news -> put_columns rs l news !! r = news !! k.
  Proof.
    revert k. induction rs as [|a rs IH]; intros [|k] l [|n news] Hn Hk Hr Hlt; try done; cbn in Hlt; try lia; apply NoDup_cons in Hn as [Ha Hn]; unfold put_columns; cbn [zip zip_with foldl fst snd]; fold (put_columns rs (<[a := n]> l) news).
    - injection Hk as ->. rewrite put_other by done. by apply list_lookup_insert.
    - cbn. apply IH; [done|done|by rewrite insert_length|lia].
  Qed.
  Lemma zip_with_lookup {A B C} (f : A -> B -> C) l k i c : zip_with f l k !! i = Some c -> exists a b, l !! i = Some a /\ k !! i = Some b /\ c = f a b.
  Proof. intros H. apply lookup_zip_with_Some in H as (a & b & -> & ? & ?). by exists a, b. Qed.
  Lemma columns_holds counts nc (X : nat -> nat -> F) xs rs : holds counts nc X xs -> (forall r, r ∈ rs -> r < nc) -> holds counts (length rs) (fun g k => X g (nth k rs 0)) (map (columns rs) xs).
  Proof.
    intros [L H] Hrs. split; [by rewrite map_length|]. intros b c x Hc Hx. rewrite map_lookup in Hx. destruct (xs !! b) as [x0|] eqn:Ex; [|done]. injection Hx as <-. destruct (H b c x0 Hc Ex) as [Lx Hr]. unfold columns. rewrite map_length. split; [done|]. intros k col Hk. rewrite map_lookup in Hk. destruct (rs !! k) as [r|] eqn:Er; [|done]. injection Hk as <-. rewrite (nth_lookup_Some _ _ _ _ Er). pose proof (Hrs r ltac:(by eapply elem_of_list_lookup_2)) as Hlt. destruct (lookup_lt_is_Some_2 x0 r ltac:(lia)) as [col Hcol]. rewrite (nth_lookup_Some _ _ _ _ Hcol). by apply Hr.
  Qed.
  Lemma put_holds counts nc (Y Z : nat -> nat -> F) ys news rs : NoDup rs -> (forall r, r ∈ rs -> r < nc) -> holds counts nc Y ys -> holds counts (length rs) Z news ->
    holds counts nc (fun g r => match list_find (eq r) rs with Some (k, _) => Z g k | None => Y g r end) (zip_with (put_columns rs) ys news).
  Proof.
    intros HN Hrs [L H] [L' H']. split; [rewrite zip_with_length; lia|]. intros b c y Hc Hy. apply zip_with_lookup in Hy as (y0 & n0 & Hy0 & Hn0 & ->). destruct (H b c y0 Hc Hy0) as [Ly Hcols]. destruct (H' b c n0 Hc Hn0) as [Ln Hcols']. split; [by rewrite put_length|]. intros r col Hcol. destruct (list_find (eq r) rs) as [[k r']|] eqn:Ef.
    - apply list_find_Some in Ef as (Hk & <- & _). pose proof (lookup_lt_Some _ _ _ Hk). rewrite (put_at rs k r) in Hcol; [by apply Hcols'|done|done|rewrite Ly; apply Hrs; by eapply elem_of_list_lookup_2|lia].
    - apply list_find_None in Ef. rewrite put_other in Hcol; [by apply Hcols|]. intros Hin. rewrite Forall_forall in Ef. by apply (Ef r Hin).
  Qed.
End columns.

Section apply.
  Context {F : Type} (zero one : F) (add mul sub : F -> F -> F) (opp : F -> F) (Rth : ring_theory zero one add mul sub opp eq).
  Add Ring Fring7 : Rth.
  Notation Sig := (Cond_spec.Sig zero add).
  Notation only := (Cond_spec.only zero).
  Context (counts : list nat) (shareds : list (list nat)) (ranks : list (mf_rank F)) (dir : nat -> bool) (HW : mf_world counts shareds ranks dir).
  Context (K : job F -> nat -> nat -> F) (HK : all_apply zero add mul ranks K).
  Notation A' := (Adir zero one add counts shareds ranks dir K).
  Lemma scaled_holds is_zero nc Y ys beta : (forall b, is_zero b = true -> b = zero) -> holds counts nc Y ys -> holds counts nc (fun g r => mul beta (Y g r)) (map (map (scaled zero mul is_zero beta)) ys).
  Proof using Rth.
    intros Hz [L H]. split; [by rewrite map_length|]. intros b c y Hc Hy. rewrite map_lookup in Hy. destruct (ys !! b) as [y0|] eqn:Ey; [|done]. injection Hy as <-. destruct (H b c y0 Hc Ey) as [Ly Hr]. rewrite map_length. split; [done|]. intros r col Hcol. rewrite map_lookup in Hcol. destruct (y0 !! r) as [col0|] eqn:E0; [|done]. injection Hcol as <-. destruct (Hr r col0 E0) as [Lc Hg]. unfold scaled. rewrite map_length. split; [done|]. intros g Ho. rewrite map_lookup, (Hg g Ho). cbn. f_equal. destruct (is_zero beta) eqn:Eb; [|done]. rewrite (Hz _ Eb). ring.
  Qed.
  Lemma blocks_ok alpha nc X xs : holds counts nc X xs -> forall blocks Y ys ys', (forall rs, rs ∈ blocks -> NoDup rs /\ forall r, r ∈ rs -> r < nc) -> NoDup (concat blocks) -> holds counts nc Y ys ->
    blocks_applied zero add mul counts shareds ranks alpha blocks xs ys ys' ->
    holds counts nc (fun g r => if decide (r ∈ concat blocks) then add (Y g r) (mul alpha (product zero add mul counts A' X g r)) else Y g r) ys'.
  Proof using Rth HW HK.
    intros HX. induction blocks as [|rs blocks IH]; intros Y ys ys' Hb HN HY HA; cbn [blocks_applied] in HA.
    - subst ys'. eapply holds_ext; [|exact HY]. intros g r a _ _. cbv beta. cbn [concat]. destruct (decide (r ∈ [])) as [Hin|]; [by apply elem_of_nil in Hin|done].
    - destruct HA as (imps & outs & news & HI & HE & HX' & HR). destruct (Hb rs ltac:(left)) as [Hrs Hlt]. cbn [concat] in HN. apply NoDup_app in HN as (_ & Hdis & HN).
      pose proof (evaluate_ok zero one add mul sub opp Rth counts shareds ranks dir HW K alpha (length rs) _ _ _ _ imps outs news HK (columns_holds counts nc X xs rs HX Hlt) (columns_holds counts nc Y ys rs HY Hlt) HI HE HX') as Hnew.
      pose proof (put_holds counts nc Y _ ys news rs Hrs Hlt HY Hnew) as HY'. cbv beta in HY'. pose proof (IH _ _ _ (fun rs' Hin => Hb rs' (elem_of_list_further _ _ _ Hin)) HN HY' HR) as Hfin. eapply holds_ext; [|exact Hfin]. intros g r a Ho Hr. cbv beta. cbn [concat]. destruct (list_find (eq r) rs) as [[k r']|] eqn:Ef.
      + apply list_find_Some in Ef as (Hk & <- & _). pose proof (elem_of_list_lookup_2 _ _ _ Hk) as Hin. rewrite decide_False by by apply Hdis. rewrite decide_True by (apply elem_of_app; by left). unfold product. cbv beta. by rewrite (nth_lookup_Some _ _ _ _ Hk).
      + apply list_find_None in Ef. assert (Hnin : r ∉ rs) by (intros Hin; rewrite Forall_forall in Ef; by apply (Ef r Hin)). destruct (decide (r ∈ concat blocks)) as [H|H]; [rewrite decide_True by (apply elem_of_app; by right); done|]. rewrite decide_False; [done|]. rewrite elem_of_app. tauto.
  Qed.
  Lemma concat_singles n : forall a, concat (map (fun r : nat => [r]) (seq a n)) = seq a n.
  Proof using. clear. induction n as [|n IH]; intros a; [done|]. cbn [seq map concat app]. by rewrite IH. Qed.
  Lemma column_blocks_ok xc yc n : column_blocks xc yc n = (if (xc =? yc) && (xc <=? n) then Ok (if xc =? n then [seq 0 xc] else map (fun r => [r]) (seq 0 xc)) else Throw).
  Proof using. clear. unfold column_blocks, throwing_assert. destruct (Nat.eqb_spec xc yc) as [-> |H]; [|done]. cbn [andb]. destruct (yc <=? n); done. Qed.
  Lemma applied_ok is_zero alpha beta xc yc n X Y xs ys ys' : (forall b, is_zero b = true -> b = zero) -> holds counts xc X xs -> holds counts yc Y ys ->
    applied zero add mul is_zero counts shareds ranks alpha beta xc yc n xs ys ys' ->
    xc = yc /\ xc <= n /\ holds counts yc (fun g r => add (mul beta (Y g r)) (mul alpha (product zero add mul counts A' X g r))) ys'.
  Proof using Rth HW HK.
    intros Hz HX HY (blocks & E & HA). rewrite column_blocks_ok in E. destruct (Nat.eqb_spec xc yc) as [<-|]; [|done]. destruct (Nat.leb_spec xc n) as [Hle|]; [|done]. cbn [andb] in E. split; [done|]. split; [done|]. injection E as <-.
    assert (Hc : forall p : bool, concat (if p then [seq 0 xc] else map (fun r => [r]) (seq 0 xc)) = seq 0 xc) by (intros []; [cbn; apply app_nil_r|apply concat_singles]).
    eapply holds_ext; [|eapply (blocks_ok alpha xc X xs HX); [| |by apply scaled_holds|exact HA]].
    - intros g r a _ Hr. cbv beta. rewrite Hc. by rewrite decide_True by (apply elem_of_seq; lia).
    - intros rs Hrs. destruct (xc =? n).
      + apply elem_of_list_singleton in Hrs as ->. split; [apply NoDup_seq|]. intros r Hr%elem_of_seq. lia.
      + apply elem_of_list_In, in_map_iff in Hrs as (r & <- & Hr%elem_of_list_In%elem_of_seq). split; [apply NoDup_singleton|]. intros r' ->%elem_of_list_singleton. lia.
    - rewrite Hc. apply NoDup_seq.
  Qed.
  (** ** Algebra. *)
  Context (B : job F -> nat -> nat -> F).
  Notation A := (Amat zero add counts shareds ranks K).
  Notation Bd := (Bdir zero add mul sub counts shareds ranks dir K B).
  Lemma Adir_row g r X : g < N counts -> product zero add mul counts A' X g r = if dir g then X g r else Sig (seq 0 (N counts)) (fun h => if dir h then zero else mul (A g h) (X h r)).
  Proof using Rth.
    intros Hg. unfold product, Adir. destruct (dir g).
    - rewrite (Sig_ext zero add _ _ (fun h => only (h = g) (X h r))); [apply (Sig_one zero one add mul sub opp Rth (seq 0 (N counts)) g (fun h => X h r)); [apply NoDup_seq|apply elem_of_seq; lia]|]. intros h _. rewrite (only_mul_r zero one add mul sub opp Rth). apply only_ext; [naive_solver|]. intros _. ring.
    - apply Sig_ext. intros h _. destruct (dir h); [ring|done].
  Qed.
  Lemma system_equiv X V r : (forall g, g < N counts -> product zero add mul counts A' X g r = Bd V g r) <->
    (forall g, g < N counts -> if dir g then X g r = V g r else product zero add mul counts A X g r = Bvec zero add counts shareds ranks B g r).
  Proof using Rth.
    assert (Hsplit : (forall h, h < N counts -> dir h = true -> X h r = V h r) -> forall g, product zero add mul counts A X g r = add (Sig (seq 0 (N counts)) (fun h => if dir h then zero else mul (A g h) (X h r))) (Sig (seq 0 (N counts)) (fun h => only (dir h = true) (mul (A g h) (V h r))))).
    { intros HV g. unfold product. rewrite <- (Sig_add zero one add mul sub opp Rth). apply Sig_ext. intros h Hh%elem_of_seq. destruct (dir h) eqn:Ed; [rewrite only_true, HV by (done || lia); ring|]. rewrite only_false by done. ring. }
    assert (Hmove : forall a b c : F, a = sub b c <-> add a c = b). { intros a b c. split; [intros ->; ring|intros <-; ring]. }
    split; intros H.
    - assert (HV : forall h, h < N counts -> dir h = true -> X h r = V h r). { intros h Hh Hd. specialize (H h Hh). rewrite Adir_row in H by done. unfold Bdir in H. by rewrite Hd in H. }
      intros g Hg. specialize (H g Hg). rewrite Adir_row in H by done. unfold Bdir in H. destruct (dir g); [done|]. rewrite (Hsplit HV g). by apply Hmove.
    - assert (HV : forall h, h < N counts -> dir h = true -> X h r = V h r). { intros h Hh Hd. specialize (H h Hh). by rewrite Hd in H. }
      intros g Hg. specialize (H g Hg). rewrite Adir_row by done. unfold Bdir. destruct (dir g); [done|]. rewrite (Hsplit HV g) in H. by apply Hmove.
  Qed.
  Lemma over_jobs_ext f h : (forall b rk j, ranks !! b = Some rk -> j ∈ mr_border rk ++ mr_interior rk -> f b rk j = h b rk j) -> over_jobs zero add ranks f = over_jobs zero add ranks h.
  Proof using. clear. intros H. unfold over_jobs. apply Sig_ext. intros b _. destruct (ranks !! b) as [rk|] eqn:E; [|done]. apply Sig_ext. intros j Hj. by apply H. Qed.
  Lemma Adir_symmetric : (forall b rk j i k, ranks !! b = Some rk -> j ∈ mr_border rk ++ mr_interior rk -> K j i k = K j k i) -> forall g h, A' g h = A' h g.
  Proof using Rth.
    intros HS g h. assert (HA : forall g h, A g h = A h g).
    { intros g' h'. unfold Amat. apply over_jobs_ext. intros b rk j Hrk Hj.
      transitivity (Sig (seq 0 (n_dofs j)) (fun i => Sig (seq 0 (n_dofs j)) (fun k => only (hits counts shareds b g' (job_dof (mr_map rk) j i) = true) (only (hits counts shareds b h' (job_dof (mr_map rk) j k) = true) (K j i k))))).
      - apply Sig_ext. intros i _. by rewrite (only_Sig zero one add mul sub opp Rth).
      - rewrite (Sig_swap zero one add mul sub opp Rth). apply Sig_ext. intros k _. rewrite (only_Sig zero one add mul sub opp Rth). apply Sig_ext. intros i _. rewrite only_swap. rewrite (HS b rk j i k Hrk Hj). done. }
    unfold Adir. destruct (dir g) eqn:Eg, (dir h) eqn:Eh; [apply only_ext; [naive_solver|done]| | |apply HA].
    - apply only_false. intros ->. congruence.
    - symmetry. apply only_false. intros ->. congruence.
  Qed.
  Lemma diagonal_eq g : (forall b rk j i k l, ranks !! b = Some rk -> j ∈ mr_border rk ++ mr_interior rk -> i < n_dofs j -> k < n_dofs j -> job_dof (mr_map rk) j i = Some l -> job_dof (mr_map rk) j k = Some l -> i = k) ->
    Dvec zero add counts shareds ranks K g = A g g.
  Proof using Rth.
    intros Hinj. unfold Dvec, Amat. apply over_jobs_ext. intros b rk j Hrk Hj. apply Sig_ext. intros i Hi%elem_of_seq. unfold Cond_spec.only at 1 2. destruct (decide (hits counts shareds b g (job_dof (mr_map rk) j i) = true)) as [Hh|]; [|done]. symmetry.
    rewrite (Sig_ext zero add _ _ (fun k => only (k = i) (K j i k))); [apply (Sig_one zero one add mul sub opp Rth (seq 0 (n_dofs j)) i (fun k => K j i k)); [apply NoDup_seq|apply elem_of_seq; lia]|].
    intros k Hk%elem_of_seq. apply only_ext; [|done]. split; [|by intros ->]. unfold hits in *. destruct (local_of counts shareds b g) as [l|]; [|done]. destruct (job_dof (mr_map rk) j i) as [li|] eqn:Ei; [|done]. destruct (job_dof (mr_map rk) j k) as [lk|] eqn:Ek; [|done]. apply Nat.eqb_eq in Hh. subst li. intros E%Nat.eqb_eq. subst lk. eapply Hinj; eauto; lia.
  Qed.
End apply.

(** C74 provides the Dirichlet dofs. *)
Lemma known_bc counts shareds b (P : nat -> Prop) c flags hash dir : knows counts shareds b P c flags -> (forall l, hash l ≡ₚ l) -> (forall g, dir g = true <-> P g) ->
  bc_ok counts shareds dir b (Some (dofs_set hash flags, dofs_sorted c (dofs_set hash flags))).
Proof.
  intros [_ H] Hh Hd. destruct (H hash Hh) as (H1 & H2 & H3 & H4). split; [|split; [|split]].
  - intros g l Hl. rewrite Hd. by apply H1.
  - intros g l Hl. rewrite Hd. by apply H2.
  - intros l Hl. apply H3. unfold dofs_sorted in Hl. rewrite sort_elem, filter_In' in Hl. by destruct Hl.
  - by apply strict_nodup.
Qed.
