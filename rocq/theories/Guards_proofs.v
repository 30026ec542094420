From Verif Require Import Base StdAlgo Guards_model Guards_spec.
Local Arguments Nat.ltb : simpl never.
Local Arguments Nat.leb : simpl never.
Local Arguments Nat.eqb : simpl never.

(** ** Parallelism guards *)
Record pinv (hw omp : nat) (s : par_state) (reqs : list nat) : Prop := {
  pi_cur : p_cur s = least hw reqs;
  pi_tbb : tbb_limit hw s = least hw reqs;
  pi_low : forall x, x ∈ p_tbb s -> least hw reqs <= x;
  pi_omp : (p_cur s < hw -> p_omp s = least hw reqs) /\ (p_cur s = hw -> p_omp s = omp) }.

Lemma least_le hw reqs : least hw reqs <= hw.
Proof. induction reqs as [|n reqs IH]; [done|]. change (least hw (n :: reqs)) with (Nat.min (Nat.max n 1) (least hw reqs)). lia. Qed.
Lemma least_restr hw reqs : least hw reqs < hw <-> restricting hw reqs.
Proof.
  induction reqs as [|n reqs IH].
  - cbn. split; [lia|]. intros (n & Hn & _). by apply elem_of_nil in Hn.
  - change (least hw (n :: reqs)) with (Nat.min (Nat.max n 1) (least hw reqs)). split.
    + intros H. destruct (decide (Nat.max n 1 < hw)); [exists n; split; [by left|done]|].
      destruct (proj1 IH) as (m & Hm & ?); [lia|]. exists m. split; [by right|done].
    + intros (m & [->|Hm]%elem_of_cons & Hlt); [lia|]. assert (restricting hw reqs) as H%IH by (by exists m). lia.
Qed.
(** A stack of guards that takes state [s] back to the initial state. *)
Fixpoint unwinds (hw omp : nat) (s : par_state) (stack : list par_guard) (reqs : list nat) : Prop :=
  match stack, reqs with
  | [], [] => s = par0 hw omp
  | g :: stack, n :: reqs => exists s0, pinv hw omp s0 reqs /\ unwinds hw omp s0 stack reqs /\ par_construct s0 n = (s, g)
  | _, _ => False
  end.
Lemma construct_inv hw omp s reqs n : pinv hw omp s reqs -> pinv hw omp (par_construct s n).1 (n :: reqs).
Proof.
  intros [H1 H2 H3 [H4 H5]]. unfold par_construct. pose proof (least_le hw reqs) as Hle.
  change (least hw (n :: reqs)) with (Nat.min (Nat.max n 1) (least hw reqs)) in *.
  assert (E : least hw (n :: reqs) = Nat.min (Nat.max n 1) (least hw reqs)) by done.
  destruct (Nat.ltb_spec (Nat.max n 1) (p_cur s)) as [Hl|Hl]; cbn [fst].
  - split; cbn [p_cur p_tbb p_omp]; rewrite ?E.
    + lia.
    + unfold tbb_limit in *. cbn [p_tbb foldr]. rewrite H2. lia.
    + intros x [->|Hx]%elem_of_cons; [lia|]. specialize (H3 x Hx). lia.
    + split; lia.
  - split; rewrite ?E.
    + lia.
    + lia.
    + intros x Hx. specialize (H3 x Hx). lia.
    + split; intros; [rewrite H4 by lia|apply H5; done]. lia.
Qed.
Lemma destroy_construct s n : par_destroy (par_construct s n).1 (par_construct s n).2 = s.
Proof.
  unfold par_construct. destruct (Nat.max n 1 <? p_cur s); cbn [fst snd]; [|done].
  unfold par_destroy. cbn [pg_thr pg_prev p_cur p_tbb p_omp remove1]. rewrite Nat.eqb_refl. by destruct s.
Qed.
Lemma run_inv hw omp ops s stack reqs reqs' : pinv hw omp s reqs -> unwinds hw omp s stack reqs ->
  alive reqs ops = Some reqs' ->
  exists s' stack', par_run s stack ops = Ok (s', stack') /\ pinv hw omp s' reqs' /\ unwinds hw omp s' stack' reqs'.
Proof.
  revert s stack reqs. induction ops as [|[n|] ops IH]; intros s stack reqs Hi Hu Ha; cbn [alive par_run] in *.
  - injection Ha as <-. eauto.
  - apply (IH (par_construct s n).1 ((par_construct s n).2 :: stack) (n :: reqs)); [by apply construct_inv| |done].
    cbn. exists s. split; [done|]. split; [done|]. by destruct (par_construct s n).
  - destruct reqs as [|n reqs]; [done|]. destruct stack as [|g stack]; [done|]. cbn in Hu. destruct Hu as (s0 & H0 & Hu & E).
    pose proof (destroy_construct s0 n) as Hd. rewrite E in Hd. cbn in Hd. rewrite Hd. by apply (IH s0 stack reqs).
Qed.
Lemma par0_inv hw omp : pinv hw omp (par0 hw omp) [].
Proof. split; cbn; [done|done|by intros ? ?%elem_of_nil|]. split; [lia|done]. Qed.

(** ** Library guards *)
Definition owners (gs : list (option bool)) : nat := length (List.filter (fun o : option bool => match o with Some true => true | _ => false end) gs).
Lemma owners_app g1 g2 : owners (g1 ++ g2) = owners g1 + owners g2.
Proof. unfold owners. by rewrite List.filter_app, app_length. Qed.
Definition own1 (o : option bool) : nat := match o with Some true => 1 | _ => 0 end.
Lemma owners_cons o gs : owners (o :: gs) = own1 o + owners gs.
Proof. unfold owners. cbn [List.filter]. by destruct o as [[]|]. Qed.
Lemma owners_insert gs i o o' : gs !! i = Some o -> owners (<[i := o']> gs) + own1 o = owners gs + own1 o'.
Proof.
  revert i. induction gs as [|a gs IH]; intros [|i] H; cbn in H; simplify_eq.
  - change (<[0 := o']> (o :: gs)) with (o' :: gs). rewrite !owners_cons. lia.
  - change (<[S i := o']> (a :: gs)) with (a :: <[i := o']> gs). rewrite !owners_cons. specialize (IH i H). lia.
Qed.
(** Either nobody owns it, or one guard does and the library is active. *)
Record ginv (w : world) : Prop := {
  gi_lib : match w_lib w with
           | NotInit => w_inits w = 0 /\ w_finals w = 0 /\ owners (w_guards w) = 0
           | Active => w_inits w = owners (w_guards w) /\ w_finals w = 0 /\ w_inits w <= 1
           | Finalised => w_inits w = 1 /\ w_finals w = 1 /\ owners (w_guards w) = 0
           end }.
Lemma step_inv mpi w o w' : ginv w ->
  match o with MoveAssign d s => d = s \/ w_guards w !! d <> Some (Some true) | _ => True end ->
  guard_step mpi w o = Ok w' -> ginv w'.
Proof.
  intros [H] Hn. destruct o as [sup|src|dst src|g|]; cbn [guard_step].
  - unfold construct_state. destruct (w_lib w) eqn:El; [destruct (mpi && negb sup)|destruct (mpi && negb sup)|];
      cbn [fst snd]; intros [= <-]; split; cbn [w_lib w_finals w_inits w_guards]; rewrite ?owners_app; cbn; lia.
  - destruct (w_guards w !! src) as [[b|]|] eqn:E; [|done|done]. intros [= <-]. split. cbn [w_lib w_finals w_inits w_guards].
    rewrite owners_app. pose proof (owners_insert _ _ _ (Some false) E) as Ho. cbn in Ho.
    replace (owners [Some b]) with (own1 (Some b)) by (by destruct b). cbn.
    destruct (w_lib w); lia.
  - destruct (w_guards w !! dst) as [[a|]|] eqn:Ed; [|done|done]. destruct (w_guards w !! src) as [[b|]|] eqn:Es; [|done|done].
    destruct (Nat.eqb_spec dst src) as [->|Hne]; intros [= <-]; [by split|]. split. cbn [w_lib w_finals w_inits w_guards].
    assert (a = false) as -> by (destruct a; [naive_solver|done]).
    pose proof (owners_insert _ _ _ (Some false) Es) as H1.
    pose proof (owners_insert (<[src := Some false]> (w_guards w)) dst (Some false) (Some b)) as H2.
    rewrite list_lookup_insert_ne in H2 by done. specialize (H2 Ed). cbn in H1, H2. destruct (w_lib w); lia.
  - unfold destroy_guard. destruct (w_guards w !! g) as [[[]|]|] eqn:E; try done.
    + destruct (w_lib w); try done. intros [= <-]. pose proof (owners_insert _ _ _ None E) as Ho. cbn in Ho.
      split. cbn [w_lib w_finals w_inits w_guards]. lia.
    + intros [= <-]. pose proof (owners_insert _ _ _ None E) as Ho. cbn in Ho. split. cbn [w_lib w_finals w_inits w_guards].
      destruct (w_lib w); lia.
  - destruct (w_lib w) eqn:El; try done. intros [= <-]. split. cbn [w_lib w_finals w_inits w_guards]. lia.
Qed.
Lemma run_ginv mpi ops w w' : ginv w -> no_owning_target mpi w ops -> guard_run mpi w ops = Ok w' -> ginv w'.
Proof.
  revert w. induction ops as [|o ops IH]; intros w Hw Hn; unfold guard_run; cbn [for_each].
  - by intros [= <-].
  - destruct Hn as [Hn1 Hn2]. destruct (guard_step mpi w o) as [w1| |] eqn:E; [|done|done]. cbn. intros H.
    apply (IH w1); [by eapply step_inv|done|done].
Qed.
Lemma world0_inv : ginv world0.
Proof. split. cbn. done. Qed.
Lemma owners_none gs : Forall (fun o => o = None) gs -> owners gs = 0.
Proof. induction 1 as [|o gs -> _ IH]; [done|]. exact IH. Qed.
(** Destroying a living guard never goes wrong. *)
Lemma destroy_fine w g b : ginv w -> w_guards w !! g = Some (Some b) -> is_ok (destroy_guard w g).
Proof.
  intros [H] E. unfold destroy_guard. rewrite E. destruct b; [|eexists; done].
  pose proof (owners_insert _ _ _ None E) as Ho. cbn in Ho. destruct (w_lib w); [lia|eexists; done|lia].
Qed.
