From Verif Require Import Base StdAlgo Helpers_model Helpers_proofs ProbDef_model ProbDef_spec.

Lemma set_flags inds : forall b, Forall (fun i => i < length b) inds ->
  exists b', for_each (fun i b => wr b i true) inds b = Ok b' /\ length b' = length b /\
    forall d, b' !! d = Some true <-> b !! d = Some true \/ d ∈ inds.
Proof.
  induction inds as [|i inds IH]; intros b F.
  - exists b. split; [done|]. split; [done|]. intros d. set_solver.
  - apply Forall_cons in F as [Hi F]. cbn [for_each].
    rewrite (wr_ok b i true Hi). cbn [mbind res_bind].
    destruct (IH (<[i:=true]> b)) as (b' & E & L & M).
    { rewrite insert_length. done. }
    exists b'. split; [exact E|]. split; [rewrite L; apply insert_length|].
    intros d. rewrite M, elem_of_cons. destruct (decide (i = d)) as [->|N].
    + rewrite list_lookup_insert by done. tauto.
    + rewrite list_lookup_insert_ne by done. split; intros [?|?]; auto. destruct H as [->|?]; auto. done.
Qed.

Lemma all_below n inds : forallb (fun i => i <? n) inds = true <-> Forall (fun i => i < n) inds.
Proof. rewrite forallb_forall, Forall_forall. split; intros H x Hx; apply Nat.ltb_lt, H; by apply elem_of_list_In. Qed.

Lemma define_ok n defs domains inds : Forall (fun i => i < n) inds ->
  exists b, define n defs domains inds = Ok (defs ++ [(domains, b)]) /\ length b = n /\
    forall d, b !! d = Some true <-> d ∈ inds.
Proof.
  intros F. unfold define. rewrite (proj2 (all_below n inds) F).
  destruct (set_flags inds (replicate n false)) as (b & E & L & M); [by rewrite replicate_length|].
  rewrite E. cbn [mbind res_bind]. exists b. split; [done|]. rewrite replicate_length in L. split; [done|].
  intros d. rewrite M. split; [|auto]. intros [H|H]; [|done]. apply lookup_replicate in H as [? ?]. done.
Qed.
Lemma define_throws n defs domains inds : ~ Forall (fun i => i < n) inds -> define n defs domains inds = Throw.
Proof.
  intros F. unfold define. destruct (forallb (fun i => i <? n) inds) eqn:E; [|done].
  by apply all_below in E.
Qed.

Lemma accepted_dec n c : accepted n c \/ ~ accepted n c.
Proof.
  unfold accepted. rewrite <- all_below. destruct (forallb _ _); [by left|by right].
Qed.

Lemma define_many_gen n calls : forall defs,
  exists out, for_each (fun c defs => define_catch n defs c) calls defs = Ok (defs ++ out) /\
    Forall (fun e => length e.2 = n) out /\
    (forall D d, active_in out D d <-> requested n calls D d) /\
    (forall D, D ∈ concat (map fst out) <-> exists c, c ∈ calls /\ accepted n c /\ D ∈ c.1).
Proof.
  induction calls as [|c calls IH]; intros defs.
  - exists []. rewrite app_nil_r. split; [done|]. split; [done|]. split.
    + intros D d. split; intros (e & H & _); by apply elem_of_nil in H.
    + intros D. split; [intros H; by apply elem_of_nil in H|intros (e & H & _); by apply elem_of_nil in H].
  - cbn [for_each]. destruct (accepted_dec n c) as [A|A].
    + destruct (define_ok n defs c.1 c.2 A) as (b & E & L & M).
      assert (DC : define_catch n defs c = Ok (defs ++ [(c.1, b)])) by (unfold define_catch; by rewrite E).
      rewrite DC. cbn [mbind res_bind].
      destruct (IH (defs ++ [(c.1, b)])) as (out & E2 & L2 & M2 & C2).
      exists ((c.1, b) :: out). split; [rewrite E2; by rewrite <- app_assoc|].
      split; [by constructor|]. split.
      * intros D d. split.
        -- intros (e & He & HD & Hd). apply elem_of_cons in He as [->|He].
           ++ exists c. split; [left|]. split; [done|]. split; [done|]. by apply M.
           ++ destruct (proj1 (M2 D d)) as (c' & ? & ?); [by exists e|]. exists c'. split; [by right|done].
        -- intros (c' & Hc & Ac & HD & Hd). apply elem_of_cons in Hc as [->|Hc].
           ++ exists (c.1, b). split; [left|]. split; [done|]. by apply M.
           ++ destruct (proj2 (M2 D d)) as (e & ? & ?); [by exists c'|]. exists e. split; [by right|done].
      * intros D. cbn [map concat]. rewrite elem_of_app, C2. split.
        -- intros [H|(c' & ? & ?)]; [exists c; split; [left|done]|exists c'; split; [by right|done]].
        -- intros (c' & Hc & Ac & HD). apply elem_of_cons in Hc as [->|Hc]; [by left|right; by exists c'].
    + assert (DC : define_catch n defs c = Ok defs) by (unfold define_catch; by rewrite (define_throws n defs c.1 c.2 A)).
      rewrite DC. cbn [mbind res_bind].
      destruct (IH defs) as (out & E2 & L2 & M2 & C2). exists out. split; [done|]. split; [done|]. split.
      * intros D d. rewrite M2. split; intros (c' & Hc & Ac & H).
        -- exists c'. split; [by right|done].
        -- apply elem_of_cons in Hc as [->|Hc]; [done|by exists c'].
      * intros D. rewrite C2. split; intros (c' & Hc & Ac & H).
        -- exists c'. split; [by right|done].
        -- apply elem_of_cons in Hc as [->|Hc]; [done|by exists c'].
Qed.

Lemma set_at_flags inds : forall b,
  (Forall (fun i => i < length b) inds ->
    exists b', for_each (fun i b => set_at b i) inds b = Ok b' /\ length b' = length b /\
      forall d, b' !! d = Some true <-> b !! d = Some true \/ d ∈ inds) /\
  (~ Forall (fun i => i < length b) inds -> for_each (fun i b => set_at b i) inds b = Throw).
Proof.
  induction inds as [|i inds IH]; intros b.
  - split; [|intros H; by destruct H].
    intros _. exists b. split; [done|]. split; [done|]. intros d. set_solver.
  - cbn [for_each]. destruct (i <? length b) eqn:Hi.
    + assert (SA : set_at b i = Ok (<[i:=true]> b)) by (unfold set_at; by rewrite Hi).
      rewrite SA. apply Nat.ltb_lt in Hi. cbn [mbind res_bind]. destruct (IH (<[i:=true]> b)) as [I1 I2].
      rewrite insert_length in I1, I2. split.
      * intros F. apply Forall_cons in F as [_ F]. destruct (I1 F) as (b' & E & L & M).
        exists b'. split; [exact E|]. split; [exact L|].
        intros d. rewrite M, elem_of_cons. destruct (decide (i = d)) as [->|N].
        -- rewrite list_lookup_insert by done. tauto.
        -- rewrite list_lookup_insert_ne by done. split; intros [?|?]; auto. destruct H as [->|?]; auto. done.
      * intros F. apply I2. intros F'. apply F. by constructor.
    + assert (SA : set_at b i = Throw) by (unfold set_at; by rewrite Hi).
      rewrite SA. apply Nat.ltb_ge in Hi. split; [|done]. intros F. apply Forall_cons in F as [? _]. lia.
Qed.

Lemma max_bound (ds : list (nat * list bool)) d : d ∈ ds -> length d.2 <= problem_fields ds.
Proof.
  unfold problem_fields. induction ds as [|x ds IH]; intros H; [by apply elem_of_nil in H|].
  cbn [map foldr]. apply elem_of_cons in H as [->|H]; [lia|]. specialize (IH H). lia.
Qed.

Lemma extend_ok fields d : length d.2 <= fields ->
  exists b, extendDomainDef fields d = Ok (d.1, b) /\ length b = fields /\
    forall i, b !! i = Some true <-> d.2 !! i = Some true.
Proof.
  intros H. unfold extendDomainDef. rewrite (proj2 (Nat.leb_le _ _) H). eexists. split; [done|].
  split; [rewrite app_length, drop_length, replicate_length; lia|].
  intros i. destruct (decide (i < length d.2)) as [L|L].
  - rewrite lookup_app_l by done. done.
  - rewrite lookup_app_r by lia. rewrite lookup_drop. split; intros E.
    + apply lookup_replicate in E as [? ?]. done.
    + apply lookup_lt_Some in E. lia.
Qed.

Lemma problem_def_gen fields ds : (forall d, d ∈ ds -> length d.2 <= fields) ->
  exists out, map_res (extendDomainDef fields) ds = Ok out /\
    Forall2 (fun d e => e.1 = d.1 /\ length e.2 = fields /\ forall i, e.2 !! i = Some true <-> d.2 !! i = Some true) ds out.
Proof.
  induction ds as [|d ds IH]; intros H.
  - by exists [].
  - destruct (extend_ok fields d) as (b & E & L & M); [apply H; left|].
    destruct IH as (out & E2 & F); [intros; apply H; by right|].
    exists ((d.1, b) :: out). cbn [map_res]. rewrite E. cbn [mbind res_bind]. rewrite E2. split; [done|].
    constructor; [done|done].
Qed.

Lemma round_up lo hi n d : (lo <= 0)%Z -> (0 <= n <= hi)%Z -> (0 < d <= hi)%Z ->
  exists q, intDivRoundUp lo hi n d = Ok q /\ ((q - 1) * d < n <= q * d)%Z.
Proof.
  intros Hlo Hn Hd. unfold intDivRoundUp. rewrite (proj2 (Z.eqb_neq d 0)) by lia. cbv zeta.
  rewrite (Z.rem_mod_nonneg n d), (Z.quot_div_nonneg n d) by lia.
  pose proof (Z.div_mod n d ltac:(lia)) as E. pose proof (Z.mod_pos_bound n d ltac:(lia)) as B.
  pose proof (Z.div_pos n d ltac:(lia) ltac:(lia)) as P.
  set (q := (n / d)%Z) in *. set (r := (n mod d)%Z) in *. clearbody q r.
  destruct (r =? 0)%Z eqn:R.
  - apply Z.eqb_eq in R. subst r. assert (q <= hi)%Z by nia.
    rewrite (proj2 (Z.leb_le lo q)), (proj2 (Z.leb_le q hi)) by lia. exists q. split; [done|]. nia.
  - apply Z.eqb_neq in R. assert (q + 1 <= hi)%Z by nia.
    rewrite (proj2 (Z.leb_le lo q)), (proj2 (Z.leb_le q hi)), (proj2 (Z.leb_le lo (q+1))), (proj2 (Z.leb_le (q+1) hi)) by lia.
    exists (q + 1)%Z. split; [done|]. nia.
Qed.
Lemma round_negative lo hi n d : (lo <= n)%Z -> (n < 0)%Z -> (0 < d <= hi)%Z ->
  exists q, intDivRoundUp lo hi n d = Ok q /\
    (q * d = n \/ (forall k, k * d <> n) /\ (q - 2) * d < n < (q - 1) * d)%Z.
Proof.
  intros Hlo Hn Hd. unfold intDivRoundUp. rewrite (proj2 (Z.eqb_neq d 0)) by lia. cbv zeta.
  pose proof (Z.quot_rem n d ltac:(lia)) as E. assert (B : (- d < Z.rem n d <= 0)%Z) by (pose proof (Z.rem_bound_pos (- n) d ltac:(lia) ltac:(lia)) as B; rewrite Z.rem_opp_l in B by lia; lia).
  set (q := Z.quot n d) in *. set (r := Z.rem n d) in *. clearbody q r.
  assert (q <= 0)%Z by nia. assert (n <= q)%Z by nia.
  destruct (r =? 0)%Z eqn:R.
  - apply Z.eqb_eq in R. rewrite (proj2 (Z.leb_le lo q)), (proj2 (Z.leb_le q hi)) by lia. exists q. split; [done|]. left. subst r. rewrite E. ring.
  - apply Z.eqb_neq in R.
    rewrite (proj2 (Z.leb_le lo q)), (proj2 (Z.leb_le q hi)), (proj2 (Z.leb_le lo (q+1))), (proj2 (Z.leb_le (q+1) hi)) by lia.
    exists (q + 1)%Z. split; [done|]. right. split; [|nia].
    intros k Hk. assert (d * (k - q) = r)%Z by lia. assert (k - q < 0 \/ k - q = 0 \/ 0 < k - q)%Z as [?|[?|?]] by lia; nia.
Qed.
