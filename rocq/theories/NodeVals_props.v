(** C45: nodal values set on all ranks. *)
From Coq Require Import ZArith Reals Lra.
From Verif Require Import Base StdAlgo Ownership_spec Ownership_proofs ImportExport_spec NodeVals_model NodeVals_spec NodeVals_proofs NodeVals2_proofs.

Lemma choose_list {X} n (P : nat -> X -> Prop) : (forall b, b < n -> exists x, P b x) -> exists l, length l = n /\ forall b, b < n -> exists x, l !! b = Some x /\ P b x.
Proof.
  induction n as [|n IH]; intros H; [exists []; split; [done|]; intros b Hb; lia|]. destruct IH as (l & Hl & Hp); [intros b Hb; apply H; lia|]. destruct (H n ltac:(lia)) as [x Hx]. exists (l ++ [x]). rewrite app_length. split; [cbn; lia|].
  intros b Hb. destruct (decide (b < n)) as [Hlt|Hge]; [rewrite lookup_app_l by lia; by apply Hp|]. assert (b = n) as -> by lia. rewrite lookup_app_r by lia. replace (n - length l) with 0 by lia. by exists x.
Qed.

(** Matrix-free systems, kernels: for every number of ranks, ownership, list of
    contributions on each rank (any order), and every outcome of the two exports: no
    access is out of bounds and each owned value is the mean of all contributions of all
    ranks, or the old value if there are none.  Fewer than 2^16 contributions per index. *)
Theorem nodal_values_mean {F} (zero : F) (add div : F -> F -> F) (of_nat : nat -> F) counts shareds (ins : list (rank_in F)) (olds : list (list F)) :
  (forall x, add zero x = x) -> (forall x y, add x y = add y x) -> (forall x y z, add x (add y z) = add (add x y) z) ->
  tables counts shareds -> length ins = length counts -> length olds = length counts ->
  (forall b c sh r old, counts !! b = Some c -> shareds !! b = Some sh -> ins !! b = Some r -> olds !! b = Some old -> rank_ok c (length sh) r /\ length old = c) ->
  exists phases, length phases = length counts /\
    (forall b c sh r old p, counts !! b = Some c -> shareds !! b = Some sh -> ins !! b = Some r -> olds !! b = Some old -> phases !! b = Some p -> kernel_phase zero add c (length sh) r old = Ok p) /\
    forall a old, olds !! a = Some old -> average zero add div of_nat counts shareds phases a (fun new => forall g, owns counts a g -> (N.of_nat (length (contributed counts shareds ins g)) < 65536)%N ->
      exists ov nv, old !! (g - first_owned counts a) = Some ov /\ new !! (g - first_owned counts a) = Some nv /\ mean_or_old zero add div of_nat (contributed counts shareds ins g) ov nv).
Proof.
  intros A0 AC AA HT Hi Ho Hok. pose proof HT as [HL _].
  destruct (choose_list (length counts) (fun b p => forall c sh r old, counts !! b = Some c -> shareds !! b = Some sh -> ins !! b = Some r -> olds !! b = Some old -> kernel_phase zero add c (length sh) r old = Ok p /\ phase_right zero add c (length sh) r old p)) as (phases & Lp & Hp).
  { intros b Hb. destruct (lookup_lt_is_Some_2 counts b Hb) as [c Hc], (lookup_lt_is_Some_2 shareds b ltac:(lia)) as [sh Hsh], (lookup_lt_is_Some_2 ins b ltac:(lia)) as [r Hr], (lookup_lt_is_Some_2 olds b ltac:(lia)) as [old Hold].
    destruct (Hok b c sh r old Hc Hsh Hr Hold) as [H1 H2]. destruct (kernel_phase_ok zero add A0 AC AA c (length sh) r old H2 H1) as (p & Ep & Hp). exists p. intros c' sh' r' old' E1 E2 E3 E4. assert (c' = c) as -> by congruence. assert (sh' = sh) as -> by congruence. assert (r' = r) as -> by congruence. assert (old' = old) as -> by congruence. done. }
  exists phases. split; [done|]. split.
  - intros b c sh r old p Hc Hsh Hr Hold Hpb. destruct (Hp b ltac:(by eapply lookup_lt_Some)) as (p' & Hpb' & H). assert (p' = p) as -> by congruence. by apply H.
  - intros a old Hold. assert (Ha : a < length counts) by (rewrite <- Ho; by eapply lookup_lt_Some).
    destruct (average_ok zero add div of_nat A0 AC AA counts shareds ins HT Hi olds phases) with (a := a) as (p & c & Hpa & Hca & Hav); [|done|].
    { intros b c sh r Hc Hsh Hr. assert (Hb : b < length counts) by by eapply lookup_lt_Some. destruct (Hp b Hb) as (p & Hpb & H). destruct (lookup_lt_is_Some_2 olds b ltac:(lia)) as [ob Hob]. exists ob, p. split; [done|]. split; [done|]. split; [by apply (Hok b c sh r ob)|]. by apply H. }
    exists p, c. split; [done|]. split; [done|]. intros cs Hcs. destruct (Hav cs Hcs) as (o1 & E1 & H1). exists o1. split; [done|]. intros o2 Ho2. destruct (H1 o2 Ho2) as (new & E2 & H2). exists new. split; [done|]. intros g Hg Hs. destruct (H2 g Hg Hs) as (old' & ov & nv & Hold' & X). assert (old' = old) as -> by congruence. by exists ov, nv.
Qed.

(** SolutionManager::setFields: likewise for every node a rank knows, owned or shared. *)
Theorem nodal_fields_mean {F} (zero : F) (add div : F -> F -> F) (of_nat : nat -> F) counts shareds (ins : list (rank_in F)) :
  (forall x, add zero x = x) -> (forall x y, add x y = add y x) -> (forall x y z, add x (add y z) = add (add x y) z) ->
  tables counts shareds -> length ins = length counts ->
  (forall b c sh r x, counts !! b = Some c -> shareds !! b = Some sh -> ins !! b = Some r -> x ∈ ri_border r ++ ri_interior r -> x.1 < c + length sh) ->
  exists phases, length phases = length counts /\
    (forall b c sh r p, counts !! b = Some c -> shareds !! b = Some sh -> ins !! b = Some r -> phases !! b = Some p -> manager_phase zero add c (length sh) r = Ok p) /\
    forall a c sh old, counts !! a = Some c -> shareds !! a = Some sh -> length old = c + length sh ->
      manage add div of_nat counts shareds phases old a (fun new => forall g i, local_of counts shareds a g = Some i -> (N.of_nat (length (contributed counts shareds ins g)) < 65536)%N ->
        exists ov nv, old !! i = Some ov /\ new !! i = Some nv /\ mean_or_old zero add div of_nat (contributed counts shareds ins g) ov nv).
Proof.
  intros A0 AC AA HT Hi Hok. pose proof HT as [HL _].
  destruct (choose_list (length counts) (fun b p => forall c sh r, counts !! b = Some c -> shareds !! b = Some sh -> ins !! b = Some r -> manager_phase zero add c (length sh) r = Ok p /\ manager_right zero add c (length sh) r p)) as (phases & Lp & Hp).
  { intros b Hb. destruct (lookup_lt_is_Some_2 counts b Hb) as [c Hc], (lookup_lt_is_Some_2 shareds b ltac:(lia)) as [sh Hsh], (lookup_lt_is_Some_2 ins b ltac:(lia)) as [r Hr].
    destruct (manager_phase_ok zero add A0 AC AA c (length sh) r (fun x Hx => Hok b c sh r x Hc Hsh Hr Hx)) as (p & Ep & Hp). exists p. intros c' sh' r' E1 E2 E3. assert (c' = c) as -> by congruence. assert (sh' = sh) as -> by congruence. assert (r' = r) as -> by congruence. done. }
  exists phases. split; [done|]. split.
  - intros b c sh r p Hc Hsh Hr Hpb. destruct (Hp b ltac:(by eapply lookup_lt_Some)) as (p' & Hpb' & H). assert (p' = p) as -> by congruence. by apply H.
  - intros a c sh old Hc Hsh Hlo. apply (manage_ok zero add div of_nat A0 AC AA counts shareds ins HT Hi phases a c sh old Hc Hsh Hlo).
    intros b cb shb r Hcb Hshb Hr. destruct (Hp b ltac:(by eapply lookup_lt_Some)) as (p & Hpb & H). exists p. split; [done|]. by apply H.
Qed.

(** Over the reals: if all contributions are equal to [v], so is the result. *)
Theorem mean_of_constant (l : list R) (v old new : R) : l <> [] -> (forall x, x ∈ l -> x = v) -> mean_or_old 0%R Rplus Rdiv INR l old new -> new = v.
Proof.
  intros Hne Hv Hm. unfold mean_or_old in Hm. assert (Hs : fsum 0%R Rplus l = (INR (length l) * v)%R).
  { clear -Hv. unfold fsum. induction l as [|x l IH]; [cbn; lra|]. cbn [foldr length]. rewrite IH by (intros y Hy; apply Hv; by right). rewrite (Hv x) by left. rewrite S_INR. lra. }
  destruct l as [|x l]; [done|]. rewrite Hs in Hm. rewrite Hm. assert (INR (length (x :: l)) <> 0%R) by (apply not_0_INR; cbn; lia). field. done.
Qed.

(** Matrix-free systems, given values: the counts are posted before they are set, so the
    owner divides by its own count only.  Rank 0 owns index 0, rank 1 owns index 1 and
    shares 0; both set index 0 to 5, and it becomes 10. *)
Definition two_counts : list nat := [1; 1].
Definition two_shareds : list (list nat) := [[]; [0]].
Definition two_ins : list (rank_in Z) := [ {| ri_border := [(0, 5%Z)]; ri_interior := [] |}; {| ri_border := [(0, 5%Z); (1, 5%Z)]; ri_interior := [] |} ].
Theorem nodal_constants_refuted : exists phases,
  map_res (fun b => constant_phase 0%Z 1 (length (nth b two_shareds [])) (nth b two_ins {| ri_border := []; ri_interior := [] |}) [7%Z]) [0; 1] = Ok phases /\
  contributed two_counts two_shareds two_ins 0 = [5%Z; 5%Z] /\
  average 0%Z Z.add Z.div Z.of_nat two_counts two_shareds phases 0 (fun new => new = [10%Z]).
Proof.
  eexists. split; [vm_compute; reflexivity|]. split; [by vm_compute|].
  eexists _, 1. split; [reflexivity|]. split; [reflexivity|]. intros cs (L1 & H1 & _). cbn [p_counts] in *.
  assert (Ho : owns two_counts 0 0) by (exists 1; vm_compute; auto with lia).
  destruct (H1 0 1 Ho eq_refl) as (l & Hl & Hc). change (0 - first_owned two_counts 0) with 0 in Hc.
  match type of Hl with l ≡ₚ ?x => change x with [0] in Hl end. apply Permutation_sym, Permutation_singleton_l in Hl. subst l. vm_compute in Hc.
  destruct cs as [|c0 [|? ?]]; try discriminate. injection Hc as ->. eexists. split; [vm_compute; reflexivity|].
  intros o2 (L2 & H2 & _). destruct (H2 0 5%Z Ho eq_refl) as (l & Hl & Hv). change (0 - first_owned two_counts 0) with 0 in Hv.
  match type of Hl with l ≡ₚ ?x => change x with [5%Z] in Hl end. apply Permutation_sym, Permutation_singleton_l in Hl. subst l. vm_compute in Hv.
  destruct o2 as [|v0 [|? ?]]; try discriminate. injection Hv as ->. eexists. split; vm_compute; reflexivity.
Qed.
(** What holds: indices which no rank but the owner sets get the last value set, or keep
    the old one.  Missing: indices set by several ranks. *)
Theorem nodal_constants_partial {F} (zero : F) (add div : F -> F -> F) (of_nat : nat -> F) counts shareds (ins : list (rank_in F)) (olds : list (list F)) :
  (forall x, add zero x = x) -> (forall x y, add x y = add y x) -> (forall x y z, add x (add y z) = add (add x y) z) -> (forall x, div x (of_nat 1) = x) ->
  tables counts shareds -> length ins = length counts -> length olds = length counts ->
  (forall b c sh r old, counts !! b = Some c -> shareds !! b = Some sh -> ins !! b = Some r -> olds !! b = Some old -> rank_ok c (length sh) r /\ length old = c) ->
  exists phases, length phases = length counts /\
    (forall b c sh r old p, counts !! b = Some c -> shareds !! b = Some sh -> ins !! b = Some r -> olds !! b = Some old -> phases !! b = Some p -> constant_phase zero c (length sh) r old = Ok p) /\
    forall a old, olds !! a = Some old -> average zero add div of_nat counts shareds phases a (fun new => forall g, owns counts a g ->
      (forall b r i, b <> a -> ins !! b = Some r -> local_of counts shareds b g = Some i -> values_at (ri_border r ++ ri_interior r) i = []) ->
      exists ov nv, old !! (g - first_owned counts a) = Some ov /\ new !! (g - first_owned counts a) = Some nv /\ nv = match last (contributed counts shareds ins g) with Some v => v | None => ov end).
Proof.
  intros A0 AC AA D1 HT Hi Ho Hok. pose proof HT as [HL _].
  destruct (choose_list (length counts) (fun b p => forall c sh r old, counts !! b = Some c -> shareds !! b = Some sh -> ins !! b = Some r -> olds !! b = Some old -> constant_phase zero c (length sh) r old = Ok p /\ constant_right zero c (length sh) r old p)) as (phases & Lp & Hp).
  { intros b Hb. destruct (lookup_lt_is_Some_2 counts b Hb) as [c Hc], (lookup_lt_is_Some_2 shareds b ltac:(lia)) as [sh Hsh], (lookup_lt_is_Some_2 ins b ltac:(lia)) as [r Hr], (lookup_lt_is_Some_2 olds b ltac:(lia)) as [old Hold].
    destruct (Hok b c sh r old Hc Hsh Hr Hold) as [H1 H2]. destruct (constant_phase_ok zero c (length sh) r old H2 H1) as (p & Ep & Hp). exists p. intros c' sh' r' old' E1 E2 E3 E4. assert (c' = c) as -> by congruence. assert (sh' = sh) as -> by congruence. assert (r' = r) as -> by congruence. assert (old' = old) as -> by congruence. done. }
  exists phases. split; [done|]. split.
  - intros b c sh r old p Hc Hsh Hr Hold Hpb. destruct (Hp b ltac:(by eapply lookup_lt_Some)) as (p' & Hpb' & H). assert (p' = p) as -> by congruence. by apply H.
  - intros a old Hold. assert (Ha : a < length counts) by (rewrite <- Ho; by eapply lookup_lt_Some).
    destruct (constant_ok zero add div of_nat A0 AC AA D1 counts shareds ins HT Hi olds phases) with (a := a) as (p & c & Hpa & Hca & Hav); [|done|].
    { intros b c sh r Hc Hsh Hr. assert (Hb : b < length counts) by by eapply lookup_lt_Some. destruct (Hp b Hb) as (p & Hpb & H). destruct (lookup_lt_is_Some_2 olds b ltac:(lia)) as [ob Hob]. exists ob, p. split; [done|]. split; [done|]. split; [by apply (Hok b c sh r ob)|]. by apply H. }
    exists p, c. split; [done|]. split; [done|]. intros cs Hcs. destruct (Hav cs Hcs) as (o1 & E1 & H1). exists o1. split; [done|]. intros o2 Ho2. destruct (H1 o2 Ho2) as (new & E2 & H2). exists new. split; [done|]. intros g Hg Hs. destruct (H2 g Hg) as (old' & ov & nv & Hold' & X).
    { intros b Hne. unfold made. destruct (ins !! b) as [r|] eqn:Hr; [|done]. destruct (local_of counts shareds b g) as [i|] eqn:Hl; [|done]. by apply (Hs b r i). }
    assert (old' = old) as -> by congruence. by exists ov, nv.
Qed.

(** Three ranks; index 1 gets two contributions on its owner and one on each neighbour,
    index 4 only from a neighbour, index 3 none. *)
Definition ex_counts : list nat := [2; 2; 1].
Definition ex_shareds : list (list nat) := [[4; 2]; [1]; [1; 3]].
Definition ex_ins : list (rank_in Z) :=
  [ {| ri_border := [(1, 4%Z); (0, 3%Z); (1, 6%Z); (3, 9%Z)]; ri_interior := [(0, 5%Z)] |};
    {| ri_border := [(2, 10%Z)]; ri_interior := [(0, 1%Z)] |}; {| ri_border := [(1, 20%Z)]; ri_interior := [] |} ].
Example nodal_values_example :
  tables ex_counts ex_shareds /\ contributed ex_counts ex_shareds ex_ins 1 = [4; 6; 10; 20]%Z /\ contributed ex_counts ex_shareds ex_ins 4 = [9]%Z /\ contributed ex_counts ex_shareds ex_ins 3 = [] /\
  (forall b c sh r, ex_counts !! b = Some c -> ex_shareds !! b = Some sh -> ex_ins !! b = Some r -> rank_ok c (length sh) r) /\
  exists p0 p1 p2 cs o1 o2, kernel_phase 0%Z Z.add 2 2 (nth 0 ex_ins {| ri_border := []; ri_interior := [] |}) [70; 71]%Z = Ok p0 /\
    kernel_phase 0%Z Z.add 2 1 (nth 1 ex_ins {| ri_border := []; ri_interior := [] |}) [72; 73]%Z = Ok p1 /\
    kernel_phase 0%Z Z.add 1 2 (nth 2 ex_ins {| ri_border := []; ri_interior := [] |}) [74]%Z = Ok p2 /\
    exported add16 ex_counts ex_shareds (map p_sent_counts [p0; p1; p2]) 0 (p_counts p0) cs /\ zero_foreign 0%Z 2 (p_counts p0) cs (p_owned p0) = Ok o1 /\
    exported Z.add ex_counts ex_shareds (map p_sent_values [p0; p1; p2]) 0 o1 o2 /\ divide Z.div Z.of_nat 2 cs o2 = Ok [4; 10]%Z.
Proof.
  assert (Hown : forall g, owns ex_counts 0 g -> g = 0 \/ g = 1). { intros g (c & Hc & Hg). injection Hc as <-. vm_compute in Hg. lia. }
  split; [|split; [by vm_compute|split; [by vm_compute|split; [by vm_compute|split]]]].
  - split; [done|]. intros b sh Hsh. assert (Hno : forall c f g k, ex_counts !! c = Some k -> first_owned ex_counts c = f -> (g < f \/ f + k <= g) -> ~ owns ex_counts c g) by (intros c f g k Hk Hf Hr (k' & Hk' & Hg); assert (k' = k) as -> by congruence; lia).
    assert (Hy : forall c f g k, ex_counts !! c = Some k -> first_owned ex_counts c = f -> f <= g < f + k -> exists c, owns ex_counts c g) by (intros c f g k Hk Hf Hr; exists c, k; rewrite Hf; done).
    destruct b as [|[|[|b]]]; [injection Hsh as <-|injection Hsh as <-|injection Hsh as <-|done]; (split; [apply (bool_decide_unpack _); by vm_compute|]); intros g Hg; repeat (apply elem_of_cons in Hg as [-> |Hg]); try (by apply elem_of_nil in Hg).
    + split; [apply (Hno 0 0 4 2); [done..|lia]|apply (Hy 2 4 4 1); [done..|lia]].
    + split; [apply (Hno 0 0 2 2); [done..|lia]|apply (Hy 1 2 2 2); [done..|lia]].
    + split; [apply (Hno 1 2 1 2); [done..|lia]|apply (Hy 0 0 1 2); [done..|lia]].
    + split; [apply (Hno 2 4 1 1); [done..|lia]|apply (Hy 0 0 1 2); [done..|lia]].
    + split; [apply (Hno 2 4 3 1); [done..|lia]|apply (Hy 1 2 3 2); [done..|lia]].
  - intros b c sh r Hc Hsh Hr. destruct b as [|[|[|b]]]; [injection Hc as <-; injection Hsh as <-; injection Hr as <-..|done]; (split; intros x Hx; cbn [ri_border ri_interior] in Hx; repeat (apply elem_of_cons in Hx as [-> |Hx]); try (by apply elem_of_nil in Hx); cbn; lia).
  - do 3 eexists. exists [2; 4; 0; 1], [8; 10]%Z, [8; 40]%Z. split; [vm_compute; reflexivity|]. split; [vm_compute; reflexivity|]. split; [vm_compute; reflexivity|].
    split; [|split; [by vm_compute|split; [|by vm_compute]]].
    + split; [done|]. split.
      * intros g old Hg Hold. destruct (Hown g Hg) as [-> | ->]; vm_compute in Hold; injection Hold as <-; [exists []|exists [1; 1]]; split; by vm_compute.
      * intros p Hp. destruct p as [|[|p]]; [|by destruct (Hp 1); [exists 2; split; [done|]; vm_compute; auto with lia|]|done]. destruct (Hp 0); [exists 2; split; [done|]; vm_compute; auto with lia|done].
    + split; [done|]. split.
      * intros g old Hg Hold. destruct (Hown g Hg) as [-> | ->]; vm_compute in Hold; injection Hold as <-; [exists []|exists [10; 20]%Z]; split; by vm_compute.
      * intros p Hp. destruct p as [|[|p]]; [|by destruct (Hp 1); [exists 2; split; [done|]; vm_compute; auto with lia|]|done]. destruct (Hp 0); [exists 2; split; [done|]; vm_compute; auto with lia|done].
Qed.

Print Assumptions nodal_values_mean.
Print Assumptions nodal_fields_mean.
Print Assumptions mean_of_constant.
Print Assumptions nodal_constants_refuted.
Print Assumptions nodal_constants_partial.
Print Assumptions export_exported.
Print Assumptions import_imported.
