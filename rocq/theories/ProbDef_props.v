(** Properties C87 (problem definitions) and C88 (rounding division). *)
From Verif Require Import Base StdAlgo Helpers_model Helpers_proofs ProbDef_model ProbDef_spec ProbDef_proofs.

(** C87.  A call of define succeeds when every unknown it names exists, and throws otherwise;
    it adds one definition at the end, with the domains as given and a flag for exactly the
    unknowns named.  The default argument names all of them. *)
Theorem define_exact n defs domains inds :
  (Forall (fun i => i < n) inds ->
    exists b, define n defs domains inds = Ok (defs ++ [(domains, b)]) /\ length b = n /\
      forall d, b !! d = Some true <-> d ∈ inds) /\
  (~ Forall (fun i => i < n) inds -> define n defs domains inds = Throw) /\
  define_all n defs domains = Ok (defs ++ [(domains, replicate n true)]).
Proof.
  split; [apply define_ok|]. split; [apply define_throws|].
  unfold define_all. destruct (define_ok n defs domains (seq 0 n)) as (b & E & L & M).
  { apply Forall_forall. intros i Hi. apply elem_of_seq in Hi. lia. }
  rewrite E. do 3 f_equal. f_equal. apply list_eq. intros d. destruct (decide (d < n)) as [H|H].
  - rewrite (lookup_replicate_2 n true d H). apply M, elem_of_seq. lia.
  - rewrite (lookup_ge_None_2 b d), (lookup_ge_None_2 (replicate n true) d) by (rewrite ?replicate_length; lia). done.
Qed.

(** C87.  After any calls of define, those that threw included, an unknown is active in a
    domain exactly when some accepted call named both, and getDomains lists the domains of the
    accepted calls, ascending and without repetition. *)
Theorem problem_definition_exact n calls :
  exists defs, define_many n calls = Ok defs /\
    Forall (fun e => length e.2 = n) defs /\
    (forall D d, active_in defs D d <-> requested n calls D d) /\
    StronglySorted lt (getDomains defs) /\
    (forall D, D ∈ getDomains defs <-> exists c, c ∈ calls /\ accepted n c /\ D ∈ c.1).
Proof.
  destruct (define_many_gen n calls []) as (out & E & L & M & C). exists out. split; [exact E|].
  split; [done|]. split; [done|]. destruct (remove_dup_ok (concat (map fst out))) as [S R].
  split; [exact S|]. intros D. unfold getDomains. rewrite R. apply C.
Qed.

(** C87.  The compile-time form: defineDomain throws exactly when a field does not exist, and
    otherwise flags exactly the fields named; ProblemDef gives all its domains the same number
    of fields, that of the largest, in the order given, and neither adds nor loses a field. *)
Theorem define_domain_exact fields domain inds :
  (Forall (fun i => i < fields) inds ->
    exists b, defineDomain fields domain inds = Ok (domain, b) /\ length b = fields /\
      forall i, b !! i = Some true <-> i ∈ inds) /\
  (~ Forall (fun i => i < fields) inds -> defineDomain fields domain inds = Throw) /\
  (forall i, (defineDomain_all fields domain).2 !! i = Some true <-> i < fields).
Proof.
  destruct (set_at_flags inds (replicate fields false)) as [A B]. rewrite replicate_length in A, B.
  split; [|split].
  - intros F. destruct (A F) as (b & E & L & M). exists b. unfold defineDomain. rewrite E.
    split; [done|]. split; [done|].
    intros i. rewrite M. split; [|auto]. intros [H|H]; [|done]. apply lookup_replicate in H as [? ?]. done.
  - intros F. unfold defineDomain. by rewrite (B F).
  - intros i. unfold defineDomain_all. cbn [snd]. rewrite lookup_replicate. naive_solver.
Qed.
Theorem problem_def_exact ds :
  exists out, ProblemDef ds = Ok out /\
    Forall2 (fun d e => e.1 = d.1 /\ forall i, e.2 !! i = Some true <-> d.2 !! i = Some true) ds out /\
    (forall e, e ∈ out -> forall d, d ∈ ds -> length d.2 <= length e.2) /\
    (forall e, e ∈ out -> exists d, d ∈ ds /\ length d.2 = length e.2).
Proof.
  destruct (problem_def_gen (problem_fields ds) ds) as (out & E & F); [intros; by apply max_bound|].
  exists out. split; [exact E|]. split; [eapply Forall2_impl; [exact F|]; naive_solver|].
  assert (L : forall e, e ∈ out -> length e.2 = problem_fields ds /\ ds <> []).
  { clear E. intros e He. apply elem_of_list_lookup in He as [k He].
    destruct (Forall2_lookup_r _ _ _ _ _ F He) as (d & Hd & _ & Le & _). split; [done|]. intros ->. done. }
  split.
  - intros e He d Hd. rewrite (proj1 (L e He)). by apply max_bound.
  - intros e He. destruct (L e He) as [Le N]. rewrite Le. clear -N. unfold problem_fields.
    induction ds as [|x ds IH]; [done|]. cbn [map foldr]. destruct ds as [|y ds].
    + exists x. split; [left|]. cbn. lia.
    + destruct IH as (d & Hd & El); [done|].
      destruct (decide (foldr Nat.max 0 (map (fun d => length d.2) (y :: ds)) <= length x.2)) as [G|G].
      * exists x. split; [left|]. lia.
      * exists d. split; [by right|]. lia.
Qed.

(** C88.  Of a non-negative number by a positive one, intDivRoundUp is the quotient rounded
    up, for any integral type, without overflow. *)
Theorem int_div_round_up_partial lo hi n d :
  (lo <= 0)%Z -> (0 <= n <= hi)%Z -> (0 < d <= hi)%Z ->
  exists q, intDivRoundUp lo hi n d = Ok q /\ ((q - 1) * d < n <= q * d)%Z.
Proof. apply round_up. Qed.
(** The template also takes signed types; there the result for operands of opposite signs need
    not be the quotient rounded up: of -3 by 2 it is 0 instead of -1. *)
Theorem int_div_round_up_refuted :
  ~ forall lo hi n d q, (lo <= n <= hi)%Z -> (0 < d <= hi)%Z -> intDivRoundUp lo hi n d = Ok q ->
      ((q - 1) * d < n <= q * d)%Z.
Proof.
  intros H. specialize (H (-128) 127 (-3) 2 0)%Z. assert ((0 - 1) * 2 < -3 <= 0 * 2)%Z; [|lia].
  apply H; [lia|lia|]. vm_compute. done.
Qed.

(** C88.  The rest, for positive denominators: of a negative number the result is exact if the
    division is, and otherwise one more than the quotient rounded up. *)
Theorem int_div_round_up_negative lo hi n d :
  (lo <= n)%Z -> (n < 0)%Z -> (0 < d <= hi)%Z ->
  exists q, intDivRoundUp lo hi n d = Ok q /\
    (q * d = n \/ (forall k, k * d <> n) /\ (q - 2) * d < n < (q - 1) * d)%Z.
Proof. apply round_negative. Qed.

Example problem_definition_example :
  define_many 3 [([5; 2], [0; 2]); ([7], [3]); ([2], [1; 1])] = Ok [([5; 2], [true; false; true]); ([2], [false; true; false])] /\
  getDomains [([5; 2], [true; false; true]); ([2], [false; true; false])] = [2; 5].
Proof. vm_compute. done. Qed.
Example define_example : Forall (fun i => i < 3) [0; 2] /\ define 3 [] [5; 2] [0; 2] = Ok [([5; 2], [true; false; true])] /\
  define 3 [] [7] [3] = Throw.
Proof. split; [repeat constructor|]. vm_compute. done. Qed.
Example define_domain_example : defineDomain 3 4 [2; 0] = Ok (4, [true; false; true]) /\ defineDomain 3 4 [3] = Throw.
Proof. vm_compute. done. Qed.
Example problem_def_example : ProblemDef [(4, [true; false; true]); (1, [true])] = Ok [(4, [true; false; true]); (1, [true; false; false])].
Proof. vm_compute. done. Qed.
Example int_div_round_up_negative_example : intDivRoundUp (-128) 127 (-3) 2 = Ok 0%Z /\ intDivRoundUp (-128) 127 (-4) 2 = Ok (-2)%Z.
Proof. vm_compute. done. Qed.
Example int_div_round_up_example : intDivRoundUp (-128) 127 7 2 = Ok 4%Z /\ intDivRoundUp 0 255 8 2 = Ok 4%Z.
Proof. vm_compute. done. Qed.

Print Assumptions define_exact.
Print Assumptions problem_definition_exact.
Print Assumptions define_domain_exact.
Print Assumptions problem_def_exact.
Print Assumptions int_div_round_up_partial.
Print Assumptions int_div_round_up_refuted.
Print Assumptions int_div_round_up_negative.
