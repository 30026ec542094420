(** Properties C48 and C49: scope guards. *)
From Verif Require Import Base StdAlgo Guards_model Guards_spec Guards_proofs.

(** C48.  After any nested history of guards, the recorded limit and the limit
    TBB applies are the least of the hardware limit and of the limits requested
    by the living guards; OpenMP's limit is the same whenever that is a
    restriction, and the original one otherwise. *)
Theorem parallelism_limit_is_least (hw omp : nat) (ops : list par_op) (reqs : list nat) :
  alive [] ops = Some reqs ->
  exists s stack, par_run (par0 hw omp) [] ops = Ok (s, stack) /\
    p_cur s = least hw reqs /\ tbb_limit hw s = least hw reqs /\
    (restricting hw reqs -> p_omp s = least hw reqs) /\ (~ restricting hw reqs -> p_omp s = omp).
Proof.
  intros Ha. destruct (run_inv hw omp ops _ [] [] reqs (par0_inv hw omp) eq_refl Ha) as (s & st & E & [H1 H2 H3 [H4 H5]] & _).
  exists s, st. split; [done|]. split; [done|]. split; [done|]. rewrite <- least_restr. pose proof (least_le hw reqs). split; intros.
  - apply H4. lia.
  - apply H5. lia.
Qed.
Print Assumptions parallelism_limit_is_least.
(** C48.  Once all guards are gone everything is as before the first. *)
Theorem parallelism_limit_restored (hw omp : nat) (ops : list par_op) :
  alive [] ops = Some [] -> par_run (par0 hw omp) [] ops = Ok (par0 hw omp, []).
Proof.
  intros Ha. destruct (run_inv hw omp ops _ [] [] [] (par0_inv hw omp) eq_refl Ha) as (s & st & E & _ & Hu).
  destruct st as [|g st]; cbn in Hu; [|done]. by subst s.
Qed.
Print Assumptions parallelism_limit_restored.
(** C48.  The order matters: if the older of two guards is destroyed first, its
    limit is restored too early, and the younger one leaves the older one's
    limit behind when no guard is alive any more. *)
Theorem parallelism_limit_order_refuted : exists hw omp n1 n2,
  let r1 := par_construct (par0 hw omp) n1 in
  let r2 := par_construct r1.1 n2 in
  let s1 := par_destroy r2.1 r1.2 in
  let s2 := par_destroy s1 r2.2 in
  p_cur s1 <> least hw [n2] /\ p_cur s2 <> hw /\ p_omp s2 <> omp.
Proof. exists 8, 8, 4, 2. repeat split; cbn; lia. Qed.
Print Assumptions parallelism_limit_order_refuted.
Example parallelism_example : alive [] [Open 4; Open 6; Open 0; Close; Open 2] = Some [2; 6; 4] /\
  least 8 [2; 6; 4] = 2 /\ restricting 8 [2; 6; 4] /\
  par_run (par0 8 8) [] [Open 4; Open 6; Open 0; Close; Open 2; Close; Close; Close] = Ok (par0 8 8, []).
Proof. split; [done|]. split; [done|]. split; [exists 2; split; [by left|cbn; lia]|]. reflexivity. Qed.

(** C49.  For every history of guards of either library in which no guard that
    owns the library is move-assigned to: at most one guard ever initialises
    it; it is finalised at most once, only if a guard initialised it; the
    destruction of a living guard is never an error; and when all guards have
    been destroyed it has been finalised iff a guard had initialised it. *)
Theorem scope_guard_finalises_once_partial (mpi : bool) (ops : list guard_op) (w : world) :
  no_owning_target mpi world0 ops -> guard_run mpi world0 ops = Ok w ->
  w_inits w <= 1 /\ w_finals w <= w_inits w /\ (w_finals w = 1 <-> w_lib w = Finalised) /\
  (forall g b, w_guards w !! g = Some (Some b) -> is_ok (destroy_guard w g)) /\
  (Forall (fun o => o = None) (w_guards w) -> w_finals w = w_inits w).
Proof.
  intros Hn E. pose proof (run_ginv mpi ops _ _ world0_inv Hn E) as Hg. pose proof Hg as [H].
  split; [destruct (w_lib w); lia|]. split; [destruct (w_lib w); lia|]. split; [destruct (w_lib w); split; (lia || done)|].
  split; [intros g b; by apply destroy_fine|]. intros Hd. apply owners_none in Hd. destruct (w_lib w); lia.
Qed.
Print Assumptions scope_guard_finalises_once_partial.
(** C49.  Move-assigning a non-owning guard into the owning one drops the
    ownership: the library is never finalised. *)
Theorem scope_guard_move_assign_refuted : exists ops w, guard_run true world0 ops = Ok w /\
  Forall (fun o => o = None) (w_guards w) /\ w_inits w = 1 /\ w_finals w = 0 /\ w_lib w = Active.
Proof.
  exists [Construct true; Construct true; MoveAssign 0 1; Destroy 1; Destroy 0]. eexists.
  split; [reflexivity|]. split; [repeat constructor|done].
Qed.
Print Assumptions scope_guard_move_assign_refuted.
(** C49.  If MPI lacks the threading level, the constructor throws after having
    initialised MPI, and no guard is left to finalise it. *)
Theorem scope_guard_throwing_constructor_refuted : exists w, construct_state true false world0 = (w, false) /\
  w_lib w = Active /\ w_inits w = 1 /\ w_guards w = [].
Proof. eexists. split; [reflexivity|done]. Qed.
Print Assumptions scope_guard_throwing_constructor_refuted.
Example scope_guard_example : let ops := [Construct true; Construct true; MoveConstruct 0; MoveAssign 1 2; Destroy 0; Destroy 2; Destroy 1] in
  no_owning_target true world0 ops /\
  guard_run true world0 ops = Ok {| w_lib := Finalised; w_finals := 1; w_inits := 1; w_guards := [None; None; None] |} /\
  guard_run true world0 [ExternalInit; Construct true; Destroy 0] = Ok {| w_lib := Active; w_finals := 0; w_inits := 0; w_guards := [None] |}.
Proof. split; [|split; reflexivity]. cbn. repeat split. by right. Qed.
