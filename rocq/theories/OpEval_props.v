(** C72: evaluating an element's operator without its matrix. *)
From Coq Require Import Ring Ring_theory Reals Lra.
From Verif Require Import Base LocalSys_model LocalSys_spec LocalSys_proofs OpEval_model OpEval_spec OpEval_proofs.

(** C72.  A thread evaluates the operators of any number of elements one after the other
    (each with its own operand and number of columns): every result is the element matrix
    of C44 times the operand, whatever the batch size is and whatever the buffers held
    before, if no batch is open at first.
    Missing: elements that throw (see the refutation below). *)
Theorem operator_evaluations_partial {F} (zero one : F) add mul sub opp nb nu us upb :
  ring_theory zero one add mul sub opp eq -> 0 < upb -> 0 < us ->
  forall (els : list (list lupdate * nat * (nat -> nat -> F))) (s : oeval),
  (forall l nc x u, (l, nc, x) ∈ els -> u ∈ l -> u_ops u <> []) -> e_cols s = 0 ->
  exists rs, evaluations zero add mul nb nu us upb (map (fun e => (map Some e.1.1, e.1.2, e.2)) els) s = Ok rs /\
    Forall2 (fun e r => exists y, r = Some y /\ times_matrix zero add mul nu us (nb * nu) e.1.2 e.1.1 e.2 y) els rs.
Proof.
  intros Rth Hu Hs els s Hok Hc. apply (evaluations_ok zero one add mul sub opp Rth nb nu us upb Hu Hs); [|done].
  apply Forall_forall. intros [[l nc] x] Hin. cbn. apply Forall_forall. intros u Hu'. by apply (Hok l nc x).
Qed.
Print Assumptions operator_evaluations_partial.

(** C72.  The same element by the two paths, on whatever managers with no open batch: the
    matrix-free result is the assembled matrix times the operand. *)
Theorem operator_matches_system_partial nb nu us upb target nr nc (l : list lupdate) (x : nat -> nat -> R) (s : oeval) (s' : lsys) :
  0 < upb -> 0 < us -> 0 < target -> (forall u, u ∈ l -> u_ops u <> []) -> e_cols s = 0 -> s_npos s' = 0 -> s_nneg s' = 0 ->
  exists t t' y sys, evaluateLocalOperator 0%R Rplus Rmult nb nu us upb nc x (map Some l) s = Ok (t, Some y) /\
    assembleLocalSystem 0%R 1%R Rplus Rmult Ropp (fun w => if Rle_dec 0 w then true else false) (fun w => R_sqrt.sqrt (Rabs w)) nb nu us (updates_per_batch target us) nr (map Some l) s' = Ok (t', Some sys) /\
    forall i r, i < nb * nu -> r < nc -> y i r = total 0%R Rplus (seq 0 (nb * nu)) (fun j => sys.1 i j * x j r)%R.
Proof.
  intros Hu Hs Ht Hok H1 H2 H3. assert (Rth : ring_theory 0%R 1%R Rplus Rmult Rminus Ropp eq) by (constructor; intros; ring).
  destruct (evaluate_ok 0%R 1%R Rplus Rmult Rminus Ropp Rth nb nu us upb Hu Hs l x nc s) as (t & y & E & _ & Hy); [by apply Forall_forall|done|].
  destruct (element_ok 0%R 1%R Rplus Rmult Rminus Ropp (fun w => if Rle_dec 0 w then true else false) (fun w => R_sqrt.sqrt (Rabs w)) Rth nb nu us (updates_per_batch target us) nr (roundup_pos _ _ Ht Hs) l s') as (t' & sys & E' & [Hm _] & _); [|done|done|].
  { apply Forall_forall. intros u Hin. split; [by apply Hok|]. unfold root_ok. rewrite R_sqrt.sqrt_sqrt by apply Rabs_pos. destruct (Rle_dec 0 (u_w u)) as [H|H]; [by apply Rabs_right, Rle_ge|]. apply Rabs_left. lra. }
  exists t, t', y, sys. split; [done|]. split; [done|]. intros i r Hi Hr. rewrite (Hy i r Hi Hr). rewrite !(tot 0%R Rplus). apply Cond3_proofs.Sig_ext. intros j Hj. apply elem_of_seq in Hj. rewrite Hm by (done || (unfold psize; lia)). done.
Qed.
Print Assumptions operator_matches_system_partial.

(** C72.  The precomputed diagonal is that of the element matrix; the precomputed
    right-hand side is that of C44 minus the columns of the Dirichlet unknowns times
    their values. *)
Theorem operator_precompute {F} (zero one : F) add mul sub opp nb nu us nr :
  ring_theory zero one add mul sub opp eq ->
  forall (l : list lupdate) (inds : list nat) (vals : nat -> nat -> F),
  0 < us -> (forall u, u ∈ l -> u_ops u <> []) -> (forall d, d ∈ inds -> d < nb * nu) ->
  exists d rhs, precompute zero add mul sub nb nu us nr l inds vals = Ok (d, rhs) /\
    (forall i, i < nb * nu -> d i = expected_mat zero add mul nu us l i i) /\ reduced_rhs zero add mul sub nu us (nb * nu) nr l inds vals rhs.
Proof.
  intros Rth l inds vals Hs Hl Hi. apply (precompute_ok zero one add mul sub opp Rth nb nu us 1 ltac:(lia) Hs nr); by apply Forall_forall.
Qed.
Print Assumptions operator_precompute.

(** After an element that throws in the middle of a batch the next result is wrong: the
    columns stay in the batch. *)
Notation zevaluations := (evaluations 0%Z Z.add Z.mul).
Definition zup (w v : Z) : lupdate := {| u_ops := [fun _ _ => v]; u_rhs := fun _ _ => v; u_vals := fun _ => 1%Z; u_ders := fun _ _ => 0%Z; u_w := w |}.
Definition idle : oeval := {| e_mat := fun _ _ => 7%Z; e_w := fun _ => 8%Z; e_cols := 0 |}.
Definition ones : nat -> nat -> Z := fun _ _ => 1%Z.
Theorem operator_evaluations_refuted : exists els y, zevaluations 1 1 1 3 els idle = Ok [None; Some y] /\
  els = [([Some (zup 4 5); None], 1, ones); ([Some (zup 9 1)], 1, ones)] /\ ~ times_matrix 0%Z Z.add Z.mul 1 1 1 1 [zup 9 1] ones y.
Proof.
  exists [([Some (zup 4 5); None], 1, ones); ([Some (zup 9 1)], 1, ones)].
  destruct (zevaluations 1 1 1 3 [([Some (zup 4 5); None], 1, ones); ([Some (zup 9 1)], 1, ones)] idle) as [[|[?|] [|[y|] [|? ?]]]| |] eqn:E; try discriminate E.
  exists y. split; [done|]. split; [done|]. intros H. specialize (H 0 0 ltac:(lia) ltac:(lia)).
  assert (Hv : match zevaluations 1 1 1 3 [([Some (zup 4 5); None], 1, ones); ([Some (zup 9 1)], 1, ones)] idle with Ok [_; Some y] => y 0 0 = 109%Z | _ => False end) by by vm_compute.
  rewrite E in Hv. rewrite Hv in H. vm_compute in H. discriminate H.
Qed.
Print Assumptions operator_evaluations_refuted.

(** C72.  The batch size is positive.  If the operand fits into the cache, so does the
    batch with it (sizes in numbers of 8 bytes) ... *)
Theorem batch_positive (op us simd : N) (caches : list N) : (0 < us)%N -> (4 <= simd)%N -> (0 < batchSizeHeuristic op us simd caches)%N.
Proof.
  intros Hu Hs. unfold batchSizeHeuristic. set (m := (2 * simd / 8)%N). assert (Hm : (0 < m)%N) by (apply N.div_str_pos; lia).
  assert (Hfit : forall c b, try_fit_cache op us m c = Some b -> (0 < b)%N).
  { intros c b. unfold try_fit_cache. cbv zeta. destruct (_ <=? _)%N; [intros [= <-]; exact Hm|]. destruct (N.ltb_spec 0 (((c / 8 + 2 ^ 64 - op) mod 2 ^ 64) / op / us)%N) as [H|H]; cbn [andb]; [|discriminate].
    destruct (_ <=? _)%N; [|discriminate]. intros [= <-]. exact H. }
  assert (Hl : (0 < N.lcm m us / us)%N). { apply N.div_str_pos. split; [done|]. destruct (N.divide_lcm_r m us) as [k Hk]. rewrite Hk. assert (k <> 0)%N; [|nia]. intros ->. apply N.lcm_eq_0 in Hk. lia. }
  assert (Hf : forall r, (forall b, r = Some b -> (0 < b)%N) -> forall b, foldl (fun r c => match r with Some _ => r | None => try_fit_cache op us m c end) r caches = Some b -> (0 < b)%N).
  { induction caches as [|c l IH]; intros r Hr b; cbn [foldl]; [apply Hr|]. apply IH. destruct r as [b0|]; [done|]. intros b' Hb. by apply (Hfit c). }
  destruct (foldl _ None caches) as [b|] eqn:E; [|exact Hl]. by apply (Hf None).
Qed.
Print Assumptions batch_positive.
Theorem batch_fits_partial (op us min_cols cache b : N) : (0 < op)%N -> (0 < us)%N -> (cache < 2 ^ 64)%N -> (op <= cache / 8)%N -> try_fit_cache op us min_cols cache = Some b -> (op * (b * us) + op <= cache / 8)%N.
Proof.
  intros Ho Hu Hc Hfit. unfold try_fit_cache. cbv zeta. assert (H8 : (cache / 8 < 2 ^ 64)%N). { eapply N.le_lt_trans; [apply (N.div_le_upper_bound cache 8 cache); lia|done]. }
  assert (E : ((cache / 8 + 2 ^ 64 - op) mod 2 ^ 64 = cache / 8 - op)%N).
  { replace (cache / 8 + 2 ^ 64 - op)%N with (cache / 8 - op + 1 * 2 ^ 64)%N by lia. rewrite N.mod_add by discriminate. apply N.mod_small. lia. }
  rewrite E. set (q := ((cache / 8 - op) / op)%N). assert (Hq : (op * q <= cache / 8 - op)%N) by (apply N.mul_div_le; lia).
  destruct (N.leb_spec (min_cols * us) q) as [H|H]; [intros [= <-]; nia|]. destruct (_ && _); [|discriminate]. intros [= <-]. assert (q / us * us <= q)%N by (rewrite N.mul_comm; apply N.mul_div_le; lia). nia.
Qed.
Print Assumptions batch_fits_partial.
(** ... but an operand larger than the cache also "fits": the capacity left for the batch
    is computed modulo 2^64.  Here the operand is that of seven unknowns on a hexahedron of
    order 8 (5103 numbers), the cache one of 32 KiB (4096 numbers), simd_width is 32. *)
Theorem batch_fits_refuted : exists op us cache b, op = (7 * 9 ^ 3)%N /\ cache = 32768%N /\ try_fit_cache op us (2 * 32 / 8) cache = Some b /\ ~ (op * (b * us) + op <= cache / 8)%N.
Proof. exists (7 * 9 ^ 3)%N, 13%N, 32768%N, 8%N. split; [done|]. split; [done|]. split; [by vm_compute|]. by vm_compute. Qed.
Print Assumptions batch_fits_refuted.

(** Two elements, operands of two and one columns, batches of two points that are left
    open: the hypotheses hold and the results are those of the formula. *)
Definition zup2 (w a b c : Z) : lupdate :=
  {| u_ops := [fun e i => (a + Z.of_nat (e + 2 * i))%Z; fun e i => (b - Z.of_nat (e + i))%Z]; u_rhs := fun e r => (c + Z.of_nat (e + r))%Z;
     u_vals := fun b => (1 + Z.of_nat b)%Z; u_ders := fun d b => (2 - Z.of_nat (d + b))%Z; u_w := w |}.
Definition zx : nat -> nat -> Z := fun j r => (Z.of_nat (j * j) - 2 * Z.of_nat r)%Z.
Definition zel0 : list (lupdate (F := Z)) := [zup2 4 1 2 3; zup2 (-9) 2 0 1; zup2 1 3 1 1].
Definition zel1 : list (lupdate (F := Z)) := [zup2 5 5 1 2].
Definition zels : list (list (lupdate (F := Z)) * nat * (nat -> nat -> Z)) := [(zel0, 2, zx); (zel1, 1, ones)].
Definition zmat (l : list lupdate) := map (fun i => map (expected_mat 0%Z Z.add Z.mul 2 2 l i) (seq 0 4)) (seq 0 4).
Example operator_example :
  (forall l nc x u, (l, nc, x) ∈ zels -> u ∈ l -> u_ops u <> []) /\
  match zevaluations 2 2 2 2 (map (fun e => (map Some e.1.1, e.1.2, e.2)) zels) idle with
  | Ok [Some a; Some b] =>
      map (fun i => map (a i) (seq 0 2)) (seq 0 4) = map (fun row => map (fun r => foldr Z.add 0%Z (map (fun j => nth j row 0%Z * zx j r)%Z (seq 0 4))) (seq 0 2)) (zmat zel0) /\
      map (fun i => b i 0) (seq 0 4) = map (fun row => foldr Z.add 0%Z row) (zmat zel1) /\ (a 1 1, b 3 0) <> (0%Z, 0%Z)
  | _ => False end /\
  match precompute 0%Z Z.add Z.mul Z.sub 2 2 2 2 zel0 [1; 3] (fun k r => Z.of_nat (k + 2 * r + 1)) with
  | Ok (d, rhs) => map d (seq 0 4) = map (fun i => nth i (nth i (zmat zel0) []) 0%Z) (seq 0 4) /\ d 2 <> 0%Z /\
      rhs 0 1 = (expected_rhs 0 Z.add Z.mul 2 2 zel0 0 1 - (3 * expected_mat 0 Z.add Z.mul 2 2 zel0 0 1 + 4 * expected_mat 0 Z.add Z.mul 2 2 zel0 0 3))%Z /\ rhs 0 1 <> 0%Z
  | _ => False end.
Proof.
  split; [|split; by vm_compute].
  assert (H : Forall (fun e => Forall (fun u : lupdate => u_ops u <> []) e.1.1) zels) by by repeat constructor.
  intros l nc x u Hl Hu. rewrite Forall_forall in H. specialize (H _ Hl). cbn [fst] in H. rewrite Forall_forall in H. by apply H.
Qed.
