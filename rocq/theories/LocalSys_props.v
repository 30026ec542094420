(** C44: the element system is the weighted sum of the updates. *)
From Coq Require Import ZArith Ring Reals Lra.
From Verif Require Import Base LocalSys_model LocalSys_spec LocalSys_proofs.

(** Elements whose quadrature points all are evaluated, on a manager with empty batches
    (a new one, or one left by such an element), whatever its buffers and its system
    hold: the systems are the weighted sums.  The batch size does not occur in the
    conclusion.  The square root is one of the absolute value of each weight.
    Missing: elements which throw in the middle. *)
Theorem element_systems_partial {F} (zero one : F) add mul sub opp (nonneg : F -> bool) (root : F -> F) nb nu us target nr :
  ring_theory zero one add mul sub opp eq -> 0 < target -> 0 < us ->
  forall (els : list (list lupdate)) (s : lsys),
  (forall l u, l ∈ els -> u ∈ l -> u_ops u <> [] /\ mul (root (u_w u)) (root (u_w u)) = if nonneg (u_w u) then u_w u else opp (u_w u)) ->
  s_npos s = 0 -> s_nneg s = 0 ->
  exists rs, elements zero one add mul opp nonneg root nb nu us (updates_per_batch target us) nr (map (map Some) els) s = Ok rs /\
    Forall2 (fun l r => exists sys, r = Some sys /\ system_right zero add mul nu us (nb * nu) nr l sys) els rs.
Proof.
  intros Rth Ht Hu els s Hok H1 H2. apply (elements_ok zero one add mul sub opp nonneg root Rth nb nu us _ nr (roundup_pos _ _ Ht Hu)); [|done|done].
  apply Forall_forall. intros l Hl. apply Forall_forall. intros u Hin. by apply (Hok l).
Qed.

(** For the reals, with the root the code takes. *)
Theorem element_systems_real_partial nb nu us target nr (els : list (list lupdate)) (s : lsys) : 0 < target -> 0 < us ->
  (forall l u, l ∈ els -> u ∈ l -> u_ops u <> []) -> s_npos s = 0 -> s_nneg s = 0 ->
  exists rs, elements 0%R 1%R Rplus Rmult Ropp (fun w => if Rle_dec 0 w then true else false) (fun w => R_sqrt.sqrt (Rabs w)) nb nu us (updates_per_batch target us) nr (map (map Some) els) s = Ok rs /\
    Forall2 (fun l r => exists sys, r = Some sys /\ system_right 0%R Rplus Rmult nu us (nb * nu) nr l sys) els rs.
Proof.
  intros Ht Hu Hok H1 H2. apply (element_systems_partial _ _ _ _ Rminus); [|done|done| |done|done].
  - constructor; intros; ring.
  - intros l u Hl Hin. split; [by apply (Hok l)|]. rewrite R_sqrt.sqrt_sqrt by apply Rabs_pos. destruct (Rle_dec 0 (u_w u)) as [H|H]; [by apply Rabs_right, Rle_ge|]. apply Rabs_left. lra.
Qed.

(** After an element that throws in the middle of a batch the next system is wrong:
    setZero keeps the batch sizes. *)
Definition up (w v : Z) : lupdate := {| u_ops := [fun _ _ => v]; u_rhs := fun _ _ => v; u_vals := fun _ => 1%Z; u_ders := fun _ _ => 0%Z; u_w := w |}.
Definition fresh : lsys := {| s_pos := fun _ _ => 7%Z; s_neg := fun _ _ => 8%Z; s_npos := 0; s_nneg := 0; s_mat := fun _ _ => 9%Z; s_rhs := fun _ _ => 9%Z |}.
Notation zelements := (elements 0%Z 1%Z Z.add Z.mul Z.opp (fun w => Z.leb 0 w) (fun w => Z.sqrt (Z.abs w))).
Theorem element_systems_refuted : exists els sys, zelements 1 1 1 3 1 els fresh = Ok [None; Some sys] /\ els = [[Some (up 4 5); None]; [Some (up 9 1)]] /\
  ~ system_right 0%Z Z.add Z.mul 1 1 1 1 [up 9 1] sys.
Proof.
  exists [[Some (up 4 5); None]; [Some (up 9 1)]].
  destruct (zelements 1 1 1 3 1 [[Some (up 4 5); None]; [Some (up 9 1)]] fresh) as [[|[?|] [|[sys|] [|? ?]]]| |] eqn:E; try discriminate E.
  exists sys. split; [done|]. split; [done|]. intros [H _]. specialize (H 0 0 ltac:(lia) ltac:(lia)).
  assert (Hv : match zelements 1 1 1 3 1 [[Some (up 4 5); None]; [Some (up 9 1)]] fresh with Ok [_; Some sys] => sys.1 0 0 = 109%Z | _ => False end) by by vm_compute.
  rewrite E in Hv. rewrite Hv in H. vm_compute in H. discriminate H.
Qed.

(** Two elements, weights of both signs, batches of two updates: the hypotheses hold and
    the systems are those of the formula. *)
Definition up2 (w a b c : Z) : lupdate :=
  {| u_ops := [fun e i => (a + Z.of_nat (e + 2 * i))%Z; fun e i => (b - Z.of_nat (e + i))%Z]; u_rhs := fun e r => (c + Z.of_nat (e + r))%Z;
     u_vals := fun b => (1 + Z.of_nat b)%Z; u_ders := fun d b => (2 - Z.of_nat (d + b))%Z; u_w := w |}.
Definition els2 : list (list (lupdate (F := Z))) := [[up2 4 1 2 3; up2 (-9) 2 0 1; up2 1 3 1 1; up2 16 0 1 2; up2 (-1) 1 1 1]; [up2 (-4) 1 1 0; up2 9 5 1 2]].
Example elements_example :
  Forall (Forall (fun u => u_ops u <> [] /\ (Z.sqrt (Z.abs (u_w u)) * Z.sqrt (Z.abs (u_w u)) = if Z.leb 0 (u_w u) then u_w u else - u_w u)%Z)) els2 /\
  updates_per_batch 3 2 = 2 /\
  match zelements 2 2 2 2 2 (map (map Some) els2) fresh with
  | Ok [Some a; Some b] => map (fun i => map (a.1 i) (seq 0 4)) (seq 0 4) = map (fun i => map (expected_mat 0%Z Z.add Z.mul 2 2 (nth 0 els2 []) i) (seq 0 4)) (seq 0 4) /\
      map (fun i => map (b.2 i) (seq 0 2)) (seq 0 4) = map (fun i => map (expected_rhs 0%Z Z.add Z.mul 2 2 (nth 1 els2 []) i) (seq 0 2)) (seq 0 4) /\ (a.1 1 3, b.2 3 1) <> (0%Z, 0%Z)
  | _ => False end.
Proof. split; [|split; [done|]]; [|by vm_compute]. repeat (constructor; try (split; [discriminate|by vm_compute])). Qed.

Print Assumptions element_systems_partial.
Print Assumptions element_systems_real_partial.
Print Assumptions element_systems_refuted.
