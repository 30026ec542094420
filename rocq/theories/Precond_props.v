(** C78: preconditioners and repeated use of solvers. *)
From Coq Require Import Reals Lra.
From Verif Require Import Base Poly_spec Precond_model Precond_spec Precond_proofs.
Local Open Scope R_scope.

(** C78.  One sweep of a native preconditioner is what Tpetra asks of an operator. *)
Theorem richardson_applied n nc damping alpha X beta Y : shaped n nc X -> shaped n nc Y ->
  exists Z, apply_richardson damping 1 alpha X beta Y = Ok Z /\ applied n nc (fun _ => damping) alpha X beta Y Z.
Proof.
  intros HX HY. destruct (sweep_ok n nc (update (damping * alpha) X beta) (fun c i => damping * alpha * entry X c i) beta 1) with (Y := Y) as (Z & E & S & V); [|done|].
  - intros Y' HY'. by apply update_ok.
  - exists Z. split; [exact E|]. split; [done|]. intros c i Hc Hi. rewrite (V c i Hc Hi). cbn. lra.
Qed.
Print Assumptions richardson_applied.
Theorem jacobi_applied n nc d alpha X beta Y : length d = n -> shaped n nc X -> shaped n nc Y ->
  exists Z, apply_jacobi d 1 alpha X beta Y = Ok Z /\ applied n nc (fun i => nth i d 0) alpha X beta Y Z.
Proof.
  intros Hd HX HY. destruct (sweep_ok n nc (elementWiseMultiply alpha d X beta) (fun c i => alpha * (nth i d 0 * entry X c i)) beta 1) with (Y := Y) as (Z & E & S & V); [|done|].
  - intros Y' HY'. by apply multiply_ok.
  - exists Z. split; [exact E|]. split; [done|]. intros c i Hc Hi. rewrite (V c i Hc Hi). cbn. lra.
Qed.
Print Assumptions jacobi_applied.
(** C78.  With [k] sweeps the result is alpha (1 + beta + ... + beta^(k-1)) M X + beta^k Y.
    A negative number of sweeps is undefined behaviour. *)
Theorem sweeps_computed n nc d damping alpha X beta Y k : length d = n -> shaped n nc X -> shaped n nc Y ->
  (exists Z, apply_jacobi d (Z.of_nat k) alpha X beta Y = Ok Z /\ applied n nc (fun i => nth i d 0) (alpha * rsum k (Rpow_def.pow beta)) X (beta ^ k) Y Z) /\
  (exists Z, apply_richardson damping (Z.of_nat k) alpha X beta Y = Ok Z /\ applied n nc (fun _ => damping) (alpha * rsum k (Rpow_def.pow beta)) X (beta ^ k) Y Z) /\
  forall s, (s < 0)%Z -> apply_jacobi d s alpha X beta Y = UB /\ apply_richardson damping s alpha X beta Y = UB.
Proof.
  intros Hd HX HY. split; [|split].
  - destruct (sweep_ok n nc (elementWiseMultiply alpha d X beta) (fun c i => alpha * (nth i d 0 * entry X c i)) beta k) with (Y := Y) as (Z & E & S & V); [|done|].
    { intros Y' HY'. by apply multiply_ok. }
    exists Z. split; [exact E|]. split; [done|]. intros c i Hc Hi. rewrite (V c i Hc Hi). lra.
  - destruct (sweep_ok n nc (update (damping * alpha) X beta) (fun c i => damping * alpha * entry X c i) beta k) with (Y := Y) as (Z & E & S & V); [|done|].
    { intros Y' HY'. by apply update_ok. }
    exists Z. split; [exact E|]. split; [done|]. intros c i Hc Hi. rewrite (V c i Hc Hi). lra.
  - intros s Hs. unfold apply_jacobi, apply_richardson, sweep. by rewrite (proj2 (Z.ltb_lt s 0) Hs).
Qed.
Print Assumptions sweeps_computed.
(** C78.  Two sweeps do not compute alpha M X + beta Y, and they are not two steps of the
    relaxation either, not even from Y = 0: with beta = 0 the second sweep repeats the
    first.  No sweeps leave Y as it was. *)
Theorem sweeps_refuted : exists A d X Y, local_diag {| op_kind_of := Crs; op_matrix := A |} = Ok [2; 2] /\ jacobi_init {| op_kind_of := Crs; op_matrix := A |} 1 0 = Ok d /\
  shaped 2 1 X /\ shaped 2 1 Y /\
  (exists Z, apply_jacobi d 2 1 X 1 Y = Ok Z /\ ~ applied 2 1 (fun i => nth i d 0) 1 X 1 Y Z) /\
  (exists Z, apply_jacobi d 2 1 X 0 Y = Ok Z /\ entry Z 0 0 <> relaxed A (fun i => nth i d 0) (entry X 0) 2 0) /\
  (exists Z, apply_jacobi d 0 1 X 0 Y = Ok Z /\ ~ applied 2 1 (fun i => nth i d 0) 1 X 0 Y Z).
Proof.
  exists [[2; 1]; [1; 2]], [1 / 2; 1 / 2], [[2; 2]], [[2; 2]].
  assert (He : jacobi_entry 1 0 2 = Ok (1 / 2)).
  { rewrite jacobi_entry_ok. rewrite (Rabs_right 2), (Rmax_left 2 0) by lra. destruct (Req_EM_T 2 0); [lra|]. destruct (Rlt_dec 2 0); [lra|]. f_equal. lra. }
  split; [reflexivity|]. split. { unfold jacobi_init. cbn. rewrite He. reflexivity. }
  assert (HS : shaped 2 1 [[2; 2]]) by (split; [done|repeat constructor]). split; [done|]. split; [done|].
  destruct (sweeps_computed 2 1 [1 / 2; 1 / 2] 1 1 [[2; 2]] 1 [[2; 2]] 2) as ((Z & E & S & V) & _); [done..|].
  destruct (sweeps_computed 2 1 [1 / 2; 1 / 2] 1 1 [[2; 2]] 0 [[2; 2]] 2) as ((Z0 & E0 & S0 & V0) & _); [done..|].
  destruct (sweeps_computed 2 1 [1 / 2; 1 / 2] 1 1 [[2; 2]] 0 [[2; 2]] 0) as ((Z1 & E1 & S1 & V1) & _); [done..|].
  split; [|split].
  - exists Z. split; [done|]. intros [_ H]. specialize (V 0%nat 0%nat ltac:(lia) ltac:(lia)). specialize (H 0%nat 0%nat ltac:(lia) ltac:(lia)). unfold entry in *. cbn in V, H. lra.
  - exists Z0. split; [done|]. specialize (V0 0%nat 0%nat ltac:(lia) ltac:(lia)). rewrite V0. unfold times, entry. cbn. unfold times, entry. cbn. lra.
  - exists Z1. split; [done|]. intros [_ H]. specialize (V1 0%nat 0%nat ltac:(lia) ltac:(lia)). specialize (H 0%nat 0%nat ltac:(lia) ltac:(lia)). unfold entry in *. cbn in V1, H. lra.
Qed.
Print Assumptions sweeps_refuted.
(** C78.  The native Jacobi preconditioner of an operator with diagonal [d] exists exactly
    if no entry has to be divided by 0.  Its entries have the signs of the diagonal (for a
    positive damping factor), are damping / d where |d| >= threshold and are bounded by
    damping / threshold. *)
Theorem jacobi_diagonal A damping threshold d : local_diag A = Ok d -> 0 <= threshold ->
  ((exists e, jacobi_init A damping threshold = Ok e) <-> threshold <> 0 \/ forall v, v ∈ d -> v <> 0) /\
  forall e, jacobi_init A damping threshold = Ok e -> length e = length d /\
    forall i v, d !! i = Some v -> exists w, e !! i = Some w /\
      (threshold <= Rabs v -> w = damping / v) /\ (Rabs v <= threshold -> Rabs w = Rabs damping / threshold) /\
      (0 < damping -> 0 < v -> 0 < w) /\ (0 < damping -> v < 0 -> w < 0) /\ (0 < threshold -> Rabs w <= Rabs damping / threshold).
Proof.
  intros Hd Ht. unfold jacobi_init. rewrite Hd. cbn [mbind res_bind]. split.
  - split.
    + intros (e & He). destruct (Req_EM_T threshold 0) as [->|]; [right|by left]. intros v Hv ->. apply map_res_inv in He. apply elem_of_list_lookup in Hv as [i Hi]. destruct (Forall2_lookup_l _ _ _ _ _ He Hi) as (w & _ & Hw).
      rewrite jacobi_entry_ok in Hw. rewrite Rabs_R0, Rmax_left in Hw by lra. by destruct (Req_EM_T 0 0).
    + intros H. exists (map (fun v => (if Rlt_dec v 0 then -1 else 1) * damping / Rmax (Rabs v) threshold) d). apply map_res_ok. intros v Hv. rewrite jacobi_entry_ok. destruct (Req_EM_T (Rmax (Rabs v) threshold) 0) as [E|]; [|done]. exfalso.
      pose proof (Rmax_l (Rabs v) threshold). pose proof (Rmax_r (Rabs v) threshold). pose proof (Rabs_pos v). destruct H as [H|H]; [lra|]. specialize (H v Hv). apply Rabs_no_R0 in H. lra.
  - intros e He. apply map_res_inv in He. split; [by rewrite (Forall2_length _ _ _ He)|]. intros i v Hi. destruct (Forall2_lookup_l _ _ _ _ _ He Hi) as (w & Hw & E). exists w. split; [done|].
    rewrite jacobi_entry_ok in E. destruct (Req_EM_T (Rmax (Rabs v) threshold) 0) as [|Hn]; [done|]. injection E as <-. set (mx := Rmax (Rabs v) threshold) in *.
    assert (Hp : 0 < mx). { pose proof (Rmax_l (Rabs v) threshold). pose proof (Rabs_pos v). fold mx in H. lra. }
    assert (Habs : Rabs ((if Rlt_dec v 0 then -1 else 1) * damping / mx) = Rabs damping / mx).
    { unfold Rdiv. rewrite Rabs_mult, (Rabs_right (/ mx)) by (left; by apply Rinv_0_lt_compat). f_equal. rewrite Rabs_mult. destruct (Rlt_dec v 0); [rewrite (Rabs_left (-1)) by lra|rewrite Rabs_R1]; lra. }
    assert (Hi0 : 0 < / mx) by (by apply Rinv_0_lt_compat).
    split; [|split; [|split; [|split]]].
    + intros Hle. subst mx. rewrite Rmax_left in * by done. destruct (Rlt_dec v 0) as [Hv|Hv].
      * rewrite (Rabs_left v) by done. field. lra.
      * rewrite (Rabs_right v) in * by lra. field. lra.
    + intros Hle. rewrite Habs. subst mx. by rewrite Rmax_right.
    + intros Hda Hv. destruct (Rlt_dec v 0); [lra|]. rewrite Rmult_1_l. by apply Rdiv_lt_0_compat.
    + intros Hda Hv. destruct (Rlt_dec v 0); [|lra]. assert (0 < damping / mx) by (by apply Rdiv_lt_0_compat). replace (-1 * damping / mx) with (- (damping / mx)) by (field; lra). lra.
    + intros Hth. rewrite Habs. unfold Rdiv. apply Rmult_le_compat_l; [apply Rabs_pos|]. apply Rinv_le_contravar; [done|]. subst mx. apply Rmax_r.
Qed.
Print Assumptions jacobi_diagonal.
(** C78.  Both preconditioners are symmetric operators, which is why the mode of apply may
    be ignored. *)
Theorem native_symmetric n (d x y : nat -> R) : rsum n (fun i => (d i * x i) * y i) = rsum n (fun i => x i * (d i * y i)).
Proof. induction n as [|n IH]; [done|]. cbn. rewrite IH. lra. Qed.
Print Assumptions native_symmetric.
(** C78.  Which preconditioner goes with which operator: those of Ifpack2 with an operator
    that is no matrix, such as that of MatrixFreeSystem, are undefined behaviour. *)
Theorem preconditioner_made o A :
  match o, op_kind_of A with
  | NullOpts, _ => initPreconditioner o A = Ok None
  | RichardsonOpts damping sweeps, _ => initPreconditioner o A = Ok (Some (Richardson damping sweeps))
  | JacobiOpts _ _ _, Opaque => initPreconditioner o A = Throw
  | JacobiOpts damping threshold sweeps, _ => forall e, jacobi_init A damping threshold = Ok e -> initPreconditioner o A = Ok (Some (Jacobi e sweeps))
  | Ifpack2Opts, Crs => initPreconditioner o A = Ok (Some (Ifpack2 (op_matrix A)))
  | Ifpack2Opts, _ => initPreconditioner o A = UB
  end.
Proof.
  destruct o as [|da s|da th s|]; cbn; [done|done| |by destruct (op_kind_of A)].
  unfold jacobi_init, local_diag. destruct (op_kind_of A); [|by intros e ->|done]; intros e He; by rewrite He.
Qed.
Print Assumptions preconditioner_made.

(** ** Solvers used repeatedly *)
Section histories.
  Context (setup_ok : operator -> mvec -> mvec -> bool) (belos : operator -> option prec -> mvec -> mvec -> mvec * bool * (nat * R)) (opts : options) (throw_on_fail : bool).
  Notation call := (belos_solve setup_ok belos opts throw_on_fail).
  (** The solver after calls with the same A, b and x; [hist] is the memory at each call:
      between the calls anything can be written to the objects. *)
  Definition reused (A b x : nat) (hist : list memory) : belos_state := foldl (fun s m => (call m A b x s).1.1) new_solver hist.
  Definition columns_agree (b x : nat) (m : memory) : Prop := length (vecs m x) = length (vecs m b).
  Lemma reused_state A b x hist :
    (Forall (fun m => ~ columns_agree b x m) hist /\ reused A b x hist = new_solver) \/
    exists pre m0 post, hist = pre ++ m0 :: post /\ Forall (fun m => ~ columns_agree b x m) pre /\ columns_agree b x m0 /\ bs_created (reused A b x hist) = true /\
      (bs_problem (reused A b x hist) = None \/
       exists p, initPreconditioner opts (ops m0 A) = Ok p /\ setup_ok (ops m0 A) (vecs m0 x) (vecs m0 b) = true /\ bs_problem (reused A b x hist) = Some {| p_A := A; p_b := b; p_x := x; p_prec := p |}).
  Proof using.
    induction hist as [|m hist IH] using rev_ind; [left; by split|]. unfold reused in *. rewrite foldl_app. cbn [foldl]. set (t := foldl _ new_solver hist) in *.
    destruct IH as [(Hf & Ht)|(pre & m0 & post & -> & Hp & H0 & Hcr & Hpr)].
    - rewrite Ht. unfold belos_solve. destruct (Nat.eqb_spec (length (vecs m x)) (length (vecs m b))) as [E|E]; [|left; split; [apply Forall_app; split; [done|by repeat constructor]|done]].
      right. exists hist, m, []. split; [done|]. split; [done|]. split; [done|]. cbn [new_solver bs_created]. unfold belos_init. destruct (initPreconditioner opts (ops m A)) as [p| |] eqn:Eo; [|cbn; by auto..].
      destruct (setup_ok (ops m A) (vecs m x) (vecs m b)) eqn:Es; [|cbn; by auto]. cbv beta iota. unfold belos_solveImpl. cbn [bs_problem p_A p_b p_x p_prec]. destruct (belos _ _ _ _) as [[? ?] ?]. cbn. split; [done|]. right. by exists p.
    - right. exists pre, m0, (post ++ [m]). split; [by rewrite <- app_assoc|]. split; [done|]. split; [done|].
      assert (E : (call m A b x t).1.1 = t); [|by rewrite E]. unfold belos_solve. destruct (_ =? _)%nat; [|done]. rewrite Hcr. unfold belos_solveImpl. destruct (bs_problem t); [|done]. by destruct (belos _ _ _ _) as [[? ?] ?].
  Qed.
  (** C78.  A solver that is only used with one A, b and x solves with what these contain
      at each call.  The preconditioner is that of A as it was at the first call that got
      past the check of the numbers of columns. *)
  Theorem solver_reused A b x hist m s' m' r : call m A b x (reused A b x hist) = (s', m', Ok r) ->
    exists pre m0 post p x' conv, hist ++ [m] = pre ++ m0 :: post /\ Forall (fun m => ~ columns_agree b x m) pre /\ columns_agree b x m0 /\ initPreconditioner opts (ops m0 A) = Ok p /\
      belos (ops m A) p (vecs m b) (vecs m x) = (x', conv, r) /\ (throw_on_fail = true -> conv = true) /\
      vecs m' x = x' /\ (forall y, y <> x -> vecs m' y = vecs m y) /\ ops m' = ops m.
  Proof using.
    intros Hc. unfold belos_solve in Hc. destruct (Nat.eqb_spec (length (vecs m x)) (length (vecs m b))) as [Ec|]; [|done].
    assert (Hsol : forall p m1 r1, belos_solveImpl belos throw_on_fail m {| bs_created := true; bs_problem := Some {| p_A := A; p_b := b; p_x := x; p_prec := p |} |} = (m1, Ok r1) ->
      exists x' conv, belos (ops m A) p (vecs m b) (vecs m x) = (x', conv, r1) /\ (throw_on_fail = true -> conv = true) /\ vecs m1 x = x' /\ (forall y, y <> x -> vecs m1 y = vecs m y) /\ ops m1 = ops m).
    { intros p m1 r1 Hs. unfold belos_solveImpl in Hs. cbn [bs_problem p_A p_b p_x p_prec] in Hs. destruct (belos _ _ _ _) as [[x' conv] info] eqn:Eb. injection Hs as <- Hr. exists x', conv.
      apply bind_inv in Hr as (u & Hu & Hr). injection Hr as ->. split; [done|]. split; [intros ->; by destruct conv|]. split; [cbn; by rewrite Nat.eqb_refl|]. split; [|done]. intros y Hy. cbn. by rewrite (proj2 (Nat.eqb_neq y x) Hy). }
    destruct (reused_state A b x hist) as [(Hf & Ht)|(pre & m0 & post & Hh & Hp & H0 & Hcr & Hpr)].
    - rewrite Ht in Hc. cbn [new_solver bs_created] in Hc. unfold belos_init in Hc. destruct (initPreconditioner opts (ops m A)) as [p| |] eqn:Eo; [|done..]. destruct (setup_ok _ _ _); [|done]. cbv iota beta in Hc.
      destruct (belos_solveImpl belos throw_on_fail m _) as [m1 r1] eqn:Es in Hc. injection Hc as <- <- Hr. subst r1. destruct (Hsol p m1 r Es) as (x' & conv & ?). exists hist, m, [], p, x', conv. done.
    - rewrite Hcr in Hc. destruct (reused A b x hist) as [cr pr]. cbn in Hcr, Hpr. subst cr. destruct Hpr as [->|(p & Eo & _ & ->)]; [done|].
      destruct (belos_solveImpl belos throw_on_fail m _) as [m1 r1] eqn:Es in Hc. injection Hc as <- <- Hr. subst r1. destruct (Hsol p m1 r Es) as (x' & conv & ?). exists pre, m0, (post ++ [m]), p, x', conv.
      split; [by rewrite Hh, <- app_assoc|]. done.
  Qed.
  (** C78.  The first call of a solver that can be set up solves. *)
  Theorem solver_first m A b x p : columns_agree b x m -> initPreconditioner opts (ops m A) = Ok p -> setup_ok (ops m A) (vecs m x) (vecs m b) = true ->
    let '(x', conv, r) := belos (ops m A) p (vecs m b) (vecs m x) in
    exists s' m', call m A b x new_solver = (s', m', if negb throw_on_fail || conv then Ok r else Throw) /\ vecs m' x = x'.
  Proof using.
    intros Hc Hp Hs. destruct (belos _ _ _ _) as [[x' conv] r] eqn:Eb. unfold belos_solve. rewrite (proj2 (Nat.eqb_eq _ _) Hc). cbn [new_solver bs_created]. unfold belos_init. rewrite Hp, Hs. cbv iota beta.
    unfold belos_solveImpl. cbn [bs_problem p_A p_b p_x p_prec]. rewrite Eb. do 2 eexists. split; [by destruct (negb throw_on_fail || conv)|]. cbn. by rewrite Nat.eqb_refl.
  Qed.
End histories.
Print Assumptions solver_reused.
Print Assumptions solver_first.
(** The same for the direct solvers: no preconditioner, and the shapes are checked by the
    first call only. *)
Theorem direct_reused shape_ok amesos A b x hist m s' m' :
  let state := foldl (fun s m => (amesos_solve shape_ok amesos m A b x s).1.1) None hist in
  amesos_solve shape_ok amesos m A b x state = (s', m', Ok tt) ->
  exists v, amesos (ops m A) (vecs m b) = Ok v /\ vecs m' x = v /\ (forall y, y <> x -> vecs m' y = vecs m y) /\ ops m' = ops m.
Proof.
  intros state. assert (Hst : state = None \/ state = Some (A, b, x)).
  { subst state. induction hist as [|n hist IH] using rev_ind; [by left|]. rewrite foldl_app. cbn [foldl]. destruct IH as [-> | ->]; unfold amesos_solve; destruct (_ =? _)%nat; try (by auto).
    - destruct (shape_ok _ _ _); cbn; [|by auto]. destruct (amesos _ _); cbn; by auto.
    - destruct (amesos _ _); cbn; by auto. }
  clearbody state. intros Hc. unfold amesos_solve in Hc. destruct (_ =? _)%nat; [|done].
  assert (Hc' : match amesos (ops m A) (vecs m b) with Ok v => (Some (A, b, x), set_vec m x v, Ok tt) | Throw => (Some (A, b, x), m, Throw) | UB => (Some (A, b, x), m, UB) end = (s', m', Ok tt)).
  { destruct Hst as [->| ->]; [|exact Hc]. destruct (shape_ok _ _ _); [exact Hc|done]. }
  destruct (amesos (ops m A) (vecs m b)) as [v| |]; [|done..]. exists v. split; [done|]. injection Hc' as <- <-. split; [cbn; by rewrite Nat.eqb_refl|]. split; [|done]. intros y Hy. cbn. by rewrite (proj2 (Nat.eqb_neq y x) Hy).
Qed.
Print Assumptions direct_reused.

(** ** Examples *)
(** A Belos that solves 1x1 systems exactly. *)
Definition ex_belos (A : operator) (p : option prec) (b x : mvec) : mvec * bool * (nat * R) := ([[entry b 0 0 / entry (op_matrix A) 0 0]], true, (1%nat, 0)).
Definition ex_amesos (A : operator) (b : mvec) : res mvec := Ok [[entry b 0 0 / entry (op_matrix A) 0 0]].
(** Two systems: 2 x = 6 (objects 0, 0, 1) and 4 x = 4 (objects 1, 2, 3). *)
Definition ex_mem : memory :=
  {| ops := fun a => {| op_kind_of := MatrixFree; op_matrix := if (a =? 0)%nat then [[2]] else [[4]] |};
     vecs := fun a => match a with 0%nat => [[6]] | 2%nat => [[4]] | _ => [[0]] end |}.
Example solver_example : exists s m r, belos_solve (fun _ _ _ => true) ex_belos (JacobiOpts 1 0 1) true ex_mem 0 0 1 new_solver = (s, m, Ok r) /\ entry (vecs m 1) 0 0 = 3.
Proof.
  assert (Hp : initPreconditioner (JacobiOpts 1 0 1) (ops ex_mem 0) = Ok (Some (Jacobi [1 * 1 / Rmax (Rabs 2) 0] 1))).
  { cbn. rewrite jacobi_entry_ok. destruct (Req_EM_T _ 0) as [E|]; [rewrite (Rabs_right 2), Rmax_left in E; lra|]. destruct (Rlt_dec 2 0); [lra|]. done. }
  pose proof (solver_first (fun _ _ _ => true) ex_belos (JacobiOpts 1 0 1) true ex_mem 0 0 1 _ eq_refl Hp eq_refl) as H. cbn [ex_belos] in H. destruct H as (s & m & H1 & H2). exists s, m, (1%nat, 0). split; [exact H1|].
  rewrite H2. unfold entry. cbn. lra.
Qed.
(** C78.  A solver used for one system and then for another solves the first one again:
    the solution of the second is not touched.  The same holds for the direct solvers. *)
Theorem other_system_refuted :
  (exists s m r s' m' r', belos_solve (fun _ _ _ => true) ex_belos NullOpts true ex_mem 0 0 1 new_solver = (s, m, Ok r) /\
     belos_solve (fun _ _ _ => true) ex_belos NullOpts true m 1 2 3 s = (s', m', Ok r') /\ entry (vecs m' 3) 0 0 = 0 /\ 4 * entry (vecs m' 3) 0 0 <> 4) /\
  exists s m s' m', amesos_solve (fun _ _ _ => true) ex_amesos ex_mem 0 0 1 None = (s, m, Ok tt) /\
     amesos_solve (fun _ _ _ => true) ex_amesos m 1 2 3 s = (s', m', Ok tt) /\ entry (vecs m' 3) 0 0 = 0 /\ 4 * entry (vecs m' 3) 0 0 <> 4.
Proof.
  split.
  - do 6 eexists. split; [reflexivity|]. split; [reflexivity|]. unfold entry. cbn. split; [done|lra].
  - do 4 eexists. split; [reflexivity|]. split; [reflexivity|]. unfold entry. cbn. split; [done|lra].
Qed.
Print Assumptions other_system_refuted.
(** C78.  The preconditioner is not renewed when the operator changes: 1/2 is used for a
    diagonal of 4. *)
Theorem stale_preconditioner_refuted : exists s m r p, belos_solve (fun _ _ _ => true) ex_belos (JacobiOpts 1 0 1) true ex_mem 0 0 1 new_solver = (s, m, Ok r) /\
  let m2 := set_op m 0 {| op_kind_of := MatrixFree; op_matrix := [[4]] |} in
  (belos_solve (fun _ _ _ => true) ex_belos (JacobiOpts 1 0 1) true m2 0 0 1 s).1.1 = s /\ bs_problem s = Some p /\ p_prec p <> Some (Jacobi [1 / 4] 1) /\
  initPreconditioner (JacobiOpts 1 0 1) (ops m2 0) = Ok (Some (Jacobi [1 / 4] 1)).
Proof.
  assert (He : forall v, 0 < v -> jacobi_entry 1 0 v = Ok (1 / v)).
  { intros v Hv. rewrite jacobi_entry_ok, (Rabs_right v), Rmax_left by lra. destruct (Req_EM_T v 0); [lra|]. destruct (Rlt_dec v 0); [lra|]. by rewrite Rmult_1_l. }
  assert (H2 : initPreconditioner (JacobiOpts 1 0 1) (ops ex_mem 0) = Ok (Some (Jacobi [1 / 2] 1))) by (cbn; rewrite (He 2) by lra; done).
  unfold belos_solve, belos_init. cbn [new_solver bs_created]. rewrite H2. cbn [ex_mem vecs length Nat.eqb]. cbn [belos_solveImpl bs_problem ex_belos p_A p_b p_x p_prec].
  do 4 eexists. split; [reflexivity|]. cbv zeta. split; [reflexivity|]. split; [reflexivity|]. split; [cbn; intros E; injection E; lra|]. cbn. rewrite (He 4) by lra. done.
Qed.
Print Assumptions stale_preconditioner_refuted.
(** C78.  A failed set-up is not repeated: the first call reports it, the second goes on
    without a problem, or, for the direct solvers, with the shapes that were rejected. *)
Theorem failed_setup_refuted :
  (exists m s s' m', belos_solve (fun _ _ _ => true) ex_belos (JacobiOpts 1 0 1) true m 0 0 1 new_solver = (s, m, Throw) /\
     belos_solve (fun _ _ _ => true) ex_belos (JacobiOpts 1 0 1) true ex_mem 0 0 1 s = (s', m', UB)) /\
  exists s s' m', amesos_solve (fun _ _ _ => false) ex_amesos ex_mem 0 0 1 None = (s, ex_mem, Throw) /\ amesos_solve (fun _ _ _ => false) ex_amesos ex_mem 0 0 1 s = (s', m', Ok tt).
Proof.
  split.
  - exists (set_op ex_mem 0 {| op_kind_of := Opaque; op_matrix := [[2]] |}). do 3 eexists. split; reflexivity.
  - do 3 eexists. split; reflexivity.
Qed.
Print Assumptions failed_setup_refuted.
