(** C73: sum factorisation. *)
From Coq Require Import Reals Lra.
From Verif Require Import Base Elem_model Elem_spec Elem_proofs Poly_model Poly_spec Poly_proofs Poly2_proofs Poly3_proofs Poly_props Basis_model Basis_spec Basis_proofs Basis2_proofs Basis_props Gauss_model Gauss_spec Gauss_proofs Gauss2_proofs Gauss_props Geom_model Geom_proofs Geom_props LocalSys_model LocalSys_spec OpEval_model OpEval_spec OpEval_proofs SumFact_model SumFact_spec SumFact_proofs SumFact2_proofs SumFact3_proofs SumFact4_proofs SumFact5_proofs SumFact6_proofs SumFact7_proofs.
Local Open Scope R_scope.

(** C73.  For a quadrilateral or hexahedron of any order, any quadrature order, any
    number of unknowns, equations, right-hand sides and fields, with the plain or the
    odd-even sweeps (any block size): the buffer handed to y_scatter is the element matrix
    (C44) of the direct evaluation's quadrature points times the operand, whatever the
    buffers held before - for the kernel whose third coordinate is replaced by 0, which is
    what the code passes. *)
Theorem sum_factorisation_flat t QO lam E n roots pol V oe nu us nr kernel time x fields stride data nodes x_gather junk l :
  t <> Line -> eigen_of (getRefQuadSize QO) (gauss_matrix ref_a ref_b ref_c) lam E ->
  (2 <= n)%nat -> getLobattoPolynomial (n - 2) = Ok pol -> length roots = (n - 2)%nat -> sorted_up roots -> (forall s, poly pol s = 0 -> s ∈ roots) ->
  length V = nodes_per_element t 1 -> Forall (fun v => length v = 3%nat) V -> (forall bs, oe = Some bs -> (0 < bs)%nat) ->
  (forall fv fd p, length (kernel fv fd p time).1 = (native_dim t + 1)%nat) ->
  length nodes = (n ^ native_dim t)%nat ->
  (forall buf, (n ^ native_dim t * (nu * nr) <= length buf)%nat -> exists buf', x_gather buf = Ok buf' /\ length buf' = length buf /\ operand_in (n ^ native_dim t) nu nr x buf') ->
  let absc := lobattoAbsc n roots in let ref := getReferenceQuadrature QO lam E in
  direct_points t (fun fv fd p => kernel fv fd [nth 0 p 0; nth 1 p 0; 0]) time absc ref V nodes fields stride data = Ok (map Some l) ->
  exists buf, evalLocalOperatorSumFact oe (native_dim t) nu us nr kernel time absc ref V nodes x_gather fields stride data junk = Ok buf /\
    (n ^ native_dim t * (nu * nr) <= length buf)%nat /\ times_matrix 0 Rplus Rmult nu us (n ^ native_dim t * nu) nr l x (result_at nu nr buf).
Proof.
  intros Ht He Hn Hpol Hrl Hs Hroots HV H3 Hbs Hker Hnodes Hg absc ref Hd. assert (Hq : (1 <= getRefQuadSize QO)%nat) by apply size_pos.
  destruct (lobatto_mirrored n roots) as (La & Hnd & Hm); [split; [done|]; split; [done|]; split; [done|]; by exists pol|]. fold absc in La, Hnd, Hm. rewrite <- La in *.
  set (k0 := fun fv fd p => kernel fv fd [nth 0 p 0; nth 1 p 0; 0]) in *.
  destruct (direct_all t V HV H3 absc Hn Hnd (getRefQuadSize QO) lam E Hq He k0 time fields stride data nodes l Hd) as (nvals & Hv & HF).
  apply (main_ok t Ht V HV H3 absc Hn Hnd (getRefQuadSize QO) lam E Hq He oe ltac:(intros bs Hb; split; [by apply Hbs|done]) nu us nr k0 time ltac:(intros; apply Hker) ltac:(left; done) x fields stride data nodes x_gather junk Hnodes) with (nvals := nvals); [|done|done].
  intros buf. destruct (decide (length absc ^ native_dim t * (nu * nr) <= length buf)%nat) as [Hb|Hb]; [destruct (Hg buf Hb) as (b & ?); by exists b|]. exists buf. intros Hl. exfalso. apply Hb. rewrite Hl. unfold buf_size. transitivity (length absc ^ native_dim t * (nu * nr + length fields))%nat; [nia|apply Nat.mul_le_mono_r; lia].
Qed.
Print Assumptions sum_factorisation_flat.

(** C73.  Hence the sum-factorised result is that of the direct evaluation, which C72
    relates to the assembled matrix, if the kernel's operators do not depend on the third
    coordinate or the element lies in the plane z = 0.
    Missing: other kernels (see the refutation below); elements at which the direct
    evaluation throws (likewise). *)
Theorem sum_factorisation_partial t QO lam E n roots pol V oe nu us nr kernel time x fields stride data nodes x_gather junk l :
  t <> Line -> eigen_of (getRefQuadSize QO) (gauss_matrix ref_a ref_b ref_c) lam E ->
  (2 <= n)%nat -> getLobattoPolynomial (n - 2) = Ok pol -> length roots = (n - 2)%nat -> sorted_up roots -> (forall s, poly pol s = 0 -> s ∈ roots) ->
  length V = nodes_per_element t 1 -> Forall (fun v => length v = 3%nat) V -> (forall bs, oe = Some bs -> (0 < bs)%nat) ->
  (forall fv fd p, length (kernel fv fd p time).1 = (native_dim t + 1)%nat) ->
  (forall fv fd a b c, (kernel fv fd [a; b; c] time).1 = (kernel fv fd [a; b; 0] time).1) \/ Forall (fun v => nth 2 v 0 = 0) V ->
  length nodes = (n ^ native_dim t)%nat ->
  (forall buf, (n ^ native_dim t * (nu * nr) <= length buf)%nat -> exists buf', x_gather buf = Ok buf' /\ length buf' = length buf /\ operand_in (n ^ native_dim t) nu nr x buf') ->
  let absc := lobattoAbsc n roots in let ref := getReferenceQuadrature QO lam E in
  direct_points t kernel time absc ref V nodes fields stride data = Ok (map Some l) ->
  exists buf, evalLocalOperatorSumFact oe (native_dim t) nu us nr kernel time absc ref V nodes x_gather fields stride data junk = Ok buf /\
    (n ^ native_dim t * (nu * nr) <= length buf)%nat /\ times_matrix 0 Rplus Rmult nu us (n ^ native_dim t * nu) nr l x (result_at nu nr buf).
Proof.
  intros Ht He Hn Hpol Hrl Hs Hroots HV H3 Hbs Hker Hz Hnodes Hg absc ref Hd. assert (Hq : (1 <= getRefQuadSize QO)%nat) by apply size_pos.
  destruct (lobatto_mirrored n roots) as (La & Hnd & Hm); [split; [done|]; split; [done|]; split; [done|]; by exists pol|]. fold absc in La, Hnd, Hm. rewrite <- La in *.
  destruct (direct_all t V HV H3 absc Hn Hnd (getRefQuadSize QO) lam E Hq He kernel time fields stride data nodes l Hd) as (nvals & Hv & HF).
  apply (main_ok t Ht V HV H3 absc Hn Hnd (getRefQuadSize QO) lam E Hq He oe ltac:(intros bs Hb; split; [by apply Hbs|done]) nu us nr kernel time Hker Hz x fields stride data nodes x_gather junk Hnodes) with (nvals := nvals); [|done|done].
  intros buf. destruct (decide (length absc ^ native_dim t * (nu * nr) <= length buf)%nat) as [Hb|Hb]; [destruct (Hg buf Hb) as (b & ?); by exists b|]. exists buf. intros Hl. exfalso. apply Hb. rewrite Hl. unfold buf_size. transitivity (length absc ^ native_dim t * (nu * nr + length fields))%nat; [nia|apply Nat.mul_le_mono_r; lia].
Qed.
Print Assumptions sum_factorisation_partial.

(** C73.  The one-dimensional fact the odd-even sweeps rest on: Gauss points, Lobatto
    nodes, interpolation and derivative matrices are symmetric about 0. *)
Theorem matrices_symmetric QO lam E n roots pol :
  eigen_of (getRefQuadSize QO) (gauss_matrix ref_a ref_b ref_c) lam E ->
  (2 <= n)%nat -> getLobattoPolynomial (n - 2) = Ok pol -> length roots = (n - 2)%nat -> sorted_up roots -> (forall s, poly pol s = 0 -> s ∈ roots) ->
  exists Im Dm, interpolationMatrix (lobattoAbsc n roots) (getReferenceQuadrature QO lam E).1 = Ok Im /\ derivativeMatrix (lobattoAbsc n roots) (getReferenceQuadrature QO lam E).1 = Ok Dm /\
    forall b q, (b < n)%nat -> (q < getRefQuadSize QO)%nat ->
      Im (n - 1 - b)%nat (getRefQuadSize QO - 1 - q)%nat = Im b q /\ Dm (n - 1 - b)%nat (getRefQuadSize QO - 1 - q)%nat = - Dm b q.
Proof.
  intros He Hn Hpol Hrl Hs Hroots. assert (Hq : (1 <= getRefQuadSize QO)%nat) by apply size_pos.
  destruct (lobatto_mirrored n roots) as (La & Hnd & Hm); [split; [done|]; split; [done|]; split; [done|]; by exists pol|]. set (absc := lobattoAbsc n roots) in *. rewrite <- La in *.
  destruct (matrices_ok absc Hn Hnd (getRefQuadSize QO) lam) as (Im & Dm & E1 & E2 & H). exists Im, Dm. split; [exact E1|]. split; [exact E2|]. intros b q Hb Hqq.
  destruct (mirror_matrices absc Hn Hnd Hm (getRefQuadSize QO) lam Im Dm (gauss_mirrored _ lam E Hq He) H) as [M1 M2]. specialize (M1 b q Hb Hqq). specialize (M2 b q Hb Hqq). cbv beta iota in M1, M2. split; lra.
Qed.
Print Assumptions matrices_symmetric.

(** ** One-point quadrature on a bilinear or trilinear element *)
Definition lam0 : nat -> R := fun _ => 0.
Definition one1 : nat -> nat -> R := fun _ _ => 1.
Lemma eigen1 : eigen_of (getRefQuadSize 0) (gauss_matrix ref_a ref_b ref_c) lam0 one1.
Proof.
  change (getRefQuadSize 0) with 1%nat. split; [intros; lia|]. split; [|split].
  - intros k i Hk Hi. assert (k = 0)%nat as -> by lia. assert (i = 0)%nat as -> by lia. cbn. unfold lam0, one1, gauss_matrix, gauss_alpha, ref_b. cbn. field_simplify; [lra|unfold ref_a; cbn; lra].
  - intros i j Hi Hj. assert (i = 0)%nat as -> by lia. assert (j = 0)%nat as -> by lia. cbn. unfold one1. lra.
  - intros i j Hi Hj. assert (i = 0)%nat as -> by lia. assert (j = 0)%nat as -> by lia. cbn. unfold one1. lra.
Qed.
Lemma Db1 i x : (i < 2)%nat -> Db absc1 i x = match i with O => -1 / 2 | _ => 1 / 2 end.
Proof.
  intros Hi. destruct absc1_ok as [H1 H2]. pose proof (Lb_der absc1 H1 H2 i x Hi) as Hd. apply (uniqueness_limite (Lb absc1 i) x); [exact Hd|]. destruct i as [|[|i]]; [| |lia].
  - apply (derivable_pt_lim_ext (fun s => / 2 + -1 / 2 * s)); [intros; rewrite Lb1 by lia; lra|]. apply affine_der.
  - apply (derivable_pt_lim_ext (fun s => / 2 + 1 / 2 * s)); [intros; rewrite Lb1 by lia; lra|]. apply affine_der.
Qed.
Lemma flat_eval oe dim nu us nr kernel time absc ref V nodes x_gather fields stride data junk :
  evalLocalOperatorSumFact oe dim nu us nr (fun fv fd p => kernel fv fd [nth 0 p 0; nth 1 p 0; 0]) time absc ref V nodes x_gather fields stride data junk = evalLocalOperatorSumFact oe dim nu us nr kernel time absc ref V nodes x_gather fields stride data junk.
Proof. reflexivity. Qed.
Definition cube : list (list R) := [[-1; -1; 0]; [1; -1; 0]; [-1; 1; 0]; [1; 1; 0]; [-1; -1; 2]; [1; -1; 2]; [-1; 1; 2]; [1; 1; 2]].
Definition zero2 : nat -> nat -> R := fun _ _ => 0.
(** The operator is multiplication by z. *)
Definition by_z : list R -> list (list R) -> list R -> R -> list (nat -> nat -> R) * (nat -> nat -> R) := fun _ _ p _ => ([fun _ _ => nth 2 p 0; zero2; zero2; zero2], zero2).
Definition ones_gather (buf : list R) : res (list R) := Ok (map (fun _ => 1) buf).
Lemma ones_ok nn buf : (nn * (1 * 1) <= length buf)%nat -> exists buf', ones_gather buf = Ok buf' /\ length buf' = length buf /\ operand_in nn 1 1 one1 buf'.
Proof.
  intros H. eexists. split; [done|]. split; [by rewrite map_length|]. intros J u r HJ Hu Hr. apply nth_lookup_Some. destruct (lookup_lt_is_Some_2 buf (J + nn * (u + 1 * r))) as [v Hv]; [nia|]. by rewrite (list_lookup_fmap (fun _ => 1)), Hv.
Qed.
Lemma pol0 : exists pol, getLobattoPolynomial 0 = Ok pol /\ forall s, poly pol s = 0 -> s ∈ ([] : list R).
Proof.
  destruct (lobatto_polynomial 0) as (l & Hl & _ & Hd). exists l. split; [done|]. intros s Hs. exfalso. pose proof (Hd s) as H. rewrite Hs in H.
  assert (H1 : derivable_pt_lim (legendre 1) s 1). { apply (derivable_pt_lim_ext (fun y => y)); [intros; unfold legendre; cbn; lra|]. apply derivable_pt_lim_id. }
  pose proof (uniqueness_limite _ _ _ _ H H1). lra.
Qed.
Lemma basis8 j : (j < 8)%nat -> Bv Hex absc1 j 0 [0; 0; 0] = / 8.
Proof.
  intros Hj. unfold Bv. cbn [Nat.eqb G nth]. change (length absc1) with 2%nat. rewrite !Lb1; [| | |].
  - destruct (_ mod 2)%nat, (_ mod 2)%nat, (_ / _)%nat; lra.
  - apply Nat.div_lt_upper_bound; lia.
  - apply Nat.mod_upper_bound; lia.
  - apply Nat.mod_upper_bound; lia.
Qed.
Lemma cube_applied (z : R) up j eq : (exists k, u_ops up = [fun _ _ => z; zero2; zero2; zero2] /\ updd Hex cube absc1 0 k 0 (map (fun _ => []) (seq 0 8)) ([0; 0; 0], 8) up) -> (j < 8)%nat -> applied 0 Rplus Rmult 1 up j eq = z / 8.
Proof.
  intros (k & Hops & Hup) Hj. replace j with (j * 1 + 0)%nat by lia. rewrite (applied_ok Hex cube absc1 1 0 k 0 _ _ up j 0 eq Hup) by (rewrite ?Hops; done || (cbn; lia)). rewrite Hops. cbn [fst]. rewrite Nat.add_1_r, rsum_S. cbn [nth]. rewrite basis8 by done.
  rewrite rsum_zero; [lra|]. intros d Hd. rewrite rsum_zero; [lra|]. intros i Hi. cbn [native_dim] in Hi. unfold zero2. destruct i as [|[|[|i]]]; try lia; cbn [nth]; lra.
Qed.
Lemma cube_det : determinant 3 (Jm Hex cube [0; 0; 0]) = 1.
Proof.
  assert (E : Jm Hex cube [0; 0; 0] = [[1; 0; 0]; [0; 1; 0]; [0; 0; 1]]). { unfold Jm, mk, Bv, G. cbn. change [-1; 1] with absc1. rewrite !Db1, !Lb1 by lia. repeat f_equal; lra. }
  rewrite E. cbn. unfold ent. cbn. lra.
Qed.
(** The code hands the kernel 0 instead of the third coordinate for hexahedra too: for an
    operator that depends on it the two paths differ. *)
Theorem sum_factorisation_refuted : exists l buf, let absc := lobattoAbsc 2 [] in let ref := getReferenceQuadrature 0 lam0 one1 in
  direct_points Hex by_z 0 absc ref cube (seq 0 8) [] 0 [] = Ok (map Some l) /\
  evalLocalOperatorSumFact None 3 1 1 1 by_z 0 absc ref cube (seq 0 8) ones_gather [] 0 [] (fun _ _ _ => 0) = Ok buf /\
  ~ times_matrix 0 Rplus Rmult 1 1 8 1 l one1 (result_at 1 1 buf).
Proof.
  destruct absc1_ok as [K1 K2]. assert (HV : length cube = nodes_per_element Hex 1) by done. assert (H3 : Forall (fun v => length v = 3%nat) cube) by (repeat constructor).
  assert (Hv : node_vals [] 0 [] (seq 0 8) = Ok (map (fun _ => []) (seq 0 8))) by done.
  destruct (direct_run Hex cube HV H3 absc1 K1 K2 1 lam0 one1 ltac:(lia) eigen1 by_z 0 [] 0 [] (seq 0 8) _ Hv) as (l & HF & El).
  set (k0 := fun fv fd p => by_z fv fd [nth 0 p 0; nth 1 p 0; 0]).
  destruct (direct_run Hex cube HV H3 absc1 K1 K2 1 lam0 one1 ltac:(lia) eigen1 k0 0 [] 0 [] (seq 0 8) _ Hv) as (l0 & HF0 & El0).
  assert (Hp : pairs 1 lam0 one1 Hex = [([0; 0; 0], 8)]). { cbn. unfold lam0, one1. repeat f_equal. lra. }
  rewrite Hp in HF, El, HF0, El0. inversion HF as [|e u es us Hu HF' E1 E2]; subst. inversion HF'; subst. inversion HF0 as [|e0 u0 es0 us0 Hu0 HF0' E10 E20]; subst. inversion HF0'; subst. cbn [zip_with fst length native_dim] in El, Hu, Hu0. rewrite cube_det in El.
  destruct (Rlt_dec 0 1) as [_|Hf]; [|lra].
  destruct (main_ok Hex ltac:(done) cube HV H3 absc1 K1 K2 1 lam0 one1 ltac:(lia) eigen1 None ltac:(done) 1 1 1 k0 0 ltac:(done) ltac:(left; done) one1 [] 0 [] (seq 0 8) ones_gather (fun _ _ _ => 0) ltac:(done)) with (nvals := map (fun _ : nat => [] : list R) (seq 0 8)) (l := [u0]) as (buf & Eb & _ & Hb); [|done|rewrite Hp; exact HF0|].
  { intros buf. destruct (decide (8 * (1 * 1) <= length buf)%nat) as [Hl|Hl]; [destruct (ones_ok 8 buf Hl) as (b & ?); by exists b|]. exists buf. intros Hl'. exfalso. apply Hl. rewrite Hl'. cbn. lia. }
  exists [u], buf. split; [exact El|]. split; [rewrite <- flat_eval; exact Eb|]. intros Ht. specialize (Ht 0%nat 0%nat ltac:(lia) ltac:(lia)). specialize (Hb 0%nat 0%nat ltac:(cbn; lia) ltac:(lia)). rewrite Hb in Ht. clear Hb Eb El.
  change (length absc1 ^ native_dim Hex * 1)%nat with 8%nat in Ht. rewrite !ltotal_seq in Ht.
  assert (A1 : forall j eq, (j < 8)%nat -> applied 0 Rplus Rmult 1 u j eq = 1 / 8).
  { intros j eq Hj. apply cube_applied; [|done]. exists by_z. split; [|exact Hu]. destruct Hu as [-> _]. unfold kd, by_z. cbn [fst]. replace (nth 2 (Xf Hex cube [0; 0; 0]) 0) with 1; [done|]. unfold Xf. cbn [nth]. unfold Xc. change (nodes_per_element Hex 1) with 8%nat.
    rewrite (rsum_ext 8 _ (fun k => nth 2 (nth k cube []) 0 * / 8)) by (intros k Hk; by rewrite basis8). cbn. lra. }
  assert (A0 : forall j eq, (j < 8)%nat -> applied 0 Rplus Rmult 1 u0 j eq = 0 / 8).
  { intros j eq Hj. apply cube_applied; [|done]. exists k0. split; [|exact Hu0]. destruct Hu0 as [-> _]. done. }
  assert (W : u_w u = 8) by (destruct Hu as (_ & _ & -> & _); cbn [fst snd native_dim]; rewrite cube_det; lra).
  rewrite (rsum_ext 8 _ (fun _ => 0)) in Ht.
  - rewrite (rsum_ext 8 (fun j => expected_mat _ _ _ _ _ [u] _ j * _) (fun _ => 1 / 8)) in Ht; [cbn in Ht; lra|]. intros j Hj. unfold expected_mat. cbn. rewrite !A1, W by lia. unfold one1. lra.
  - intros j Hj. unfold expected_mat. cbn. rewrite !A0 by lia. lra.
Qed.
Print Assumptions sum_factorisation_refuted.

(** An element with negative Jacobian: the direct path throws (None), the sum-factorised
    path returns a result. *)
Definition mirrored : list (list R) := [[1; -1; 0]; [-1; -1; 0]; [1; 1; 0]; [-1; 1; 0]].
Definition square : list (list R) := [[-1; -1; 0]; [1; -1; 0]; [-1; 1; 0]; [1; 1; 0]].
(** u + du/dx *)
Definition u_plus_dx : list R -> list (list R) -> list R -> R -> list (nat -> nat -> R) * (nat -> nat -> R) := fun _ _ _ _ => ([one1; one1; zero2], zero2).
Lemma quad_pairs : pairs 1 lam0 one1 Quad = [([0; 0], 4)].
Proof. cbn. unfold lam0, one1. repeat f_equal. lra. Qed.
Theorem jacobian_unchecked_refuted : exists buf, let absc := lobattoAbsc 2 [] in let ref := getReferenceQuadrature 0 lam0 one1 in
  direct_points Quad u_plus_dx 0 absc ref mirrored (seq 0 4) [] 0 [] = Ok [None] /\
  evalLocalOperatorSumFact None 2 1 1 1 u_plus_dx 0 absc ref mirrored (seq 0 4) ones_gather [] 0 [] (fun _ _ _ => 0) = Ok buf.
Proof.
  destruct absc1_ok as [K1 K2]. assert (HV : length mirrored = nodes_per_element Quad 1) by done. assert (H3 : Forall (fun v => length v = 3%nat) mirrored) by (repeat constructor).
  assert (Hv : node_vals [] 0 [] (seq 0 4) = Ok (map (fun _ => []) (seq 0 4))) by done.
  destruct (direct_run Quad mirrored HV H3 absc1 K1 K2 1 lam0 one1 ltac:(lia) eigen1 u_plus_dx 0 [] 0 [] (seq 0 4) _ Hv) as (l & HF & El).
  assert (Hd : determinant 2 (Jm Quad mirrored [0; 0]) = -1).
  { assert (E : Jm Quad mirrored [0; 0] = [[-1; 0]; [0; 1]]). { unfold Jm, mk, Bv, G. cbn. change [-1; 1] with absc1. rewrite !Db1, !Lb1 by lia. repeat f_equal; lra. } rewrite E. cbn. unfold ent. cbn. lra. }
  destruct (main_ok Quad ltac:(done) mirrored HV H3 absc1 K1 K2 1 lam0 one1 ltac:(lia) eigen1 None ltac:(done) 1 1 1 u_plus_dx 0 ltac:(done) ltac:(left; done) one1 [] 0 [] (seq 0 4) ones_gather (fun _ _ _ => 0) ltac:(done)) with (nvals := map (fun _ : nat => [] : list R) (seq 0 4)) (l := l) as (buf & Eb & _ & Hb); [|done|exact HF|].
  { intros buf. destruct (decide (4 * (1 * 1) <= length buf)%nat) as [Hl|Hl]; [destruct (ones_ok 4 buf Hl) as (b & ?); by exists b|]. exists buf. intros Hl'. exfalso. apply Hl. rewrite Hl'. cbn. lia. }
  exists buf. split; [|exact Eb]. rewrite quad_pairs in HF, El. inversion HF as [|e u es us Hu HF' E1 E2]; subst. inversion HF'; subst. cbn [zip_with fst native_dim] in El. rewrite Hd in El. destruct (Rlt_dec 0 (-1)) as [Hf|_]; [lra|]. exact El.
Qed.
Print Assumptions jacobian_unchecked_refuted.

(** Example: u + du/dx on a square, odd-even sweeps in blocks of 2: the hypotheses of the
    theorem hold, and the last component of the result is 2. *)
Example sum_factorisation_example : exists pol l buf, let absc := lobattoAbsc 2 [] in let ref := getReferenceQuadrature 0 lam0 one1 in
  getLobattoPolynomial 0 = Ok pol /\ (forall s, poly pol s = 0 -> s ∈ ([] : list R)) /\
  (forall fv fd p, length (u_plus_dx fv fd p 0).1 = 3%nat) /\
  (forall buf, (4 * (1 * 1) <= length buf)%nat -> exists buf', ones_gather buf = Ok buf' /\ length buf' = length buf /\ operand_in 4 1 1 one1 buf') /\
  direct_points Quad u_plus_dx 0 absc ref square (seq 0 4) [] 0 [] = Ok (map Some l) /\
  evalLocalOperatorSumFact (Some 2%nat) 2 1 1 1 u_plus_dx 0 absc ref square (seq 0 4) ones_gather [] 0 [] (fun _ _ _ => 7) = Ok buf /\
  times_matrix 0 Rplus Rmult 1 1 4 1 l one1 (result_at 1 1 buf) /\ result_at 1 1 buf 3 0 = 2.
Proof.
  destruct absc1_ok as [K1 K2]. assert (HV : length square = nodes_per_element Quad 1) by done. assert (H3 : Forall (fun v => length v = 3%nat) square) by (repeat constructor).
  assert (Hv : node_vals [] 0 [] (seq 0 4) = Ok (map (fun _ => []) (seq 0 4))) by done. destruct pol0 as (pol & Hpol & Hroots).
  destruct (direct_run Quad square HV H3 absc1 K1 K2 1 lam0 one1 ltac:(lia) eigen1 u_plus_dx 0 [] 0 [] (seq 0 4) _ Hv) as (l & HF & El).
  assert (EJ : Jm Quad square [0; 0] = [[1; 0]; [0; 1]]). { unfold Jm, mk, Bv, G. cbn. change [-1; 1] with absc1. rewrite !Db1, !Lb1 by lia. repeat f_equal; lra. }
  assert (Hd : determinant 2 (Jm Quad square [0; 0]) = 1) by (rewrite EJ; cbn; unfold ent; cbn; lra).
  rewrite quad_pairs in HF, El. inversion HF as [|e u es us Hu HF' E1 E2]; subst. inversion HF'; subst. cbn [zip_with fst native_dim] in El. rewrite Hd in El. destruct (Rlt_dec 0 1) as [_|Hf]; [|lra].
  destruct (sum_factorisation_partial Quad 0 lam0 one1 2 [] pol square (Some 2%nat) 1 1 1 u_plus_dx 0 one1 [] 0 [] (seq 0 4) ones_gather (fun _ _ _ => 7) [u] ltac:(done) eigen1 ltac:(lia) Hpol eq_refl) as (buf & Eb & _ & Hb).
  { intros i j a b Ha. rewrite lookup_nil in Ha. discriminate. } { exact Hroots. } { exact HV. } { exact H3. } { intros bs Hbs. injection Hbs as <-. lia. } { intros. reflexivity. } { left. intros. reflexivity. } { reflexivity. } { intros buf. apply (ones_ok 4). } { exact El. }
  exists pol, [u], buf. split; [done|]. split; [done|]. split; [done|]. split; [intros b; apply (ones_ok 4)|]. split; [exact El|]. split; [exact Eb|]. split; [exact Hb|].
  rewrite (Hb 3%nat 0%nat ltac:(cbn; lia) ltac:(lia)). rewrite ltotal_seq. change (2 ^ native_dim Quad * 1)%nat with 4%nat.
  assert (A : forall j eq, (j < 4)%nat -> applied 0 Rplus Rmult 1 u j eq = Bv Quad absc1 j 0 [0; 0] + Bv Quad absc1 j 1 [0; 0]).
  { intros j eq Hj. replace j with (j * 1 + 0)%nat at 1 by lia. assert (Hops : u_ops u = [one1; one1; zero2]) by (by destruct Hu as [-> _]). pose proof (applied_ok Quad square absc1 1 0 u_plus_dx 0 _ _ u j 0 eq Hu) as Ha. rewrite Hops in Ha. rewrite Ha; clear Ha; [|cbn; lia..]. cbn [fst native_dim].
    assert (I0 : forall i k, ent (inverse 2 (Jm Quad square [0; 0])) i k = ent (mk 2 2 (fun i k => if (i =? k)%nat then 1 else 0)) i k). { intros i k. rewrite EJ. f_equal. unfold inverse, mk. cbn. unfold ent. cbn. repeat f_equal; field. }
    rewrite !Nat.add_1_r. cbn [rsum nth]. rewrite !I0. rewrite !ent_mk by lia. cbn [Nat.eqb]. unfold one1, zero2. ring. }
  assert (W : u_w u = 4) by (destruct Hu as (_ & _ & -> & _); cbn [fst snd native_dim]; rewrite Hd; lra).
  rewrite (rsum_ext 4 _ (fun j => 2 * (Bv Quad absc1 j 0 [0; 0] + Bv Quad absc1 j 1 [0; 0]))).
  - cbn [rsum]. unfold Bv, G. cbn. change [-1; 1] with absc1. rewrite !Db1, !Lb1 by lia. lra.
  - intros j Hj. unfold expected_mat. cbn [LocalSys_spec.total seq]. rewrite !A, W by lia. replace (Bv Quad absc1 3 0 [0; 0] + Bv Quad absc1 3 1 [0; 0]) with (/ 2); [unfold one1; lra|]. unfold Bv, G. cbn. change [-1; 1] with absc1. rewrite !Db1, !Lb1 by lia. lra.
Qed.
