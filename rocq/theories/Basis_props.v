(** Properties C67 and C70: nodal basis functions and their nodes, in exact
    arithmetic. *)
From Coq Require Import Reals Lra.
From Verif Require Import Base Elem_model Elem_spec Elem_proofs Poly_model Poly_spec Poly_proofs Poly2_proofs Poly3_proofs Poly_props
  Basis_model Basis_spec Basis_proofs Basis2_proofs Leg_proofs.
Local Open Scope R_scope.

(** C67.  Every basis function is 1 at its own node and 0 at the others, for every
    element type, order and choice of distinct abscissae. *)
Theorem basis_at_nodes (t : etype) (absc : list R) (I J : nat) (p : list R) :
  (1 < length absc)%nat -> NoDup absc -> (I < n_basis_fun t absc)%nat -> node_locations t absc !! J = Some p ->
  refBasisFun t absc I 0 p = Ok (if decide (I = J) then 1 else 0).
Proof.
  intros Hn Hnd HI HJ. destruct (node_at absc Hn t J p HJ) as [_ Hp]. rewrite fun_ok; [|done|done|done|lia|].
  - f_equal. by apply at_nodes.
  - rewrite Hp, take_length. destruct t; done.
Qed.
Print Assumptions basis_at_nodes.
(** C67.  Hence valueAt takes the nodal values at the nodes; and between the nodes
    it reproduces every polynomial of at most the element's order in each variable. *)
Theorem value_at_nodes (t : etype) (absc vals : list R) (J : nat) (p : list R) :
  (1 < length absc)%nat -> NoDup absc -> length vals = n_basis_fun t absc -> node_locations t absc !! J = Some p ->
  valueAt t absc vals p = Ok (nth J vals 0).
Proof.
  intros Hn Hnd Hv HJ. destruct (node_at absc Hn t J p HJ) as [HJn Hp]. assert (Hl : length p = native_dim t) by (rewrite Hp, take_length; destruct t; done).
  rewrite valueAt_ok by done. f_equal. rewrite (rsum_one _ _ J HJn).
  - rewrite (at_nodes absc Hn Hnd t J J p HJn HJ), decide_True by done. lra.
  - intros k Hk Hne. rewrite (at_nodes absc Hn Hnd t k J p Hk HJ), decide_False by done. lra.
Qed.
Print Assumptions value_at_nodes.
Theorem basis_reproduces_polynomials (t : etype) (absc : list R) (f : list R -> R) (p : list R) :
  (1 < length absc)%nat -> NoDup absc -> is_poly t (length absc) f -> length p = native_dim t ->
  valueAt t absc (map f (node_locations t absc)) p = Ok (f p).
Proof. intros. by apply value_poly. Qed.
Print Assumptions basis_reproduces_polynomials.
(** C67.  The derivative functions are the partial derivatives of the basis functions. *)
Theorem basis_derivatives (t : etype) (absc : list R) (I : nat) :
  (1 < length absc)%nat -> NoDup absc -> (I < n_basis_fun t absc)%nat ->
  exists b : list R -> R, (forall p, length p = native_dim t -> refBasisFun t absc I 0 p = Ok (b p)) /\
    forall k p, (k < native_dim t)%nat -> length p = native_dim t ->
      exists d, refBasisFun t absc I (derivativeByIndex k) p = Ok d /\ partial b k p d.
Proof.
  intros Hn Hnd HI. exists (Bv t absc I 0). split; [intros p Hp; by rewrite fun_ok by (done || lia)|]. intros k p Hk Hp. exists (Bv t absc I (S k) p). unfold derivativeByIndex. rewrite Nat.add_1_r.
  split; [by rewrite fun_ok by (done || lia)|by apply Bv_der].
Qed.
Print Assumptions basis_derivatives.
(** C67.  The tables hold the values at all points; the values of all basis functions
    at a point sum to 1, their derivatives to 0, and the derivatives of a polynomial
    are reproduced as well. *)
Theorem basis_tables (t : etype) (absc : list R) (points : list (list R)) :
  (1 < length absc)%nat -> NoDup absc -> Forall (fun p => length p = native_dim t) points ->
  exists vals ders, evalRefBasisAtPoints t absc points = Ok (vals, ders) /\ length vals = length points /\ length ders = length points /\
    forall q p, points !! q = Some p -> exists v d, vals !! q = Some v /\ ders !! q = Some d /\
      length v = n_basis_fun t absc /\ length d = native_dim t /\ total v = 1 /\
      (forall I x, v !! I = Some x -> refBasisFun t absc I 0 p = Ok x) /\
      (forall k row, d !! k = Some row -> length row = n_basis_fun t absc /\ total row = 0 /\
         (forall I x, row !! I = Some x -> refBasisFun t absc I (derivativeByIndex k) p = Ok x) /\
         forall f, is_poly t (length absc) f -> partial f k p (total (zip_with Rmult (map f (node_locations t absc)) row))).
Proof.
  intros Hn Hnd Hp. set (N := n_basis_fun t absc). set (V := fun p => map (fun I => Bv t absc I 0 p) (seq 0 N)). set (D := fun p => map (fun k => map (fun I => Bv t absc I (S k) p) (seq 0 N)) (seq 0 (native_dim t))).
  assert (HV : map_res (computeRefBasis t absc) points = Ok (map V points)).
  { apply map_res_map. intros p Hin. unfold computeRefBasis. apply map_res_map. intros I HI. apply elem_of_seq in HI. eapply Forall_forall in Hp; [|done]. apply fun_ok; (done || lia). }
  assert (HD : map_res (computeRefBasisDers t absc) points = Ok (map D points)).
  { apply map_res_map. intros p Hin. unfold computeRefBasisDers. apply map_res_map. intros k Hk. apply map_res_map. intros I HI. apply elem_of_seq in HI, Hk. eapply Forall_forall in Hp; [|done].
    unfold derivativeByIndex. rewrite Nat.add_1_r. apply fun_ok; (done || lia). }
  exists (map V points), (map D points). unfold evalRefBasisAtPoints. rewrite HV, HD, !bind_ok, !map_length. split; [done|]. split; [done|]. split; [done|].
  intros q p Hq. assert (Hlp : length p = native_dim t) by (eapply (Forall_lookup_1 _ _ _ _ Hp Hq)). exists (V p), (D p). rewrite (list_lookup_fmap V), (list_lookup_fmap D), Hq. split; [done|]. split; [done|].
  assert (Htot : forall g, total (map g (seq 0 N)) = rsum N g). { intros g. rewrite <- fold_plus_map. clear. generalize (map g (seq 0 N)). intros l. induction l as [|a l IH]; [done|]. destruct l as [|b l]; [cbn; lra|]. change (fold_plus (a :: b :: l)) with (a + fold_plus (b :: l)). rewrite <- IH. done. }
  assert (Hone : is_poly t (length absc) (fun _ => 1)).
  { destruct t; cbn [is_poly].
    - exists [[[1]]]. split; [cbn; lia|]. split; [repeat constructor; cbn; lia|]. intros x y z. unfold poly3, poly2. cbn. lra.
    - exists [[1]]. split; [cbn; lia|]. split; [repeat constructor; cbn; lia|]. intros x y. unfold poly2. cbn. lra.
    - exists [1]. split; [cbn; lia|]. intros x. cbn. lra. }
  assert (Hones : forall I, (I < N)%nat -> nth I (map (fun _ : list R => 1) (node_locations t absc)) 0 = 1).
  { intros I HI. destruct (lookup_lt_is_Some_2 (node_locations t absc) I) as [r Hr]; [rewrite (locations_length t (length absc - 1)) by lia; done|]. apply nth_lookup_Some. by rewrite (list_lookup_fmap (fun _ => 1)), Hr. }
  split; [unfold V; by rewrite map_length, seq_length|]. split; [unfold D; by rewrite map_length, seq_length|]. split; [|split].
  - unfold V. rewrite Htot. pose proof (value_poly absc Hn Hnd t (fun _ => 1) p Hone Hlp) as Hv. rewrite valueAt_ok in Hv by (try done; rewrite map_length; apply locations_length; lia).
    injection Hv as Hv. transitivity (rsum N (fun I => nth I (map (fun _ : list R => 1) (node_locations t absc)) 0 * Bv t absc I 0 p)); [|exact Hv]. apply rsum_ext. intros k Hk. rewrite Hones by done. lra.
  - intros I x Hx. unfold V in Hx. rewrite (list_lookup_fmap (fun I => Bv t absc I 0 p)) in Hx. apply fmap_Some in Hx as (I' & HI & ->). apply lookup_seq in HI as [-> HI]. cbn. apply fun_ok; (done || lia).
  - intros k row Hrow. unfold D in Hrow. rewrite (list_lookup_fmap (fun k => map (fun I => Bv t absc I (S k) p) (seq 0 N))) in Hrow. apply fmap_Some in Hrow as (k' & Hk & ->). apply lookup_seq in Hk as [-> Hk]. cbn [Nat.add].
    split; [by rewrite map_length, seq_length|]. split; [|split].
    + rewrite Htot. destruct (grad_poly absc Hn Hnd t (fun _ => 1) k p Hone Hk Hlp) as (x0 & _ & Hd). assert (He := uniqueness_limite _ _ _ _ Hd (derivable_pt_lim_const 1 x0)). etransitivity; [|exact He].
      apply rsum_ext. intros I HI. rewrite Hones by done. lra.
    + intros I x Hx. rewrite (list_lookup_fmap (fun I => Bv t absc I (S k) p)) in Hx. apply fmap_Some in Hx as (I' & HI & ->). apply lookup_seq in HI as [-> HI]. unfold derivativeByIndex. rewrite Nat.add_1_r. cbn. apply fun_ok; (done || lia).
    + intros f Hf. pose proof (grad_poly absc Hn Hnd t f k p Hf Hk Hlp) as Hg.
      replace (total (zip_with Rmult (map f (node_locations t absc)) (map (fun I => Bv t absc I (S k) p) (seq 0 N)))) with (rsum N (fun I => nth I (map f (node_locations t absc)) 0 * Bv t absc I (S k) p)); [exact Hg|].
      rewrite <- Htot. f_equal. apply list_eq. intros I. rewrite (list_lookup_fmap (fun I => nth I (map f (node_locations t absc)) 0 * Bv t absc I (S k) p)), lookup_zip_with, (list_lookup_fmap (fun I => Bv t absc I (S k) p)).
      destruct (decide (I < N)%nat) as [HI|HI].
      * rewrite lookup_seq_lt by done. cbn. destruct (lookup_lt_is_Some_2 (map f (node_locations t absc)) I) as [r Hr]; [rewrite map_length, (locations_length t (length absc - 1)) by lia; done|]. rewrite Hr. cbn. by rewrite (nth_lookup_Some _ _ 0 _ Hr).
      * rewrite lookup_seq_ge by lia. cbn. by destruct (map f _ !! I).
Qed.
Print Assumptions basis_tables.
(** The function x y z on a hexahedron of order 1, evaluated in the middle of a side. *)
Example basis_example : NoDup [-1; 1] /\ is_poly Hex 2 (fun p => match p with [x; y; z] => 3 + x * y * z | _ => 0 end) /\
  n_basis_fun Hex [-1; 1] = 8%nat /\ node_locations Hex [-1; 1] !! 6%nat = Some [-1; 1; 1] /\
  valueAt Hex [-1; 1] [2; 4; 4; 2; 4; 2; 2; 4] [1; 1/2; 1/2] = Ok (3 + 1/4).
Proof.
  assert (Hnd : NoDup [-1; 1]). { repeat constructor; rewrite ?elem_of_cons, ?elem_of_nil; intros H; repeat destruct H as [H|H]; lra || done. }
  assert (Hp : is_poly Hex 2 (fun p => match p with [x; y; z] => 3 + x * y * z | _ => 0 end)).
  { exists [[[1; 0]; [0]]; [[3]]]. split; [cbn; lia|]. split; [repeat constructor; cbn; lia|]. intros x y z. unfold poly3, poly2. cbn. lra. }
  split; [done|]. split; [done|]. split; [done|]. split; [done|].
  pose proof (basis_reproduces_polynomials Hex [-1; 1] _ [1; 1/2; 1/2] ltac:(cbn; lia) Hnd Hp eq_refl) as Hv.
  etransitivity; [|etransitivity; [exact Hv|f_equal; cbn; lra]]. f_equal. cbn. repeat f_equal; lra.
Qed.

(** C70.  The nodes along an edge: if roots() returns as many numbers as the
    polynomial's order, sorted, with all zeros among them, then the abscissae ascend
    strictly from -1 to 1 and are exactly the ends and the zeros of the derivative of
    the Legendre polynomial (so all of these are real, simple and inside). *)
Theorem lobatto_abscissae (n : nat) (l roots : list R) : (2 <= n)%nat -> getLobattoPolynomial (n - 2) = Ok l ->
  length roots = (n - 2)%nat -> sorted_up roots -> (forall x, poly l x = 0 -> x ∈ roots) ->
  let a := lobattoAbsc n roots in
  length a = n /\ ascending a /\ nth 0 a 0 = -1 /\ nth (n - 1) a 0 = 1 /\ forall x, x ∈ a <-> x = -1 \/ x = 1 \/ poly l x = 0.
Proof.
  intros Hn Hl Hr Hs Hz. destruct (lobatto_polynomial (n - 2)) as (l' & Hl' & _ & Hd). rewrite Hl in Hl'. injection Hl' as <-.
  destruct (lobatto_zeros (n - 2) (poly l) Hd) as (z & Hi & Hzz). destruct (all_zeros (n - 2) z roots (fun x => poly l x = 0) Hi (fun i Hin => proj2 (Hzz i Hin)) Hr Hz) as (Hp & Hnd & Hiff).
  assert (Hin : forall x, x ∈ roots -> -1 < x < 1). { intros x Hx. rewrite Hp in Hx. apply (elem_of_list_fmap z) in Hx as (i & -> & Hx). apply elem_of_seq in Hx. apply Hzz. lia. }
  assert (Ha : lobattoAbsc n roots = [-1] ++ roots ++ [1]).
  { destruct n as [|[|[|[|n]]]]; try lia; [| |done].
    - destruct roots; done.
    - cbn. destruct roots as [|r [|r' roots]]; try done. cut (0 = r); [intros <-; done|]. assert (H0 : poly l 0 = 0).
      { cbn in Hl. revert Hl. cbv -[Rplus Rminus Rmult Rdiv Ropp Rinv IZR INR]. intros E. injection E as <-. cbn. lra. }
      apply Hiff in H0. apply elem_of_list_singleton in H0. done. }
  cbv zeta. rewrite Ha. cbn [app]. split; [cbn [length]; rewrite app_length, Hr; cbn; lia|]. split; [|split; [done|split]].
  - intros i j a b Hia Hjb Hij. destruct j as [|j]; [lia|]. change ((roots ++ [1]) !! j = Some b) in Hjb. assert (Hb : b ∈ roots \/ b = 1). { apply elem_of_list_lookup_2 in Hjb. apply elem_of_app in Hjb as [?|H%elem_of_list_singleton]; auto. }
    destruct i as [|i]; [injection Hia as <-; destruct Hb as [Hb%Hin|Hb]; lra|]. change ((roots ++ [1]) !! i = Some a) in Hia. assert (Hlj := lookup_lt_Some _ _ _ Hjb). rewrite app_length in Hlj. cbn in Hlj.
    rewrite lookup_app_l in Hia by lia. assert (Hain : a ∈ roots) by (by eapply elem_of_list_lookup_2). destruct (decide (j < length roots)%nat) as [Hjl|Hjl].
    + rewrite lookup_app_l in Hjb by done. pose proof (Hs i j a b Hia Hjb ltac:(lia)) as Hle. destruct Hle as [?| ->]; [done|]. pose proof (NoDup_lookup _ _ _ _ Hnd Hia Hjb). lia.
    + rewrite lookup_app_r in Hjb by lia. apply elem_of_list_lookup_2, elem_of_list_singleton in Hjb as ->. apply Hin in Hain. lra.
  - replace (n - 1)%nat with (S (length roots)) by lia. cbn [nth]. rewrite app_nth2 by lia. by rewrite Nat.sub_diag.
  - intros x. rewrite elem_of_cons, elem_of_app, elem_of_list_singleton, <- Hiff. tauto.
Qed.
Print Assumptions lobatto_abscissae.
(** Order 3: the derivative of P_3 is (15 x^2 - 3) / 2; its zeros are -1/sqrt 5 and 1/sqrt 5. *)
Example lobatto_abscissae_example : exists l, let s := / R_sqrt.sqrt 5 in getLobattoPolynomial 2 = Ok l /\ sorted_up [- s; s] /\ (forall x, poly l x = 0 -> x ∈ [- s; s]) /\
  lobattoAbsc 4 [- s; s] = [-1; - s; s; 1].
Proof.
  eexists. cbv zeta. split; [cbv -[Rplus Rminus Rmult Rdiv Ropp Rinv IZR INR]; reflexivity|]. set (s := / R_sqrt.sqrt 5).
  assert (H5 : 0 < R_sqrt.sqrt 5) by (apply sqrt_lt_R0; lra). assert (Hs : 0 < s) by (by apply Rinv_0_lt_compat).
  assert (Hss : s * s = / 5). { unfold s. rewrite <- Rinv_mult, sqrt_sqrt; lra. }
  split; [|split].
  - intros i j a b Hi Hj Hij. destruct i as [|[|i]], j as [|[|j]]; try lia; try done. injection Hi as <-. injection Hj as <-. lra.
  - intros x Hx. cbn in Hx. assert (Hx2 : (x - s) * (x + s) = 0) by nra. apply Rmult_integral in Hx2 as [E|E]; rewrite !elem_of_cons; [right; left|left]; lra.
  - done.
Qed.
