(** Symmetry of the nodes, of the points and of the one-dimensional matrices. *)
From Coq Require Import Reals Lra.
From Verif Require Import Base Elem_model Elem_spec Elem_proofs Poly_model Poly_spec Poly_proofs Poly2_proofs Poly3_proofs Poly_props Basis_model Basis_spec Basis_proofs Basis2_proofs Leg_proofs Basis_props Gauss_model Gauss_spec Gauss_proofs Gauss2_proofs Geom_model Geom_proofs LocalSys_model SumFact_model SumFact_proofs SumFact2_proofs.
Local Open Scope R_scope.

Definition sgn' (n : nat) : R := (-1) ^ n.
Lemma legendre_pair_neg n x : legendre_pair n (- x) = (sgn' n * (legendre_pair n x).1, sgn' (S n) * (legendre_pair n x).2).
Proof.
  induction n as [|n IH]; [cbn; f_equal; unfold sgn'; cbn; lra|]. cbn [legendre_pair]. rewrite IH. destruct (legendre_pair n x) as [p p1]. cbn [fst snd]. f_equal.
  unfold sgn'. cbn [Rpow_def.pow]. assert (0 < INR n + 2) by (pose proof (pos_INR n); lra). field. lra.
Qed.
Lemma legendre_neg n x : legendre n (- x) = sgn' n * legendre n x.
Proof. unfold legendre. by rewrite legendre_pair_neg. Qed.
Lemma sgn_square n : sgn' n * sgn' n = 1.
Proof. unfold sgn'. rewrite <- Rpow_mult_distr. replace (-1 * -1) with 1 by lra. apply pow1. Qed.
Lemma der_neg (f : R -> R) x d : derivable_pt_lim f (- x) d -> derivable_pt_lim (fun y => f (- y)) x (- d).
Proof.
  intros H. replace (- d) with (d * (-1)) by lra. apply (derivable_pt_lim_comp (fun y => - y) f x (-1) d); [|done].
  pose proof (derivable_pt_lim_scal (fun y => y) (-1) x 1 (derivable_pt_lim_id x)) as H1. replace (-1 * 1) with (-1) in H1 by lra. eapply derivable_pt_lim_ext; [|exact H1]. intros y. unfold mult_real_fct. lra.
Qed.
Lemma lobatto_neg N (g : R -> R) x : (forall x, derivable_pt_lim (legendre (S N)) x (g x)) -> g (- x) = - sgn' (S N) * g x.
Proof.
  intros Hg. pose proof (der_neg _ x _ (Hg (- x))) as H1. pose proof (derivable_pt_lim_scal _ (sgn' (S N)) x _ (Hg x)) as H2.
  assert (H3 : derivable_pt_lim (mult_real_fct (sgn' (S N)) (legendre (S N))) x (- g (- x))).
  { apply (derivable_pt_lim_ext (fun y => legendre (S N) (- y))); [|done]. intros y. unfold mult_real_fct. apply legendre_neg. }
  pose proof (uniqueness_limite _ _ _ _ H2 H3). lra.
Qed.

(** ** Ascending enumerations of a set that is symmetric about 0 *)
Lemma strict_self (n : nat) (j : nat -> nat) : (forall i k, (i < k < n)%nat -> (j i < j k)%nat) -> (forall i, (i < n)%nat -> (j i < n)%nat) -> forall i, (i < n)%nat -> j i = i.
Proof.
  intros Hm Hb. assert (Hge : forall i, (i < n)%nat -> (i <= j i)%nat). { induction i as [|i IH]; intros Hi; [lia|]. pose proof (Hm i (S i) ltac:(lia)). pose proof (IH ltac:(lia)). lia. }
  assert (Hle : forall d i, (i + d = n - 1)%nat -> (i < n)%nat -> (j i <= i)%nat). { induction d as [|d IH]; intros i Hd Hi; [pose proof (Hb i Hi); lia|]. pose proof (IH (S i) ltac:(lia) ltac:(lia)). pose proof (Hm i (S i) ltac:(lia)). lia. }
  intros i Hi. pose proof (Hge i Hi). pose proof (Hle (n - 1 - i)%nat i ltac:(lia) Hi). lia.
Qed.
Lemma mirrored_set (n : nat) (a : nat -> R) : (forall i j, (i < j < n)%nat -> a i < a j) -> (forall i, (i < n)%nat -> exists j, (j < n)%nat /\ a j = - a i) -> forall i, (i < n)%nat -> a (n - 1 - i)%nat = - a i.
Proof.
  intros Hi Hs.
  assert (Hc : exists f : nat -> nat, forall i, (i < n)%nat -> (f i < n)%nat /\ a (f i) = - a i).
  { clear Hi. assert (H : forall m, (m <= n)%nat -> exists f : nat -> nat, forall i, (i < m)%nat -> (f i < n)%nat /\ a (f i) = - a i); [|by apply (H n)].
    induction m as [|m IH]; intros Hm; [exists (fun _ => 0%nat); intros; lia|]. destruct IH as [f Hf]; [lia|]. destruct (Hs m Hm) as (j & Hj & E).
    exists (fun i => if decide (i = m) then j else f i). intros i Hin. case_decide; [by subst|]. apply Hf. lia. }
  destruct Hc as [f Hf].
  assert (Hm : forall x y, (x < y < n)%nat -> (f (n - 1 - x) < f (n - 1 - y))%nat).
  { intros x y Hxy. destruct (Hf (n - 1 - x)%nat ltac:(lia)) as [F1 F2]. destruct (Hf (n - 1 - y)%nat ltac:(lia)) as [G1 G2]. pose proof (Hi (n - 1 - y)%nat (n - 1 - x)%nat ltac:(lia)).
    destruct (Nat.lt_trichotomy (f (n - 1 - x)%nat) (f (n - 1 - y)%nat)) as [Hlt|[Hlt|Hlt]]; [done|rewrite Hlt in F2; lra|]. pose proof (Hi (f (n - 1 - y)%nat) (f (n - 1 - x)%nat) (conj Hlt F1)). lra. }
  intros i Hin. pose proof (strict_self n (fun x => f (n - 1 - x)%nat) Hm ltac:(intros x Hx; apply Hf; lia) (n - 1 - i)%nat ltac:(lia)) as E. cbv beta in E. replace (n - 1 - (n - 1 - i))%nat with i in E by lia.
  rewrite <- E. by apply Hf.
Qed.
Lemma gauss_mirrored n lam V : (1 <= n)%nat -> eigen_of n (gauss_matrix ref_a ref_b ref_c) lam V -> forall i, (i < n)%nat -> lam (n - 1 - i)%nat = - lam i.
Proof.
  intros Hn He. destruct (lam_ok n lam V Hn He) as (Hi & _ & Hr). apply mirrored_set; [intros i j H; by apply (incr_lt n)|].
  intros i Hin. destruct (proj1 (Hr (- lam i))) as (j & Hj & E); [|by exists j]. rewrite legendre_neg. rewrite (proj2 (Hr (lam i))) by (by exists i). lra.
Qed.
(** The abscissae of C70. *)
Definition lobatto_of (n : nat) (roots : list R) : Prop :=
  (2 <= n)%nat /\ length roots = (n - 2)%nat /\ sorted_up roots /\ exists l, getLobattoPolynomial (n - 2) = Ok l /\ forall x, poly l x = 0 -> x ∈ roots.
Lemma lobatto_mirrored n roots : lobatto_of n roots -> let a := lobattoAbsc n roots in length a = n /\ NoDup a /\ forall i, (i < n)%nat -> nth (n - 1 - i) a 0 = - nth i a 0.
Proof.
  intros (Hn & Hr & Hs & l & Hl & Hz). destruct (lobatto_abscissae n l roots Hn Hl Hr Hs Hz) as (H1 & H2 & _ & _ & H5). cbv zeta in *. set (a := lobattoAbsc n roots) in *.
  split; [done|]. split; [by apply ascending_nodup|]. apply (mirrored_set n (at' a)).
  - intros i j Hij. destruct (lookup_lt_is_Some_2 a i) as [x Hx]; [lia|]. destruct (lookup_lt_is_Some_2 a j) as [y Hy]; [lia|]. cbv beta. rewrite (nth_lookup_Some _ _ 0 _ Hx), (nth_lookup_Some _ _ 0 _ Hy). apply (H2 i j); (done || lia).
  - intros i Hi. cbv beta. destruct (lookup_lt_is_Some_2 a i) as [x Hx]; [lia|]. rewrite (nth_lookup_Some _ _ 0 _ Hx). assert (Hin : - x ∈ a).
    { apply H5. apply elem_of_list_lookup_2 in Hx. apply H5 in Hx. destruct Hx as [-> |[-> |Hx]]; [right; left; lra|left; lra|]. right. right.
      destruct (lobatto_polynomial (n - 2)) as (l' & Hl' & _ & Hd). rewrite Hl in Hl'. injection Hl' as <-. rewrite (lobatto_neg (n - 2) (poly l) x Hd), Hx. lra. }
    apply elem_of_list_lookup in Hin. destruct Hin as (j & Hj). exists j. split; [apply lookup_lt_Some in Hj; lia|]. by apply nth_lookup_Some.
Qed.

(** ** Basis functions *)
Lemma poly_neg p : exists p', length p' = length p /\ forall x, poly p' x = poly p (- x).
Proof.
  induction p as [|c p (p' & Hl & Hp)]; [exists []; done|]. exists (c * (-1) ^ length p :: p'). split; [cbn; by rewrite Hl|]. intros x. cbn [poly]. rewrite Hp, Hl. f_equal.
  replace (- x) with (-1 * x) by lra. rewrite Rpow_mult_distr. ring.
Qed.
Section basis.
  Context (absc : list R) (Hn : (1 < length absc)%nat) (Hnd : NoDup absc).
  Notation n := (length absc).
  Context (Hm : forall i, (i < n)%nat -> nth (n - 1 - i) absc 0 = - nth i absc 0).
  Lemma Lb_neg i x : (i < n)%nat -> Lb absc (n - 1 - i) (- x) = Lb absc i x.
  Proof using Hn Hnd Hm.
    intros Hi. destruct (coefs_ok absc Hn Hnd (n - 1 - i)%nat ltac:(lia)) as (_ & Hl & Hnode). destruct (poly_neg (coefs absc (n - 1 - i))) as (p & Hp & Hx).
    unfold Lb at 1. rewrite <- Hx. rewrite <- (reproduce absc Hn Hnd p x ltac:(lia)). rewrite (rsum_one n _ i Hi).
    - rewrite Hx. rewrite <- Hm by done. change (Lb absc (n - 1 - i) (nth (n - 1 - i) absc 0) * Lb absc i x = Lb absc i x). rewrite Hnode, decide_True by (done || lia). lra.
    - intros k Hk Hne. rewrite Hx, <- Hm by done. change (Lb absc (n - 1 - i) (nth (n - 1 - k) absc 0) * Lb absc k x = 0). rewrite Hnode, decide_False by lia. lra.
  Qed.
  Lemma Db_neg i x : (i < n)%nat -> Db absc (n - 1 - i) (- x) = - Db absc i x.
  Proof using Hn Hnd Hm.
    intros Hi. pose proof (der_neg _ x _ (Lb_der absc Hn Hnd (n - 1 - i)%nat (- x) ltac:(lia))) as H1.
    assert (H2 : derivable_pt_lim (Lb absc i) x (- Db absc (n - 1 - i) (- x))). { eapply derivable_pt_lim_ext; [|exact H1]. intros y. by apply Lb_neg. }
    pose proof (uniqueness_limite _ _ _ _ H2 (Lb_der absc Hn Hnd i x Hi)). lra.
  Qed.
End basis.
Section matrices.
  Context (absc : list R) (Hn : (1 < length absc)%nat) (Hnd : NoDup absc).
  Notation n := (length absc).
  Lemma matrices_ok nq lam : exists Im Dm, interpolationMatrix absc (map (fun v => [v]) (map lam (seq 0 nq))) = Ok Im /\ derivativeMatrix absc (map (fun v => [v]) (map lam (seq 0 nq))) = Ok Dm /\
    forall b q, (b < n)%nat -> (q < nq)%nat -> Im b q = Lb absc b (lam q) /\ Dm b q = Db absc b (lam q).
  Proof using Hn Hnd.
    set (points := map (fun v => [v]) (map lam (seq 0 nq))). set (V := fun p => map (fun I => Bv Line absc I 0 p) (seq 0 (n_basis_fun Line absc))). set (D := fun p => map (fun k => map (fun I => Bv Line absc I (S k) p) (seq 0 (n_basis_fun Line absc))) (seq 0 1)).
    assert (Hp : forall p, p ∈ points -> length p = 1%nat). { intros p Hp. unfold points in Hp. apply (elem_of_list_fmap (fun v => [v])) in Hp as (v & -> & _). done. }
    assert (HV : map_res (computeRefBasis Line absc) points = Ok (map V points)).
    { apply map_res_map. intros p Hin. unfold computeRefBasis. apply map_res_map. intros I HI. apply elem_of_seq in HI. apply fun_ok; [done|done|lia|cbn [native_dim]; lia|by apply Hp]. }
    assert (HD : map_res (computeRefBasisDers Line absc) points = Ok (map D points)).
    { apply map_res_map. intros p Hin. unfold computeRefBasisDers. apply map_res_map. intros k Hk. apply map_res_map. intros I HI. apply elem_of_seq in HI, Hk. cbn [native_dim] in Hk.
      unfold derivativeByIndex. rewrite Nat.add_1_r. apply fun_ok; [done|done|lia|cbn [native_dim]; lia|by apply Hp]. }
    unfold interpolationMatrix, derivativeMatrix, evalRefBasisAtPoints. rewrite HV, HD, !bind_ok. cbn [fst snd]. eexists _, _. split; [done|]. split; [done|]. intros b q Hb Hq. cbv beta.
    assert (Hlen : length points = nq) by (unfold points; by rewrite !map_length, seq_length).
    assert (Hnth : nth q points [] = [lam q]).
    { apply nth_lookup_Some. unfold points. rewrite (list_lookup_fmap (fun v => [v])), (list_lookup_fmap lam), lookup_seq_lt by done. done. }
    assert (Hc : n_basis_fun Line absc = n) by apply (count absc Hn Line).
    unfold ent. rewrite (nth_indep (map V points) [] (V [])), (nth_indep (map D points) [] (D [])) by (rewrite map_length; lia). rewrite (map_nth V), (map_nth D), Hnth. unfold V, D. cbn [seq map nth].
    rewrite (nth_indep _ 0 (Bv Line absc 0 0 [lam q])) by (rewrite map_length, seq_length; lia). rewrite (map_nth (fun I => Bv Line absc I 0 [lam q])), seq_nth by lia.
    rewrite (nth_indep _ 0 (Bv Line absc 0 1 [lam q])) by (rewrite map_length, seq_length; lia). rewrite (map_nth (fun I => Bv Line absc I 1 [lam q])), seq_nth by lia. done.
  Qed.
  Context (Hm : forall i, (i < n)%nat -> nth (n - 1 - i) absc 0 = - nth i absc 0).
  Lemma mirror_matrices nq lam Im Dm : (forall i, (i < nq)%nat -> lam (nq - 1 - i)%nat = - lam i) -> (forall b q, (b < n)%nat -> (q < nq)%nat -> Im b q = Lb absc b (lam q) /\ Dm b q = Db absc b (lam q)) ->
    mirror false n nq Im /\ mirror true n nq Dm.
  Proof using Hn Hnd Hm.
    intros Hl H. split; intros k q Hk Hq; destruct (H (n - 1 - k) (nq - 1 - q) ltac:(lia) ltac:(lia))%nat as [E1 E2]; destruct (H k q Hk Hq) as [F1 F2].
    - rewrite E1, F1, Hl by done. rewrite Lb_neg by done. lra.
    - rewrite E2, F2, Hl by done. rewrite Db_neg by done. lra.
  Qed.
End matrices.
