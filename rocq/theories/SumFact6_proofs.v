(** The direct evaluation at the quadrature points and the comparison. *)
From Coq Require Import Reals Lra.
From Verif Require Import Base Elem_model Elem_spec Elem_proofs Poly_model Poly_spec Poly_proofs Poly2_proofs Basis_model Basis_spec Basis_proofs Basis2_proofs Gauss_model Gauss_spec Gauss_proofs Gauss2_proofs Geom_model Geom_proofs LocalSys_model LocalSys_spec SumFact_model SumFact_spec SumFact_proofs SumFact2_proofs SumFact3_proofs SumFact4_proofs SumFact5_proofs.
Local Open Scope R_scope.

Notation ltotal := (LocalSys_spec.total 0 Rplus).
Lemma ltotal_app {A} (l1 l2 : list A) f : ltotal (l1 ++ l2) f = ltotal l1 f + ltotal l2 f.
Proof. induction l1 as [|a l1 IH]; cbn; [lra|]. rewrite IH. lra. Qed.
Lemma ltotal_seq n f : ltotal (seq 0 n) f = rsum n f.
Proof. induction n as [|n IH]; [done|]. rewrite seq_S, ltotal_app, IH. cbn. lra. Qed.
Lemma ltotal_map {A B} (g : A -> B) l f : ltotal (map g l) f = ltotal l (fun a => f (g a)).
Proof. induction l as [|a l IH]; cbn; [done|]. by rewrite IH. Qed.
Lemma ltotal_total {A} (l : list A) f : ltotal l f = Basis_spec.total (map f l).
Proof. induction l as [|a l IH]; [done|]. cbn [LocalSys_spec.total]. rewrite IH. done. Qed.
Lemma ltotal_ext {A} (l : list A) f g : (forall a, a ∈ l -> f a = g a) -> ltotal l f = ltotal l g.
Proof. induction l as [|a l IH]; intros H; [done|]. cbn. rewrite (H a) by left. f_equal. apply IH. intros b Hb. apply H. by right. Qed.

Section direct.
  Context (t : etype) (V : list (list R)) (HV : length V = nodes_per_element t 1) (H3 : Forall (fun v => length v = 3%nat) V).
  Context (absc : list R) (Hn : (1 < length absc)%nat) (Hnd : NoDup absc).
  Context (nu us nf : nat) (kernel : list R -> list (list R) -> list R -> R -> list mat * mat) (time : R) (nvals : list (list R)).
  Notation dim := (native_dim t). Notation nb := (length absc). Notation nn := (vol t nb).
  Lemma nn_eq : n_basis_fun t absc = nn.
  Proof using Hn. clear -Hn. rewrite vol_eq. exact (count absc Hn t). Qed.
  Definition phys (p : list R) (d I : nat) : R := rsum dim (fun k => ent (inverse dim (Jm t V p)) d k * Bv t absc I (S k) p).
  Definition fvd (p : list R) : list R := map (fun i => rsum nn (fun J => ent nvals J i * Bv t absc J 0 p)) (seq 0 nf).
  Definition fdd (p : list R) : list (list R) := mk dim nf (fun d i => rsum nn (fun J => phys p d J * ent nvals J i)).
  Definition kd (p : list R) : list mat * mat := kernel (fvd p) (fdd p) (Xf t V p) time.
  (** What the direct evaluation contributes at a point of weight a. *)
  Definition updd (e : list R * R) (u : lupdate (F := R)) : Prop :=
    u_ops u = (kd e.1).1 /\ u_rhs u = (kd e.1).2 /\ u_w u = determinant dim (Jm t V e.1) * e.2 /\ forall J, (J < nn)%nat -> u_vals u J = Bv t absc J 0 e.1 /\ forall d, (d < dim)%nat -> u_ders u d J = phys e.1 d J.
  Lemma process_ok e : length e.1 = dim -> exists u, processQP t nf kernel time V nvals absc e = Ok (if Rlt_dec 0 (determinant dim (Jm t V e.1)) then Some u else None) /\ updd e u.
  Proof using HV H3 Hn Hnd.
    intros Hp. unfold processQP. rewrite nn_eq. assert (Ev : computeRefBasis t absc e.1 = Ok (map (fun I => Bv t absc I 0 e.1) (seq 0 nn))).
    { unfold computeRefBasis. rewrite nn_eq. apply map_res_map. intros I HI. apply elem_of_seq in HI. apply fun_ok; [done|done|rewrite nn_eq; lia|lia|done]. }
    rewrite Ev, bind_ok. rewrite (ders_ok t absc Hn Hnd e.1 Hp), bind_ok, nn_eq. rewrite (jac_ok t V HV H3 e.1 Hp), bind_ok. cbv zeta. rewrite (map_ok t V HV H3 e.1 Hp), bind_ok.
    set (P := computePhysBasisDers dim nn (Jm t V e.1) (mk dim nn (fun d I => Bv t absc I (S d) e.1))).
    assert (HP : forall d J, (d < dim)%nat -> (J < nn)%nat -> ent P d J = phys e.1 d J). { intros d J Hd HJ. unfold P, computePhysBasisDers. rewrite mmul_ent by done. unfold phys. apply rsum_ext. intros k Hk. by rewrite ent_mk. }
    assert (Hv : forall J, (J < nn)%nat -> nth J (map (fun I => Bv t absc I 0 e.1) (seq 0 nn)) 0 = Bv t absc J 0 e.1). { intros J HJ. apply nth_lookup_Some. by rewrite (list_lookup_fmap (fun I => Bv t absc I 0 e.1)), lookup_seq_lt by done. }
    replace (map (fun f => dot nn (fun b => ent nvals b f) (fun b => nth b (map (fun I => Bv t absc I 0 e.1) (seq 0 nn)) 0)) (seq 0 nf)) with (fvd e.1).
    2:{ unfold fvd. apply map_ext. intros i. rewrite dot_rsum. apply rsum_ext. intros J HJ. by rewrite Hv. }
    replace (mmul dim nn nf P nvals) with (fdd e.1).
    2:{ unfold fdd, mmul. apply mk_ext. intros d i Hd Hi. rewrite dot_rsum. apply rsum_ext. intros J HJ. by rewrite HP. }
    fold (kd e.1). destruct (kd e.1) as [ops rhs] eqn:Ek. eexists. split; [reflexivity|]. unfold updd. cbn [u_ops u_rhs u_w u_vals u_ders]. rewrite Ek.
    split; [done|]. split; [done|]. split; [done|]. intros J HJ. split; [by apply Hv|]. intros d Hdd. by apply HP.
  Qed.
  (** Row [I], component [u] of the transposed operator. *)
  Lemma applied_ok e up I u eq : updd e up -> length (u_ops up) = (dim + 1)%nat -> (I < nn)%nat -> (u < nu)%nat ->
    applied 0 Rplus Rmult nu up (I * nu + u) eq = rsum (dim + 1) (fun k => match k with O => nth 0 (u_ops up) (fun _ _ => 0) eq u | S k => rsum dim (fun i => nth (S i) (u_ops up) (fun _ _ => 0) eq u * ent (inverse dim (Jm t V e.1)) i k) end * Bv t absc I k e.1).
  Proof using.
    clear HV H3 Hn Hnd. intros (_ & _ & _ & H) Hl HI Hu. unfold applied. rewrite Hl, ltotal_seq. assert (E : ((I * nu + u) / nu = I /\ (I * nu + u) mod nu = u)%nat).
    { rewrite Nat.add_comm. split; [rewrite Nat.div_add, Nat.div_small; lia|rewrite Nat.mod_add, Nat.mod_small; lia]. }
    destruct E as [-> ->]. destruct (H I HI) as [H0 Hd]. rewrite Nat.add_1_r in *. rewrite !rsum_S. f_equal.
    - destruct (lookup_lt_is_Some_2 (u_ops up) 0) as [A HA]; [lia|]. rewrite HA, (nth_lookup_Some _ _ (fun _ _ => 0) _ HA), H0. ring.
    - rewrite (rsum_ext dim _ (fun d => rsum dim (fun k => nth (S d) (u_ops up) (fun _ _ => 0) eq u * ent (inverse dim (Jm t V e.1)) d k * Bv t absc I (S k) e.1))).
      + rewrite rsum_swap2. apply rsum_ext. intros k Hk. rewrite Rmult_comm, <- rsum_scal. apply rsum_ext. intros; ring.
      + intros d Hdd. destruct (lookup_lt_is_Some_2 (u_ops up) (S d)) as [A HA]; [lia|]. rewrite HA, (nth_lookup_Some _ _ (fun _ _ => 0) _ HA), (Hd d Hdd). unfold phys. rewrite Rmult_comm, <- rsum_scal. apply rsum_ext. intros; ring.
  Qed.
End direct.

Section main.
  Context (t : etype) (Ht : t <> Line) (V : list (list R)) (HV : length V = nodes_per_element t 1) (H3 : Forall (fun v => length v = 3%nat) V).
  Context (absc : list R) (Hn : (1 < length absc)%nat) (Hnd : NoDup absc) (Hm : forall i, (i < length absc)%nat -> nth (length absc - 1 - i) absc 0 = - nth i absc 0).
  Context (n : nat) (lam : nat -> R) (E : nat -> nat -> R) (Hq : (1 <= n)%nat) (He : eigen_of n (gauss_matrix ref_a ref_b ref_c) lam E).
  Context (nu us nr nf : nat) (kernel : list R -> list (list R) -> list R -> R -> list mat * mat) (time : R) (nvals : list (list R)).
  Context (Hker : forall fv fd p, length (kernel fv fd p time).1 = (native_dim t + 1)%nat).
  Context (Hz : (forall fv fd x y z, (kernel fv fd [x; y; z] time).1 = (kernel fv fd [x; y; 0] time).1) \/ Forall (fun v => nth 2 v 0 = 0) V).
  Context (x : nat -> nat -> R).
  Notation dim := (native_dim t). Notation nb := (length absc). Notation nn := (vol t nb). Notation nops := (nu * nr)%nat. Notation F := (nops + nf)%nat.
  Notation w := (fun i => 2 * E O i * E O i).
  (** Field number f at node J: first the components of the operand, then the fields. *)
  Definition X (f J : nat) : R := if decide (f < nops)%nat then x (J * nu + f mod nu)%nat (f / nu)%nat else ent nvals J (f - nops).
  Definition Sv (k f : nat) (q : list nat) : R := rsum nn (fun J => X f J * Bv t absc J k (map lam q)).
  Definition Gv (k d : nat) (q : list nat) : R := rsum (vol t 2) (fun J => nth d (nth J V []) 0 * Bv t absc1 J k (map lam q)).
  Lemma Gv_X d q : Gv 0 d q = Xc t V d (map lam q).
  Proof using. clear. unfold Gv, Xc. by destruct t. Qed.
  Lemma Gv_J k i q : (k < dim)%nat -> (i < dim)%nat -> Gv (S k) i q = ent (Jm t V (map lam q)) k i.
  Proof using. clear. intros Hk Hi. unfold Gv, Jm. rewrite ent_mk by done. by destruct t. Qed.
  Lemma Jq_eq q : Jq t Gv q = mk dim dim (fun i k => ent (Jm t V (map lam q)) k i).
  Proof using. clear. unfold Jq. apply mk_ext. intros i k Hi Hk. by apply Gv_J. Qed.
  Lemma inv_eq q i k : (i < dim)%nat -> (k < dim)%nat -> ent (inverse dim (Jq t Gv q)) k i = ent (inverse dim (Jm t V (map lam q))) i k.
  Proof using. clear. intros Hi Hk. rewrite Jq_eq. apply inv_transposed; [apply dim_13|done|done]. Qed.
  Lemma fv_eq q : fvq nu nr nf Sv q = fvd t absc nf nvals (map lam q).
  Proof using.
    clear. unfold fvq, fvd. apply map_ext. intros i. unfold Sv. apply rsum_ext. intros J HJ. f_equal. unfold X. rewrite decide_False by lia. f_equal. lia.
  Qed.
  Lemma fd_eq q : fdq t nu nr nf Sv Gv q = fdd t V absc nf nvals (map lam q).
  Proof using.
    clear. unfold fdq, fdd. apply mk_ext. intros d i Hd Hi. rewrite (rsum_ext dim _ (fun k => rsum nn (fun J => ent (inverse dim (Jm t V (map lam q))) d k * Bv t absc J (S k) (map lam q) * ent nvals J i))).
    - rewrite rsum_swap2. apply rsum_ext. intros J HJ. unfold phys. rewrite Rmult_comm, <- rsum_scal. apply rsum_ext. intros; ring.
    - intros k Hk. rewrite inv_eq by done. unfold Sv. rewrite <- rsum_scal. apply rsum_ext. intros J HJ. unfold X. rewrite decide_False by lia. replace (nops + i - nops)%nat with i by lia. ring.
  Qed.
  Lemma ops_eq q : opsq t nu nr nf kernel time Sv Gv q = (kd t V absc nf kernel time nvals (map lam q)).1.
  Proof using Hz HV.
    clear -Hz HV. unfold opsq, kd. rewrite fv_eq, fd_eq, !Gv_X. unfold Xf. destruct Hz as [H|H]; [by rewrite <- (H _ _ _ _ (Xc t V 2 (map lam q)))|].
    replace (Xc t V 2 (map lam q)) with 0; [done|]. symmetry. unfold Xc. apply rsum_zero. intros k Hk. destruct (lookup_lt_is_Some_2 V k) as [v Hv]; [lia|]. rewrite (nth_lookup_Some _ _ [] _ Hv).
    pose proof (Forall_lookup_1 _ _ _ _ H Hv) as Hv0. cbv beta in Hv0. rewrite Hv0. lra.
  Qed.
  Lemma ops_len q : length (opsq t nu nr nf kernel time Sv Gv q) = (dim + 1)%nat.
  Proof using Hker. clear -Hker. unfold opsq. apply Hker. Qed.
  Notation Op := (Opq t nu nr nf kernel time Sv Gv).
  (** Row [I], component [u] in terms of the operators of the sum-factorised path. *)
  Lemma app_eq q a up I u eq : updd t V absc nf kernel time nvals (map lam q, a) up -> (I < nn)%nat -> (u < nu)%nat ->
    applied 0 Rplus Rmult nu up (I * nu + u) eq = rsum (dim + 1) (fun k => Op q k eq u * Bv t absc I k (map lam q)).
  Proof using Hker Hz HV.
    clear -Hker Hz HV. intros Hu HI Hlt. assert (Eo : u_ops up = opsq t nu nr nf kernel time Sv Gv q) by (rewrite ops_eq; by destruct Hu as [-> _]).
    rewrite (applied_ok t V absc nu nf kernel time nvals (map lam q, a) up I u eq Hu) by (done || by rewrite Eo, ops_len). cbn [fst]. apply rsum_ext. intros k Hk. f_equal. rewrite Eo. destruct k as [|k]; [done|]. cbn [Opq]. apply rsum_ext. intros i Hi. f_equal. symmetry. apply inv_eq; lia.
  Qed.
  (** The intermediate vector is the operator applied to the operand. *)
  Lemma T_eq q a up eq r : updd t V absc nf kernel time nvals (map lam q, a) up -> (r < nr)%nat ->
    Tq t nu nr nf kernel time w Sv Gv q eq r = wq t w Gv q * rsum (nn * nu) (fun j => applied 0 Rplus Rmult nu up j eq * x j r).
  Proof using Hker Hz HV.
    clear -Hker Hz HV. intros Hu Hr. unfold Tq. f_equal. destruct (decide (nu = 0)%nat) as [-> |Hnu]. { rewrite Nat.mul_0_r. cbn [rsum]. by apply rsum_zero. }
    rewrite (rsum_ext (nn * nu) _ (fun j => (fun u J => applied 0 Rplus Rmult nu up (J * nu + u) eq * x (J * nu + u)%nat r) (j mod nu)%nat (j / nu)%nat)).
    2:{ intros j Hj. cbv beta. replace (j / nu * nu + j mod nu)%nat with j by (pose proof (Nat.div_mod_eq j nu); lia). done. }
    rewrite (Nat.mul_comm nn nu), (rsum_grid nu nn (fun u J => applied 0 Rplus Rmult nu up (J * nu + u) eq * x (J * nu + u)%nat r)) by lia.
    rewrite (rsum_ext nn _ (fun J => rsum (dim + 1) (fun k => rsum nu (fun u => Op q k eq u * Bv t absc J k (map lam q) * x (J * nu + u)%nat r)))).
    - symmetry. rewrite rsum_swap2. apply rsum_ext. intros k Hk. rewrite rsum_swap2. apply rsum_ext. intros u Hlt. unfold Sv. rewrite <- rsum_scal. apply rsum_ext. intros J HJ. unfold X. rewrite decide_True by nia.
      destruct (cell_digits (S 0) nu 0 u r ltac:(lia) Hlt) as (_ & -> & ->). ring.
    - intros J HJ. rewrite rsum_swap2. apply rsum_ext. intros u Hlt. rewrite (app_eq q a up J u eq Hu HJ Hlt). rewrite Rmult_comm, <- rsum_scal. apply rsum_ext. intros; ring.
  Qed.
  (** Contribution of a point to a component of the result. *)
  Lemma point_eq q a up I u r : updd t V absc nf kernel time nvals (map lam q, a) up -> (I < nn)%nat -> (u < nu)%nat -> (r < nr)%nat ->
    rsum (dim + 1) (fun k => Rq t nu us nr nf kernel time w Sv Gv q k u r * Bv t absc I k (map lam q)) =
    wq t w Gv q * rsum (nn * nu) (fun j => rsum us (fun eq => applied 0 Rplus Rmult nu up (I * nu + u) eq * applied 0 Rplus Rmult nu up j eq) * x j r).
  Proof using Hker Hz HV.
    clear -Hker Hz HV. intros Hu HI Hlt Hr. rewrite (rsum_ext (dim + 1) _ (fun k => rsum us (fun eq => Op q k eq u * Bv t absc I k (map lam q) * (wq t w Gv q * rsum (nn * nu) (fun j => applied 0 Rplus Rmult nu up j eq * x j r))))).
    - rewrite rsum_swap2. rewrite (rsum_ext us _ (fun eq => wq t w Gv q * rsum (nn * nu) (fun j => applied 0 Rplus Rmult nu up (I * nu + u) eq * applied 0 Rplus Rmult nu up j eq * x j r))).
      + rewrite rsum_scal. f_equal. rewrite rsum_swap2. apply rsum_ext. intros j Hj. rewrite Rmult_comm, <- rsum_scal. apply rsum_ext. intros; ring.
      + intros eq _. rewrite (app_eq q a up I u eq Hu HI Hlt). set (S1 := rsum (nn * nu) (fun j => applied 0 Rplus Rmult nu up j eq * x j r)).
        rewrite (rsum_ext (nn * nu) (fun j => _ * applied 0 Rplus Rmult nu up j eq * x j r) (fun j => rsum (dim + 1) (fun k => Op q k eq u * Bv t absc I k (map lam q)) * (applied 0 Rplus Rmult nu up j eq * x j r))) by (intros; ring).
        rewrite rsum_scal. fold S1. rewrite (rsum_ext (dim + 1) _ (fun k => (wq t w Gv q * S1) * (Op q k eq u * Bv t absc I k (map lam q)))) by (intros; ring). rewrite rsum_scal. ring.
    - intros k Hk. unfold Rq. rewrite Rmult_comm, <- rsum_scal. apply rsum_ext. intros eq _. rewrite (T_eq q a up eq r Hu Hr). ring.
  Qed.
  (** Sums over the points. *)
  Lemma points_sum f : Basis_spec.total (map (fun e => f e.1 * e.2) (pairs n lam E t)) = rsum (vol t n) (fun qi => foldr Rmult (f (map lam (dig t n qi))) (map w (dig t n qi))).
  Proof using Ht Hq He.
    clear -Ht Hq He. rewrite (pairs_total n lam E Hq He t f). unfold Qf. rewrite vol_eq. destruct t; [| |done]; cbn [dig map foldr].
    - rewrite (rsum_ext (n * n * n) _ (fun qi => w ((qi mod (n * n)) mod n)%nat * (w ((qi mod (n * n)) / n)%nat * (w (qi / (n * n))%nat * f [lam ((qi mod (n * n)) mod n)%nat; lam ((qi mod (n * n)) / n)%nat; lam (qi / (n * n))%nat])))).
      2:{ intros qi _. destruct (digits3 n qi ltac:(lia)) as (-> & -> & _). done. }
      rewrite (rsum_grid (n * n) n (fun j z => w (j mod n)%nat * (w (j / n)%nat * (w z * f [lam (j mod n)%nat; lam (j / n)%nat; lam z])))) by nia. apply rsum_ext. intros z _.
      rewrite (rsum_grid n n (fun i j => w i * (w j * (w z * f [lam i; lam j; lam z])))) by lia. rewrite <- rsum_scal. apply rsum_ext. intros j _. rewrite <- !rsum_scal. apply rsum_ext. intros i _. ring.
    - rewrite (rsum_grid n n (fun i j => w i * (w j * f [lam i; lam j]))) by lia. apply rsum_ext. intros j _. rewrite <- rsum_scal. apply rsum_ext. intros; ring.
  Qed.
  Lemma pairs_lam e : e ∈ pairs n lam E t -> length e.1 = dim.
  Proof using Hq He. clear -Hq He. destruct e as [p a]. intros H. by destruct (pairs_in n lam E Hq He t p a H) as (_ & ? & _). Qed.
  Lemma det_eq q : determinant dim (Jq t Gv q) = determinant dim (Jm t V (map lam q)).
  Proof using. clear. rewrite Jq_eq. apply det_transposed, dim_13. Qed.
  (** The element matrix times the operand, as a sum over the points. *)
  Lemma matrix_times l i r : Forall2 (fun e u => updd t V absc nf kernel time nvals e u) (pairs n lam E t) l ->
    (i < nn * nu)%nat ->
    forall (h : list R -> nat -> R), (forall e u j, updd t V absc nf kernel time nvals e u -> (j < nn * nu)%nat -> rsum us (fun eq => applied 0 Rplus Rmult nu u i eq * applied 0 Rplus Rmult nu u j eq) = h e.1 j) ->
    rsum (nn * nu) (fun j => expected_mat 0 Rplus Rmult nu us l i j * x j r) = rsum (vol t n) (fun qi => wq t w Gv (dig t n qi) * rsum (nn * nu) (fun j => h (map lam (dig t n qi)) j * x j r)).
  Proof using Ht Hq He.
    intros HF Hi h Hh.
    rewrite (rsum_ext (nn * nu) _ (fun j => rsum (vol t n) (fun qi => wq t w Gv (dig t n qi) * (h (map lam (dig t n qi)) j * x j r)))).
    - rewrite rsum_swap2. apply rsum_ext. intros qi _. by rewrite rsum_scal.
    - intros j Hj. unfold expected_mat. replace (ltotal l (fun u => u_w u * ltotal (seq 0 us) (fun e => applied 0 Rplus Rmult nu u i e * applied 0 Rplus Rmult nu u j e))) with (ltotal (pairs n lam E t) (fun e => determinant dim (Jm t V e.1) * h e.1 j * e.2)).
      + rewrite ltotal_total. rewrite (points_sum (fun p => determinant dim (Jm t V p) * h p j)). rewrite Rmult_comm, <- rsum_scal. apply rsum_ext. intros qi _. unfold wq. rewrite det_eq. generalize (determinant dim (Jm t V (map lam (dig t n qi)))). intros d.
        assert (Hf : forall (l : list R) c d, foldr Rmult (d * c) l = foldr Rmult d l * c) by (induction l0 as [|a l0 IH]; intros; cbn; [done|]; rewrite IH; ring). rewrite Hf. ring.
      + clear He. induction HF as [|e u es us' Hu HF IH]; [done|]. cbn [LocalSys_spec.total]. rewrite IH. f_equal. rewrite ltotal_seq, (Hh e u j Hu Hj). destruct Hu as (_ & _ & -> & _). ring.
  Qed.
End main.
