From Coq Require Import Reals Lra.
From Verif Require Import Base Elem_model Poly_model Poly_spec Poly_proofs Poly2_proofs Poly3_proofs Basis_model Basis_spec Basis_proofs Basis2_proofs Leg_proofs Gauss_model Gauss_spec Gauss_proofs.
Local Open Scope R_scope.

(** ** Sums over lists *)
Lemma total_app l1 l2 : total (l1 ++ l2) = total l1 + total l2.
Proof. unfold total. induction l1 as [|a l IH]; cbn; [lra|]. rewrite IH. lra. Qed.
Lemma total_seq n g : total (map g (seq 0 n)) = rsum n g.
Proof. induction n as [|n IH]; [done|]. rewrite seq_S, map_app, total_app, IH. cbn. lra. Qed.
Lemma total_concat_seq {A} n (g : A -> R) (h : nat -> list A) : total (map g (concat (map h (seq 0 n)))) = rsum n (fun i => total (map g (h i))).
Proof. induction n as [|n IH]; [done|]. rewrite seq_S, map_app, concat_app, map_app, total_app, IH. cbn. by rewrite app_nil_r. Qed.
Lemma eval_total (g : nat -> list R -> R) (l : list (list R * R)) z : forall k, foldl (fun acc e => acc + g e.1 e.2.1 * e.2.2) z (zip (seq k (length l)) l) = z + total (zip_with (fun i e => g i e.1 * e.2) (seq k (length l)) l).
Proof. revert z. unfold total. induction l as [|e l IH]; intros z k; cbn; [lra|]. rewrite IH. lra. Qed.
Lemma eval_pairs (f : list R -> R) (l : list (list R * R)) z : evalQuadrature (fun _ => f) (map fst l, map snd l) z = z + total (map (fun e => f e.1 * e.2) l).
Proof.
  unfold evalQuadrature. cbn [fst snd]. rewrite map_length. assert (Hz : zip (map fst l) (map snd l) = l) by (induction l as [|[a b] l IH]; cbn; [done|]; by f_equal). rewrite Hz.
  rewrite (eval_total (fun _ => f)). f_equal. unfold total. clear Hz. generalize O. induction l as [|e l IH]; intros k; cbn; [done|]. f_equal. apply IH.
Qed.
Section tensor.
  Context (n : nat) (lam : nat -> R) (V : nat -> nat -> R) (Hn : (1 <= n)%nat) (He : eigen_of n (gauss_matrix ref_a ref_b ref_c) lam V).
  Notation exact := (exact n lam V). Notation Qf := (Qf n lam V).
  Notation w i := (2 * V O i * V O i).
  Lemma exact_ext f g : (forall x, f x = g x) -> exact f -> exact g.
  Proof using Hn He. intros H Hf. apply (exact_lin n lam V f f 1 0); [intros x; rewrite H; lra|done|done]. Qed.
  Lemma exact_zero : exact (fun _ => 0).
  Proof using Hn He. unfold Gauss_proofs.exact. replace (Qf (fun _ => 0)) with 0; [apply int_zero|]. symmetry. apply rsum_zero. intros. ring. Qed.
  Lemma exact_rsum m (a : nat -> R) F : (forall i, (i < m)%nat -> exact (F i)) -> exact (fun x => rsum m (fun i => a i * F i x)).
  Proof using Hn He.
    induction m as [|m IH]; intros H; [apply exact_zero|]. apply (exact_lin n lam V (fun x => rsum m (fun i => a i * F i x)) (F m) 1 (a m)); [intros x; cbn; lra| |apply H; lia]. apply IH. intros. apply H. lia.
  Qed.
  Lemma exact_combine {A} (c : list A) (F : A -> R -> R) y : (forall l, l ∈ c -> exact (F l)) -> exact (fun x => poly (map (fun l => F l x) c) y).
  Proof using Hn He.
    induction c as [|l c IH]; intros H; cbn [map poly]; [apply exact_zero|]. apply (exact_lin n lam V (F l) (fun x => poly (map (fun l => F l x) c) y) (y ^ length c) 1); [intros x; rewrite map_length; lra|apply H; left|].
    apply IH. intros. apply H. by right.
  Qed.
  Lemma quad_exact c : (length c <= 2 * n)%nat -> Forall (fun l => length l <= 2 * n)%nat c ->
    (forall y, exact (fun x => poly2 c x y)) /\ (forall x, exact (fun y => poly2 c x y)).
  Proof using Hn He.
    intros Hc Hf. split.
    - intros y. unfold poly2. apply (exact_combine c poly y). intros l Hl. eapply Forall_forall in Hf; [|done]. by apply exact_poly.
    - intros x. unfold poly2. apply exact_poly; [done|done|by rewrite map_length].
  Qed.
  Lemma hex_exact c : (length c <= 2 * n)%nat -> Forall (fun l => length l <= 2 * n /\ Forall (fun l => length l <= 2 * n) l)%nat c ->
    (forall y z, exact (fun x => poly3 c x y z)) /\ (forall x z, exact (fun y => poly3 c x y z)) /\ (forall x y, exact (fun z => poly3 c x y z)).
  Proof using Hn He.
    intros Hc Hf. split; [|split].
    - intros y z. unfold poly3. apply (exact_combine c (fun l x => poly2 l x y) z). intros l Hl. eapply Forall_forall in Hf as [H1 H2]; [|done]. by apply quad_exact.
    - intros x z. unfold poly3. apply (exact_combine c (fun l y => poly2 l x y) z). intros l Hl. eapply Forall_forall in Hf as [H1 H2]; [|done]. by apply quad_exact.
    - intros x y. unfold poly3. apply exact_poly; [done|done|by rewrite map_length].
  Qed.
  Definition ref_pw : list (list R) * list R := (map (fun v => [v]) (map lam (seq 0 n)), map (fun i => w i) (seq 0 n)).
  Lemma coord_ok i : (i < n)%nat -> coord ref_pw.1 i = Ok (lam i).
  Proof using Hn He. intros Hi. unfold coord. cbn [ref_pw fst]. rewrite map_map. rewrite (rd_ok _ _ [lam i]); [done|]. rewrite (list_lookup_fmap (fun x => [lam x])), lookup_seq_lt by done. done. Qed.
  Lemma weight_ok i : (i < n)%nat -> rd ref_pw.2 i = Ok (w i).
  Proof using Hn He. intros Hi. cbn [ref_pw snd]. apply rd_ok. rewrite (list_lookup_fmap (fun i => w i)), lookup_seq_lt by done. done. Qed.
  Definition pairs (t : etype) : list (list R * R) :=
    match t with
    | Line => map (fun i => ([lam i], w i)) (seq 0 n)
    | Quad => concat (map (fun i => map (fun j => ([lam i; lam j], w i * w j)) (seq 0 n)) (seq 0 n))
    | Hex => concat (map (fun i => concat (map (fun j => map (fun k => ([lam i; lam j; lam k], w i * w j * w k)) (seq 0 n)) (seq 0 n))) (seq 0 n))
    end.
  Lemma loop2_elem i j : (i, j) ∈ loop2 n <-> (i < n /\ j < n)%nat.
  Proof using Hn He.
    unfold loop2. rewrite elem_of_list_In, in_concat. split.
    - intros (l & Hl & Hin). apply in_map_iff in Hl as (i' & <- & Hi). apply in_map_iff in Hin as (j' & E & Hj). injection E as -> ->. apply in_seq in Hi, Hj. lia.
    - intros [Hi Hj]. exists (map (fun j => (i, j)) (seq 0 n)). split; apply in_map_iff; [exists i|exists j]; split; try done; apply in_seq; lia.
  Qed.
  Lemma get_ok t : getQuadrature t ref_pw = Ok (map fst (pairs t), map snd (pairs t)).
  Proof using Hn He.
    assert (Hlen : length ref_pw.2 = n) by (cbn [ref_pw snd]; by rewrite map_length, seq_length).
    assert (Hg : getQuadrature t ref_pw = getQuadrature t (ref_pw.1, ref_pw.2)) by done. rewrite Hg. unfold getQuadrature. rewrite Hlen. destruct t.
    - rewrite (map_res_map _ (fun ijk => ([lam ijk.1.1; lam ijk.1.2; lam ijk.2], w ijk.1.1 * w ijk.1.2 * w ijk.2))).
      + rewrite bind_ok. assert (E : map (fun ijk => ([lam ijk.1.1; lam ijk.1.2; lam ijk.2], w ijk.1.1 * w ijk.1.2 * w ijk.2)) (loop3 n) = pairs Hex); [|by rewrite E].
        unfold loop3, loop2, pairs. rewrite concat_map, map_map. f_equal. apply map_ext. intros i. rewrite map_map, concat_map, map_map. f_equal. apply map_ext. intros j. rewrite map_map. done.
      + intros [[i j] k] Hin. unfold loop3 in Hin. apply elem_of_list_In, in_concat in Hin as (l & Hl & Hin). apply in_map_iff in Hl as (i' & <- & Hi). apply in_map_iff in Hin as ([j' k'] & E & Hj). injection E as -> -> ->.
        apply elem_of_list_In, loop2_elem in Hj as [Hj Hk]. apply in_seq in Hi. rewrite !coord_ok, !weight_ok by lia. rewrite !bind_ok. done.
    - rewrite (map_res_map _ (fun ij => ([lam ij.1; lam ij.2], w ij.1 * w ij.2))).
      + rewrite bind_ok. assert (E : map (fun ij => ([lam ij.1; lam ij.2], w ij.1 * w ij.2)) (loop2 n) = pairs Quad); [|by rewrite E].
        unfold loop2, pairs. rewrite concat_map, map_map. f_equal. apply map_ext. intros i. rewrite map_map. done.
      + intros [i j] Hin. apply loop2_elem in Hin as [Hi Hj]. cbn [fst snd]. rewrite !coord_ok, !weight_ok by lia. rewrite !bind_ok. done.
    - unfold ref_pw, pairs. by rewrite !map_map.
  Qed.
  Lemma pairs_total t f : total (map (fun e => f e.1 * e.2) (pairs t)) =
    match t with
    | Line => Qf (fun x => f [x])
    | Quad => Qf (fun y => Qf (fun x => f [x; y]))
    | Hex => Qf (fun z => Qf (fun y => Qf (fun x => f [x; y; z])))
    end.
  Proof using Hn He.
    destruct t; cbn [pairs].
    - rewrite (total_concat_seq n (fun e => f e.1 * e.2)). rewrite (rsum_ext n _ (fun i => rsum n (fun j => rsum n (fun k => f [lam i; lam j; lam k] * (w i * w j * w k))))).
      2:{ intros i _. rewrite (total_concat_seq n (fun e => f e.1 * e.2)). apply rsum_ext. intros j _. rewrite map_map. cbn [fst snd]. by rewrite total_seq. }
      unfold Gauss_proofs.Qf. rewrite (rsum_ext n _ (fun i => rsum n (fun k => rsum n (fun j => f [lam i; lam j; lam k] * (w i * w j * w k))))) by (intros; apply rsum_swap). rewrite rsum_swap. apply rsum_ext. intros k _.
      rewrite <- rsum_scal, rsum_swap. apply rsum_ext. intros j _. rewrite <- rsum_scal, <- rsum_scal. apply rsum_ext. intros i _. ring.
    - rewrite (total_concat_seq n (fun e => f e.1 * e.2)). rewrite (rsum_ext n _ (fun i => rsum n (fun j => f [lam i; lam j] * (w i * w j)))) by (intros i _; rewrite map_map; cbn [fst snd]; by rewrite total_seq).
      unfold Gauss_proofs.Qf. rewrite rsum_swap. apply rsum_ext. intros j _. rewrite <- rsum_scal. apply rsum_ext. intros i _. ring.
    - rewrite map_map. cbn [fst snd]. rewrite total_seq. apply rsum_ext. intros i _. ring.
  Qed.
  Lemma tensor_exact t m f : (m <= 2 * n)%nat -> is_poly t m f -> integral_on t f (total (map (fun e => f e.1 * e.2) (pairs t))).
  Proof using Hn He.
    intros Hm Hf. rewrite pairs_total. destruct t; cbn [is_poly integral_on] in *.
    - destruct Hf as (c & Hc & Hfc & Hx). assert (Hfc' : Forall (fun l => length l <= 2 * n /\ Forall (fun l => length l <= 2 * n) l)%nat c).
      { eapply Forall_impl; [exact Hfc|]. intros l [H1 H2]. split; [lia|]. eapply Forall_impl; [exact H2|]. intros; cbn in *; lia. }
      destruct (hex_exact c ltac:(lia) Hfc') as (H1 & H2 & H3). exists (fun y z => Qf (fun x => f [x; y; z])), (fun z => Qf (fun y => Qf (fun x => f [x; y; z]))). split; [|split].
      + intros y z. apply (exact_ext (fun x => poly3 c x y z)); [intros x; by rewrite Hx|apply H1].
      + intros z. unfold Gauss_proofs.Qf at 1. apply (exact_rsum n (fun i => w i) (fun i y => f [lam i; y; z])). intros i _. apply (exact_ext (fun y => poly3 c (lam i) y z)); [intros y; by rewrite Hx|apply H2].
      + apply (exact_rsum n (fun j => w j) (fun j z => Qf (fun x => f [x; lam j; z]))). intros j _. apply (exact_rsum n (fun i => w i) (fun i z => f [lam i; lam j; z])). intros i _.
        apply (exact_ext (fun z => poly3 c (lam i) (lam j) z)); [intros z; by rewrite Hx|apply H3].
    - destruct Hf as (c & Hc & Hfc & Hx). assert (Hfc' : Forall (fun l => length l <= 2 * n)%nat c). { eapply Forall_impl; [exact Hfc|]. intros; cbn in *; lia. }
      destruct (quad_exact c ltac:(lia) Hfc') as (H1 & H2). exists (fun y => Qf (fun x => f [x; y])). split.
      + intros y. apply (exact_ext (fun x => poly2 c x y)); [intros x; by rewrite Hx|apply H1].
      + apply (exact_rsum n (fun i => w i) (fun i y => f [lam i; y])). intros i _. apply (exact_ext (fun y => poly2 c (lam i) y)); [intros y; by rewrite Hx|apply H2].
    - destruct Hf as (c & Hc & Hx). apply (exact_ext (poly c)); [intros x; by rewrite Hx|]. apply exact_poly; [done|done|lia].
  Qed.
  Lemma pairs_length t : length (pairs t) = (n ^ native_dim t)%nat.
  Proof using Hn He.
    assert (Hc : forall {A} (h : nat -> list A) m k, (forall i, length (h i) = k) -> length (concat (map h (seq 0 m))) = (m * k)%nat).
    { intros A h m k Hh. induction m as [|m IH]; [done|]. rewrite seq_S, map_app, concat_app, app_length, IH. cbn. rewrite app_nil_r, Hh. lia. }
    destruct t; cbn [pairs native_dim].
    - rewrite (Hc _ _ n (n * n)%nat); [cbn; lia|]. intros i. rewrite (Hc _ _ n n); [done|]. intros j. by rewrite map_length, seq_length.
    - rewrite (Hc _ _ n n); [cbn; lia|]. intros i. by rewrite map_length, seq_length.
    - rewrite map_length, seq_length. cbn. lia.
  Qed.
  Lemma lam_ok : incr n lam /\ (forall i, (i < n)%nat -> -1 < lam i < 1) /\ forall r, legendre n r = 0 <-> exists i, (i < n)%nat /\ lam i = r.
  Proof using Hn He.
    assert (Hiff : forall r, legendre n r = 0 <-> exists i, (i < n)%nat /\ lam i = r). { intros r. split; [by apply root_lam with V|]. intros (i & Hi & <-). by apply lam_root with V. }
    destruct (legendre_zeros n) as (z & Hi & Hz). destruct (all_zeros n z (map lam (seq 0 n)) (fun x => legendre n x = 0) Hi (fun i Hin => proj2 (Hz i Hin))) as (Hp & Hnd & _).
    { by rewrite map_length, seq_length. }
    { intros x (i & Hin & <-)%Hiff. apply (elem_of_list_fmap lam). exists i. split; [done|]. apply elem_of_seq. lia. }
    split; [|split; [|done]].
    - intros i Hin. destruct He as (Hs & _). destruct (Hs i Hin) as [?|E]; [done|]. exfalso.
      assert (H1 : map lam (seq 0 n) !! i = Some (lam i)) by (rewrite (list_lookup_fmap lam), lookup_seq_lt by lia; done).
      assert (H2 : map lam (seq 0 n) !! S i = Some (lam i)) by (rewrite (list_lookup_fmap lam), lookup_seq_lt by lia; cbn; by rewrite E).
      pose proof (NoDup_lookup _ _ _ _ Hnd H1 H2). lia.
    - intros i Hin. assert (Hx : lam i ∈ map z (seq 0 n)). { rewrite <- Hp. apply (elem_of_list_fmap lam). exists i. split; [done|]. apply elem_of_seq. lia. }
      apply (elem_of_list_fmap z) in Hx as (j & -> & Hj). apply elem_of_seq in Hj. apply Hz. lia.
  Qed.
  Lemma pairs_in t p a : (p, a) ∈ pairs t -> 0 < a /\ length p = native_dim t /\ Forall (fun x => exists i, (i < n)%nat /\ x = lam i) p.
  Proof using Hn He.
    assert (Hw : forall i, (i < n)%nat -> 0 < w i). { intros i Hi. pose proof (V0_nonzero n lam V Hn He i Hi) as H0. pose proof (Rsqr_pos_lt _ H0). unfold Rsqr in *. lra. }
    assert (Hx : forall i, (i < n)%nat -> exists j, (j < n)%nat /\ lam i = lam j) by (intros i Hi; by exists i).
    destruct t; cbn [pairs native_dim].
    - intros H. apply elem_of_list_In, in_concat in H as (l & Hl & H). apply in_map_iff in Hl as (i & <- & Hi). apply in_concat in H as (l & Hl & H). apply in_map_iff in Hl as (j & <- & Hj). apply in_map_iff in H as (k & E & Hk).
      apply in_seq in Hi, Hj, Hk. injection E as <- <-. split; [|split; [done|]]; [|repeat constructor; apply Hx; lia]. apply Rmult_lt_0_compat; [apply Rmult_lt_0_compat|]; apply Hw; lia.
    - intros H. apply elem_of_list_In, in_concat in H as (l & Hl & H). apply in_map_iff in Hl as (i & <- & Hi). apply in_map_iff in H as (j & E & Hj).
      apply in_seq in Hi, Hj. injection E as <- <-. split; [|split; [done|]]; [|repeat constructor; apply Hx; lia]. apply Rmult_lt_0_compat; apply Hw; lia.
    - intros H. apply elem_of_list_In, in_map_iff in H as (i & E & Hi). apply in_seq in Hi. injection E as <- <-. split; [|split; [done|]]; [|repeat constructor; apply Hx; lia]. apply Hw. lia.
  Qed.
End tensor.
