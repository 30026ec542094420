(** The transforms as sums over the basis functions and over the points. *)
From Coq Require Import Reals Lra.
From Verif Require Import Base Elem_model Elem_spec Elem_proofs Poly_model Poly_spec Poly_proofs Poly2_proofs Basis_model Basis_spec Basis_proofs Basis2_proofs Gauss_model Gauss_spec Gauss_proofs Gauss2_proofs Geom_model Geom_proofs LocalSys_model SumFact_model SumFact_proofs SumFact2_proofs.
Local Open Scope R_scope.

Lemma digits3 (K I : nat) : (0 < K)%nat -> ((I `mod` (K * K)) `mod` K = I `mod` K /\ (I `mod` (K * K)) / K = (I / K) `mod` K /\ I / (K * K) = I / K / K)%nat.
Proof.
  intros HK. split; [|split].
  - rewrite Nat.mod_mul_r by lia. rewrite Nat.mul_comm, Nat.mod_add by lia. by apply Nat.mod_mod; lia.
  - rewrite Nat.mod_mul_r by lia. rewrite Nat.mul_comm, Nat.div_add by lia. rewrite (Nat.div_small (I mod K)) by (apply Nat.mod_upper_bound; lia). done.
  - by rewrite Nat.div_div by lia.
Qed.
Lemma join2 (K I f : nat) : (0 < K)%nat -> (I + K * K * f = I `mod` K + K * (I / K + K * f))%nat.
Proof. intros HK. pose proof (Nat.div_mod_eq I K). nia. Qed.
Lemma join3 (K I f : nat) : (0 < K)%nat -> (I + K * K * K * f = I `mod` K + K * ((I / K) `mod` K + K * (I / (K * K) + K * f)))%nat.
Proof.
  intros HK. destruct (digits3 K I HK) as (_ & _ & ->). pose proof (Nat.div_mod_eq I K). pose proof (Nat.div_mod_eq (I / K) K). set (a := (I / K)%nat) in *. set (b := (a / K)%nat) in *. nia.
Qed.
Lemma T2_sum K A B r f q1 q2 : (0 < K)%nat -> T2 K A B r f q1 q2 = rsum (K * K) (fun I => r (I + K * K * f)%nat * (A (I `mod` K)%nat q1 * B (I / K)%nat q2)).
Proof.
  intros HK. rewrite (rsum_ext (K * K) _ (fun I => r (I `mod` K + K * (I / K + K * f))%nat * (A (I `mod` K)%nat q1 * B (I / K)%nat q2))) by (intros I _; by rewrite join2).
  rewrite (rsum_grid K K (fun i j => r (i + K * (j + K * f))%nat * (A i q1 * B j q2)) HK). unfold T2. apply rsum_ext. intros b2 _. rewrite Rmult_comm, <- rsum_scal. apply rsum_ext. intros; ring.
Qed.
Lemma T3_sum K A B C r f q1 q2 q3 : (0 < K)%nat -> T3 K A B C r f q1 q2 q3 = rsum (K * K * K) (fun I => r (I + K * K * K * f)%nat * (A (I `mod` K)%nat q1 * B ((I / K) `mod` K)%nat q2 * C (I / (K * K))%nat q3)).
Proof.
  intros HK. rewrite (rsum_ext (K * K * K) _ (fun I => r ((I `mod` (K * K)) `mod` K + K * ((I `mod` (K * K)) / K + K * (I / (K * K) + K * f)))%nat * (A ((I `mod` (K * K)) `mod` K)%nat q1 * B ((I `mod` (K * K)) / K)%nat q2 * C (I / (K * K))%nat q3))).
  2:{ intros I _. rewrite join3 by done. destruct (digits3 K I HK) as (-> & -> & _). done. }
  rewrite (rsum_grid (K * K) K (fun I j => r (I `mod` K + K * (I / K + K * (j + K * f)))%nat * (A (I `mod` K)%nat q1 * B (I / K)%nat q2 * C j q3)) ltac:(nia)). unfold T3. apply rsum_ext. intros b3 _.
  rewrite (rsum_grid K K (fun i j => r (i + K * (j + K * (b3 + K * f)))%nat * (A i q1 * B j q2 * C b3 q3)) HK). rewrite Rmult_comm, <- rsum_scal. apply rsum_ext. intros b2 _. rewrite Rmult_comm, Rmult_assoc, Rmult_comm, <- rsum_scal. apply rsum_ext. intros; ring.
Qed.

(** ** Points *)
(** The digits of a point's number. *)
Definition dig (t : etype) (n qi : nat) : list nat := match t with Line => [qi] | Quad => [qi `mod` n; qi / n]%nat | Hex => [qi `mod` n; (qi / n) `mod` n; qi / (n * n)]%nat end.
Definition idx (t : etype) (n : nat) (q : list nat) : Prop := length q = native_dim t /\ Forall (fun i => (i < n)%nat) q.
Notation vol t n := (n ^ native_dim t)%nat.
Lemma vol_eq t n : vol t n = match t with Line => n | Quad => (n * n)%nat | Hex => (n * n * n)%nat end.
Proof. destruct t; cbn; lia. Qed.
Lemma lin_dig t n qi : (0 < n)%nat -> lin n (dig t n qi) = qi.
Proof.
  intros Hn. destruct t; cbn.
  - pose proof (join3 n qi 0 Hn). lia.
  - pose proof (join2 n qi 0 Hn). lia.
  - lia.
Qed.
Lemma dig_idx t n qi : (0 < n)%nat -> (qi < vol t n)%nat -> idx t n (dig t n qi).
Proof.
  intros Hn. rewrite vol_eq. intros Hq. split; [by destruct t|]. destruct t; cbn; repeat constructor; try (apply Nat.mod_upper_bound; lia); try done.
  - apply Nat.div_lt_upper_bound; [nia|lia].
  - apply Nat.div_lt_upper_bound; lia.
Qed.
Lemma lin_lt t n q : idx t n q -> (lin n q < vol t n)%nat.
Proof.
  intros [Hl Hf]. rewrite vol_eq. destruct t; cbn in Hl.
  - destruct q as [|a [|b [|c [|? ?]]]]; try done. rewrite !Forall_cons in Hf. cbn. destruct Hf as (? & ? & ? & _). assert (b + n * c < n * n)%nat by nia. nia.
  - destruct q as [|a [|b [|? ?]]]; try done. rewrite !Forall_cons in Hf. cbn. destruct Hf as (? & ? & _). nia.
  - destruct q as [|a [|? ?]]; try done. rewrite !Forall_cons in Hf. cbn. lia.
Qed.
Lemma dig_lin t n q : idx t n q -> dig t n (lin n q) = q.
Proof.
  intros [Hl Hf]. assert (Hd : forall a b, (a < n)%nat -> ((a + n * b) `mod` n = a /\ (a + n * b) / n = b)%nat).
  { intros a b Ha. split; [rewrite Nat.mul_comm, Nat.mod_add, Nat.mod_small; lia|rewrite Nat.mul_comm, Nat.div_add, Nat.div_small; lia]. }
  destruct t; cbn in Hl.
  - destruct q as [|a [|b [|c [|? ?]]]]; try done. rewrite !Forall_cons in Hf. cbn [lin foldr dig]. destruct Hf as (Ha & Hb & Hc & _). destruct (Hd a (b + n * (c + n * 0))%nat Ha) as [E1 E2]. destruct (Hd b (c + n * 0)%nat Hb) as [E3 E4].
    rewrite <- Nat.div_div by lia. rewrite E1, E2, E3, E4. do 3 f_equal. lia.
  - destruct q as [|a [|b [|? ?]]]; try done. rewrite !Forall_cons in Hf. cbn [lin foldr dig]. destruct Hf as (Ha & Hb & _). destruct (Hd a (b + n * 0)%nat Ha) as [-> ->]. do 2 f_equal. lia.
  - destruct q as [|a [|? ?]]; try done. cbn [lin foldr dig]. f_equal. lia.
Qed.
Lemma loop2_iff n i j : (i, j) ∈ loop2 n <-> (i < n /\ j < n)%nat.
Proof.
  unfold loop2. rewrite elem_of_list_In, in_concat. split.
  - intros (l & Hl & Hin). apply in_map_iff in Hl as (i' & <- & Hi). apply in_map_iff in Hin as (j' & E & Hj). injection E as -> ->. apply in_seq in Hi, Hj. lia.
  - intros [Hi Hj]. exists (map (fun j => (i, j)) (seq 0 n)). split; apply in_map_iff; [exists i|exists j]; split; try done; apply in_seq; lia.
Qed.
Lemma loop3_iff n i j k : (i, j, k) ∈ loop3 n <-> (i < n /\ j < n /\ k < n)%nat.
Proof.
  unfold loop3. rewrite elem_of_list_In, in_concat. split.
  - intros (l & Hl & Hin). apply in_map_iff in Hl as (i' & <- & Hi). apply in_map_iff in Hin as ([j' k'] & E & Hj). injection E as -> -> ->. apply elem_of_list_In, loop2_iff in Hj. apply in_seq in Hi. lia.
  - intros (Hi & Hj & Hk). exists (map (fun jk => (i, jk.1, jk.2)) (loop2 n)). split; apply in_map_iff; [exists i; split; [done|apply in_seq; lia]|]. exists (j, k). split; [done|]. apply elem_of_list_In. by apply loop2_iff.
Qed.
Lemma qp_inds_iff t n q : t <> Line -> q ∈ qp_inds (native_dim t) n <-> idx t n q.
Proof.
  intros Ht. unfold qp_inds, idx. destruct t; [| |done]; cbn [native_dim Nat.eqb]; rewrite elem_of_list_In, in_map_iff; split.
  - intros ([[k j] i] & <- & H). apply elem_of_list_In, loop3_iff in H. split; [done|]. cbn. repeat constructor; lia.
  - intros [Hl Hf]. destruct q as [|a [|b [|c [|? ?]]]]; try done. rewrite !Forall_cons in Hf. exists (c, b, a). split; [done|]. apply elem_of_list_In, loop3_iff. tauto.
  - intros ([j i] & <- & H). apply elem_of_list_In, loop2_iff in H. split; [done|]. cbn. repeat constructor; lia.
  - intros [Hl Hf]. destruct q as [|a [|b [|? ?]]]; try done. rewrite !Forall_cons in Hf. exists (b, a). split; [done|]. apply elem_of_list_In, loop2_iff. tauto.
Qed.
Lemma idx_inj t n q q' : idx t n q -> idx t n q' -> lin n q = lin n q' -> q = q'.
Proof. intros H H' E. by rewrite <- (dig_lin t n q H), <- (dig_lin t n q' H'), E. Qed.

(** ** Transforms *)
Section transforms.
  Context (absc : list R) (Hn : (1 < length absc)%nat) (nq : nat) (Hq : (1 <= nq)%nat) (lam : nat -> R) (Im Dm : mat) (oe : option nat).
  Notation nb := (length absc).
  Context (Hm : forall b q, (b < nb)%nat -> (q < nq)%nat -> Im b q = Lb absc b (lam q) /\ Dm b q = Db absc b (lam q)) (Hoe : oe_ok nb nq Im Dm oe).
  Notation Mat := (fun b : bool => if b then Dm else Im).
  Lemma Mat_G (d : bool) b q : (b < nb)%nat -> (q < nq)%nat -> Mat d b q = G absc d b (lam q).
  Proof using Hm. intros Hb Hqq. destruct (Hm b q Hb Hqq). by destruct d. Qed.
  Lemma basis_lt t J : (J < vol t nb)%nat -> (match t with Line => J < nb | Quad => J mod nb < nb /\ J / nb < nb | Hex => J mod nb < nb /\ (J / nb) mod nb < nb /\ J / (nb * nb) < nb end)%nat.
  Proof using Hn. clear Hq Hm Hoe. rewrite vol_eq. intros HJ. destruct t; repeat split; try (apply Nat.mod_upper_bound; lia); try done; apply Nat.div_lt_upper_bound; nia. Qed.
  Lemma quad_sum r f q d1 d2 k : idx Quad nq q -> d1 = (k =? 1)%nat -> d2 = (k =? 2)%nat ->
    T2 nb (Mat d1) (Mat d2) r f (nth 0 q 0%nat) (nth 1 q 0%nat) = rsum (vol Quad nb) (fun J => r (J + vol Quad nb * f)%nat * Bv Quad absc J k (map lam q)).
  Proof using Hn Hq Hm.
    intros [Hl Hf] -> ->. destruct q as [|a [|b [|? ?]]]; try done. rewrite !Forall_cons in Hf. destruct Hf as (Ha & Hb & _). cbn [nth map]. rewrite T2_sum by lia. rewrite vol_eq. apply rsum_ext. intros J HJ. f_equal.
    destruct (basis_lt Quad J) as [H1 H2]; [by rewrite vol_eq|]. rewrite !Mat_G by done. done.
  Qed.
  Lemma hex_sum r f q d1 d2 d3 k : idx Hex nq q -> d1 = (k =? 1)%nat -> d2 = (k =? 2)%nat -> d3 = (k =? 3)%nat ->
    T3 nb (Mat d1) (Mat d2) (Mat d3) r f (nth 0 q 0%nat) (nth 1 q 0%nat) (nth 2 q 0%nat) = rsum (vol Hex nb) (fun J => r (J + vol Hex nb * f)%nat * Bv Hex absc J k (map lam q)).
  Proof using Hn Hq Hm.
    intros [Hl Hf] -> -> ->. destruct q as [|a [|b [|c [|? ?]]]]; try done. rewrite !Forall_cons in Hf. destruct Hf as (Ha & Hb & Hc & _). cbn [nth map]. rewrite T3_sum by lia. rewrite vol_eq. apply rsum_ext. intros J HJ. f_equal.
    destruct (basis_lt Hex J) as (H1 & H2 & H3); [by rewrite vol_eq|]. rewrite !Mat_G by done. done.
  Qed.
  Lemma back_all t nf size fill (X : nat -> nat -> R) (junk : nat -> nat -> R) : t <> Line -> size = buf_size nb nq nf (native_dim t) ->
    (forall l, length l = size -> exists r, fill l = Ok r /\ length r = size /\ forall f J, (f < nf)%nat -> (J < vol t nb)%nat -> nth (J + vol t nb * f) r 0 = X f J) ->
    exists outs, sumFactBack nb nq Im Dm oe (native_dim t) nf fill (bufs_of junk (native_dim t + 2) size) = Ok outs /\
      forall k, (k <= native_dim t)%nat -> exists o, outs !! k = Some o /\ length o = size /\
        forall f q, (f < nf)%nat -> idx t nq q -> nth (f + nf * lin nq q) o 0 = rsum (vol t nb) (fun J => X f J * Bv t absc J k (map lam q)).
  Proof using Hn Hq Hm Hoe.
    intros Ht -> Hfill. set (size := buf_size nb nq nf (native_dim t)) in *. set (l := fun k => map (junk k) (seq 0 size)). assert (Hl : forall k, length (l k) = size) by (intros; unfold l; by rewrite map_length, seq_length).
    destruct t; [| |done]; unfold sumFactBack, bufs_of; cbn [native_dim Nat.eqb Nat.add seq map]; fold (l 0%nat) (l 1%nat) (l 2%nat) (l 3%nat) (l 4%nat); clearbody l.
    - destruct (Hfill (l 3%nat) (Hl _)) as (r & Er & Lr & Hr). destruct (backHex_ok nb nq Im Dm oe Hoe nf fill (l 0%nat) (l 1%nat) (l 2%nat) (l 3%nat) (l 4%nat) r Er) as (o0 & o1 & o2 & o3 & o4 & E & L0 & L1 & L2 & L3 & H).
      { repeat constructor; rewrite ?Hl, ?Lr; unfold size; cbn [native_dim]; lia. }
      exists [o0; o1; o2; o3; o4]. split; [exact E|]. rewrite Hl in L0, L1, L2. rewrite Lr in L3.
      assert (Hs : forall f q k, (f < nf)%nat -> rsum (vol Hex nb) (fun J => nth (J + vol Hex nb * f) r 0 * Bv Hex absc J k (map lam q)) = rsum (vol Hex nb) (fun J => X f J * Bv Hex absc J k (map lam q))). { intros f q k Hf. apply rsum_ext. intros J HJ. by rewrite Hr. }
      assert (Hix : forall f q, (f < nf)%nat -> idx Hex nq q -> nth (f + nf * lin nq q) o0 0 = T3 nb Im Im Im (at' r) f (nth 0 q 0%nat) (nth 1 q 0%nat) (nth 2 q 0%nat) /\ nth (f + nf * lin nq q) o1 0 = T3 nb Dm Im Im (at' r) f (nth 0 q 0%nat) (nth 1 q 0%nat) (nth 2 q 0%nat) /\
        nth (f + nf * lin nq q) o2 0 = T3 nb Im Dm Im (at' r) f (nth 0 q 0%nat) (nth 1 q 0%nat) (nth 2 q 0%nat) /\ nth (f + nf * lin nq q) o3 0 = T3 nb Im Im Dm (at' r) f (nth 0 q 0%nat) (nth 1 q 0%nat) (nth 2 q 0%nat)).
      { intros f q Hf [Hql Hqf]. destruct q as [|a [|b [|c [|? ?]]]]; try done. rewrite !Forall_cons in Hqf. cbn [lin foldr nth]. replace (a + nq * (b + nq * (c + nq * 0)))%nat with (a + nq * (b + nq * c))%nat by lia. apply H; tauto. }
      intros k Hk. cbn [native_dim] in Hk. assert (k = 0 \/ k = 1 \/ k = 2 \/ k = 3)%nat as [-> |[-> |[-> | ->]]] by lia;
        (eexists; split; [reflexivity|]; split; [done|]; intros f q Hf Hi; rewrite <- Hs by done; destruct (Hix f q Hf Hi) as (E0 & E1 & E2 & E3)).
      + rewrite E0. by apply (hex_sum (at' r) f q false false false 0%nat).
      + rewrite E1. by apply (hex_sum (at' r) f q true false false 1%nat).
      + rewrite E2. by apply (hex_sum (at' r) f q false true false 2%nat).
      + rewrite E3. by apply (hex_sum (at' r) f q false false true 3%nat).
    - destruct (Hfill (l 1%nat) (Hl _)) as (r & Er & Lr & Hr). destruct (backQuad_ok nb nq Im Dm oe Hoe nf fill (l 0%nat) (l 1%nat) (l 2%nat) (l 3%nat) r Er) as (o0 & o1 & o2 & o3 & E & L0 & L1 & L2 & H).
      { repeat constructor; rewrite ?Hl, ?Lr; unfold size; cbn [native_dim]; lia. }
      exists [o0; o1; o2; o3]. split; [exact E|]. rewrite Hl in L0, L2. rewrite Lr in L1.
      assert (Hs : forall f q k, (f < nf)%nat -> rsum (vol Quad nb) (fun J => nth (J + vol Quad nb * f) r 0 * Bv Quad absc J k (map lam q)) = rsum (vol Quad nb) (fun J => X f J * Bv Quad absc J k (map lam q))). { intros f q k Hf. apply rsum_ext. intros J HJ. by rewrite Hr. }
      assert (Hix : forall f q, (f < nf)%nat -> idx Quad nq q -> nth (f + nf * lin nq q) o0 0 = T2 nb Im Im (at' r) f (nth 0 q 0%nat) (nth 1 q 0%nat) /\ nth (f + nf * lin nq q) o1 0 = T2 nb Dm Im (at' r) f (nth 0 q 0%nat) (nth 1 q 0%nat) /\ nth (f + nf * lin nq q) o2 0 = T2 nb Im Dm (at' r) f (nth 0 q 0%nat) (nth 1 q 0%nat)).
      { intros f q Hf [Hql Hqf]. destruct q as [|a [|b [|? ?]]]; try done. rewrite !Forall_cons in Hqf. cbn [lin foldr nth]. replace (a + nq * (b + nq * 0))%nat with (a + nq * b)%nat by lia. apply H; tauto. }
      intros k Hk. cbn [native_dim] in Hk. assert (k = 0 \/ k = 1 \/ k = 2)%nat as [-> |[-> | ->]] by lia;
        (eexists; split; [reflexivity|]; split; [done|]; intros f q Hf Hi; rewrite <- Hs by done; destruct (Hix f q Hf Hi) as (E0 & E1 & E2)).
      + rewrite E0. by apply (quad_sum (at' r) f q false false 0%nat).
      + rewrite E1. by apply (quad_sum (at' r) f q true false 1%nat).
      + rewrite E2. by apply (quad_sum (at' r) f q false true 2%nat).
  Qed.
  (** The transposed transform. *)
  Notation MatT := (fun b : bool => if b then (fun q b => Dm b q) else (fun q b => Im b q)).
  Lemma MatT_G (d : bool) b q : (b < nb)%nat -> (q < nq)%nat -> MatT d q b = G absc d b (lam q).
  Proof using Hm. intros Hb Hqq. destruct (Hm b q Hb Hqq). by destruct d. Qed.
  Lemma quad_sumT r f I d1 d2 k : (I < vol Quad nb)%nat -> d1 = (k =? 1)%nat -> d2 = (k =? 2)%nat ->
    T2 nq (MatT d1) (MatT d2) r f (I `mod` nb)%nat (I / nb)%nat = rsum (vol Quad nq) (fun qi => r (qi + vol Quad nq * f)%nat * Bv Quad absc I k (map lam (dig Quad nq qi))).
  Proof using Hn Hq Hm.
    intros HI -> ->. rewrite T2_sum by lia. rewrite (vol_eq Quad nq). apply rsum_ext. intros qi Hqi. f_equal. destruct (basis_lt Quad I HI) as [H1 H2].
    destruct (dig_idx Quad nq qi ltac:(lia) ltac:(by rewrite vol_eq)) as [_ Hf]. cbn [dig] in Hf. rewrite !Forall_cons in Hf. destruct Hf as (F1 & F2 & _). rewrite !MatT_G by done. done.
  Qed.
  Lemma hex_sumT r f I d1 d2 d3 k : (I < vol Hex nb)%nat -> d1 = (k =? 1)%nat -> d2 = (k =? 2)%nat -> d3 = (k =? 3)%nat ->
    T3 nq (MatT d1) (MatT d2) (MatT d3) r f (I `mod` nb)%nat ((I / nb) `mod` nb)%nat (I / (nb * nb))%nat = rsum (vol Hex nq) (fun qi => r (qi + vol Hex nq * f)%nat * Bv Hex absc I k (map lam (dig Hex nq qi))).
  Proof using Hn Hq Hm.
    intros HI -> -> ->. rewrite T3_sum by lia. rewrite (vol_eq Hex nq). apply rsum_ext. intros qi Hqi. f_equal. destruct (basis_lt Hex I HI) as (H1 & H2 & H3).
    destruct (dig_idx Hex nq qi ltac:(lia) ltac:(by rewrite vol_eq)) as [_ Hf]. cbn [dig] in Hf. rewrite !Forall_cons in Hf. destruct Hf as (F1 & F2 & F3 & _). rewrite !MatT_G by done. done.
  Qed.
  Lemma forward_all t nf (fw : list (list R)) temp : t <> Line -> length fw = (native_dim t + 1)%nat -> Forall (fun l => buf_size nb nq nf (native_dim t) <= length l)%nat (fw ++ [temp]) ->
    exists os o0, sumFactForward nb nq Im Dm oe (native_dim t) nf (fw ++ [temp]) = Ok os /\ rd os 0 = Ok o0 /\ length o0 = length (nth 0 fw []) /\
      forall f I, (f < nf)%nat -> (I < vol t nb)%nat -> nth (f + nf * I) o0 0 = rsum (native_dim t + 1) (fun k => rsum (vol t nq) (fun qi => nth (qi + vol t nq * f) (nth k fw []) 0 * Bv t absc I k (map lam (dig t nq qi)))).
  Proof using Hn Hq Hm Hoe.
    intros Ht Hl Hlen. destruct t; [| |done]; unfold sumFactForward; cbn [native_dim Nat.eqb Nat.add] in *.
    - destruct fw as [|a [|b [|c [|d [|? ?]]]]]; try done. cbn [app] in *. destruct (forwardHex_ok nb nq Im Dm oe Hoe nf a b c d temp Hlen) as (o0 & os & E & L & H). exists (o0 :: os), o0. split; [exact E|]. split; [done|]. split; [done|].
      intros f I Hf HI. destruct (basis_lt Hex I HI) as (H1 & H2 & H3). pose proof (H f (I mod nb) ((I / nb) mod nb) (I / (nb * nb)) Hf H1 H2 H3)%nat as H'. cbn [rsum nth].
      replace (I mod nb + nb * ((I / nb) mod nb + nb * (I / (nb * nb))))%nat with I in H' by (pose proof (join3 nb I 0 ltac:(lia)); lia). rewrite H', Rplus_0_l.
      f_equal; [f_equal; [f_equal|]|].
      + by apply (hex_sumT (at' a) f I false false false 0%nat).
      + by apply (hex_sumT (at' b) f I true false false 1%nat).
      + by apply (hex_sumT (at' c) f I false true false 2%nat).
      + by apply (hex_sumT (at' d) f I false false true 3%nat).
    - destruct fw as [|a [|b [|c [|? ?]]]]; try done. cbn [app] in *. destruct (forwardQuad_ok nb nq Im Dm oe Hoe nf a b c temp Hlen) as (o0 & os & E & L & H). exists (o0 :: os), o0. split; [exact E|]. split; [done|]. split; [done|].
      intros f I Hf HI. destruct (basis_lt Quad I HI) as (H1 & H2). pose proof (H f (I mod nb) (I / nb) Hf H1 H2)%nat as H'. cbn [rsum nth].
      replace (I mod nb + nb * (I / nb))%nat with I in H' by (pose proof (join2 nb I 0 ltac:(lia)); lia). rewrite H', Rplus_0_l. f_equal; [f_equal|].
      + by apply (quad_sumT (at' a) f I false false 0%nat).
      + by apply (quad_sumT (at' b) f I true false 1%nat).
      + by apply (quad_sumT (at' c) f I false true 2%nat).
  Qed.
End transforms.
