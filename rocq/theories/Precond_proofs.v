(** Proofs for C78. *)
From Coq Require Import Reals Lra.
From Verif Require Import Base Poly_spec Precond_model Precond_spec.
Local Open Scope R_scope.

Lemma shaped_col n nc Y c : shaped n nc Y -> (c < nc)%nat -> exists col, Y !! c = Some col /\ nth c Y [] = col /\ length col = n.
Proof.
  intros [Hl Hf] Hc. destruct (lookup_lt_is_Some_2 Y c) as [col Hcol]; [lia|]. exists col. split; [done|]. split; [by apply nth_lookup_Some|].
  by eapply Forall_lookup_1 in Hf.
Qed.
Lemma shaped_ent n nc Y c i : shaped n nc Y -> (c < nc)%nat -> (i < n)%nat -> exists col, Y !! c = Some col /\ length col = n /\ col !! i = Some (entry Y c i).
Proof.
  intros HY Hc Hi. destruct (shaped_col n nc Y c HY Hc) as (col & H1 & H2 & H3). exists col. split; [done|]. split; [done|]. unfold entry. rewrite H2.
  destruct (lookup_lt_is_Some_2 col i) as [v Hv]; [lia|]. by rewrite (nth_lookup_Some _ _ _ _ Hv).
Qed.
Lemma shaped_same n nc X Y : shaped n nc X -> shaped n nc Y -> same_shape X Y = true.
Proof.
  intros HX HY. unfold same_shape. apply bool_decide_eq_true. apply list_eq. intros c. rewrite !list_lookup_fmap. destruct (decide (c < nc)%nat) as [Hc|Hc].
  - destruct (shaped_col n nc X c HX Hc) as (a & Ha & _ & E1). destruct (shaped_col n nc Y c HY Hc) as (b & Hb & _ & E2). rewrite Ha, Hb. cbn. f_equal. congruence.
  - destruct HX as [E1 _], HY as [E2 _]. rewrite (lookup_ge_None_2 X), (lookup_ge_None_2 Y) by lia. done.
Qed.
(** Column-wise combination. *)
Lemma zip_shaped n nc (f : list R -> list R -> list R) (g : nat -> R -> R -> R) X Y : shaped n nc X -> shaped n nc Y ->
  (forall cx cy, length cx = n -> length cy = n -> length (f cx cy) = n /\ forall i x y, cx !! i = Some x -> cy !! i = Some y -> f cx cy !! i = Some (g i x y)) ->
  shaped n nc (zip_with f X Y) /\ forall c i, (c < nc)%nat -> (i < n)%nat -> entry (zip_with f X Y) c i = g i (entry X c i) (entry Y c i).
Proof.
  intros HX HY Hf. split.
  - split; [rewrite zip_with_length; destruct HX as [-> _], HY as [-> _]; lia|]. apply Forall_forall. intros z Hz. apply elem_of_lookup_zip_with in Hz as (c & x & y & -> & Hx & Hy).
    apply Hf; [by eapply (Forall_lookup_1 _ _ _ _ (proj2 HX))|by eapply (Forall_lookup_1 _ _ _ _ (proj2 HY))].
  - intros c i Hc Hi. destruct (shaped_ent n nc X c i HX Hc Hi) as (cx & Hx & Lx & Ex). destruct (shaped_ent n nc Y c i HY Hc Hi) as (cy & Hy & Ly & Ey).
    unfold entry at 1. rewrite (nth_lookup_Some (zip_with f X Y) c [] (f cx cy)) by (by rewrite lookup_zip_with, Hx, Hy). apply nth_lookup_Some. by apply Hf.
Qed.
Lemma update_ok n nc a X b Y : shaped n nc X -> shaped n nc Y ->
  exists Z, update a X b Y = Ok Z /\ shaped n nc Z /\ forall c i, (c < nc)%nat -> (i < n)%nat -> entry Z c i = a * entry X c i + b * entry Y c i.
Proof.
  intros HX HY. unfold update. rewrite (shaped_same n nc X Y HX HY). cbn. eexists. split; [done|]. apply (zip_shaped n nc _ (fun _ x y => a * x + b * y) X Y HX HY).
  intros cx cy Lx Ly. split; [rewrite zip_with_length; lia|]. intros i x y Hx Hy. by rewrite lookup_zip_with, Hx, Hy.
Qed.
Lemma multiply_ok n nc a d X b Y : length d = n -> shaped n nc X -> shaped n nc Y ->
  exists Z, elementWiseMultiply a d X b Y = Ok Z /\ shaped n nc Z /\ forall c i, (c < nc)%nat -> (i < n)%nat -> entry Z c i = a * (nth i d 0 * entry X c i) + b * entry Y c i.
Proof.
  intros Hd HX HY. unfold elementWiseMultiply. rewrite (shaped_same n nc X Y HX HY).
  assert (Hb : forallb (fun c => length c =? length d)%nat X = true). { apply forallb_forall. intros c Hc. apply Nat.eqb_eq. rewrite Hd. apply elem_of_list_In in Hc. by apply (proj1 (Forall_forall _ X) (proj2 HX)). }
  rewrite Hb. cbn. eexists. split; [done|]. apply (zip_shaped n nc _ (fun i x y => a * (nth i d 0 * x) + b * y) X Y HX HY).
  intros cx cy Lx Ly. split; [rewrite !zip_with_length; lia|]. intros i x y Hx Hy. destruct (lookup_lt_is_Some_2 d i) as [v Hv]; [apply lookup_lt_Some in Hx; lia|].
  rewrite (nth_lookup_Some _ _ _ _ Hv). by rewrite !lookup_zip_with, Hv, Hx, Hy.
Qed.
(** Several sweeps. *)
Lemma sweep_ok n nc (f : mvec -> res mvec) (g : nat -> nat -> R) beta k :
  (forall Y, shaped n nc Y -> exists Z, f Y = Ok Z /\ shaped n nc Z /\ forall c i, (c < nc)%nat -> (i < n)%nat -> entry Z c i = g c i + beta * entry Y c i) ->
  forall Y, shaped n nc Y -> exists Z, sweep (Z.of_nat k) f Y = Ok Z /\ shaped n nc Z /\
    forall c i, (c < nc)%nat -> (i < n)%nat -> entry Z c i = rsum k (Rpow_def.pow beta) * g c i + beta ^ k * entry Y c i.
Proof.
  intros Hf Y HY. unfold sweep. rewrite (proj2 (Z.ltb_ge (Z.of_nat k) 0)) by lia. rewrite Nat2Z.id.
  assert (Hgen : forall l Y, shaped n nc Y -> exists Z, for_each (fun (_ : nat) Y => f Y) l Y = Ok Z /\ shaped n nc Z /\
    forall c i, (c < nc)%nat -> (i < n)%nat -> entry Z c i = rsum (length l) (Rpow_def.pow beta) * g c i + beta ^ length l * entry Y c i).
  { clear Y HY. induction l as [|a l IH]; intros Y HY.
    - exists Y. split; [done|]. split; [done|]. intros c i _ _. cbn. lra.
    - destruct (Hf Y HY) as (Z1 & E1 & S1 & V1). destruct (IH Z1 S1) as (Z & E & S & V). exists Z. cbn [for_each]. rewrite E1. split; [exact E|]. split; [done|].
      intros c i Hc Hi. rewrite (V c i Hc Hi), (V1 c i Hc Hi). cbn [length rsum Rpow_def.pow]. lra. }
  destruct (Hgen (seq 0 k) Y HY) as (Z & E & S & V). rewrite seq_length in V. by exists Z.
Qed.
Lemma jacobi_entry_ok damping thr v : jacobi_entry damping thr v = if Req_EM_T (Rmax (Rabs v) thr) 0 then UB else Ok ((if Rlt_dec v 0 then -1 else 1) * damping / Rmax (Rabs v) thr).
Proof. reflexivity. Qed.
