(** C77: integrals of functions that are nowhere negative. *)
From Coq Require Import Reals Lra.
From Verif Require Import Base Elem_model Poly_spec Poly_proofs Basis_spec Gauss_spec Geom_proofs Integral_spec Integral3_proofs.
Local Open Scope R_scope.
Lemma int_sign f v : integral_is f v -> (forall x, -1 < x < 1 -> 0 <= f x) -> 0 <= v /\ (v = 0 -> forall x, -1 < x < 1 -> f x = 0).
Proof.
  intros (F & HF & ->) Hf.
  assert (Hm : forall a b, -1 <= a -> a <= b -> b <= 1 -> F a <= F b).
  { intros a b Ha Hab Hb. destruct (Req_dec a b) as [->|Hne]; [lra|]. destruct (MVT_cor2 F f a b) as (c & Hc & Hin); [lra|intros; apply HF|]. assert (0 <= f c * (b - a)) by (apply Rmult_le_pos; [apply Hf|]; lra). lra. }
  split; [pose proof (Hm (-1) 1); lra|]. intros H0 x Hx. assert (Hk : forall y, -1 <= y <= 1 -> F y = F 1). { intros y Hy. pose proof (Hm (-1) y). pose proof (Hm y 1). lra. }
  pose proof (Hf x Hx) as Hfx. destruct (Req_dec (f x) 0) as [|Hne]; [done|]. exfalso. destruct (HF x (f x) ltac:(lra)) as [d Hd]. pose proof (cond_pos d) as Hdp.
  set (h := Rmin (d / 2) ((1 - x) / 2)). assert (Hh : 0 < h /\ h <= d / 2 /\ h <= (1 - x) / 2). { unfold h. split; [apply Rmin_pos; lra|]. split; [apply Rmin_l|apply Rmin_r]. }
  specialize (Hd h ltac:(lra)). rewrite (Rabs_right h) in Hd by lra. specialize (Hd ltac:(lra)). rewrite (Hk (x + h)), (Hk x) in Hd by lra. replace ((F 1 - F 1) / h - f x) with (- f x) in Hd by (field; lra). rewrite Rabs_Ropp, Rabs_right in Hd by lra. lra.
Qed.
Lemma on_sign t f v : integral_on t f v -> (forall p, inside t p -> 0 <= f p) -> 0 <= v /\ (v = 0 -> forall p, inside t p -> f p = 0).
Proof.
  assert (I3 : forall x y z, -1 < x < 1 -> -1 < y < 1 -> -1 < z < 1 -> inside Hex [x; y; z]) by (intros; split; [done|]; repeat (apply Forall_cons; split; [done|]); by apply Forall_nil).
  assert (I2 : forall x y, -1 < x < 1 -> -1 < y < 1 -> inside Quad [x; y]) by (intros; split; [done|]; repeat (apply Forall_cons; split; [done|]); by apply Forall_nil).
  assert (I1 : forall x, -1 < x < 1 -> inside Line [x]) by (intros; split; [done|]; repeat (apply Forall_cons; split; [done|]); by apply Forall_nil).
  destruct t; cbn [integral_on]; intros Hi Hf.
  - destruct Hi as (g & h & Hg & Hh & Hv).
    assert (Sg : forall y z, -1 < y < 1 -> -1 < z < 1 -> 0 <= g y z /\ (g y z = 0 -> forall x, -1 < x < 1 -> f [x; y; z] = 0)) by (intros y z Hy Hz; apply (int_sign _ _ (Hg y z)); intros x Hx; apply Hf; by apply I3).
    assert (Sh : forall z, -1 < z < 1 -> 0 <= h z /\ (h z = 0 -> forall y, -1 < y < 1 -> g y z = 0)) by (intros z Hz; apply (int_sign _ _ (Hh z)); intros y Hy; by apply Sg).
    destruct (int_sign _ _ Hv) as [S1 S2]; [intros z Hz; by apply Sh|]. split; [done|]. intros H0 p [Hl Hp]. destruct p as [|x [|y [|z [|]]]]; try done. rewrite !Forall_cons in Hp. destruct Hp as (Hx & Hy & Hz & _).
    apply Sg; [done|done| |done]. apply Sh; [done| |done]. by apply S2.
  - destruct Hi as (g & Hg & Hv).
    assert (Sg : forall y, -1 < y < 1 -> 0 <= g y /\ (g y = 0 -> forall x, -1 < x < 1 -> f [x; y] = 0)) by (intros y Hy; apply (int_sign _ _ (Hg y)); intros x Hx; apply Hf; by apply I2).
    destruct (int_sign _ _ Hv) as [S1 S2]; [intros y Hy; by apply Sg|]. split; [done|]. intros H0 p [Hl Hp]. destruct p as [|x [|y [|]]]; try done. rewrite !Forall_cons in Hp. destruct Hp as (Hx & Hy & _).
    apply Sg; [done| |done]. by apply S2.
  - destruct (int_sign _ _ Hi) as [S1 S2]; [intros x Hx; apply Hf; by apply I1|]. split; [done|]. intros H0 p [Hl Hp]. destruct p as [|x [|]]; try done. rewrite Forall_cons in Hp. apply (S2 H0). tauto.
Qed.
Lemma quad_sign t QO f v : quadrature_of t QO f v -> (forall p, inside t p -> 0 <= f p) -> 0 <= v.
Proof.
  intros [(pts & ws & Hl & Hp & Hw & ->) _] Hf. rewrite Forall_forall in Hp. rewrite Forall_forall in Hw. apply rsum_pos. intros i Hi. apply Rmult_le_pos.
  - apply Rlt_le, Hw. destruct (lookup_lt_is_Some_2 ws i Hi) as [w E]. rewrite (nth_lookup_Some ws i 0 w E). by eapply elem_of_list_lookup_2.
  - apply Hf, Hp. rewrite <- Hl in Hi. destruct (lookup_lt_is_Some_2 pts i Hi) as [q E]. rewrite (nth_lookup_Some pts i [] q E). by eapply elem_of_list_lookup_2.
Qed.
Lemma over_sign {A} (l : list A) g : (forall a, a ∈ l -> 0 <= g a) -> 0 <= over l g /\ (over l g = 0 -> forall a, a ∈ l -> g a = 0).
Proof.
  induction l as [|a l IH]; intros H; [split; [cbn; lra|intros _ a Ha; by apply elem_of_nil in Ha]|]. destruct IH as [I1 I2]; [intros; apply H; by right|]. pose proof (H a ltac:(left)) as Ha. unfold over in *. cbn [foldr]. split; [lra|].
  intros H0 b Hb. apply elem_of_cons in Hb as [->|Hb]; [lra|]. apply I2; [lra|done].
Qed.
