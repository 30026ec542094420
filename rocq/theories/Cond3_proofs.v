(** C42: sums, and the effect of condenseSystem. *)
From Coq Require Import Ring Ring_theory.
From Verif Require Import Base StdAlgo Elem_model Elem_spec Elem_proofs Mesh_model Mesh_spec Mesh_proofs Partition_model LocalView_model Periodic_proofs Sparsity_proofs Sparsity2_proofs Cond_model Cond_spec Cond_proofs Cond2_proofs.
Local Arguments Nat.mul : simpl never.
Local Arguments Nat.add : simpl never.
Local Arguments Nat.sub : simpl never.

Lemma pos_map {A} (f : A -> bool) (l : list A) d : map (fun k => nth k l d) (List.filter (at_pos f l) (seq 0 (length l))) = List.filter f l.
Proof.
  induction l as [|a l IH] using rev_ind; [done|]. rewrite app_length. cbn [length]. rewrite Nat.add_1_r, seq_S, List.filter_app, map_app, Nat.add_0_l, List.filter_app.
  assert (E : List.filter (at_pos f (l ++ [a])) (seq 0 (length l)) = List.filter (at_pos f l) (seq 0 (length l))).
  { apply List.filter_ext_in. intros k Hk%elem_of_list_In%elem_of_seq. unfold at_pos. by rewrite lookup_app_l by lia. }
  rewrite E. f_equal.
  - rewrite <- IH. apply List.map_ext_in. intros k Hk%elem_of_list_In. apply elem_of_filter' in Hk as [Hk _]. apply elem_of_seq in Hk. apply app_nth1. lia.
  - cbn [List.filter]. unfold at_pos. rewrite list_lookup_middle by done. destruct (f a); [|done]. cbn [map]. f_equal. rewrite app_nth2 by lia. by rewrite Nat.sub_diag.
Qed.
Section sums.
  Context {F : Type} (zero one : F) (add mul sub : F -> F -> F) (opp : F -> F) (Rth : ring_theory zero one add mul sub opp (@eq F)).
  Add Ring Fring : Rth.
  Notation Sig := (Sig zero add).
  Notation only := (only zero).
  Infix "+!" := add (at level 50, left associativity).
  Infix "*!" := mul (at level 40, left associativity).
  Lemma Sig_nil {A} (f : A -> F) : Sig [] f = zero.
  Proof. done. Qed.
  Lemma Sig_cons {A} a (l : list A) f : Sig (a :: l) f = f a +! Sig l f.
  Proof. done. Qed.
  Lemma Sig_app {A} (l l' : list A) f : Sig (l ++ l') f = Sig l f +! Sig l' f.
  Proof. induction l as [|a l IH]; cbn [app]; [rewrite Sig_nil; ring|]. rewrite !Sig_cons, IH. ring. Qed.
  Lemma Sig_ext {A} (l : list A) f h : (forall a, a ∈ l -> f a = h a) -> Sig l f = Sig l h.
  Proof. induction l as [|a l IH]; intros H; [done|]. rewrite !Sig_cons. rewrite (H a) by left. rewrite IH; [done|]. intros x Hx. apply H. by right. Qed.
  Lemma Sig_0 {A} (l : list A) f : (forall a, a ∈ l -> f a = zero) -> Sig l f = zero.
  Proof. induction l as [|a l IH]; intros H; [done|]. rewrite !Sig_cons. rewrite (H a) by left. rewrite IH; [ring|]. intros x Hx. apply H. by right. Qed.
  Lemma Sig_add {A} (l : list A) f h : Sig l (fun a => f a +! h a) = Sig l f +! Sig l h.
  Proof. induction l as [|a l IH]; [rewrite !Sig_nil; ring|]. rewrite !Sig_cons, IH. ring. Qed.
  Lemma Sig_mul_l {A} (l : list A) c f : c *! Sig l f = Sig l (fun a => c *! f a).
  Proof. induction l as [|a l IH]; [rewrite !Sig_nil; ring|]. rewrite !Sig_cons, <- IH. ring. Qed.
  Lemma Sig_mul_r {A} (l : list A) c f : Sig l f *! c = Sig l (fun a => f a *! c).
  Proof. induction l as [|a l IH]; [rewrite !Sig_nil; ring|]. rewrite !Sig_cons, <- IH. ring. Qed.
  Lemma Sig_opp {A} (l : list A) f : opp (Sig l f) = Sig l (fun a => opp (f a)).
  Proof. induction l as [|a l IH]; [rewrite !Sig_nil; ring|]. rewrite !Sig_cons, <- IH. ring. Qed.
  Lemma Sig_swap {A B} (l : list A) (l' : list B) f : Sig l (fun a => Sig l' (fun b => f a b)) = Sig l' (fun b => Sig l (fun a => f a b)).
  Proof.
    induction l as [|a l IH]; [symmetry; by apply Sig_0|]. rewrite Sig_cons, IH. rewrite <- Sig_add. apply Sig_ext. intros b _. by rewrite Sig_cons.
  Qed.
  Lemma Sig_map {A B} (h : A -> B) (l : list A) f : Sig (map h l) f = Sig l (fun a => f (h a)).
  Proof. induction l as [|a l IH]; [done|]. cbn [map]. by rewrite !Sig_cons, IH. Qed.
  Lemma Sig_nth {A} (l : list A) d f : Sig (seq 0 (length l)) (fun t => f (nth t l d)) = Sig l f.
  Proof.
    rewrite <- (Sig_map (fun t => nth t l d) (seq 0 (length l)) f). f_equal. apply list_eq. intros k. change (map ?h ?m) with (h <$> m). rewrite list_lookup_fmap. destruct (decide (k < length l)) as [Hk|Hk].
    - rewrite lookup_seq_lt by done. cbn. destruct (lookup_lt_is_Some_2 l k Hk) as [x Hx]. rewrite Hx. f_equal. by apply nth_lookup_Some.
    - rewrite !lookup_ge_None_2 by (rewrite ?seq_length; lia). done.
  Qed.
  Lemma msum_Sig n f : msum zero add n f = Sig (seq 0 n) f.
  Proof. done. Qed.
  (** ** Conditions. *)
  Lemma only_ext (P Q : Prop) `{Decision P, Decision Q} x y : (P <-> Q) -> (P -> x = y) -> only P x = only Q y.
  Proof. intros H1 H2. unfold Cond_spec.only. destruct (decide P), (decide Q); tauto || by apply H2. Qed.
  Lemma only_true (P : Prop) `{Decision P} x : P -> only P x = x.
  Proof. intros HP. unfold Cond_spec.only. by rewrite decide_True. Qed.
  Lemma only_false (P : Prop) `{Decision P} x : ~ P -> only P x = zero.
  Proof. intros HP. unfold Cond_spec.only. by rewrite decide_False. Qed.
  Lemma only_0 (P : Prop) `{Decision P} : only P zero = zero.
  Proof. unfold Cond_spec.only. by destruct (decide P). Qed.
  Lemma only_mul_r (P : Prop) `{Decision P} x y : only P x *! y = only P (x *! y).
  Proof. unfold Cond_spec.only. destruct (decide P); ring. Qed.
  Lemma only_mul_l (P : Prop) `{Decision P} x y : y *! only P x = only P (y *! x).
  Proof. unfold Cond_spec.only. destruct (decide P); ring. Qed.
  Lemma only_opp (P : Prop) `{Decision P} x : opp (only P x) = only P (opp x).
  Proof. unfold Cond_spec.only. destruct (decide P); ring. Qed.
  Lemma only_add (P : Prop) `{Decision P} x y : only P (x +! y) = only P x +! only P y.
  Proof. unfold Cond_spec.only. destruct (decide P); ring. Qed.
  Lemma only_swap (P Q : Prop) `{Decision P, Decision Q} x : only P (only Q x) = only Q (only P x).
  Proof. unfold Cond_spec.only. by destruct (decide P), (decide Q). Qed.
  Lemma only_Sig {A} (P : Prop) `{Decision P} (l : list A) f : only P (Sig l f) = Sig l (fun a => only P (f a)).
  Proof. unfold Cond_spec.only at 1. destruct (decide P) as [HP|HP]; [apply Sig_ext; intros a _; by rewrite only_true|]. symmetry. apply Sig_0. intros a _. by apply only_false. Qed.
  Lemma Sig_filter {A} (p : A -> bool) l f : Sig (List.filter p l) f = Sig l (fun a => only (p a = true) (f a)).
  Proof.
    induction l as [|a l IH]; [done|]. cbn [List.filter]. destruct (p a) eqn:E.
    - rewrite !Sig_cons, IH. by rewrite only_true.
    - rewrite Sig_cons, IH, only_false by congruence. ring.
  Qed.
  Lemma Sig_one {A} `{EqDecision A} (l : list A) x f : NoDup l -> x ∈ l -> Sig l (fun a => only (a = x) (f a)) = f x.
  Proof.
    intros Hn. induction Hn as [|a l Ha Hn IH]; intros Hx; [by apply elem_of_nil in Hx|]. rewrite Sig_cons. apply elem_of_cons in Hx as [-> |Hx].
    - rewrite only_true by done. rewrite (Sig_0 l); [ring|]. intros b Hb. apply only_false. by intros ->.
    - rewrite only_false by (intros ->; done). rewrite (IH Hx). ring.
  Qed.

  (** ** Loops that add. *)
  Notation mat := (nat -> nat -> F).
  Lemma loop_sum {X} (f : X -> mat -> res mat) (dl : X -> nat -> nat -> F) (l : list X) m :
    (forall x m, x ∈ l -> exists m', f x m = Ok m' /\ forall i j, m' i j = m i j +! dl x i j) ->
    exists m', for_each f l m = Ok m' /\ forall i j, m' i j = m i j +! Sig l (fun x => dl x i j).
  Proof.
    revert m. induction l as [|x l IH]; intros m H; cbn [for_each].
    - exists m. split; [done|]. intros i j. rewrite Sig_nil. ring.
    - destruct (H x m ltac:(left)) as (m1 & E1 & H1). rewrite E1, bind_ok. destruct (IH m1) as (m2 & E2 & H2); [intros y m' Hy; apply H; by right|]. exists m2. split; [done|]. intros i j. rewrite H2, H1, Sig_cons. ring.
  Qed.
  Lemma loop_sum2 {X} (f : X -> mat * mat -> res (mat * mat)) (d1 d2 : X -> nat -> nat -> F) (l : list X) m1 m2 :
    (forall x m1 m2, x ∈ l -> exists m1' m2', f x (m1, m2) = Ok (m1', m2') /\ (forall i j, m1' i j = m1 i j +! d1 x i j) /\ forall i j, m2' i j = m2 i j +! d2 x i j) ->
    exists m1' m2', for_each f l (m1, m2) = Ok (m1', m2') /\ (forall i j, m1' i j = m1 i j +! Sig l (fun x => d1 x i j)) /\ forall i j, m2' i j = m2 i j +! Sig l (fun x => d2 x i j).
  Proof.
    revert m1 m2. induction l as [|x l IH]; intros m1 m2 H; cbn [for_each].
    - exists m1, m2. split; [done|]. split; intros i j; rewrite Sig_nil; ring.
    - destruct (H x m1 m2 ltac:(left)) as (a1 & a2 & E1 & H1 & H2). rewrite E1, bind_ok. destruct (IH a1 a2) as (b1 & b2 & E2 & H3 & H4); [intros y m m' Hy; apply H; by right|]. exists b1, b2. split; [done|]. split; intros i j; [rewrite H3, H1|rewrite H4, H2]; rewrite Sig_cons; ring.
  Qed.
  Lemma upd_at m i j v i' j' : upd add m i j v i' j' = m i' j' +! only (i = i') (only (j = j') v).
  Proof. unfold upd, Cond_spec.only. destruct (Nat.eqb_spec i' i), (Nat.eqb_spec j' j); cbn; repeat destruct (decide _); subst; try done; try ring; congruence. Qed.
  Lemma madd_ok r c m i j v : i < r -> j < c -> exists m', madd add r c m i j v = Ok m' /\ forall i' j', m' i' j' = m i' j' +! only (i = i') (only (j = j') v).
  Proof. intros Hi Hj. unfold madd. rewrite (proj2 (Nat.ltb_lt _ _) Hi), (proj2 (Nat.ltb_lt _ _) Hj). cbn. eexists. split; [reflexivity|]. intros. apply upd_at. Qed.
  Lemma gadd_ok m i j v : exists m', gadd add m (Some i) (Some j) v = Ok m' /\ forall i' j', m' i' j' = m i' j' +! only (i = i') (only (j = j') v).
  Proof. eexists. split; [reflexivity|]. intros. apply upd_at. Qed.
  (** [rr], [cc], [hh]: row, column and right-hand side index of the unknown [k]. *)
  Lemma scatter_ok (idx : list nat) (rr cc hh : nat -> nat) nr (a b a' b' : mat) m h :
    (forall i j, i < length idx -> j < length idx -> a' i j = a (nth i idx 0) (nth j idx 0)) -> (forall i r, i < length idx -> b' i r = b (nth i idx 0) r) ->
    exists m' h', scatter add (length idx) nr a' b' (map (fun k => Some (rr k)) idx) (map (fun k => Some (cc k)) idx) (map (fun k => Some (hh k)) idx) (m, h) = Ok (m', h') /\
      (forall i j, m' i j = m i j +! Sig idx (fun k => only (rr k = i) (Sig idx (fun l => only (cc l = j) (a k l))))) /\
      (forall i r, r < nr -> h' i r = h i r +! Sig idx (fun k => only (hh k = i) (b k r))).
  Proof.
    intros Ha Hb. unfold scatter. set (f := fun k (g : gsys) => _ : res gsys).
    assert (Hat : forall (q : nat -> nat) t, t < length idx -> rd (map (fun k => Some (q k)) idx) t = Ok (Some (q (nth t idx 0)))).
    { intros q t Hlt. apply rd_ok. rewrite (list_lookup_fmap (fun k => Some (q k))). destruct (lookup_lt_is_Some_2 idx t Hlt) as [x Hx]. rewrite Hx. cbn. f_equal. f_equal. f_equal. symmetry. by apply nth_lookup_Some. }
    destruct (loop_sum2 f (fun k i j => only (rr (nth k idx 0) = i) (Sig idx (fun l => only (cc l = j) (a (nth k idx 0) l)))) (fun k i r => only (r < nr) (only (hh (nth k idx 0) = i) (b (nth k idx 0) r))) (seq 0 (length idx)) m h) as (m' & h' & E & H1 & H2).
    - intros k m1 h1 Hk. apply elem_of_seq in Hk. unfold f. rewrite (Hat rr k), bind_ok by lia. cbn [fst snd].
      destruct (loop_sum (fun l m => c ← rd (map (fun k => Some (cc k)) idx) l; gadd add m (Some (rr (nth k idx 0))) c (a' k l)) (fun l i j => only (rr (nth k idx 0) = i) (only (cc (nth l idx 0) = j) (a (nth k idx 0) (nth l idx 0)))) (seq 0 (length idx)) m1) as (m2 & E2 & H2).
      { intros l m2 Hl. apply elem_of_seq in Hl. rewrite Hat, bind_ok by lia. rewrite <- Ha by lia. apply gadd_ok. }
      rewrite E2, bind_ok, (Hat hh k), bind_ok by lia.
      destruct (loop_sum (fun i v => gadd add v (Some (hh (nth k idx 0))) (Some i) (b' k i)) (fun r i j => only (hh (nth k idx 0) = i) (only (r = j) (b (nth k idx 0) r))) (seq 0 nr) h1) as (h2 & E3 & H3).
      { intros l m3 _. rewrite <- Hb by lia. apply gadd_ok. }
      rewrite E3, bind_ok. exists m2, h2. split; [done|]. split.
      + intros i j. rewrite H2. f_equal. rewrite only_Sig. symmetry. rewrite <- (Sig_nth idx 0). done.
      + intros i j. rewrite H3. f_equal. rewrite <- only_Sig. rewrite only_swap. apply only_ext; [done|]. intros Hi. destruct (decide (j < nr)) as [Hj|Hj].
        * rewrite only_true by done. apply (Sig_one (seq 0 nr) j (fun r => b (nth k idx 0) r)); [apply NoDup_seq|apply elem_of_seq; lia].
        * rewrite only_false by done. apply Sig_0. intros r Hr. apply elem_of_seq in Hr. apply only_false. lia.
    - exists m', h'. split; [done|]. split.
      + intros i j. rewrite H1. f_equal. symmetry. rewrite <- (Sig_nth idx 0 (fun k => only (rr k = i) _)). done.
      + intros i r Hr. rewrite H2. f_equal. rewrite <- (Sig_nth idx 0). apply Sig_ext. intros k _. by apply only_true.
  Qed.
End sums.
