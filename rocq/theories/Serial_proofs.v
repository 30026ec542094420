From Verif Require Import Base Serial_model Serial_spec.
Local Arguments Nat.ltb : simpl never.
Local Arguments Nat.leb : simpl never.
Local Arguments Nat.eqb : simpl never.

Definition ser_all (vs : list val) : list byte := concat (map serialize vs).
Definition loop (t : ty) := (fix loop (n : nat) (s : list byte) : res (list val * list byte) :=
  match n with O => Ok ([], s) | S n => r ← deserialize t s; q ← loop n r.2; Ok (r.1 :: q.1, q.2) end).
Definition each := (fix each (ts : list ty) (s : list byte) : res (list val * list byte) :=
  match ts with [] => Ok ([], s) | t :: ts => r ← deserialize t s; q ← each ts r.2; Ok (r.1 :: q.1, q.2) end).
Definition typed_each := (fix each (ts : list ty) (vs : list val) : Prop :=
  match ts, vs with [], [] => True | t :: ts, v :: vs => has_type t v /\ each ts vs | _, _ => False end).

Lemma ser_fix vs : (fix all vs := match vs with [] => [] | v :: vs => serialize v ++ all vs end) vs = ser_all vs.
Proof. induction vs as [|v vs IH]; [done|]. cbn. by rewrite IH. Qed.
Lemma ser_range vs : serialize (VRange vs) = le_bytes szsz (N.of_nat (length vs)) ++ ser_all vs.
Proof. cbn [serialize]. by rewrite ser_fix. Qed.
Lemma ser_tuple vs : serialize (VTuple vs) = ser_all vs.
Proof. cbn [serialize]. by rewrite ser_fix. Qed.

Section ty_ind.
  Context (P : ty -> Prop) (Hp : forall n, P (TPod n)) (Hr : forall t, P t -> P (TRange t)) (Ht : forall ts, Forall P ts -> P (TTuple ts)).
  Fixpoint ty_ind' (t : ty) : P t :=
    match t with
    | TPod n => Hp n
    | TRange t => Hr t (ty_ind' t)
    | TTuple ts => Ht ts ((fix go ts : Forall P ts := match ts with [] => Forall_nil_2 _ | t :: ts => Forall_cons_2 _ _ _ (ty_ind' t) (go ts) end) ts)
    end.
End ty_ind.

Lemma le_length k n : length (le_bytes k n) = k.
Proof. revert n. induction k as [|k IH]; intros n; [done|]. cbn. by rewrite IH. Qed.
Lemma le_round k n : (n < 256 ^ N.of_nat k)%N -> le_value (le_bytes k n) = n.
Proof.
  revert n. induction k as [|k IH]; intros n H.
  - cbn in H. cbn. lia.
  - cbn [le_bytes le_value]. rewrite IH.
    + pose proof (N.div_mod n 256). lia.
    + rewrite Nat2N.inj_succ, N.pow_succ_r' in H. apply N.div_lt_upper_bound; lia.
Qed.
Lemma le_bytes_ok k n : Forall (fun b => (b < 256)%N) (le_bytes k n).
Proof. revert n. induction k as [|k IH]; intros n; cbn; constructor; [by apply N.mod_lt|apply IH]. Qed.
Lemma le_value_bound bs : Forall (fun b => (b < 256)%N) bs -> (le_value bs < 256 ^ N.of_nat (length bs))%N.
Proof.
  induction 1 as [|b bs Hb _ IH]; [cbn; lia|]. cbn [le_value List.length]. rewrite Nat2N.inj_succ, N.pow_succ_r'. lia.
Qed.
Lemma le_round2 bs : Forall (fun b => (b < 256)%N) bs -> le_bytes (length bs) (le_value bs) = bs.
Proof.
  induction 1 as [|b bs Hb _ IH]; [done|]. cbn [le_value List.length le_bytes]. f_equal.
  - rewrite N.mul_comm, N.mod_add by done. by apply N.mod_small.
  - rewrite N.mul_comm, N.div_add by done. rewrite N.div_small by done. exact IH.
Qed.
Lemma take_bytes_ok n bs rest : length bs = n -> take_bytes n (bs ++ rest) = Ok (bs, rest).
Proof.
  intros <-. unfold take_bytes. replace (length bs <=? length (bs ++ rest)) with true by (symmetry; apply Nat.leb_le; rewrite app_length; lia).
  by rewrite take_app, drop_app.
Qed.

Definition round_at (t : ty) : Prop := forall v rest, has_type t v -> deserialize t (serialize v ++ rest) = Ok (v, rest).
Lemma loop_ok t vs rest : round_at t -> Forall (has_type t) vs -> loop t (length vs) (ser_all vs ++ rest) = Ok (vs, rest).
Proof.
  intros IH. induction 1 as [|v vs Hv _ IHv]; [done|]. cbn [List.length loop]. unfold ser_all. cbn [map concat].
  rewrite <- app_assoc. rewrite (IH v _ Hv). cbn [mbind res_bind fst snd]. fold (loop t). unfold ser_all in IHv. rewrite IHv. done.
Qed.
Lemma each_ok ts vs rest : Forall round_at ts -> typed_each ts vs -> each ts (ser_all vs ++ rest) = Ok (vs, rest).
Proof.
  intros H. revert vs. induction H as [|t ts Ht _ IH]; intros [|v vs] Hv; try done. destruct Hv as [Hv Hvs].
  cbn [each]. unfold ser_all. cbn [map concat]. rewrite <- app_assoc, (Ht v _ Hv). cbn [mbind res_bind fst snd]. fold each.
  fold (ser_all vs). rewrite (IH vs Hvs). done.
Qed.
Lemma round_ok t : round_at t.
Proof.
  induction t as [n|t IH|ts IH] using ty_ind'; intros [bs|vs|vs] rest; cbn [has_type]; try done.
  - intros [H _]. cbn [deserialize serialize]. rewrite take_bytes_ok by done. done.
  - intros [Hn Hv]. rewrite ser_range, <- app_assoc. cbn [deserialize].
    rewrite take_bytes_ok by apply le_length. cbn [mbind res_bind fst snd].
    rewrite le_round by (cbn; lia). rewrite Nat2N.id. fold (loop t). rewrite loop_ok by done. done.
  - intros Hv. rewrite ser_tuple. cbn [deserialize]. fold each. rewrite (each_ok ts vs rest IH Hv). done.
Qed.

(** The other direction: whatever is accepted is the serialisation of a value,
    and nothing but an exception happens otherwise. *)
Definition back_at (t : ty) : Prop := forall s, Forall (fun b => (b < 256)%N) s ->
  deserialize t s = Throw \/ exists v rest, deserialize t s = Ok (v, rest) /\ has_type t v /\ s = serialize v ++ rest.
Lemma take_bytes_cases n s : take_bytes n s = Throw \/ exists a b, take_bytes n s = Ok (a, b) /\ s = a ++ b /\ length a = n.
Proof.
  unfold take_bytes. destruct (Nat.leb_spec n (length s)); [right|by left]. exists (take n s), (drop n s).
  split; [done|]. split; [by rewrite take_drop|]. rewrite take_length. lia.
Qed.
Lemma loop_back t n s : back_at t -> Forall (fun b => (b < 256)%N) s ->
  loop t n s = Throw \/ exists vs rest, loop t n s = Ok (vs, rest) /\ length vs = n /\ Forall (has_type t) vs /\ s = ser_all vs ++ rest.
Proof.
  intros IH. revert s. induction n as [|n IHn]; intros s Hs; cbn [loop].
  - right. exists [], s. done.
  - destruct (IH s Hs) as [-> |(v & r & -> & Hv & ->)]; [by left|]. cbn [mbind res_bind fst snd]. fold (loop t).
    apply Forall_app in Hs as [_ Hr]. destruct (IHn r Hr) as [-> |(vs & r' & -> & Hl & Hvs & ->)]; [by left|].
    right. exists (v :: vs), r'. split; [done|]. split; [by rewrite <- Hl|]. split; [by constructor|].
    unfold ser_all. cbn [map concat]. by rewrite app_assoc.
Qed.
Lemma each_back ts s : Forall back_at ts -> Forall (fun b => (b < 256)%N) s ->
  each ts s = Throw \/ exists vs rest, each ts s = Ok (vs, rest) /\ typed_each ts vs /\ s = ser_all vs ++ rest.
Proof.
  intros H. revert s. induction H as [|t ts Ht _ IH]; intros s Hs; cbn [each].
  - right. exists [], s. done.
  - destruct (Ht s Hs) as [-> |(v & r & -> & Hv & ->)]; [by left|]. cbn [mbind res_bind fst snd]. fold each.
    apply Forall_app in Hs as [_ Hr]. destruct (IH r Hr) as [-> |(vs & r' & -> & Hvs & ->)]; [by left|].
    right. exists (v :: vs), r'. split; [done|]. split; [done|]. unfold ser_all. cbn [map concat]. by rewrite app_assoc.
Qed.
Lemma back_ok t : back_at t.
Proof.
  induction t as [n|t IH|ts IH] using ty_ind'; intros s Hs; cbn [deserialize].
  - destruct (take_bytes_cases n s) as [-> |(a & b & -> & -> & Hl)]; [by left|]. right. exists (VPod a), b.
    split; [done|]. split; [|done]. apply Forall_app in Hs as [Ha _]. done.
  - destruct (take_bytes_cases szsz s) as [-> |(a & b & -> & -> & Hl)]; [by left|]. cbn [mbind res_bind fst snd]. fold (loop t).
    apply Forall_app in Hs as [Ha Hb].
    destruct (loop_back t (N.to_nat (le_value a)) b IH Hb) as [-> |(vs & r & -> & Hn & Hv & ->)]; [by left|].
    right. exists (VRange vs), r. split; [done|]. pose proof (le_value_bound a Ha) as Hbd. rewrite Hl in Hbd.
    assert (Hlen : N.of_nat (length vs) = le_value a) by (rewrite Hn; by rewrite N2Nat.id). split.
    + cbn [has_type]. split; [|done]. rewrite Hlen. exact Hbd.
    + rewrite ser_range, Hlen. rewrite <- Hl, le_round2 by done. by rewrite app_assoc.
  - fold each. destruct (each_back ts s IH Hs) as [-> |(vs & r & -> & Hv & ->)]; [by left|]. right. exists (VTuple vs), r.
    split; [done|]. split; [done|]. by rewrite ser_tuple.
Qed.
Lemma serialize_bytes t v : has_type t v -> Forall (fun b => (b < 256)%N) (serialize v).
Proof.
  revert v. induction t as [n|t IH|ts IH] using ty_ind'; intros [bs|vs|vs]; cbn [has_type]; try done.
  - by intros [_ H].
  - intros [_ H]. rewrite ser_range. apply Forall_app. split; [apply le_bytes_ok|]. unfold ser_all.
    induction H as [|v vs Hv _ IHv]; cbn; [constructor|]. apply Forall_app. split; [by apply IH|done].
  - rewrite ser_tuple. revert vs. induction IH as [|t ts Ht _ IHt]; intros [|v vs]; try done; unfold ser_all; cbn; [constructor|].
    intros [Hv Hvs]. apply Forall_app. split; [by apply Ht|by apply IHt].
Qed.
Lemma truncated t v p q : has_type t v -> serialize v = p ++ q -> q <> [] -> deserialize t p = Throw.
Proof.
  intros Hv E Hq. pose proof (serialize_bytes t v Hv) as Hb. rewrite E in Hb. apply Forall_app in Hb as [Hp _].
  destruct (back_ok t p Hp) as [H|(v' & r & H & Hv' & ->)]; [done|]. exfalso.
  pose proof (round_ok t v [] Hv) as H1. rewrite app_nil_r, E, <- app_assoc in H1.
  rewrite (round_ok t v' (r ++ q) Hv') in H1. injection H1 as _ H1. by apply app_eq_nil in H1 as [_ ->].
Qed.
