(** The values of a solution manager. *)
From Verif Require Import Base StdAlgo Ownership_model Helpers_model SolMan_model SolMan_spec.

Lemma cell_eq n i j i' j' : j < n -> j' < n -> i * n + j = i' * n + j' -> i = i' /\ j = j'.
Proof. intros Hj Hj' E. destruct (Nat.lt_trichotomy i i') as [H|[->|H]]; [nia|split; lia|nia]. Qed.
Lemma cell_lt n f i j : i < f -> j < n -> i * n + j < n * f.
Proof. nia. Qed.
Section values.
  Context {V : Type}.
  Definition holds (own : ownership) (fields : nat) (m : nat -> nat -> V) (s : manager V) : Prop :=
    sm_own s = own /\ sm_nodes s = localSize own /\ sm_fields s = fields /\ length (sm_values s) = localSize own * fields /\
    forall f n, f < fields -> n < localSize own -> sm_values s !! (f * localSize own + n) = Some (m f n).
  Lemma holds_make own fields (x : V) : holds own fields (fun _ _ => x) (make_manager own fields x).
  Proof.
    split; [done|]. split; [done|]. split; [done|]. cbn [make_manager sm_values]. split; [apply replicate_length|]. intros f n Hf Hn. apply lookup_replicate_2. by apply cell_lt.
  Qed.
  Lemma holds_get own fields m (s : manager V) f n : holds own fields m s -> f < fields -> n < localSize own -> view_get f n s = Ok (m f n).
  Proof. intros (H1 & H2 & H3 & H4 & H5) Hf Hn. unfold view_get. rewrite H2, (proj2 (Nat.ltb_lt _ _) Hn). by apply rd_ok, H5. Qed.
  Lemma holds_put own fields m (s : manager V) i j x : holds own fields m s -> i < fields -> j < localSize own ->
    holds own fields (fun f n => if decide (f = i /\ n = j) then x else m f n) (with_values s (<[i * localSize own + j := x]> (sm_values s))).
  Proof.
    intros (H1 & H2 & H3 & H4 & H5) Hi Hj. split; [done|]. split; [done|]. split; [done|]. cbn [with_values sm_values]. split; [by rewrite insert_length|]. intros f n Hf Hn. destruct (decide (f = i /\ n = j)) as [[-> ->]|Hne].
    - apply list_lookup_insert. rewrite H4. by apply cell_lt.
    - rewrite list_lookup_insert_ne; [by apply H5|]. intros E. apply Hne. destruct (cell_eq (localSize own) i j f n Hj Hn E). done.
  Qed.
  Lemma holds_ext own fields m m' (s : manager V) : holds own fields m s -> (forall f n, f < fields -> n < localSize own -> m f n = m' f n) -> holds own fields m' s.
  Proof. intros (H1 & H2 & H3 & H4 & H5) E. split; [done|]. split; [done|]. split; [done|]. split; [done|]. intros f n Hf Hn. rewrite <- E by done. by apply H5. Qed.
  Lemma view_set_ok own fields m (s : manager V) i j x : holds own fields m s -> i < fields -> j < localSize own ->
    exists s', view_set i j x s = Ok s' /\ holds own fields (fun f n => if decide (f = i /\ n = j) then x else m f n) s'.
  Proof.
    intros H Hi Hj. pose proof H as (H1 & H2 & H3 & H4 & H5). unfold view_set. rewrite H2, (proj2 (Nat.ltb_lt _ _) Hj), wr_ok by (rewrite H4; by apply cell_lt). rewrite bind_ok. eexists. split; [done|]. by apply holds_put.
  Qed.
  Lemma raw_set_ok own fields m (s : manager V) i j x : holds own fields m s -> i < fields -> j < localSize own ->
    exists s', raw_set j i x s = Ok s' /\ holds own fields (fun f n => if decide (f = i /\ n = j) then x else m f n) s'.
  Proof.
    intros H Hi Hj. pose proof H as (H1 & H2 & H3 & H4 & H5). unfold raw_set. rewrite H2, H3, (proj2 (Nat.ltb_lt _ _) Hj), (proj2 (Nat.ltb_lt _ _) Hi). cbn [andb]. rewrite (Nat.add_comm j), wr_ok by (rewrite H4; by apply cell_lt). rewrite bind_ok. eexists. split; [done|]. by apply holds_put.
  Qed.
  Lemma fill_ok own fields m (s : manager V) i x : holds own fields m s -> i < fields ->
    exists s', for_each (fun j s => view_set i j x s) (seq 0 (sm_nodes s)) s = Ok s' /\ holds own fields (fun f n => if decide (f = i) then x else m f n) s'.
  Proof.
    intros H Hi. assert (E : sm_nodes s = localSize own) by apply H. rewrite E.
    assert (G : forall d k m s, k + d = localSize own -> holds own fields m s -> exists s', for_each (fun j s => view_set i j x s) (seq k d) s = Ok s' /\ holds own fields (fun f n => if decide (f = i /\ k <= n) then x else m f n) s').
    { clear m s H E. induction d as [|d IH]; intros k m s Hk H; cbn [seq for_each].
      - exists s. split; [done|]. eapply holds_ext; [exact H|]. intros f n Hf Hn. cbn. rewrite decide_False by lia. done.
      - destruct (view_set_ok own fields m s i k x H Hi) as (s1 & -> & H1); [lia|]. rewrite bind_ok. destruct (IH (S k) _ s1 ltac:(lia) H1) as (s2 & -> & H2). exists s2. split; [done|]. eapply holds_ext; [exact H2|]. intros f n Hf Hn. cbn.
        destruct (decide (f = i /\ k <= n)); repeat case_decide; try done; lia. }
    destruct (G (localSize own) 0 m s eq_refl H) as (s' & E1 & H1). exists s'. split; [done|]. eapply holds_ext; [exact H1|]. intros f n Hf Hn. cbn. repeat case_decide; try done; lia.
  Qed.
  Lemma set_fields_ok own fields m (s : manager V) inds x : holds own fields m s -> Forall (fun i => i < fields) inds ->
    exists s', set_fields inds x s = Ok s' /\ holds own fields (fun f n => if decide (f ∈ inds) then x else m f n) s'.
  Proof.
    intros H Hi. unfold set_fields. revert m s H. induction Hi as [|i inds Hi _ IH]; intros m s H; cbn [for_each].
    - exists s. split; [done|]. eapply holds_ext; [exact H|]. intros f n _ _. cbn. rewrite decide_False by (by intros ?%elem_of_nil). done.
    - destruct (fill_ok own fields m s i x H Hi) as (s1 & -> & H1). rewrite bind_ok. destruct (IH _ s1 H1) as (s2 & -> & H2). exists s2. split; [done|]. eapply holds_ext; [exact H2|]. intros f n _ _. cbn.
      destruct (decide (f ∈ i :: inds)) as [D|D]; rewrite elem_of_cons in D; repeat case_decide; try done; tauto.
  Qed.
  Lemma apply_ok own fields m (s : manager V) c : holds own fields m s -> within fields (localSize own) c -> exists s', apply c s = Ok s' /\ holds own fields (changed m c) s'.
  Proof. intros H Hw. destruct c as [inds x|i j x|j i x]; cbn in Hw; [by apply set_fields_ok|apply view_set_ok; tauto|apply raw_set_ok; tauto]. Qed.
  Lemma changes_ok own fields m (s : manager V) l : holds own fields m s -> Forall (within fields (localSize own)) l -> exists s', for_each apply l s = Ok s' /\ holds own fields (foldl changed m l) s'.
  Proof.
    intros H Hl. revert m s H. induction Hl as [|c l Hc _ IH]; intros m s H; cbn [for_each foldl]; [eauto|]. destruct (apply_ok own fields m s c H Hc) as (s1 & -> & H1). rewrite bind_ok. by apply IH.
  Qed.
  Lemma access_ok own fields m (s : manager V) inds nodes : holds own fields m s -> Forall (fun i => i < fields) inds -> Forall (fun n => n < localSize own) nodes ->
    access_local (mk_access inds own) nodes s = Ok (map (fun n => map (fun f => m f n) inds) nodes).
  Proof.
    intros (H1 & H2 & H3 & H4 & H5) Hi Hn. unfold access_local. cbn [fa_inds fa_own]. apply map_res_ok. intros n Hn'. apply map_res_ok. intros f Hf. apply rd_ok. rewrite Nat.add_comm. apply H5; [by eapply (proj1 (Forall_forall _ _) Hi)|by eapply (proj1 (Forall_forall _ _) Hn)].
  Qed.
End values.
