(** C43: all elements; elimination. *)
From Coq Require Import Ring Ring_theory.
From Verif Require Import Base StdAlgo Elem_model Elem_spec Elem_proofs Mesh_model Mesh_spec Mesh_proofs Partition_model LocalView_model Periodic_proofs Sparsity_proofs Sparsity2_proofs Cond_model Cond_spec Cond_proofs Cond2_proofs Cond3_proofs Cond4_proofs Cond5_proofs.
Local Arguments Nat.mul : simpl never.
Local Arguments Nat.add : simpl never.
Local Arguments Nat.sub : simpl never.

Section algebra.
  Context {F : Type} (zero one : F) (add mul sub : F -> F -> F) (opp : F -> F) (Rth : ring_theory zero one add mul sub opp (@eq F)).
  Add Ring Fring : Rth.
  Notation Sig := (Sig zero add).
  Notation only := (only zero).
  Notation mat := (nat -> nat -> F).
  Infix "+!" := add (at level 50, left associativity).
  Infix "*!" := mul (at level 40, left associativity).
  Notation Sig_add := (Sig_add zero one add mul sub opp Rth).
  Notation Sig_mul_l := (Sig_mul_l zero one add mul sub opp Rth).
  Notation Sig_mul_r := (Sig_mul_r zero one add mul sub opp Rth).
  Notation Sig_opp := (Sig_opp zero one add mul sub opp Rth).
  Notation Sig_swap := (Sig_swap zero one add mul sub opp Rth).
  Notation Sig_0 := (Sig_0 zero one add mul sub opp Rth).
  Notation only_Sig := (only_Sig zero one add mul sub opp Rth).
  Notation only_add := (only_add zero one add mul sub opp Rth).
  Notation only_mul_l := (only_mul_l zero one add mul sub opp Rth).
  Notation only_mul_r := (only_mul_r zero one add mul sub opp Rth).
  Lemma Sig_pick {A} `{EqDecision A} (l : list A) (o : option A) (f : A -> F) : NoDup l ->
    Sig l (fun w => only (o = Some w) (f w)) = match o with Some w => if bool_decide (w ∈ l) then f w else zero | None => zero end.
  Proof using Rth.
    intros Hn. destruct o as [w|]; [|apply Sig_0; intros a _; by apply only_false]. case_bool_decide as Hw.
    - rewrite <- (Sig_one zero one add mul sub opp Rth l w f) by done. apply Sig_ext. intros a _. apply only_ext; [|done]. split; congruence.
    - apply Sig_0. intros a Ha. apply only_false. congruence.
  Qed.
  Lemma load_ext K phi psi w : (forall k, k < length K -> phi k = psi k) -> load zero add K phi w = load zero add K psi w.
  Proof. clear Rth. intros H. apply Sig_ext. intros k Hk. apply elem_of_seq in Hk. f_equal. apply H. lia. Qed.
  Lemma load_add K phi psi w : load zero add K (fun k => phi k +! psi k) w = load zero add K phi w +! load zero add K psi w.
  Proof using Rth. unfold load. rewrite <- Sig_add. apply Sig_ext. intros k _. apply only_add. Qed.
  Lemma load_Sig {A} K (l : list A) (phi : A -> nat -> F) w : load zero add K (fun k => Sig l (fun a => phi a k)) w = Sig l (fun a => load zero add K (phi a) w).
  Proof using Rth. unfold load. rewrite <- Sig_swap. apply Sig_ext. intros k _. apply only_Sig. Qed.
  Lemma load_mul_r K phi c w : load zero add K (fun k => phi k *! c) w = load zero add K phi w *! c.
  Proof using Rth. unfold load. rewrite Sig_mul_r. apply Sig_ext. intros k _. by rewrite only_mul_r. Qed.
  Lemma gload_add K dof phi psi u : gload zero add K dof (fun k => phi k +! psi k) u = gload zero add K dof phi u +! gload zero add K dof psi u.
  Proof using Rth. unfold gload. rewrite <- Sig_add. apply Sig_ext. intros k _. apply only_add. Qed.
  Lemma gload_Sig {A} K dof (l : list A) (phi : A -> nat -> F) u : gload zero add K dof (fun k => Sig l (fun a => phi a k)) u = Sig l (fun a => gload zero add K dof (phi a) u).
  Proof using Rth. unfold gload. rewrite <- Sig_swap. apply Sig_ext. intros k _. apply only_Sig. Qed.
  Lemma gload_mul_r K dof phi c u : gload zero add K dof (fun k => phi k *! c) u = gload zero add K dof phi u *! c.
  Proof using Rth. unfold gload. rewrite Sig_mul_r. apply Sig_ext. intros k _. by rewrite only_mul_r. Qed.
  Lemma entry_sym K a w w' : (forall k l, k < length K -> l < length K -> a k l = a l k) -> entry zero add K a w w' = entry zero add K a w' w.
  Proof using Rth.
    intros Ha. unfold entry. transitivity (Sig (seq 0 (length K)) (fun k => Sig (seq 0 (length K)) (fun l => only (K !! k = Some w) (only (K !! l = Some w') (a k l))))).
    { apply Sig_ext. intros k _. apply only_Sig. }
    rewrite Sig_swap. apply Sig_ext. intros l Hl. rewrite only_Sig. apply Sig_ext. intros k Hk. apply elem_of_seq in Hl, Hk. rewrite only_swap. rewrite Ha by lia. done.
  Qed.
  (** One element. *)
  Lemma schur_row (q p : nat) (Up : mat) (N : mat) (f X Y : nat -> F) k :
    (forall j, j < q -> Y j = Sig (seq 0 q) (fun m => N j m *! (f m +! opp (Sig (seq 0 p) (fun l => Up l m *! X l))))) ->
    Sig (seq 0 q) (fun j => Up k j *! Y j) =
      Sig (seq 0 q) (fun m => Sig (seq 0 q) (fun j => Up k j *! N j m) *! f m) +!
      Sig (seq 0 p) (fun l => opp (Sig (seq 0 q) (fun m => Sig (seq 0 q) (fun j => Up k j *! N j m) *! Up l m)) *! X l).
  Proof using Rth.
    intros HY. transitivity (Sig (seq 0 q) (fun m => Sig (seq 0 q) (fun j => Up k j *! N j m) *! (f m +! opp (Sig (seq 0 p) (fun l => Up l m *! X l))))).
    - transitivity (Sig (seq 0 q) (fun j => Sig (seq 0 q) (fun m => Up k j *! N j m *! (f m +! opp (Sig (seq 0 p) (fun l => Up l m *! X l)))))).
      + apply Sig_ext. intros j Hj. apply elem_of_seq in Hj. rewrite HY by lia. rewrite Sig_mul_l. apply Sig_ext. intros m _. ring.
      + rewrite Sig_swap. apply Sig_ext. intros m _. by rewrite Sig_mul_r.
    - transitivity (Sig (seq 0 q) (fun m => Sig (seq 0 q) (fun j => Up k j *! N j m) *! f m +! Sig (seq 0 p) (fun l => opp (Sig (seq 0 q) (fun j => Up k j *! N j m) *! Up l m) *! X l))).
      + apply Sig_ext. intros m _. set (un := Sig (seq 0 q) _). transitivity (un *! f m +! opp un *! Sig (seq 0 p) (fun l => Up l m *! X l)); [ring|]. f_equal. rewrite Sig_mul_l. apply Sig_ext. intros l _. ring.
      + rewrite Sig_add. f_equal. rewrite Sig_swap. apply Sig_ext. intros l _. rewrite Sig_opp, Sig_mul_r. done.
  Qed.
  Lemma schur_local (q p : nat) (Dm N Up : mat) (f X Y : nat -> F) : is_inverse zero one add mul q Dm N ->
    (forall k, k < q -> Sig (seq 0 p) (fun l => Up l k *! X l) +! Sig (seq 0 q) (fun j => Dm k j *! Y j) = f k) <->
    (forall k, k < q -> Y k = Sig (seq 0 q) (fun j => N k j *! (f j +! opp (Sig (seq 0 p) (fun l => Up l j *! X l))))).
  Proof using Rth.
    intros HN.
    assert (Hone : forall (M M' : mat) Z k, (forall i j, i < q -> j < q -> Sig (seq 0 q) (fun m => M i m *! M' m j) = if i =? j then one else zero) -> k < q -> Sig (seq 0 q) (fun j => M k j *! Sig (seq 0 q) (fun m => M' j m *! Z m)) = Z k).
    { intros M M' Z k HM Hk. transitivity (Sig (seq 0 q) (fun j => Sig (seq 0 q) (fun m => M k j *! M' j m *! Z m))).
      { apply Sig_ext. intros j _. rewrite Sig_mul_l. apply Sig_ext. intros m _. ring. }
      rewrite Sig_swap. transitivity (Sig (seq 0 q) (fun m => only (m = k) (Z m))).
      { apply Sig_ext. intros m Hm. apply elem_of_seq in Hm. rewrite <- Sig_mul_r. rewrite HM by lia. destruct (Nat.eqb_spec k m) as [->|Hne]; [rewrite only_true by done; ring|rewrite only_false by congruence; ring]. }
      apply (Sig_one zero one add mul sub opp Rth (seq 0 q) k Z); [apply NoDup_seq|apply elem_of_seq; lia]. }
    split; intros H k Hk.
    - transitivity (Sig (seq 0 q) (fun j => N k j *! Sig (seq 0 q) (fun m => Dm j m *! Y m))).
      + symmetry. apply Hone; [|done]. intros i j Hi Hj. by apply HN.
      + apply Sig_ext. intros j Hj. apply elem_of_seq in Hj. rewrite <- (H j) by lia. f_equal. ring.
    - transitivity (Sig (seq 0 p) (fun l => Up l k *! X l) +! (f k +! opp (Sig (seq 0 p) (fun l => Up l k *! X l)))); [|ring]. f_equal.
      transitivity (Sig (seq 0 q) (fun j => Dm k j *! Sig (seq 0 q) (fun m => N j m *! (f m +! opp (Sig (seq 0 p) (fun l => Up l m *! X l)))))).
      + apply Sig_ext. intros j Hj. apply elem_of_seq in Hj. f_equal. apply H. lia.
      + apply (Hone Dm N (fun m => f m +! opp (Sig (seq 0 p) (fun l => Up l m *! X l)))); [|done]. intros i j Hi Hj. by apply HN.
  Qed.
End algebra.

Section full.
  Context {F : Type} (zero one : F) (add mul sub : F -> F -> F) (opp : F -> F) (Rth : ring_theory zero one add mul sub opp (@eq F)).
  Add Ring Fring' : Rth.
  Notation Sig := (Sig zero add).
  Notation only := (only zero).
  Notation mat := (nat -> nat -> F).
  Infix "+!" := add (at level 50, left associativity).
  Infix "*!" := mul (at level 40, left associativity).
  Notation Sig_add := (Sig_add zero one add mul sub opp Rth).
  Notation Sig_mul_l := (Sig_mul_l zero one add mul sub opp Rth).
  Notation Sig_mul_r := (Sig_mul_r zero one add mul sub opp Rth).
  Notation Sig_opp := (Sig_opp zero one add mul sub opp Rth).
  Notation Sig_swap := (Sig_swap zero one add mul sub opp Rth).
  Notation Sig_0 := (Sig_0 zero one add mul sub opp Rth).
  Notation only_Sig := (only_Sig zero one add mul sub opp Rth).
  Notation only_add := (only_add zero one add mul sub opp Rth).
  Notation only_mul_l := (only_mul_l zero one add mul sub opp Rth).
  Notation only_mul_r := (only_mul_r zero one add mul sub opp Rth).
  Notation Sig_pick := (Sig_pick zero one add mul sub opp Rth).
  Context {V : Type} (D : nat) (dofs : nat -> res dof_triplet) (g : nat -> list (option nat)) (ro co ho : nat -> nat).
  Context (ids : list nat) (elem : nat -> element V) (U : list nat) (nr : nat).
  Context (HnU : NoDup U) (Hnid : NoDup ids) (Iro : inj_on U ro) (Ico : inj_on U co) (Iho : inj_on U ho).
  Context (Hels : forall id, id ∈ ids -> typed_el (elem id) /\ dofs_agree g D dofs ro co ho (elem id) /\ dofs_in g U (elem id)).
  Notation P id := (plist D g (elem id)).
  Notation I id := (ilist D g (elem id)).
  Notation dof id := (dof_of g (elem id)).
  Notation KC := (call_unknowns elem).
  Notation call_ok := (call_ok g D ids elem).
  Notation dP id := (dP D g (elem id)).

  (** ** The loops. *)
  Definition esum (calls : list kernel_call) (id : nat) (w w' : nat * nat) : F := Sig calls (fun c => only (kc_el c = id) (entry zero add (KC c) (kc_a c) w w')).
  Definition lsum (calls : list kernel_call) (id r : nat) (w : nat * nat) : F := Sig calls (fun c => only (kc_el c = id) (load zero add (KC c) (fun k => kc_b c k r) w)).
  Lemma calls_loop calls : forall st : cstate, Forall call_ok calls -> (forall id, id ∈ ids -> insert_elem_info D dofs (elem id) = Ok (cd_dims (st.1 id))) ->
    exists st', for_each (condense_call add D dofs ids elem nr) calls st = Ok st' /\ (forall id, cd_dims (st'.1 id) = cd_dims (st.1 id)) /\
      (forall id i j w w', id ∈ ids -> I id !! i = Some w -> I id !! j = Some w' -> cd_diag (st'.1 id) i j = cd_diag (st.1 id) i j +! esum calls id w w') /\
      (forall id i j w w', id ∈ ids -> P id !! i = Some w -> I id !! j = Some w' -> cd_upper (st'.1 id) i j = cd_upper (st.1 id) i j +! esum calls id w w') /\
      (forall id i w r, id ∈ ids -> I id !! i = Some w -> r < nr -> cd_rhs (st'.1 id) i r = cd_rhs (st.1 id) i r +! lsum calls id r w) /\
      (forall u v, u ∈ U -> v ∈ U -> st'.2.1 (ro u) (co v) = st.2.1 (ro u) (co v) +! Sig calls (fun c => gentry zero add (KC c) (call_dof g elem c) (kc_a c) u v)) /\
      (forall u r, u ∈ U -> r < nr -> st'.2.2 (ho u) r = st.2.2 (ho u) r +! Sig calls (fun c => gload zero add (KC c) (call_dof g elem c) (fun k => kc_b c k r) u)).
  Proof using Rth Iro Ico Iho Hels.
    induction calls as [|c calls IH]; intros [data gs] Hc Hd; cbn [for_each].
    - exists (data, gs). split; [done|]. split; [done|]. unfold esum, lsum. repeat split; intros; rewrite Sig_nil; ring.
    - apply Forall_cons in Hc as [(Hin & Hs & Hf & _) Hc]. destruct (Hels _ Hin) as (Ht & Hg & HU).
      destruct (condense_ok zero one add mul sub opp Rth D dofs g ro co ho (elem (kc_el c)) Ht Hg (kc_fields c) Hs Hf nr (kc_a c) (kc_b c) (data (kc_el c)) gs U (Hd _ Hin) Iro Ico Iho HU) as (d' & gs' & E & Edim & _ & H1 & H2 & H3 & H4 & H5).
      assert (E' : condense_call add D dofs ids elem nr c (data, gs) = Ok (set_data data (kc_el c) d', gs')) by (unfold condense_call; rewrite bool_decide_true by done; cbn [fst snd]; by rewrite E, bind_ok). rewrite E', bind_ok. clear E E'.
      destruct (IH (set_data data (kc_el c) d', gs')) as (st' & E & G0 & G1 & G2 & G3 & G4 & G5); [done| |].
      { intros id Hid. cbn [fst]. unfold set_data. destruct (Nat.eqb_spec id (kc_el c)) as [->|]; [rewrite Edim|]; by apply Hd. }
      exists st'. split; [done|]. cbn [fst snd] in *.
      split; [|split; [|split; [|split; [|split]]]].
      + intros id. rewrite G0. unfold set_data. by destruct (Nat.eqb_spec id (kc_el c)) as [->|].
      + intros id i j w w' Hid Hi Hj. rewrite (G1 id i j w w') by done. unfold esum. rewrite Sig_cons. unfold set_data. destruct (Nat.eqb_spec id (kc_el c)) as [->|Hne].
        * rewrite only_true by done. rewrite (H1 i j w w') by done. unfold call_unknowns. ring.
        * rewrite only_false by congruence. ring.
      + intros id i j w w' Hid Hi Hj. rewrite (G2 id i j w w') by done. unfold esum. rewrite Sig_cons. unfold set_data. destruct (Nat.eqb_spec id (kc_el c)) as [->|Hne].
        * rewrite only_true by done. rewrite (H2 i j w w') by done. unfold call_unknowns. ring.
        * rewrite only_false by congruence. ring.
      + intros id i w r Hid Hi Hr. rewrite (G3 id i w r) by done. unfold lsum. rewrite Sig_cons. unfold set_data. destruct (Nat.eqb_spec id (kc_el c)) as [->|Hne].
        * rewrite only_true by done. rewrite (H3 i w r) by done. unfold call_unknowns. ring.
        * rewrite only_false by congruence. ring.
      + intros u v Hu Hv. rewrite G4, H4, Sig_cons by done. unfold call_unknowns, call_dof. ring.
      + intros u r Hu Hr. rewrite G5, H5, Sig_cons by done. unfold call_unknowns, call_dof. ring.
  Qed.
  Context (inverse : nat -> mat -> mat).
  Definition UN (d : cond_data) id k m : F := Sig (seq 0 (length (I id))) (fun j => cd_upper d k j *! inverse (length (I id)) (cd_diag d) j m).
  Definition cM (d : cond_data) id u v : F := Sig (seq 0 (length (P id))) (fun k => only (dP id k = u) (Sig (seq 0 (length (P id))) (fun l => only (dP id l = v) (opp (Sig (seq 0 (length (I id))) (fun m => UN d id k m *! cd_upper d l m)))))).
  Definition cR (d : cond_data) id u r : F := Sig (seq 0 (length (P id))) (fun k => only (dP id k = u) (opp (Sig (seq 0 (length (I id))) (fun m => UN d id k m *! cd_rhs d m r)))).
  Lemma fin_loop ord : forall st : cstate, NoDup ord -> (forall id, id ∈ ord -> id ∈ ids) -> (forall id, id ∈ ids -> insert_elem_info D dofs (elem id) = Ok (cd_dims (st.1 id))) ->
    exists st', for_each (finalize_call zero add mul opp dofs ids elem inverse nr) ord st = Ok st' /\
      (forall id, ~ id ∈ ord -> st'.1 id = st.1 id) /\
      (forall id, id ∈ ord -> cd_dims (st'.1 id) = cd_dims (st.1 id) /\ cd_inv (st'.1 id) = inverse (length (I id)) (cd_diag (st.1 id)) /\ cd_upper (st'.1 id) = cd_upper (st.1 id) /\ cd_rhs (st'.1 id) = cd_rhs (st.1 id)) /\
      (forall u v, u ∈ U -> v ∈ U -> st'.2.1 (ro u) (co v) = st.2.1 (ro u) (co v) +! Sig ord (fun id => cM (st.1 id) id u v)) /\
      (forall u r, u ∈ U -> r < nr -> st'.2.2 (ho u) r = st.2.2 (ho u) r +! Sig ord (fun id => cR (st.1 id) id u r)).
  Proof using Rth Iro Ico Iho Hels.
    induction ord as [|id0 ord IH]; intros [data gs] Hn Hin Hd; cbn [for_each].
    - exists (data, gs). split; [done|]. split; [done|]. split; [intros id Hid; by apply elem_of_nil in Hid|]. split; intros; rewrite Sig_nil; ring.
    - apply NoDup_cons in Hn as [Hni Hn]. assert (Hid0 : id0 ∈ ids) by (apply Hin; left). destruct (Hels _ Hid0) as (Ht & Hg & HU).
      destruct (finalize_ok zero one add mul sub opp Rth D dofs g ro co ho (elem id0) Ht Hg inverse nr (data id0) gs U (Hd _ Hid0) Iro Ico Iho HU) as (d' & gs' & E & E0 & E1 & E2 & E3 & H4 & H5).
      assert (E' : finalize_call zero add mul opp dofs ids elem inverse nr id0 (data, gs) = Ok (set_data data id0 d', gs')) by (unfold finalize_call; rewrite bool_decide_true by done; cbn [fst snd]; by rewrite E, bind_ok). rewrite E', bind_ok. clear E E'.
      destruct (IH (set_data data id0 d', gs')) as (st' & E & G0 & G1 & G2 & G3); [done|intros id Hid; apply Hin; by right| |].
      { intros id Hid. cbn [fst]. unfold set_data. destruct (Nat.eqb_spec id id0) as [->|]; [rewrite E0|]; by apply Hd. }
      exists st'. split; [done|]. cbn [fst snd] in *. split; [|split; [|split]].
      + intros id Hid. rewrite G0 by (intros H; apply Hid; by right). unfold set_data. destruct (Nat.eqb_spec id id0) as [->|]; [|done]. exfalso. apply Hid. left.
      + intros id Hid. apply elem_of_cons in Hid as [->|Hid].
        * rewrite G0 by done. unfold set_data. rewrite Nat.eqb_refl. done.
        * specialize (G1 id Hid). unfold set_data in G1. assert (id <> id0) as Hne by (intros E'; by rewrite E' in Hid). rewrite (proj2 (Nat.eqb_neq _ _) Hne) in G1. done.
      + intros u v Hu Hv. rewrite G2, H4, Sig_cons by done. unfold cM at 2. unfold UN at 1. transitivity (gs.1 (ro u) (co v) +! cM (data id0) id0 u v +! Sig ord (fun id => cM (data id) id u v)); [|unfold cM at 1, UN at 1; ring]. f_equal.
        apply Sig_ext. intros id Hid. unfold set_data. assert (id <> id0) as Hne by (intros E'; by rewrite E' in Hid). by rewrite (proj2 (Nat.eqb_neq _ _) Hne).
      + intros u r Hu Hr. rewrite G3, H5, Sig_cons by done. transitivity (gs.2 (ho u) r +! cR (data id0) id0 u r +! Sig ord (fun id => cR (data id) id u r)); [|ring]. f_equal.
        apply Sig_ext. intros id Hid. unfold set_data. assert (id <> id0) as Hne by (intros E'; by rewrite E' in Hid). by rewrite (proj2 (Nat.eqb_neq _ _) Hne).
  Qed.

  (** ** Equations. *)
  Definition xw (x : nat -> F) (id : nat) (w : nat * nat) : F := x (default 0 (dof id w)).
  Lemma K_in (c : @kernel_call F) k w : call_ok c -> KC c !! k = Some w -> (exists u, dof (kc_el c) w = Some u /\ u ∈ U /\ w ∈ P (kc_el c) /\ ~ w ∈ I (kc_el c)) \/ (dof (kc_el c) w = None /\ ~ w ∈ P (kc_el c) /\ w ∈ I (kc_el c)).
  Proof using Hels.
    intros (Hin & Hs & Hf & _) Hk. destruct (Hels _ Hin) as (Ht & Hg & HU).
    pose proof (plist_enum D dofs g ro co ho (elem (kc_el c)) Hg) as [_ HP]. pose proof (ilist_enum D g (elem (kc_el c))) as [_ HI].
    assert (Hw : w ∈ KC c) by (by eapply elem_of_list_lookup_2). destruct w as [i cc]. apply elem_of_prod in Hw as [Hi Hcc]. cbn [fst snd] in *. apply elem_of_seq in Hi. destruct Hf as [_ Hf]. destruct (Hf cc Hcc) as [HcD Hact].
    destruct (el_bnd (elem (kc_el c)) i) eqn:Eb.
    - left. destruct (Hact i ltac:(lia) Eb) as [u Hu]. assert (Hd : dof (kc_el c) (i, cc) = Some u) by (unfold dof_of; cbn [fst]; by rewrite Eb). exists u. rewrite Hd. split; [done|]. split; [by eapply HU|]. split; [apply HP; rewrite Hd; by eexists|]. intros Hw'. apply HI in Hw' as (_ & H & _). cbn [fst] in H. congruence.
    - right. assert (Hd : dof (kc_el c) (i, cc) = None) by (unfold dof_of; cbn [fst]; by rewrite Eb). split; [done|]. split; [intros Hw'; apply HP in Hw' as [? ?]; congruence|]. apply HI. split; [cbn [fst]; lia|]. done.
  Qed.
  Lemma P_nodup id : NoDup (P id).
  Proof. apply plist_nodup. Qed.
  Lemma I_nodup id : NoDup (I id).
  Proof. apply ilist_nodup. Qed.
  Lemma swap_load K (l : list (nat * nat)) phi (h : nat * nat -> F) :
    Sig l (fun w => load zero add K phi w *! h w) = Sig (seq 0 (length K)) (fun k => Sig l (fun w => only (K !! k = Some w) (phi k *! h w))).
  Proof using Rth.
    rewrite <- Sig_swap. apply Sig_ext. intros w _. unfold load. rewrite Sig_mul_r. apply Sig_ext. intros k _. by rewrite only_mul_r.
  Qed.
  Lemma split_val (c : @kernel_call F) x y phi : call_ok c ->
    Sig (seq 0 (length (KC c))) (fun l => phi l *! val zero g elem x y c l) =
      Sig (P (kc_el c)) (fun w => load zero add (KC c) phi w *! xw x (kc_el c) w) +! Sig (I (kc_el c)) (fun w => load zero add (KC c) phi w *! y (kc_el c) w).
  Proof using Rth Hels.
    intros Hc. rewrite !swap_load, <- Sig_add. apply Sig_ext. intros l Hl. apply elem_of_seq in Hl. destruct (lookup_lt_is_Some_2 (KC c) l ltac:(lia)) as [w Hw].
    rewrite !Sig_pick by (apply P_nodup || apply I_nodup). rewrite Hw. unfold val, call_dof. rewrite Hw. destruct (K_in c l w Hc Hw) as [(u & Hu & _ & HP & HI)|(Hu & HP & HI)].
    - rewrite bool_decide_true, bool_decide_false by done. unfold xw. rewrite Hu. change (default 0 (Some u)) with u. ring.
    - rewrite bool_decide_false, bool_decide_true by done. rewrite Hu. ring.
  Qed.
  Lemma gload_P (c : @kernel_call F) phi u : call_ok c -> gload zero add (KC c) (call_dof g elem c) phi u = Sig (P (kc_el c)) (fun w => only (dof (kc_el c) w = Some u) (load zero add (KC c) phi w)).
  Proof using Rth Hels.
    intros Hc. transitivity (Sig (P (kc_el c)) (fun w => load zero add (KC c) phi w *! only (dof (kc_el c) w = Some u) one)).
    - rewrite swap_load. unfold gload. apply Sig_ext. intros k Hk. apply elem_of_seq in Hk. destruct (lookup_lt_is_Some_2 (KC c) k ltac:(lia)) as [w Hw]. rewrite Sig_pick by apply P_nodup. rewrite Hw. cbn [mbind option_bind]. unfold call_dof. destruct (K_in c k w Hc Hw) as [(v & Hv & _ & HP & HI)|(Hv & HP & HI)].
      + rewrite bool_decide_true by done. rewrite only_mul_l. apply only_ext; [done|]. intros _. ring.
      + rewrite bool_decide_false by done. apply only_false. by rewrite Hv.
    - apply Sig_ext. intros w _. rewrite only_mul_l. apply only_ext; [done|]. intros _. ring.
  Qed.
  Lemma dof_in id w : id ∈ ids -> w ∈ P id -> exists u, dof id w = Some u /\ u ∈ U.
  Proof using Hels. intros Hid Hw. destruct (Hels _ Hid) as (Ht & Hg & HU). apply (plist_enum D dofs g ro co ho (elem id) Hg) in Hw as [u Hu]. exists u. split; [done|]. by eapply HU. Qed.
  Lemma sum_U id x (h : nat * nat -> F) : id ∈ ids -> Sig U (fun v => Sig (P id) (fun w => only (dof id w = Some v) (h w)) *! x v) = Sig (P id) (fun w => h w *! xw x id w).
  Proof using Rth Hels HnU.
    intros Hid. transitivity (Sig U (fun v => Sig (P id) (fun w => only (dof id w = Some v) (h w *! x v)))).
    { apply Sig_ext. intros v _. rewrite Sig_mul_r. apply Sig_ext. intros w _. by rewrite only_mul_r. }
    rewrite Sig_swap. apply Sig_ext. intros w Hw. rewrite (Sig_pick U (dof id w) (fun v => h w *! x v)) by done. destruct (dof_in id w Hid Hw) as (u & Hu & HuU). unfold xw. rewrite Hu. by rewrite bool_decide_true.
  Qed.
  Lemma split_val_U (c : @kernel_call F) x y phi : call_ok c ->
    Sig (seq 0 (length (KC c))) (fun l => phi l *! val zero g elem x y c l) =
      Sig U (fun v => gload zero add (KC c) (call_dof g elem c) phi v *! x v) +! Sig (I (kc_el c)) (fun w => load zero add (KC c) phi w *! y (kc_el c) w).
  Proof using Rth Hels HnU.
    intros Hc. rewrite split_val by done. f_equal. rewrite <- sum_U by apply Hc. apply Sig_ext. intros v _. by rewrite gload_P.
  Qed.
  Lemma load_row (c : @kernel_call F) x y w : call_ok c -> load zero add (KC c) (row zero add mul g elem x y c) w =
    Sig (P (kc_el c)) (fun p => entry zero add (KC c) (kc_a c) w p *! xw x (kc_el c) p) +! Sig (I (kc_el c)) (fun w' => entry zero add (KC c) (kc_a c) w w' *! y (kc_el c) w').
  Proof using Rth Hels.
    intros Hc. unfold row. erewrite load_ext by (intros k _; apply (split_val c x y (kc_a c k) Hc)). rewrite (load_add _ _ _ _ _ _ Rth), !(load_Sig _ _ _ _ _ _ Rth). f_equal; apply Sig_ext; intros p _; by rewrite (load_mul_r _ _ _ _ _ _ Rth).
  Qed.
  Lemma gload_row (c : @kernel_call F) x y u : call_ok c -> gload zero add (KC c) (call_dof g elem c) (row zero add mul g elem x y c) u =
    Sig U (fun v => gentry zero add (KC c) (call_dof g elem c) (kc_a c) u v *! x v) +!
    Sig (P (kc_el c)) (fun p => only (dof (kc_el c) p = Some u) (Sig (I (kc_el c)) (fun w => entry zero add (KC c) (kc_a c) p w *! y (kc_el c) w))).
  Proof using Rth Hels HnU.
    intros Hc. unfold row. transitivity (gload zero add (KC c) (call_dof g elem c) (fun k => Sig U (fun v => gload zero add (KC c) (call_dof g elem c) (kc_a c k) v *! x v) +! Sig (I (kc_el c)) (fun w => load zero add (KC c) (kc_a c k) w *! y (kc_el c) w)) u).
    { apply Sig_ext. intros k _. f_equal. by apply split_val_U. }
    rewrite (gload_add _ _ _ _ _ _ Rth), !(gload_Sig _ _ _ _ _ _ Rth). f_equal.
    - apply Sig_ext. intros v _. by rewrite (gload_mul_r _ _ _ _ _ _ Rth).
    - transitivity (Sig (I (kc_el c)) (fun w => Sig (P (kc_el c)) (fun p => only (dof (kc_el c) p = Some u) (entry zero add (KC c) (kc_a c) p w *! y (kc_el c) w)))).
      + apply Sig_ext. intros w _. rewrite (gload_mul_r _ _ _ _ _ _ Rth), gload_P by done. rewrite Sig_mul_r. apply Sig_ext. intros p _. by rewrite only_mul_r.
      + rewrite Sig_swap. apply Sig_ext. intros p _. by rewrite only_Sig.
  Qed.
  Lemma group (calls : list (@kernel_call F)) (h : nat -> kernel_call -> F) : Forall call_ok calls -> Sig calls (fun c => h (kc_el c) c) = Sig ids (fun id => Sig calls (fun c => only (kc_el c = id) (h id c))).
  Proof using Rth Hnid.
    intros Hc. rewrite Sig_swap. apply Sig_ext. intros c Hin. rewrite Forall_forall in Hc. destruct (Hc c Hin) as (Hid & _).
    rewrite <- (Sig_one zero one add mul sub opp Rth ids (kc_el c) (fun id => h id c)) by done. apply Sig_ext. intros id _. apply only_ext; [|done]. split; congruence.
  Qed.
  (** The interior equations of an element. *)
  Lemma interior_lhs (calls : list (@kernel_call F)) x y id w : Forall call_ok calls -> id ∈ ids ->
    Sig calls (fun c => only (kc_el c = id) (load zero add (KC c) (row zero add mul g elem x y c) w)) =
      Sig (P id) (fun p => esum calls id p w *! xw x id p) +! Sig (I id) (fun w' => esum calls id w w' *! y id w').
  Proof using Rth Hels.
    intros Hc Hid. unfold esum.
    transitivity (Sig calls (fun c => Sig (P id) (fun p => only (kc_el c = id) (entry zero add (KC c) (kc_a c) p w) *! xw x id p) +! Sig (I id) (fun w' => only (kc_el c = id) (entry zero add (KC c) (kc_a c) w w') *! y id w'))).
    - apply Sig_ext. intros c Hin. rewrite Forall_forall in Hc. specialize (Hc c Hin). destruct (decide (kc_el c = id)) as [<-|Hne].
      + rewrite only_true by done. rewrite load_row by done. f_equal; apply Sig_ext; intros p _; rewrite only_true by done; [|done]. f_equal. apply (entry_sym _ _ _ _ _ _ Rth). apply Hc.
      + rewrite only_false by done. rewrite !Sig_0; [ring|intros; rewrite only_false by done; ring..].
    - rewrite Sig_add. f_equal; rewrite Sig_swap; apply Sig_ext; intros p _; by rewrite Sig_mul_r.
  Qed.
  (** The equations of the global unknowns. *)
  Lemma global_lhs (calls : list (@kernel_call F)) x y u : Forall call_ok calls ->
    Sig calls (fun c => gload zero add (KC c) (call_dof g elem c) (row zero add mul g elem x y c) u) =
      Sig U (fun v => Sig calls (fun c => gentry zero add (KC c) (call_dof g elem c) (kc_a c) u v) *! x v) +!
      Sig ids (fun id => Sig (P id) (fun p => only (dof id p = Some u) (Sig (I id) (fun w => esum calls id p w *! y id w)))).
  Proof using Rth Hels HnU Hnid.
    intros Hc. set (h := fun (id : nat) (c : @kernel_call F) => Sig (P id) (fun p => only (dof id p = Some u) (Sig (I id) (fun w => entry zero add (KC c) (kc_a c) p w *! y id w)))). transitivity (Sig calls (fun c => Sig U (fun v => gentry zero add (KC c) (call_dof g elem c) (kc_a c) u v *! x v) +! h (kc_el c) c)).
    { apply Sig_ext. intros c Hin. rewrite Forall_forall in Hc. by apply gload_row, Hc. }
    rewrite Sig_add. f_equal.
    - rewrite Sig_swap. apply Sig_ext. intros v _. by rewrite Sig_mul_r.
    - rewrite (group calls h) by done. apply Sig_ext. intros id _. unfold h.
      transitivity (Sig calls (fun c => Sig (P id) (fun p => only (dof id p = Some u) (Sig (I id) (fun w => only (kc_el c = id) (entry zero add (KC c) (kc_a c) p w) *! y id w))))).
      + apply Sig_ext. intros c _. rewrite only_Sig. apply Sig_ext. intros p _. rewrite only_swap. f_equal. rewrite only_Sig. apply Sig_ext. intros w _. by rewrite only_mul_r.
      + rewrite Sig_swap. apply Sig_ext. intros p _. rewrite <- only_Sig. f_equal. rewrite Sig_swap. apply Sig_ext. intros w _. unfold esum. by rewrite Sig_mul_r.
  Qed.
  Lemma Sig_perm {A} (l l' : list A) f : l ≡ₚ l' -> Sig l f = Sig l' f.
  Proof using Rth. induction 1 as [|a l l' _ IH|a b l|l1 l2 l3 _ IH1 _ IH2]; rewrite ?Sig_cons; [done|by rewrite IH|ring|congruence]. Qed.
  Lemma dP_dof id k w : P id !! k = Some w -> id ∈ ids -> dof id w = Some (dP id k).
  Proof using Hels.
    intros Hk Hid. destruct (Hels _ Hid) as (Ht & Hg & _). destruct (plist_dof D dofs g ro co ho (elem id) Ht Hg k) as (w' & Hw & Hd & _); [by eapply lookup_lt_Some|]. congruence.
  Qed.
  Lemma nth_at {A} (l : list A) k (d : A) : k < length l -> l !! k = Some (nth k l d).
  Proof. intros Hk. destruct (lookup_lt_is_Some_2 l k Hk) as [a Ha]. by rewrite (nth_lookup_Some _ _ d _ Ha). Qed.
  Lemma Sig_idx {A} (l : list A) (d : A) (f : A -> F) (h : nat -> F) : (forall k a, l !! k = Some a -> f a = h k) -> Sig l f = Sig (seq 0 (length l)) h.
  Proof. intros H. rewrite <- (Sig_nth zero add l d f). apply Sig_ext. intros k Hk. apply elem_of_seq in Hk. apply H, nth_at. lia. Qed.

  Theorem elimination (calls : list (@kernel_call F)) ord (st0 : cstate) :
    Forall call_ok calls -> ord ≡ₚ ids -> (forall id, id ∈ ids -> insert_elem_info D dofs (elem id) = Ok (cd_dims (st0.1 id))) ->
    (forall u v, u ∈ U -> v ∈ U -> st0.2.1 (ro u) (co v) = zero) -> (forall u r, u ∈ U -> r < nr -> st0.2.2 (ho u) r = zero) ->
    (forall id M, id ∈ ids -> (forall i j, i < length (I id) -> j < length (I id) -> M i j = interior_block zero add elem calls id (I id) i j) -> is_inverse zero one add mul (length (I id)) M (inverse (length (I id)) M)) ->
    exists st', assemble_condensed zero add mul opp D dofs ids elem inverse nr calls ord st0 = Ok st' /\
      (forall id, id ∈ ids -> cd_dims (st'.1 id) = cd_dims (st0.1 id)) /\
      forall r x y, r < nr -> full_system zero add mul g D ids elem calls U r x y <->
        condensed_system zero add mul ro co ho st'.2 U r x /\ forall id k w, id ∈ ids -> I id !! k = Some w -> y id w = recovered zero add mul opp D g (elem id) (st'.1 id) x k r.
  Proof using Rth Hels HnU Hnid Iro Ico Iho.
    intros Hc Hord Hd H01 H02 Hinv. unfold assemble_condensed. set (st0' := ((fun id => begin_element zero (st0.1 id)), st0.2) : cstate).
    destruct (calls_loop calls st0' Hc) as (st1 & E1 & D1 & G1 & G2 & G3 & G4 & G5); [done|]. rewrite E1, bind_ok. clear E1.
    assert (Hno : NoDup ord) by (by rewrite Hord).
    destruct (fin_loop ord st1 Hno) as (st' & E2 & _ & J1 & J2 & J3); [intros id; by rewrite Hord|intros id Hid; rewrite D1; by apply Hd|].
    exists st'. split; [done|]. split; [intros id Hid; destruct (J1 id) as [-> _]; [by rewrite Hord|]; by rewrite D1|].
    intros r x y Hr.
    (* the blocks *)
    assert (Bd : forall id i j w w', id ∈ ids -> I id !! i = Some w -> I id !! j = Some w' -> cd_diag (st1.1 id) i j = esum calls id w w').
    { intros id i j w w' Hid Hi Hj. rewrite (G1 id i j w w') by done. cbn. ring. }
    assert (Bu : forall id i j w w', id ∈ ids -> P id !! i = Some w -> I id !! j = Some w' -> cd_upper (st1.1 id) i j = esum calls id w w').
    { intros id i j w w' Hid Hi Hj. rewrite (G2 id i j w w') by done. cbn. ring. }
    assert (Bf : forall id i w, id ∈ ids -> I id !! i = Some w -> cd_rhs (st1.1 id) i r = lsum calls id r w).
    { intros id i w Hid Hi. rewrite (G3 id i w r) by done. cbn. ring. }
    assert (Binv : forall id, id ∈ ids -> is_inverse zero one add mul (length (I id)) (cd_diag (st1.1 id)) (inverse (length (I id)) (cd_diag (st1.1 id)))).
    { intros id Hid. apply Hinv; [done|]. intros i j Hi Hj. destruct (lookup_lt_is_Some_2 _ _ Hi) as [w Hw]. destruct (lookup_lt_is_Some_2 _ _ Hj) as [w' Hw']. unfold interior_block. rewrite Hw, Hw'. by apply Bd. }
    set (X := fun id l => x (dP id l)). set (Y := fun id j => y id (nth j (I id) (0, 0))).
    (* interior equations *)
    assert (Hint : forall id, id ∈ ids ->
      (forall w, interior g (elem id) D w -> Sig calls (fun c => only (kc_el c = id) (load zero add (KC c) (row zero add mul g elem x y c) w)) = Sig calls (fun c => only (kc_el c = id) (load zero add (KC c) (fun k => kc_b c k r) w))) <->
      (forall k, k < length (I id) -> Y id k = recovered zero add mul opp D g (elem id) (st'.1 id) x k r)).
    { intros id Hid. destruct (J1 id) as (_ & K1 & K2 & K3); [by rewrite Hord|]. unfold recovered. rewrite K1, K2, K3.
      pose proof (schur_local zero one add mul sub opp Rth (length (I id)) (length (P id)) (cd_diag (st1.1 id)) _ (cd_upper (st1.1 id)) (fun j => cd_rhs (st1.1 id) j r) (X id) (Y id) (Binv id Hid)) as HS. cbv beta in HS. etransitivity; [|exact HS]. clear HS.
      assert (Hk : forall k w, I id !! k = Some w -> Sig calls (fun c => only (kc_el c = id) (load zero add (KC c) (row zero add mul g elem x y c) w)) =
        Sig (seq 0 (length (P id))) (fun l => cd_upper (st1.1 id) l k *! X id l) +! Sig (seq 0 (length (I id))) (fun j => cd_diag (st1.1 id) k j *! Y id j)).
      { intros k w Hk. rewrite interior_lhs by done. f_equal.
        - apply (Sig_idx _ (0, 0)). intros l p Hl. rewrite (Bu id l k p w) by done. f_equal. unfold xw, X. by rewrite (dP_dof id l p).
        - apply (Sig_idx _ (0, 0)). intros j w' Hj. rewrite (Bd id k j w w') by done. f_equal. unfold Y. by rewrite (nth_lookup_Some _ _ (0, 0) _ Hj). }
      pose proof (ilist_enum D g (elem id)) as [_ HI]. split.
      - intros H k Hlt. rewrite <- (Hk k _ (nth_at (I id) k (0, 0) Hlt)). rewrite H; [symmetry; apply (Bf id k); [done|by apply nth_at]|]. apply HI. eapply elem_of_list_lookup_2, nth_at. done.
      - intros H w Hw. apply HI in Hw. apply elem_of_list_lookup_1 in Hw as [k Hw]. rewrite (Hk k w Hw). rewrite H by (by eapply lookup_lt_Some). by apply Bf. }
    (* equations of the global unknowns *)
    assert (Hglob : (forall id k, id ∈ ids -> k < length (I id) -> Y id k = recovered zero add mul opp D g (elem id) (st'.1 id) x k r) -> forall u, u ∈ U ->
      Sig calls (fun c => gload zero add (KC c) (call_dof g elem c) (row zero add mul g elem x y c) u) +! Sig ids (fun id => cR (st1.1 id) id u r) = Sig U (fun v => st'.2.1 (ro u) (co v) *! x v)).
    { intros HY u Hu. rewrite global_lhs by done. transitivity (Sig U (fun v => Sig calls (fun c => gentry zero add (KC c) (call_dof g elem c) (kc_a c) u v) *! x v) +! Sig ids (fun id => Sig U (fun v => cM (st1.1 id) id u v *! x v))).
      2:{ rewrite Sig_swap, <- Sig_add. apply Sig_ext. intros v Hv. rewrite J2, G4 by done. unfold st0'. cbn [snd fst]. rewrite H01 by done. rewrite (Sig_perm ord ids) by done. rewrite <- Sig_mul_r. ring. }
      match goal with |- ?a +! ?b +! ?c = _ => transitivity (a +! (b +! c)); [ring|] end. f_equal. rewrite <- Sig_add. apply Sig_ext. intros id Hid.
      destruct (J1 id) as (_ & K1 & K2 & K3); [by rewrite Hord|].
      assert (HYr : forall k, Sig (seq 0 (length (I id))) (fun j => cd_upper (st1.1 id) k j *! Y id j) = _) by (intros k; apply (schur_row zero one add mul sub opp Rth (length (I id)) (length (P id)) (cd_upper (st1.1 id)) (inverse (length (I id)) (cd_diag (st1.1 id))) (fun j => cd_rhs (st1.1 id) j r) (X id) (Y id) k); intros j Hj; rewrite (HY id j Hid Hj); unfold recovered; by rewrite K1, K2, K3).
      transitivity (Sig (seq 0 (length (P id))) (fun k => only (dP id k = u) (Sig (seq 0 (length (I id))) (fun j => cd_upper (st1.1 id) k j *! Y id j))) +! cR (st1.1 id) id u r).
      { f_equal. apply (Sig_idx _ (0, 0)). intros k p Hk. apply only_ext; [rewrite (dP_dof id k p) by done; split; congruence|]. intros _. apply (Sig_idx _ (0, 0)). intros j w Hj. rewrite (Bu id k j p w) by done. f_equal. unfold Y. by rewrite (nth_lookup_Some _ _ (0, 0) _ Hj). }
      unfold cR. rewrite <- Sig_add.
      transitivity (Sig (seq 0 (length (P id))) (fun k => only (dP id k = u) (Sig (seq 0 (length (P id))) (fun l => opp (Sig (seq 0 (length (I id))) (fun m => UN (st1.1 id) id k m *! cd_upper (st1.1 id) l m)) *! X id l)))).
      { apply Sig_ext. intros k _. rewrite <- only_add. f_equal. rewrite HYr. unfold UN. ring. }
      unfold cM. transitivity (Sig (seq 0 (length (P id))) (fun k => Sig U (fun v => only (dP id k = u) (Sig (seq 0 (length (P id))) (fun l => only (dP id l = v) (opp (Sig (seq 0 (length (I id))) (fun m => UN (st1.1 id) id k m *! cd_upper (st1.1 id) l m)))) *! x v)))).
      2:{ rewrite Sig_swap. apply Sig_ext. intros v _. rewrite Sig_mul_r. apply Sig_ext. intros k _. by rewrite only_mul_r. }
      apply Sig_ext. intros k _. rewrite <- only_Sig. f_equal.
      transitivity (Sig (seq 0 (length (P id))) (fun l => Sig U (fun v => only (dP id l = v) (opp (Sig (seq 0 (length (I id))) (fun m => UN (st1.1 id) id k m *! cd_upper (st1.1 id) l m)) *! x v)))).
      2:{ rewrite Sig_swap. apply Sig_ext. intros v _. rewrite Sig_mul_r. apply Sig_ext. intros l _. by rewrite only_mul_r. }
      apply Sig_ext. intros l Hl. apply elem_of_seq in Hl. set (cf := opp _). transitivity (Sig U (fun v => only (Some (dP id l) = Some v) (cf *! x v))).
      - rewrite (Sig_pick U (Some (dP id l)) (fun v => cf *! x v)) by done. pose proof (nth_at (P id) l (0, 0) ltac:(lia)) as Hp. destruct (dof_in id (nth l (P id) (0, 0)) Hid) as (v & Hv & HvU); [by eapply elem_of_list_lookup_2|]. rewrite (dP_dof id l _ Hp Hid) in Hv. injection Hv as Hv. rewrite <- Hv in HvU. by rewrite bool_decide_true.
      - apply Sig_ext. intros v _. apply only_ext; [|done]. split; congruence. }
    assert (Hrhs : forall u, u ∈ U -> st'.2.2 (ho u) r = Sig calls (fun c => gload zero add (KC c) (call_dof g elem c) (fun k => kc_b c k r) u) +! Sig ids (fun id => cR (st1.1 id) id u r)).
    { intros u Hu. rewrite J3, G5 by done. unfold st0'. cbn [snd]. rewrite H02 by done. rewrite (Sig_perm ord ids) by done. ring. }
    assert (Hyk : (forall id k, id ∈ ids -> k < length (I id) -> Y id k = recovered zero add mul opp D g (elem id) (st'.1 id) x k r) <-> (forall id k w, id ∈ ids -> I id !! k = Some w -> y id w = recovered zero add mul opp D g (elem id) (st'.1 id) x k r)).
    { split.
      - intros H id k w Hid Hk. rewrite <- H by (done || by eapply lookup_lt_Some). unfold Y. by rewrite (nth_lookup_Some _ _ (0, 0) _ Hk).
      - intros H id k Hid Hk. apply H; [done|]. by apply nth_at. }
    rewrite <- Hyk. split.
    - intros [Hg1 Hi1]. assert (HY : forall id k, id ∈ ids -> k < length (I id) -> Y id k = recovered zero add mul opp D g (elem id) (st'.1 id) x k r) by (intros id k Hid; apply (Hint id Hid); intros w Hw; by apply Hi1).
      split; [|done]. intros u Hu. rewrite <- (Hglob HY u Hu). rewrite Hrhs by done. f_equal. by apply Hg1.
    - intros [Hcs HY]. split.
      + intros u Hu. pose proof (Hglob HY u Hu) as E. rewrite (Hcs u Hu), Hrhs in E by done.
        match type of E with ?a +! ?c = ?b +! _ => transitivity (a +! c +! opp c); [ring|]; rewrite E; ring end.
      + intros id w Hid Hw. apply (Hint id Hid); [|done]. intros k Hk. by apply HY.
  Qed.
End full.
