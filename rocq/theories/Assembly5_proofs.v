(** C79: the methods, and what the solutions of the system are. *)
From Verif Require Import Base StdAlgo Ownership_model Ownership_proofs Elem_model Mesh_model Mesh_spec Helpers_model Helpers_proofs Partition_model Dofs_model Dofs_spec Sparsity_model Sparsity_spec Sparsity_proofs Sparsity2_proofs Sparsity4_proofs Cond_model Cond_spec Cond3_proofs Cond6_proofs Dirichlet_model Dirichlet_spec Dirichlet_proofs LocalBC_model Assembly_model Assembly_spec Assembly_proofs Assembly2_proofs Assembly3_proofs Assembly4_proofs.
Local Arguments Nat.mul : simpl never.
Local Arguments Nat.add : simpl never.
Local Arguments Nat.sub : simpl never.

Section runs.
  Context {F : Type} (zero one : F) (add mul sub : F -> F -> F) (opp : F -> F) (Rth : ring_theory zero one add mul sub opp (@eq F)).
  Add Ring Fring : Rth.
  Notation Sig := (Cond_spec.Sig zero add).
  Notation only := (Cond_spec.only zero).
  Context {V : Type} (D : nat) (meshes : list (mesh V)) (ranks : list arank) (pdef : list (list nat * list bool)) (T : nat) (W : aworld D meshes ranks pdef T) (nr : nat).
  Notation MP r cs := (mat_part zero add (ar_map r) cs).
  Notation RP r cs := (rhs_part zero add (ar_map r) cs).
  Definition calls_of (ps : list (list (list (call F)))) (b : nat) : list (call F) := concat (map (fun p => nth b p []) ps).
  Lemma together_at ps b : b < length ranks -> together ps (length ranks) !! b = Some (calls_of ps b).
  Proof using Type. intros Hb. unfold together. change (map ?f ?l) with (f <$> l). rewrite list_lookup_fmap, lookup_seq_lt by done. done. Qed.
  Lemma together_ok (ps : list (list (list (call F)))) : (forall p, p ∈ ps -> calls_ok meshes ranks pdef p) -> calls_ok meshes ranks pdef (together ps (length ranks)).
  Proof using Type.
    intros H. split; [unfold together; by rewrite map_length, seq_length|]. intros b m r cs c Hm Hr Hcs Hc. rewrite together_at in Hcs by (by eapply lookup_lt_Some). injection Hcs as <-. unfold calls_of in Hc. apply elem_of_list_In, in_concat in Hc as (l & Hl & Hc). apply elem_of_list_In, elem_of_list_fmap in Hl as (p & -> & Hp). apply elem_of_list_In in Hc.
    destruct (H p Hp) as [L HC]. destruct (lookup_lt_is_Some_2 p b) as [cs Hcs]; [rewrite L; by eapply lookup_lt_Some|]. rewrite (nth_lookup_Some _ _ _ _ Hcs) in Hc. by eapply HC.
  Qed.
  Record inv (ps : list (list (list (call F)))) (s : asys F) : Prop := {
    in_open : as_stage s = OpenForAssembly;
    in_len : length (as_sys s) = length ranks;
    in_right : forall b r st, ranks !! b = Some r -> as_sys s !! b = Some st -> right nr r st (MP r (calls_of ps b)) (RP r (calls_of ps b)) }.
  Lemma inv_fresh s : as_stage s = OpenForAssembly -> as_sys s = map (zeros zero nr) ranks -> inv [] s.
  Proof using Type.
    intros H1 H2. split; [done|by rewrite H2, map_length|]. intros b r st Hr Hs. rewrite H2 in Hs. change (map ?f ranks) with (f <$> ranks) in Hs. rewrite list_lookup_fmap, Hr in Hs. injection Hs as <-. exact (zeros_right zero nr r).
  Qed.
  Lemma assemble_inv ps s order calls : inv ps s -> calls_ok meshes ranks pdef calls -> (forall b l, order b l ≡ₚ l) -> exists s', assembleProblem add nr order ranks calls s = Ok s' /\ inv (ps ++ [calls]) s' /\ as_bcv s' = as_bcv s.
  Proof using Rth W.
    intros I HC Ho. unfold assembleProblem. rewrite (in_open _ _ I). cbn [is_open throwing_assert]. rewrite bind_ok. set (body := fun b => r ← rd ranks b; _).
    assert (Hb : forall b, b < length ranks -> exists r st', ranks !! b = Some r /\ body b = Ok st' /\ right nr r st' (MP r (calls_of (ps ++ [calls]) b)) (RP r (calls_of (ps ++ [calls]) b))).
    { intros b Hb. destruct (lookup_lt_is_Some_2 ranks b Hb) as [r Hr]. destruct (mesh_at _ _ _ _ _ W b r Hr) as [m Hm]. destruct HC as [HC1 HC2]. destruct (lookup_lt_is_Some_2 calls b ltac:(lia)) as [cs Hcs]. destruct (lookup_lt_is_Some_2 (as_sys s) b) as [st Hst]; [by rewrite (in_len _ _ I)|]. destruct (rows_at _ _ _ _ _ W b r Hr) as (R1 & R2 & R3 & R4 & R5).
      destruct (assemble_ok zero one add mul sub opp Rth nr r R1 R2 R3 R4 R5 (order b) cs st (MP r (calls_of ps b)) (RP r (calls_of ps b)) (Ho b)) as (st' & E & HR); [intros c Hc; destruct (HC2 b m r cs c Hm Hr Hcs Hc) as (_ & ? & ?); done|exact (in_right _ _ I b r st Hr Hst)|].
      exists r, st'. split; [done|]. split; [unfold body; by rewrite (rd_ok _ _ _ Hr), bind_ok, (rd_ok _ _ _ Hcs), bind_ok, (rd_ok _ _ _ Hst), bind_ok|]. assert (Ec : calls_of (ps ++ [calls]) b = calls_of ps b ++ cs). { unfold calls_of. rewrite map_app, concat_app. cbn. by rewrite app_nil_r, (nth_lookup_Some _ _ _ _ Hcs). }
      rewrite Ec. eapply right_ext; [exact HR| |]; intros; unfold mat_part, rhs_part; by rewrite (Sig_app zero one add mul sub opp Rth). }
    destruct (map_res_ex body (seq 0 (length ranks))) as (sts & E & HF). { intros b Hb'. apply elem_of_seq in Hb'. destruct (Hb b ltac:(lia)) as (r & st' & _ & E & _). eauto. }
    rewrite E, bind_ok. eexists. split; [reflexivity|]. split; [|done]. split; cbn [as_stage as_sys]; [done|by rewrite <- (Forall2_length _ _ _ HF), seq_length|]. intros b r st Hr Hst. destruct (Forall2_lookup_r _ _ _ _ _ HF Hst) as (b' & Hb' & E'). apply lookup_seq in Hb' as [-> Hlt]. rewrite Nat.add_0_l in *. destruct (Hb b Hlt) as (r' & st' & Hr' & E'' & HR). congruence.
  Qed.
  Lemma run_inv runs ps s : inv ps s -> (forall p, p ∈ runs -> calls_ok meshes ranks pdef p.2 /\ forall b l, p.1 b l ≡ₚ l) ->
    exists s', for_each (fun p s => assembleProblem add nr p.1 ranks p.2 s) runs s = Ok s' /\ inv (ps ++ runs.*2) s' /\ as_bcv s' = as_bcv s.
  Proof using Rth W.
    revert ps s. induction runs as [|[order calls] runs IH]; intros ps s I H.
    - exists s. cbn. by rewrite app_nil_r.
    - cbn [for_each]. destruct (H (order, calls) ltac:(left)) as [H1 H2]. destruct (assemble_inv ps s order calls I H1 H2) as (s1 & E1 & I1 & B1). cbn [fst snd]. rewrite E1, bind_ok. destruct (IH (ps ++ [calls]) s1 I1) as (s2 & E2 & I2 & B2); [intros; apply H; by right|]. exists s2. split; [done|]. rewrite <- app_assoc in I2. split; [exact I2|congruence].
  Qed.
  (** The rows after endAssembly. *)
  Lemma end_all from ps s : inv ps s -> (forall p, p ∈ ps -> calls_ok meshes ranks pdef p) -> (forall a l, from a l ≡ₚ seq 0 (length ranks)) ->
    exists sts, map_res (fun b => end_rank zero add nr ranks (as_sys s) (from b) b) (seq 0 (length ranks)) = Ok sts /\ length sts = length ranks /\
      forall a r st, ranks !! a = Some r -> sts !! a = Some st -> okrank nr (Amat zero add ranks (together ps (length ranks))) (Bvec zero add ranks (together ps (length ranks))) r st.
  Proof using Rth W.
    intros I HC Hf. assert (He : forall a r, ranks !! a = Some r -> exists st, end_rank zero add nr ranks (as_sys s) (from a) a = Ok st /\ okrank nr (Amat zero add ranks (together ps (length ranks))) (Bvec zero add ranks (together ps (length ranks))) r st).
    { intros a r Hr. apply (end_ok zero one add mul sub opp Rth D meshes ranks pdef T W nr (together ps (length ranks)) (as_sys s) (from a) (Hf a) (together_ok ps HC) (in_len _ _ I)); [|done]. intros b r' cs st Hr' Hcs Hst. rewrite together_at in Hcs by (by eapply lookup_lt_Some). injection Hcs as <-. by apply (in_right _ _ I). }
    destruct (map_res_ex (fun b => end_rank zero add nr ranks (as_sys s) (from b) b) (seq 0 (length ranks))) as (sts & E & HF). { intros a Ha. apply elem_of_seq in Ha. destruct (lookup_lt_is_Some_2 ranks a ltac:(lia)) as [r Hr]. destruct (He a r Hr) as (st & E & _). eauto. }
    exists sts. split; [done|]. split; [by rewrite <- (Forall2_length _ _ _ HF), seq_length|]. intros a r st Hr Hst. destruct (Forall2_lookup_r _ _ _ _ _ HF Hst) as (a' & Ha' & E'). apply lookup_seq in Ha' as [-> Hlt]. rewrite Nat.add_0_l in *. destruct (He a r Hr) as (st' & E'' & H). cbv beta in E'. rewrite E'' in E'. injection E' as <-. exact H.
  Qed.
  Lemma get_ok (s : asys F) : as_stage s = Closed -> length (as_sys s) = length ranks -> exists sys, getSystem ranks s = Ok sys /\ parts sys = zip_with part_of ranks (as_sys s).
  Proof using Type.
    intros Hs Hl. unfold getSystem. rewrite Hs. cbn [is_open negb throwing_assert]. rewrite bind_ok. set (body := fun b => r ← rd ranks b; _). destruct (map_res_ex body (seq 0 (length ranks))) as (sys & E & HF).
    { intros b Hb. apply elem_of_seq in Hb. destruct (lookup_lt_is_Some_2 ranks b ltac:(lia)) as [r Hr]. destruct (lookup_lt_is_Some_2 (as_sys s) b ltac:(lia)) as [st Hst]. unfold body. rewrite (rd_ok _ _ _ Hr), bind_ok, (rd_ok _ _ _ Hst), bind_ok. eauto. }
    exists sys. split; [done|]. pose proof (Forall2_length _ _ _ HF) as L. rewrite seq_length in L. unfold parts. apply list_eq_same_length with (length ranks); [rewrite zip_with_length; lia|rewrite map_length; lia|]. intros b x y Hb Hx Hy. change (map ?f sys) with (f <$> sys) in Hx. rewrite list_lookup_fmap in Hx. destruct (sys !! b) as [z|] eqn:Ez; [|done]. injection Hx as <-. apply lookup_zip_with_Some in Hy as (r & st & -> & Hr & Hst).
    destruct (Forall2_lookup_r _ _ _ _ _ HF Ez) as (b' & Hb' & E'). apply lookup_seq in Hb' as [-> _]. rewrite Nat.add_0_l in *. unfold body in E'. rewrite (rd_ok _ _ _ Hr), bind_ok, (rd_ok _ _ _ Hst), bind_ok in E'. injection E' as <-. done.
  Qed.
  Lemma system_plain s runs from dolds : as_stage s = OpenForAssembly -> as_sys s = map (zeros zero nr) ranks -> (forall p, p ∈ runs -> calls_ok meshes ranks pdef p.2 /\ forall b l, p.1 b l ≡ₚ l) -> (forall a l, from a l ≡ₚ seq 0 (length ranks)) ->
    exists s1 s2 sys, for_each (fun p s => assembleProblem add nr p.1 ranks p.2 s) runs s = Ok s1 /\ endAssembly zero one add mul sub nr from None dolds ranks s1 = Ok s2 /\ as_stage s2 = Closed /\ getSystem ranks s2 = Ok sys /\
      is_system zero nr T (Amat zero add ranks (together runs.*2 (length ranks))) (Bvec zero add ranks (together runs.*2 (length ranks))) (parts sys).
  Proof using Rth W.
    intros Hs Hz Hruns Hf. destruct (run_inv runs [] s (inv_fresh s Hs Hz) Hruns) as (s1 & E1 & I1 & _). assert (HCs : forall p, p ∈ runs.*2 -> calls_ok meshes ranks pdef p) by (intros p Hp; apply elem_of_list_fmap in Hp as (x & -> & Hx); by apply Hruns).
    destruct (end_all from runs.*2 s1 I1 HCs Hf) as (sts & E2 & L & Hok). exists s1. unfold endAssembly. rewrite (in_open _ _ I1). cbn [is_open throwing_assert]. rewrite bind_ok, E2, !bind_ok. eexists. match goal with |- exists sys, _ /\ Ok ?x = Ok _ /\ _ => destruct (get_ok x eq_refl L) as (sys & Eg & Ep) end. exists sys. split; [done|]. split; [reflexivity|]. split; [done|]. split; [exact Eg|]. rewrite Ep. cbn [as_sys].
    apply (system_ok zero D meshes ranks pdef T W); [|done|done]. intros i j _. apply (Amat_0 zero one add mul sub opp Rth D meshes ranks pdef T W). by apply together_ok.
  Qed.
  Context (fc : list nat -> list nat) (Hfc : forall l, fc l ≡ₚ l) (C : nat -> bool) (Hself : forall i, C i = true -> i < T -> coupled_any meshes ranks pdef i i).
  (** The rank knows the constrained unknowns among its rows and columns. *)
  Definition knows_rank (r : arank) (rows cols : list nat) : Prop :=
    Sorted Nat.le rows /\ Sorted Nat.le cols /\ (forall i, dof_owned (dm_own (ar_map r)) i -> i ∈ rows <-> C i = true) /\ (forall j, j ∈ col_map r -> j ∈ cols <-> C j = true).
  Definition dbc_ok (r : arank) (d : dbc) (dold : list (list F)) : Prop :=
    exists rows cols, knows_rank r rows cols /\ make_dbc fc (owned_graph r) rows cols = Ok d /\ Forall2 (fun s o => length o = length s) (db_sub d) dold.
  Lemma system_dirichlet s runs from ds dolds : as_stage s = OpenForAssembly -> as_sys s = map (zeros zero nr) ranks -> (forall p, p ∈ runs -> calls_ok meshes ranks pdef p.2 /\ forall b l, p.1 b l ≡ₚ l) -> (forall a l, from a l ≡ₚ seq 0 (length ranks)) ->
    length ds = length ranks -> length dolds = length ranks -> (forall b r d o, ranks !! b = Some r -> ds !! b = Some d -> dolds !! b = Some o -> dbc_ok r d o) ->
    exists s1 s2 sys, for_each (fun p s => assembleProblem add nr p.1 ranks p.2 s) runs s = Ok s1 /\ endAssembly zero one add mul sub nr from (Some ds) dolds ranks s1 = Ok s2 /\ as_stage s2 = Closed /\ getSystem ranks s2 = Ok sys /\
      is_system zero nr T (Adir zero one C (Amat zero add ranks (together runs.*2 (length ranks)))) (Bdir zero add mul sub T C (Amat zero add ranks (together runs.*2 (length ranks))) (Bvec zero add ranks (together runs.*2 (length ranks))) (as_bcv s)) (parts sys).
  Proof using Rth W Hfc Hself.
    intros Hs Hz Hruns Hf Lds Ldo Hds. destruct (run_inv runs [] s (inv_fresh s Hs Hz) Hruns) as (s1 & E1 & I1 & B1). assert (HCs : forall p, p ∈ runs.*2 -> calls_ok meshes ranks pdef p) by (intros p Hp; apply elem_of_list_fmap in Hp as (x & -> & Hx); by apply Hruns).
    destruct (end_all from runs.*2 s1 I1 HCs Hf) as (sts & E2 & L & Hok). exists s1. unfold endAssembly. rewrite (in_open _ _ I1). cbn [is_open throwing_assert]. rewrite bind_ok, E2, !bind_ok. set (A := Amat _ _ _ _) in *. set (B := Bvec _ _ _ _) in *.
    assert (HA0 : forall i j, ~ coupled_any meshes ranks pdef i j -> A i j = zero). { intros i j. apply (Amat_0 zero one add mul sub opp Rth D meshes ranks pdef T W). by apply together_ok. }
    set (body := fun b => r ← rd ranks b; d ← rd ds b; _). assert (Hb : forall b r, ranks !! b = Some r -> exists st', body b = Ok st' /\ okrank nr (Adir zero one C A) (Bdir zero add mul sub T C A B (as_bcv s)) r st').
    { intros b r Hr. pose proof (lookup_lt_Some _ _ _ Hr) as Hb. destruct (lookup_lt_is_Some_2 ds b ltac:(lia)) as [d Hd]. destruct (lookup_lt_is_Some_2 dolds b ltac:(lia)) as [o Ho]. destruct (lookup_lt_is_Some_2 sts b ltac:(lia)) as [st Hst]. destruct (Hds b r d o Hr Hd Ho) as (rows & cols & (K1 & K2 & K3 & K4) & Hm & Hsh).
      destruct (apply_ok zero one add mul sub opp Rth D meshes ranks pdef T W nr fc Hfc C Hself b r A B (as_bcv s) st d rows cols o Hr HA0 (Hok b r st Hr Hst)) as (st' & E & H); [|done|done|]. { split; [done|]. split; [done|]. split; [|exact K4]. intros i Hi. apply K3. cbn [part_of p_graph owned_graph g_row] in Hi. rewrite take_row in Hi. apply elem_of_seq in Hi. unfold dof_owned, numOwned in *. lia. }
      exists st'. split; [|done]. unfold body. rewrite (rd_ok _ _ _ Hr), bind_ok, (rd_ok _ _ _ Hd), bind_ok, (rd_ok _ _ _ Ho), bind_ok, (rd_ok _ _ _ Hst), bind_ok. cbn [app] in B1. rewrite B1. exact E. }
    destruct (map_res_ex body (seq 0 (length ranks))) as (sts' & E3 & HF). { intros b Hb'. apply elem_of_seq in Hb'. destruct (lookup_lt_is_Some_2 ranks b ltac:(lia)) as [r Hr]. destruct (Hb b r Hr) as (st' & E & _). eauto. }
    rewrite E3, bind_ok. assert (L' : length sts' = length ranks) by (by rewrite <- (Forall2_length _ _ _ HF), seq_length).
    eexists. match goal with |- exists sys, _ /\ Ok ?x = Ok _ /\ _ => destruct (get_ok x eq_refl L') as (sys & Eg & Ep) end. exists sys. split; [done|]. split; [reflexivity|]. split; [done|]. split; [exact Eg|]. rewrite Ep. cbn [as_sys].
    apply (system_ok zero D meshes ranks pdef T W); [|done|].
    - intros i j Hi Hn. unfold Adir. destruct (C i) eqn:Ei; [|destruct (C j); [done|by apply HA0]]. apply only_false. intros ->. by apply Hn, Hself.
    - intros a r st Hr Hst. destruct (Forall2_lookup_r _ _ _ _ _ HF Hst) as (a' & Ha' & E'). apply lookup_seq in Ha' as [-> Hlt]. rewrite Nat.add_0_l in *. destruct (Hb a r Hr) as (st' & E'' & H). rewrite E'' in E'. injection E' as <-. exact H.
  Qed.
End runs.
