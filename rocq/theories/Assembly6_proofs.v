(** C79: getDirichletDofs; the solutions of the system. *)
From Verif Require Merge_proofs.
From Verif Require Import Base StdAlgo Ownership_model Ownership_proofs Elem_model Mesh_model Mesh_spec Mesh_proofs Helpers_model Helpers_proofs Partition_model Dofs_model Dofs_spec Sparsity_model Sparsity_spec Sparsity_proofs Sparsity2_proofs Sparsity4_proofs Cond_model Cond_spec Cond3_proofs Cond6_proofs Dirichlet_model Dirichlet_spec Dirichlet_proofs LocalBC_model Assembly_model Assembly_spec Assembly_proofs Assembly2_proofs Assembly3_proofs Assembly4_proofs.
Local Arguments Nat.mul : simpl never.
Local Arguments Nat.add : simpl never.
Local Arguments Nat.sub : simpl never.

Section solve.
  Context {F : Type} (zero one : F) (add mul sub : F -> F -> F) (opp : F -> F) (Rth : ring_theory zero one add mul sub opp (@eq F)).
  Add Ring Fring : Rth.
  Notation Sig := (Cond_spec.Sig zero add).
  Notation only := (Cond_spec.only zero).
  Lemma row_eq nr T A B ps p i cv b x : is_system zero nr T A B ps -> p ∈ ps -> has_row p i cv b -> i < T /\ b = map (B i) (seq 0 nr) /\ lin zero add mul cv x = Sig (seq 0 T) (fun j => mul (A i j) (x j)).
  Proof using Rth.
    intros S Hp Hrow. destruct (is_entries _ _ _ _ _ _ S p i cv b Hp Hrow) as (H1 & H2 & H3). pose proof (proj1 (Forall_forall _ _) (is_valid _ _ _ _ _ _ S) p Hp) as VP. destruct Hrow as (l & inds & vs & G1 & G2 & G3 & G4 & G5 & G6).
    split; [apply (is_rows _ _ _ _ _ _ S); exists p; split; [done|by eapply elem_of_list_lookup_2]|]. split; [done|]. destruct (Forall2_lookup_l _ _ _ _ _ (vp_inds _ _ VP) G2) as (vs' & _ & Nd & _). assert (Nc : NoDup cv.*1) by exact (cols_nodup _ _ _ (vp_col _ _ VP) Nd G5).
    rewrite lin_Sig. rewrite <- (Sig_sub zero one add mul sub opp Rth cv.*1 T); [|done|intros j Hj; apply elem_of_list_fmap in Hj as ([j' v] & -> & Hj); by apply (H1 j' v)|intros j Hj; rewrite (H2 j Hj); ring].
    change (cv.*1) with (map fst cv). rewrite Sig_map. apply Sig_ext. intros [j v] Hj. cbn [fst snd]. by destruct (H1 j v Hj) as [_ ->].
  Qed.
  Lemma row_ex nr T A B ps i : is_system zero nr T A B ps -> i < T -> exists p cv b, p ∈ ps /\ has_row p i cv b.
  Proof using Type.
    intros S Hi. apply (is_rows _ _ _ _ _ _ S) in Hi as (p & Hp & Hi). apply elem_of_list_lookup in Hi as [l Hl]. pose proof (proj1 (Forall_forall _ _) (is_valid _ _ _ _ _ _ S) p Hp) as VP. exists p. destruct VP as [V1 V2 V3 V4 [V5 V6]]. pose proof (lookup_lt_Some _ _ _ Hl) as Hlt. pose proof (Forall2_length _ _ _ V3) as L3.
    destruct (lookup_lt_is_Some_2 (p_vals p) l ltac:(lia)) as [vs Hvs]. destruct (lookup_lt_is_Some_2 (p_rhs p) l ltac:(lia)) as [b Hb]. destruct (Forall2_lookup_r _ _ _ _ _ V3 Hvs) as (inds & Hin & Nd & HF & Lv). destruct (map_rd_ok (g_col (p_graph p)) inds) as (cols & _ & HFc); [by apply Forall_forall|].
    pose proof (Forall2_length _ _ _ HFc) as Lc. exists (zip cols vs), b. split; [done|]. exists l, inds, vs. rewrite fst_zip, snd_zip by lia. done.
  Qed.
  Lemma solves_iff nr T A B ps k x : is_system zero nr T A B ps -> k < nr -> solves zero add mul ps k x <-> forall i, i < T -> Sig (seq 0 T) (fun j => mul (A i j) (x j)) = B i k.
  Proof using Rth.
    intros S Hk. split.
    - intros H i Hi. destruct (row_ex nr T A B ps i S Hi) as (p & cv & b & Hp & Hrow). destruct (row_eq nr T A B ps p i cv b x S Hp Hrow) as (_ & Eb & El). specialize (H p i cv b Hp Hrow). unfold sat in H. rewrite Eb, El in H. change (map (B i) (seq 0 nr)) with (B i <$> seq 0 nr) in H. rewrite list_lookup_fmap, lookup_seq_lt in H by done. by injection H.
    - intros H p i cv b Hp Hrow. destruct (row_eq nr T A B ps p i cv b x S Hp Hrow) as (Hi & Eb & El). unfold sat. rewrite Eb, El, (H i Hi). change (map (B i) (seq 0 nr)) with (B i <$> seq 0 nr). rewrite list_lookup_fmap, lookup_seq_lt by done. done.
  Qed.
  Lemma solves_dirichlet nr T C A B X ps k x : is_system zero nr T (Adir zero one C A) (Bdir zero add mul sub T C A B X) ps -> k < nr ->
    solves zero add mul ps k x <-> (forall i, i < T -> C i = true -> x i = X k i) /\ (forall i, i < T -> C i = false -> Sig (seq 0 T) (fun j => mul (A i j) (x j)) = B i k).
  Proof using Rth.
    intros S Hk. rewrite (solves_iff _ _ _ _ _ _ _ S Hk).
    assert (HC : forall i, i < T -> C i = true -> Sig (seq 0 T) (fun j => mul (Adir zero one C A i j) (x j)) = x i).
    { intros i Hi Ci. transitivity (Sig (seq 0 T) (fun j => only (j = i) (x j))); [|apply (Sig_one zero one add mul sub opp Rth); [apply NoDup_seq|apply elem_of_seq; lia]]. apply Sig_ext. intros j _. unfold Adir. rewrite Ci. destruct (decide (j = i)) as [-> |Hne]; [rewrite !only_true by done; ring|rewrite !only_false by congruence; ring]. }
    assert (HN : (forall j, j < T -> C j = true -> x j = X k j) -> forall i, C i = false -> Sig (seq 0 T) (fun j => mul (A i j) (x j)) = add (Sig (seq 0 T) (fun j => mul (Adir zero one C A i j) (x j))) (Sig (seq 0 T) (fun j => only (C j = true) (mul (A i j) (X k j))))).
    { intros Hx i Ci. rewrite <- (Sig_add zero one add mul sub opp Rth). apply Sig_ext. intros j Hj. apply elem_of_seq in Hj. unfold Adir. rewrite Ci. destruct (C j) eqn:Cj; [rewrite only_true by done; rewrite (Hx j ltac:(lia) Cj); ring|rewrite only_false by done; ring]. }
    split.
    - intros H. assert (Hx : forall i, i < T -> C i = true -> x i = X k i). { intros i Hi Ci. rewrite <- (HC i Hi Ci), (H i Hi). unfold Bdir. by rewrite Ci. } split; [done|]. intros i Hi Ci. rewrite (HN Hx i Ci), (H i Hi). unfold Bdir. rewrite Ci. ring.
    - intros [Hx H] i Hi. unfold Bdir. destruct (C i) eqn:Ci; [rewrite (HC i Hi Ci); by apply Hx|]. rewrite <- (H i Hi Ci), (HN Hx i Ci). ring.
  Qed.
End solve.

Definition least (o : option nat) (P : nat -> Prop) : Prop := match o with Some d => P d /\ forall d', P d' -> d <= d' | None => forall d, ~ P d end.
Section dirichlet.
  Context {V : Type} (D : nat) (meshes : list (mesh V)) (ranks : list arank) (pdef : list (list nat * list bool)) (T : nat) (W : aworld D meshes ranks pdef T) (def : bc_def) (HD : def_ok D meshes ranks def) (top : nat) (Htop : T <= top).
  Lemma pairs_in b m r : meshes !! b = Some m -> ranks !! b = Some r -> (m, r) ∈ zip meshes ranks /\ (m, ar_map r) ∈ zip meshes (map ar_map ranks).
  Proof using Type. intros Hm Hr. destruct (pair_at meshes ranks b m r Hm Hr). split; by eapply elem_of_list_lookup_2. Qed.
  Definition here_unknown (m : mesh V) (r : arank) (f d : nat) : Prop := exists n, isOwned (m_own m) n = true /\ unknown_no (ar_map r) n f = Some d.
  Lemma my_min_ok b m r : meshes !! b = Some m -> ranks !! b = Some r -> exists cur, my_min_dofs m (ar_map r) (bd_norm def) = Ok cur /\ length cur = length (bd_norm def) /\
    forall k f, bd_norm def !! k = Some f -> exists o, cur !! k = Some o /\ least o (here_unknown m r f).
  Proof using W HD.
    clear top Htop. intros Hm Hr. destruct (pairs_in b m r Hm Hr) as [Hp Hp']. destruct (us_keys _ _ _ _ (aw_usable _ _ _ _ _ W) m (ar_map r) Hp') as [Hk _]. unfold my_min_dofs.
    set (P := fun (pre : list (nat * list (option nat))) f d => exists n row, (n, row) ∈ pre /\ isOwned (m_own m) n = true /\ row !! f = Some (Some d)).
    destruct (for_each_inv (fun (x : nat * list (option nat)) cur => if isOwned (m_own m) x.1 then ex ← map_res (rd x.2) (bd_norm def); Ok (zip_with min_dof cur ex) else Ok cur)
      (fun pre cur => length cur = length (bd_norm def) /\ forall k f, bd_norm def !! k = Some f -> exists o, cur !! k = Some o /\ least o (P pre f)) (dm_map (ar_map r)) [] (map (fun _ => None) (bd_norm def))) as (cur & E & L & H).
    - split; [by rewrite map_length|]. intros k f Hf. exists None. change (map ?g (bd_norm def)) with (g <$> bd_norm def). rewrite list_lookup_fmap, Hf. split; [done|]. intros d (n & row & Hx & _). by apply elem_of_nil in Hx.
    - intros pre [n row] cur [post Hpost] [L H]. cbn [app] in Hpost. assert (Hin : (n, row) ∈ dm_map (ar_map r)) by (rewrite Hpost; apply elem_of_app; right; left). cbn [fst snd]. destruct (isOwned (m_own m) n) eqn:Eo.
      + destruct (us_rows _ _ _ _ (aw_usable _ _ _ _ _ W) m (ar_map r) n row Hp' Hin) as [Lr _]. destruct (map_res_ex (rd row) (bd_norm def)) as (ex & Ex & HF). { intros f Hf. destruct (lookup_lt_is_Some_2 row f) as [o Ho]; [rewrite Lr; by apply (do_inds _ _ _ _ HD)|]. exists o. by apply rd_ok. }
        rewrite Ex, bind_ok. eexists. split; [reflexivity|]. pose proof (Forall2_length _ _ _ HF) as Lx. split; [rewrite zip_with_length; lia|]. intros k f Hf. destruct (H k f Hf) as (o & Ho & Hl). destruct (Forall2_lookup_l _ _ _ _ _ HF Hf) as (e & He & Ee). apply rd_inv in Ee. exists (min_dof o e). split; [apply lookup_zip_with_Some; by exists o, e|].
        assert (HP : forall d, P (pre ++ [(n, row)]) f d <-> P pre f d \/ e = Some d).
        { intros d. unfold P. split.
          - intros (n' & row' & Hx & Ho' & Hd). apply elem_of_app in Hx as [Hx|Hx]; [left; by exists n', row'|]. apply elem_of_list_singleton in Hx as [= -> ->]. right. congruence.
          - intros [(n' & row' & Hx & Ho' & Hd)| ->]; [exists n', row'; split; [apply elem_of_app; by left|done]|]. exists n, row. split; [apply elem_of_app; right; left|done]. }
        unfold min_dof. destruct e as [e|]; [destruct o as [c|]|]; cbn [least] in *.
        * destruct Hl as [H1 H2]. split; [apply HP; destruct (Nat.min_dec c e) as [-> | ->]; [by left|by right]|]. intros d Hd. apply HP in Hd as [Hd|[= ->]]; [specialize (H2 d Hd)|]; lia.
        * split; [apply HP; by right|]. intros d Hd. apply HP in Hd as [Hd|[= ->]]; [by destruct (Hl d)|done].
        * destruct o as [c|]; cbn [least] in *; [destruct Hl as [H1 H2]; split; [apply HP; by left|]; intros d Hd; apply HP in Hd as [Hd|Hd]; [by apply H2|done]|]. intros d Hd. apply HP in Hd as [Hd|Hd]; [by apply (Hl d)|done].
      + exists cur. split; [done|]. split; [done|]. intros k f Hf. destruct (H k f Hf) as (o & Ho & Hl). exists o. split; [done|]. assert (HP : forall d, P (pre ++ [(n, row)]) f d <-> P pre f d).
        { intros d. unfold P. split; [|intros (n' & row' & Hx & Ho' & Hd); exists n', row'; split; [apply elem_of_app; by left|done]]. intros (n' & row' & Hx & Ho' & Hd). apply elem_of_app in Hx as [Hx|Hx]; [by exists n', row'|]. apply elem_of_list_singleton in Hx as [= -> ->]. congruence. }
        destruct o as [c|]; cbn [least] in *; [destruct Hl as [H1 H2]; split; [by apply HP|]; intros d Hd; apply H2; by apply HP|]. intros d Hd. apply (Hl d). by apply HP.
    - exists cur. split; [done|]. split; [done|]. intros k f Hf. destruct (H k f Hf) as (o & Ho & Hl). exists o. split; [done|]. cbn [app] in Hl. assert (HP : forall d, P (dm_map (ar_map r)) f d <-> here_unknown m r f d).
      { intros d. unfold P, here_unknown. split.
        - intros (n & row & Hx & Ho' & Hd). exists n. split; [done|]. rewrite unknown_find. apply (hm_find_elem _ _ _ Hk) in Hx. by rewrite Hx, Hd.
        - intros (n & Ho' & Hu). rewrite unknown_find in Hu. destruct (hm_find n (dm_map (ar_map r))) as [row|] eqn:E'; [|done]. exists n, row. split; [by apply (hm_find_elem _ _ _ Hk)|]. split; [done|]. destruct (row !! f) as [x|]; [congruence|done]. }
      destruct o as [c|]; cbn [least] in *; [destruct Hl as [H1 H2]; split; [by apply HP|]; intros d Hd; apply H2; by apply HP|]. intros d Hd. apply (Hl d). by apply HP.
  Qed.
  Lemma foldr_min_le l x : x ∈ l -> foldr Nat.min top l <= x.
  Proof using Type. clear Htop. induction l as [|y l IH]; intros Hx; [by apply elem_of_nil in Hx|]. cbn [foldr]. apply elem_of_cons in Hx as [-> |Hx]; [lia|]. specialize (IH Hx). lia. Qed.
  Lemma foldr_min_in l : foldr Nat.min top l = top \/ foldr Nat.min top l ∈ l.
  Proof using Type. clear Htop. induction l as [|y l IH]; [by left|]. cbn [foldr]. destruct (Nat.min_dec y (foldr Nat.min top l)) as [-> | ->]; [right; left|]. destruct IH as [IH|IH]; [by left|right; by right]. Qed.
  (** The normalised unknowns each rank marks. *)
  Lemma norms_ok : exists norms, (if decide (bd_norm def = []) then Ok (map (fun _ => []) (zip meshes ranks))
             else all ← map_res (fun x : mesh V * arank => my_min_dofs x.1 (ar_map x.2) (bd_norm def)) (zip meshes ranks); Ok (map (keep_global top all) all)) = Ok norms /\ length norms = length ranks /\
    (forall d, (exists b l, norms !! b = Some l /\ d ∈ l) <-> normalised_at meshes ranks def d) /\
    (forall b r l d, ranks !! b = Some r -> norms !! b = Some l -> d ∈ l -> exists n f, unknown_no (ar_map r) n f = Some d).
  Proof using W HD Htop.
    pose proof (aw_length _ _ _ _ _ W) as Lm. assert (Lz : length (zip meshes ranks) = length ranks) by (rewrite zip_with_length; lia).
    destruct (decide (bd_norm def = [])) as [E0|E0].
    { eexists. split; [reflexivity|]. split; [by rewrite map_length|]. assert (Hno : forall b l d, map (fun _ : mesh V * arank => @nil nat) (zip meshes ranks) !! b = Some l -> d ∉ l). { intros b l d Hb. change (map ?g ?z) with (g <$> z) in Hb. rewrite list_lookup_fmap in Hb. destruct (zip meshes ranks !! b); [|done]. injection Hb as <-. apply not_elem_of_nil. }
      split; [|intros b r l d _ Hb Hd; by destruct (Hno b l d Hb)]. intros d. split; [intros (b & l & Hb & Hd); by destruct (Hno b l d Hb)|]. intros (f & Hf & _). rewrite E0 in Hf. by apply elem_of_nil in Hf. }
    set (my := fun x : mesh V * arank => my_min_dofs x.1 (ar_map x.2) (bd_norm def)).
    destruct (map_res_ex my (zip meshes ranks)) as (all & Ea & HF). { intros [m r] Hx. apply elem_of_list_lookup in Hx as [b Hb]. apply lookup_zip_with_Some in Hb as (? & ? & [= <- <-] & Hm & Hr). destruct (my_min_ok b m r Hm Hr) as (cur & E & _). by exists cur. }
    rewrite Ea, bind_ok. eexists. split; [reflexivity|]. pose proof (Forall2_length _ _ _ HF) as La. split; [rewrite map_length; lia|].
    set (num := fun d : option nat => match d with Some d => d | None => top end). set (best := fun k => foldr Nat.min top (map (fun l : list (option nat) => match l !! k with Some d => num d | None => top end) all)).
    assert (Hall : forall b m r, meshes !! b = Some m -> ranks !! b = Some r -> exists mine, all !! b = Some mine /\ length mine = length (bd_norm def) /\ forall k f, bd_norm def !! k = Some f -> exists o, mine !! k = Some o /\ least o (here_unknown m r f)).
    { intros b m r Hm Hr. destruct (Forall2_lookup_l _ _ _ _ _ HF (proj1 (pair_at meshes ranks b m r Hm Hr))) as (mine & Hmi & E). exists mine. split; [done|]. destruct (my_min_ok b m r Hm Hr) as (cur & E' & H). unfold my in E. cbn [fst snd] in E. rewrite E' in E. injection E as <-. exact H. }
    assert (Hback : forall b mine, all !! b = Some mine -> exists m r, meshes !! b = Some m /\ ranks !! b = Some r). { intros b mine Hb. destruct (Forall2_lookup_r _ _ _ _ _ HF Hb) as ([m r] & Hx & _). apply lookup_zip_with_Some in Hx as (? & ? & [= <- <-] & Hm & Hr). by exists m, r. }
    assert (Hlt : forall b r m f d, meshes !! b = Some m -> ranks !! b = Some r -> here_unknown m r f d -> d < T). { intros b r m f d Hm Hr (n & _ & Hu). apply (local_lt _ _ _ _ _ W b r d Hr). by apply (unknown_local _ _ _ _ _ W b r n f d Hr). }
    (* the reduction *)
    assert (Hbest : forall k f, bd_norm def !! k = Some f -> least (Some (best k)) (is_unknown meshes ranks f)).
    { intros k f Hk. assert (Hle : forall d, is_unknown meshes ranks f d -> best k <= d).
      { intros d (m & r & n & Hx & Ho & Hu). apply elem_of_list_lookup in Hx as [b Hb]. apply lookup_zip_with_Some in Hb as (? & ? & [= <- <-] & Hm & Hr). destruct (Hall b m r Hm Hr) as (mine & Hmi & _ & H). destruct (H k f Hk) as (o & Ho' & Hl). destruct o as [c|]; cbn [least] in Hl; [|exfalso; apply (Hl d); by exists n]. destruct Hl as [_ Hl]. specialize (Hl d ltac:(by exists n)).
        eapply Nat.le_trans; [|exact Hl]. apply foldr_min_le. apply elem_of_list_fmap. exists mine. rewrite Ho'. split; [done|]. by eapply elem_of_list_lookup_2. }
      split; [|done]. destruct (do_norm _ _ _ _ HD f) as [d Hd]; [by eapply elem_of_list_lookup_2|]. assert (Hd' : d < T). { destruct Hd as (m & r & n & Hx & Ho & Hu). apply elem_of_list_lookup in Hx as [b Hb]. apply lookup_zip_with_Some in Hb as (? & ? & [= <- <-] & Hm & Hr). eapply Hlt; [exact Hm|exact Hr|]. by exists n. }
      specialize (Hle d Hd). destruct (foldr_min_in (map (fun l : list (option nat) => match l !! k with Some d => num d | None => top end) all)) as [E|E]; [change (best k = top) in E; lia|]. change (best k ∈ map (fun l : list (option nat) => match l !! k with Some d => num d | None => top end) all) in E.
      apply elem_of_list_fmap in E as (mine & E & Hmi). apply elem_of_list_lookup in Hmi as [b Hb]. destruct (Hback b mine Hb) as (m & r & Hm & Hr). destruct (Hall b m r Hm Hr) as (mine' & Hmi' & _ & H). assert (mine' = mine) as -> by congruence. destruct (H k f Hk) as (o & Ho & Hl). rewrite Ho in E. destruct o as [c|]; cbn [num] in E; [|lia]. destruct Hl as [(n & Hn1 & Hn2) _]. exists m, r, n. split; [by apply (pairs_in b)|]. split; [done|]. by rewrite E. }
    assert (Hkeep : forall b m r mine d, meshes !! b = Some m -> ranks !! b = Some r -> all !! b = Some mine -> d ∈ keep_global top all mine <-> exists k f, bd_norm def !! k = Some f /\ d = best k /\ here_unknown m r f d).
    { intros b m r mine d Hm Hr Hmi. destruct (Hall b m r Hm Hr) as (mine' & Hmi' & Lmi & H). assert (mine' = mine) as -> by congruence. unfold keep_global. cbv zeta. rewrite elem_of_list_omap. split.
      - intros (k & Hk & Hd). apply elem_of_seq in Hk. destruct (lookup_lt_is_Some_2 (bd_norm def) k ltac:(lia)) as [f Hf]. destruct (H k f Hf) as (o & Ho & Hl). rewrite Ho in Hd. change (foldr Nat.min top _) with (best k) in Hd. destruct (Nat.eqb_spec (num o) (best k)) as [En|En]; [|unfold num in En; destruct (Nat.eqb_spec (match o with Some d => d | None => top end) (best k)); [done|discriminate]].
        unfold num in En. rewrite (proj2 (Nat.eqb_eq _ _) En) in Hd. injection Hd as <-. exists k, f. split; [done|]. split; [done|]. destruct o as [c|]; [by apply Hl|]. exfalso. destruct (Hbest k f Hf) as [(m' & r' & n & Hx & Ho' & Hu) _]. apply elem_of_list_lookup in Hx as [b' Hb']. apply lookup_zip_with_Some in Hb' as (? & ? & [= <- <-] & Hm' & Hr'). assert (best k < T) by (eapply (Hlt b' r' m' f); [done|done|by exists n]). lia.
      - intros (k & f & Hf & -> & Hu). exists k. assert (Hkl : k < length (bd_norm def)) by (by eapply lookup_lt_Some). split; [apply elem_of_seq; lia|]. destruct (H k f Hf) as (o & Ho & Hl). rewrite Ho. change (foldr Nat.min top _) with (best k). destruct o as [c|]; cbn [least] in Hl; [|by destruct (Hl (best k))]. destruct Hl as [(n & Hn1 & Hn2) Hl]. specialize (Hl _ Hu).
        destruct (Hbest k f Hf) as [_ Hb']. assert (best k <= c). { apply Hb'. exists m, r, n. split; [by apply (pairs_in b)|done]. } rewrite (proj2 (Nat.eqb_eq c (best k))) by lia. f_equal. lia. }
    split.
    - intros d. split.
      + intros (b & l & Hb & Hd). change (map ?g all) with (g <$> all) in Hb. rewrite list_lookup_fmap in Hb. destruct (all !! b) as [mine|] eqn:Eb; [|done]. injection Hb as <-. destruct (Hback b mine Eb) as (m & r & Hm & Hr). apply (Hkeep b m r mine d Hm Hr Eb) in Hd. destruct Hd as (k & f & Hf & Hdk & _). rewrite Hdk. exists f. split; [by eapply elem_of_list_lookup_2|]. apply (Hbest k f Hf).
      + intros (f & Hf & Hd & Hl). apply elem_of_list_lookup in Hf as [k Hk]. destruct (Hbest k f Hk) as [B1 B2]. assert (d = best k) as -> by (specialize (Hl _ B1); specialize (B2 _ Hd); lia). destruct B1 as (m & r & n & Hx & Ho & Hu). apply elem_of_list_lookup in Hx as [b Hb]. apply lookup_zip_with_Some in Hb as (? & ? & [= <- <-] & Hm & Hr). destruct (Hall b m r Hm Hr) as (mine & Hmi & _).
        exists b, (keep_global top all mine). split; [change (map ?g all) with (g <$> all); by rewrite list_lookup_fmap, Hmi|]. apply (Hkeep b m r mine _ Hm Hr Hmi). exists k, f. split; [done|]. split; [done|]. by exists n.
    - intros b r l d Hr Hb Hd. change (map ?g all) with (g <$> all) in Hb. rewrite list_lookup_fmap in Hb. destruct (all !! b) as [mine|] eqn:Eb; [|done]. injection Hb as <-. destruct (Hback b mine Eb) as (m & r' & Hm & Hr'). assert (r' = r) as -> by congruence. apply (Hkeep b m r mine d Hm Hr Eb) in Hd. destruct Hd as (k & f & Hf & _ & n & _ & Hu). by exists n, f.
  Qed.
End dirichlet.
