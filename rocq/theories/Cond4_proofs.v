(** C42: the effect of condenseSystem. *)
From Coq Require Import Ring Ring_theory.
From Verif Require Import Base StdAlgo Elem_model Elem_spec Elem_proofs Mesh_model Mesh_spec Mesh_proofs Partition_model LocalView_model Periodic_proofs Sparsity_proofs Sparsity2_proofs Cond_model Cond_spec Cond_proofs Cond2_proofs Cond3_proofs.
Local Arguments Nat.mul : simpl never.
Local Arguments Nat.add : simpl never.
Local Arguments Nat.sub : simpl never.

Section cond.
  Context {F : Type} (zero one : F) (add mul sub : F -> F -> F) (opp : F -> F) (Rth : ring_theory zero one add mul sub opp (@eq F)).
  Add Ring Fring : Rth.
  Notation Sig := (Sig zero add).
  Notation only := (only zero).
  Notation mat := (nat -> nat -> F).
  Infix "+!" := add (at level 50, left associativity).
  Infix "*!" := mul (at level 40, left associativity).
  Context {V : Type} (D : nat) (dofs : nat -> res dof_triplet) (g : nat -> list (option nat)) (ro co ho : nat -> nat) (e : element V).
  Context (Ht : typed_el e) (Hg : dofs_agree g D dofs ro co ho e).
  Notation n := (length (el_nodes e)).
  Notation B := (el_bnd e).
  Notation bnds := (List.filter B (seq 0 n)).
  Notation ints := (List.filter (fun i => negb (B i)) (seq 0 n)).
  Notation nd := (nd e).
  Notation plist := (plist D g e).
  Notation ilist := (ilist D g e).
  Context (fields : list nat) (Hs : StronglySorted lt fields) (Hf : fields_active g D e fields).
  Notation K := (kernel_unknowns e fields).
  Notation psrc := (List.filter (at_pos (fun w => B w.1) K) (seq 0 (length K))).
  Notation csrc := (List.filter (at_pos (fun w => negb (B w.1)) K) (seq 0 (length K))).
  Definition dK (k : nat) : nat := default 0 (K !! k ≫= dof_of g e).
  Lemma K_dof k w : K !! k = Some w -> B w.1 = true -> dof_of g e w = Some (dK k) /\ node_dof g e w = Some (dK k).
  Proof using Hf.
    clear Ht Hg. intros Hk Hb. assert (Hw : w ∈ K) by (by eapply elem_of_list_lookup_2). destruct w as [i c]. apply elem_of_prod in Hw as [Hi Hc]. cbn [fst snd] in *. apply elem_of_seq in Hi. destruct Hf as [_ Hf']. destruct (proj2 (Hf' c Hc) i ltac:(lia) Hb) as [d Hd].
    assert (Hdd : dof_of g e (i, c) = Some d) by (unfold dof_of; cbn [fst]; by rewrite Hb). unfold dK. rewrite Hk. cbn [mbind option_bind]. rewrite Hdd. done.
  Qed.
  Lemma prod_psrc : list_prod bnds fields = map (fun k => nth k K (0, 0)) psrc.
  Proof.
    clear Hs Hf Ht Hg. rewrite pos_map. unfold kernel_unknowns. generalize (seq 0 n) as l. induction l as [|i l IH]; [done|]. cbn [list_prod]. rewrite List.filter_app. cbn [List.filter].
    assert (E : List.filter (fun w : nat * nat => B w.1) (map (fun y => (i, y)) fields) = if B i then map (fun y => (i, y)) fields else []).
    { clear IH. induction fields as [|c fs IH]; [by destruct (B i)|]. cbn [map List.filter fst]. rewrite IH. by destruct (B i). }
    rewrite E. destruct (B i); cbn [list_prod app]; by rewrite IH.
  Qed.
  Lemma dofs_at_ok (sel : dof_triplet -> list (option nat)) (sg : nat -> nat) :
    (forall t, sel (map (fmap ro) t, map (fmap co) t, map (fmap ho) t) = map (fmap sg) t) ->
    dofs_at dofs sel fields (map nd bnds) = Ok (map (fun k => Some (sg (dK k))) psrc).
  Proof using Hf Hg.
    clear Ht Hs. intros Hsel. unfold dofs_at.
    assert (E : map_res (fun m => t ← dofs m; map_res (rd (sel t)) fields) (map nd bnds) = Ok (map (fun i => map (fun c => sg <$> node_dof g e (i, c)) fields) bnds)).
    { assert (Em : forall l, (forall i, i ∈ l -> i ∈ bnds) -> map_res (fun m => t ← dofs m; map_res (rd (sel t)) fields) (map nd l) = Ok (map (fun i => map (fun c => sg <$> node_dof g e (i, c)) fields) l)).
      { induction l as [|i l IH]; intros Hl; [done|]. cbn [map map_res]. assert (Hi : i ∈ bnds) by (apply Hl; left). destruct (at_bnd D dofs g ro co ho e Hg i Hi) as [Hd ->]. rewrite bind_ok. rewrite Hsel.
        apply elem_of_filter' in Hi as [Hi Hb]. apply elem_of_seq in Hi.
        rewrite (map_res_ok (rd (map (fmap sg) (g (nd i)))) (fun c => sg <$> node_dof g e (i, c)) fields).
        - rewrite bind_ok, IH by (intros x Hx; apply Hl; by right). done.
        - intros c Hc. apply rd_ok. rewrite (list_lookup_fmap (fmap sg : option nat -> option nat)). rewrite node_dof_at by lia. destruct Hf as [_ Hf']. destruct (Hf' c Hc) as [HcD _]. destruct (lookup_lt_is_Some_2 (g (nd i)) c ltac:(lia)) as [d ->]. done. }
      apply Em. done. }
    rewrite E, bind_ok. f_equal.
    transitivity (map (fun w => sg <$> node_dof g e w) (list_prod bnds fields)).
    { clear E. generalize bnds as l. induction l as [|i l IH]; [done|]. cbn [map concat list_prod]. rewrite map_app, IH. f_equal. by rewrite map_map. }
    rewrite prod_psrc, map_map. apply List.map_ext_in. intros k Hk%elem_of_list_In. apply elem_of_filter' in Hk as [_ Hk]. unfold at_pos in Hk. destruct (K !! k) as [w|] eqn:Ek; [|done]. destruct (K_dof k w Ek Hk) as [_ Hn]. rewrite (nth_lookup_Some _ _ _ _ Ek), Hn. done.
  Qed.
  (** Sums over the pairs of source and destination. *)
  Lemma zip_pick (l : list (nat * nat)) src dest i w (phi : nat -> F) : NoDup l -> l !! i = Some w -> Forall2 (same e fields l) src dest ->
    Sig (zip src dest) (fun z => only (z.2 = i) (phi z.1)) = Sig src (fun k => only (K !! k = Some w) (phi k)).
  Proof.
    clear Hf Hs Ht Hg. intros Hn Hw. induction 1 as [|k q src dest [[w' Hk] Hq] _ IH]; [done|]. cbn [zip zip_with]. rewrite !Sig_cons. f_equal; [|done]. cbn [fst snd]. apply only_ext; [|done]. rewrite Hk in Hq. split.
    - intros ->. congruence.
    - intros E. rewrite Hk in E. injection E as ->. eapply NoDup_lookup; done.
  Qed.
  Lemma pick_src (p : nat * nat -> bool) w (phi : nat -> F) : p w = true -> Sig (List.filter (at_pos p K) (seq 0 (length K))) (fun k => only (K !! k = Some w) (phi k)) = load zero add K phi w.
  Proof using Rth.
    clear Hf Hs Ht Hg. intros Hp. rewrite (Sig_filter _ _ _ _ _ _ Rth). unfold load. apply Sig_ext. intros k _. unfold Cond_spec.only at 1. destruct (decide _) as [|Hno]; [done|]. symmetry. apply only_false. intros E. apply Hno. unfold at_pos. by rewrite E.
  Qed.
  Lemma pick (p : nat * nat -> bool) l src dest i w phi : NoDup l -> l !! i = Some w -> p w = true -> src = List.filter (at_pos p K) (seq 0 (length K)) -> Forall2 (same e fields l) src dest ->
    Sig (zip src dest) (fun z => only (z.2 = i) (phi z.1)) = load zero add K phi w.
  Proof using Rth. intros Hn Hw Hp -> H. rewrite (zip_pick l _ _ i w) by done. by apply pick_src. Qed.
  Lemma gpick u f (phi : nat -> F) U : inj_on U f -> dofs_in g U e -> u ∈ U ->
    Sig psrc (fun k => only (f (dK k) = f u) (phi k)) = gload zero add K (dof_of g e) phi u.
  Proof using Rth Hf.
    clear Hs Ht Hg. intros Hinj Hin Hu. rewrite (Sig_filter _ _ _ _ _ _ Rth). unfold gload. apply Sig_ext. intros k _. destruct (at_pos (fun w => B w.1) K k) eqn:E.
    - rewrite only_true by done. unfold at_pos in E. destruct (K !! k) as [w|] eqn:Ek; [|done]. destruct (K_dof k w Ek E) as [Hd _]. apply only_ext; [|done]. cbn [mbind option_bind]. rewrite Hd. split; [|congruence]. intros H. f_equal. apply Hinj; [by eapply Hin|done..].
    - rewrite only_false by congruence. symmetry. apply only_false. intros H. unfold at_pos in E. destruct (K !! k) as [w|]; [|done]. cbn [mbind option_bind] in H. unfold dof_of in H. by rewrite E in H.
  Qed.
  Lemma dest_lt l src dest : Forall2 (same e fields l) src dest -> forall z, z ∈ zip src dest -> z.2 < length l.
  Proof.
    clear Hf Hs Ht Hg. induction 1 as [|k q src dest [[w Hk] Hq] _ IH]; cbn [zip zip_with]; intros z Hz; [by apply elem_of_nil in Hz|]. apply elem_of_cons in Hz as [-> |Hz]; [|by apply IH]. cbn [snd]. apply lookup_lt_is_Some_1. rewrite Hq, Hk. by eexists.
  Qed.
  Lemma plist_B i w : plist !! i = Some w -> B w.1 = true.
  Proof. intros H%elem_of_list_lookup_2. apply elem_of_filter' in H as [_ H]. unfold isP in H. by apply andb_true_iff in H as [-> _]. Qed.
  Lemma ilist_B i w : ilist !! i = Some w -> negb (B w.1) = true.
  Proof. intros H%elem_of_list_lookup_2. apply elem_of_filter' in H as [_ H]. unfold isI in H. by apply andb_true_iff in H as [-> _]. Qed.
  Lemma plist_nodup : NoDup plist.
  Proof. apply lex_nodup, sorted_filter_lex, W_sorted. Qed.
  Lemma ilist_nodup : NoDup ilist.
  Proof. apply lex_nodup, sorted_filter_lex, W_sorted. Qed.

  Theorem condense_ok nr a b d gs U : insert_elem_info D dofs e = Ok (cd_dims d) -> inj_on U ro -> inj_on U co -> inj_on U ho -> dofs_in g U e ->
    exists d' gs', condenseSystem add D dofs nr fields a b e d gs = Ok (d', gs') /\ cd_dims d' = cd_dims d /\ cd_inv d' = cd_inv d /\
      (forall i j w w', ilist !! i = Some w -> ilist !! j = Some w' -> cd_diag d' i j = cd_diag d i j +! entry zero add K a w w') /\
      (forall i j w w', plist !! i = Some w -> ilist !! j = Some w' -> cd_upper d' i j = cd_upper d i j +! entry zero add K a w w') /\
      (forall i w r, ilist !! i = Some w -> r < nr -> cd_rhs d' i r = cd_rhs d i r +! load zero add K (fun k => b k r) w) /\
      (forall u v, u ∈ U -> v ∈ U -> gs'.1 (ro u) (co v) = gs.1 (ro u) (co v) +! gentry zero add K (dof_of g e) a u v) /\
      (forall u r, u ∈ U -> r < nr -> gs'.2 (ho u) r = gs.2 (ho u) r +! gload zero add K (dof_of g e) (fun k => b k r) u).
  Proof using Rth Ht Hg Hs Hf.
    intros Hd Iro Ico Iho Hin. destruct (info_ok D dofs g ro co ho e Ht Hg) as (dims & E & Einds & Ebnd & Eint). rewrite E in Hd. injection Hd as Hd. rewrite Hd in *. clear E.
    unfold condenseSystem. rewrite Einds. destruct (local_inds_ok D dofs g ro co ho e Ht Hg fields Hs Hf) as (li & E & Ep & Ec & Fp & Fc). rewrite E, bind_ok. clear E.
    rewrite (bnodes_eq e Ht), bind_ok.
    rewrite (dofs_at_ok (fun t => t.1.1) ro), bind_ok by done. rewrite (dofs_at_ok (fun t => t.1.2) co), bind_ok by done. rewrite (dofs_at_ok (fun t => t.2) ho), bind_ok by done.
    cbv zeta. rewrite <- Ep.
    destruct gs as [m h]. destruct (scatter_ok zero one add mul sub opp Rth (li_psrc li) (fun k => ro (dK k)) (fun k => co (dK k)) (fun k => ho (dK k)) nr a b (fun i j => a (nth i (li_psrc li) 0) (nth j (li_psrc li) 0)) (fun i r => b (nth i (li_psrc li) 0) r) m h) as (m' & h' & E & Hm & Hh); [done..|].
    rewrite E, bind_ok. clear E.
    set (cs := zip (li_csrc li) (li_cdest li)). set (ps := zip (li_psrc li) (li_pdest li)). rewrite Eint, Ebnd.
    pose proof (dest_lt _ _ _ Fp) as Lp. pose proof (dest_lt _ _ _ Fc) as Lc. fold ps in Lp. fold cs in Lc.
    match goal with |- context [for_each ?f cs (cd_diag d, cd_rhs d)] => set (f1 := f) end.
    destruct (loop_sum2 zero one add mul sub opp Rth f1 (fun z i j => Sig cs (fun w => only (z.2 = i) (only (w.2 = j) (a z.1 w.1)))) (fun z i r => Sig (seq 0 nr) (fun q => only (z.2 = i) (only (q = r) (b z.1 q)))) cs (cd_diag d) (cd_rhs d)) as (diag & rh & E & Hdiag & Hrh).
    { intros z m1 m2 Hz. unfold f1. cbn [fst snd].
      destruct (loop_sum zero one add mul sub opp Rth (fun (w : nat * nat) m => madd add (length ilist) (length ilist) m z.2 w.2 (a z.1 w.1)) (fun w i j => only (z.2 = i) (only (w.2 = j) (a z.1 w.1))) cs m1) as (m1' & E1 & H1).
      { intros w mm Hw. apply (madd_ok zero one add mul sub opp Rth); auto. }
      rewrite E1, bind_ok.
      destruct (loop_sum zero one add mul sub opp Rth (fun i m => madd add (length ilist) nr m z.2 i (b z.1 i)) (fun q i j => only (z.2 = i) (only (q = j) (b z.1 q))) (seq 0 nr) m2) as (m2' & E2 & H2).
      { intros q mm Hq. apply elem_of_seq in Hq. apply (madd_ok zero one add mul sub opp Rth); [auto|lia]. }
      rewrite E2, bind_ok. by exists m1', m2'. }
    rewrite E, bind_ok. clear E.
    match goal with |- context [for_each ?f ps (cd_upper d)] => set (f2 := f) end.
    destruct (loop_sum zero one add mul sub opp Rth f2 (fun z i j => Sig cs (fun w => only (z.2 = i) (only (w.2 = j) (a z.1 w.1)))) ps (cd_upper d)) as (up & E & Hup).
    { intros z m1 Hz. unfold f2. apply (loop_sum zero one add mul sub opp Rth (fun (w : nat * nat) m => madd add (length plist) (length ilist) m z.2 w.2 (a z.1 w.1)) (fun w i j => only (z.2 = i) (only (w.2 = j) (a z.1 w.1))) cs m1). intros w mm Hw. apply (madd_ok zero one add mul sub opp Rth); auto. }
    rewrite E, bind_ok. clear E. eexists _, _. split; [reflexivity|]. cbn [cd_dims cd_inv cd_diag cd_upper cd_rhs fst snd]. split; [done|]. split; [done|].
    split; [|split; [|split; [|split]]].
    - intros i j w w' Hi Hj. rewrite Hdiag. f_equal. transitivity (Sig cs (fun z => only (z.2 = i) ((fun k => load zero add K (a k) w') z.1))).
      { apply Sig_ext. intros z _. rewrite <- (only_Sig zero one add mul sub opp Rth). f_equal. apply (pick (fun w => negb (B w.1)) ilist _ _ j w' (a z.1)); [apply ilist_nodup|done|by eapply ilist_B|done..]. }
      apply (pick (fun w => negb (B w.1)) ilist (li_csrc li) (li_cdest li) i w (fun k => load zero add K (a k) w')); [apply ilist_nodup|done|by eapply ilist_B|done..].
    - intros i j w w' Hi Hj. rewrite Hup. f_equal. transitivity (Sig ps (fun z => only (z.2 = i) ((fun k => load zero add K (a k) w') z.1))).
      { apply Sig_ext. intros z _. rewrite <- (only_Sig zero one add mul sub opp Rth). f_equal. apply (pick (fun w => negb (B w.1)) ilist _ _ j w' (a z.1)); [apply ilist_nodup|done|by eapply ilist_B|done..]. }
      apply (pick (fun w => B w.1) plist (li_psrc li) (li_pdest li) i w (fun k => load zero add K (a k) w')); [apply plist_nodup|done|by eapply plist_B|done..].
    - intros i w r Hi Hr. rewrite Hrh. f_equal. transitivity (Sig cs (fun z => only (z.2 = i) ((fun k => b k r) z.1))).
      { apply Sig_ext. intros z _. rewrite <- (only_Sig zero one add mul sub opp Rth). f_equal. apply (Sig_one _ _ _ _ _ _ Rth (seq 0 nr) r (fun q => b z.1 q)); [apply NoDup_seq|apply elem_of_seq; lia]. }
      apply (pick (fun w => negb (B w.1)) ilist (li_csrc li) (li_cdest li) i w (fun k => b k r)); [apply ilist_nodup|done|by eapply ilist_B|done..].
    - intros u v Hu Hv. rewrite Hm. f_equal. rewrite Ep. transitivity (Sig psrc (fun k => only (ro (dK k) = ro u) ((fun k => gload zero add K (dof_of g e) (a k) v) k))).
      { apply Sig_ext. intros k _. f_equal. by apply (gpick v co (a k) U). }
      by apply (gpick u ro (fun k => gload zero add K (dof_of g e) (a k) v) U).
    - intros u r Hu Hr. rewrite Hh by done. f_equal. rewrite Ep. by apply (gpick u ho (fun k => b k r) U).
  Qed.
End cond.
