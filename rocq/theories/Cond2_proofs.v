(** C42: the loops of computeLocalDofInds and the sizes. *)
From Verif Require Import Base StdAlgo Elem_model Elem_spec Elem_proofs Mesh_model Mesh_spec Mesh_proofs Partition_model LocalView_model Periodic_proofs Sparsity_proofs Sparsity2_proofs Cond_model Cond_spec Cond_proofs.
Local Arguments Nat.mul : simpl never.
Local Arguments Nat.add : simpl never.
Local Arguments Nat.sub : simpl never.

Lemma replicate_map m a : replicate m false = map (fun _ : nat => false) (seq a m).
Proof. revert a. induction m as [|m IH]; intros a; [done|]. cbn. f_equal. apply IH. Qed.
Section elem.
  Context {V : Type} (D : nat) (dofs : nat -> res dof_triplet) (g : nat -> list (option nat)) (ro co ho : nat -> nat) (e : element V).
  Context (Ht : typed_el e) (Hg : dofs_agree g D dofs ro co ho e).
  Notation n := (length (el_nodes e)).
  Notation B := (el_bnd e).
  Notation bnds := (List.filter B (seq 0 n)).
  Notation ints := (List.filter (fun i => negb (B i)) (seq 0 n)).
  Definition nd (i : nat) : nat := nth i (el_nodes e) 0.
  Lemma bnds_eq : boundary_node_inds (el_type e) (el_order e) = bnds.
  Proof. destruct Ht as [H _]. rewrite H. apply bnd_filter. Qed.
  Lemma ints_eq : internal_node_inds (el_type e) (el_order e) = ints.
  Proof. destruct Ht as [H _]. rewrite H. apply int_filter. Qed.
  Lemma nd_at i : i < n -> el_nodes e !! i = Some (nd i).
  Proof. intros H. destruct (lookup_lt_is_Some_2 _ _ H) as [x Hx]. rewrite Hx. f_equal. unfold nd. symmetry. by apply nth_lookup_Some. Qed.
  Lemma bnodes_eq : boundary_nodes e = Ok (map nd bnds).
  Proof. unfold boundary_nodes. rewrite bnds_eq. apply map_res_ok. intros i Hi. apply elem_of_filter' in Hi as [Hi _]. apply elem_of_seq in Hi. apply rd_ok, nd_at. lia. Qed.
  Lemma inodes_eq : getInternalNodes e = Ok (map nd ints).
  Proof. unfold getInternalNodes. rewrite ints_eq. apply map_res_ok. intros i Hi. apply elem_of_filter' in Hi as [Hi _]. apply elem_of_seq in Hi. apply rd_ok, nd_at. lia. Qed.
  Lemma at_bnd i : i ∈ bnds -> length (g (nd i)) = D /\ dofs (nd i) = Ok (map (fmap ro) (g (nd i)), map (fmap co) (g (nd i)), map (fmap ho) (g (nd i))).
  Proof. intros Hi. apply elem_of_filter' in Hi as [Hi Hb]. apply elem_of_seq in Hi. apply (Hg i); [done|]. apply nd_at. lia. Qed.
  Lemma node_dof_at i c : i < n -> node_dof g e (i, c) = g (nd i) !! c ≫= id.
  Proof. intros H. unfold node_dof. cbn [fst snd]. by rewrite nd_at by done. Qed.
  Definition act (i c : nat) : bool := is_valid (node_dof g e (i, c)).
  Lemma act_iff i c : act i c = true <-> is_Some (node_dof g e (i, c)).
  Proof. unfold act. destruct (node_dof g e (i, c)); cbn; split; try done. intros [x Hx]. done. Qed.
  (** Components of the interior. *)
  Definition inn (c : nat) : bool := forallb (fun i => act i c) bnds.
  Lemma inn_iff c : inn c = true <-> forall i, i < n -> B i = true -> is_Some (node_dof g e (i, c)).
  Proof.
    unfold inn. rewrite forallb_forall. split.
    - intros H i Hi Hb. apply act_iff, H. apply elem_of_list_In, elem_of_filter'. split; [apply elem_of_seq; lia|done].
    - intros H i Hi%elem_of_list_In. apply elem_of_filter' in Hi as [Hi Hb]. apply elem_of_seq in Hi. apply act_iff, H; [lia|done].
  Qed.
  Notation W := (list_prod (seq 0 n) (seq 0 D)).
  Definition isP (w : nat * nat) : bool := B w.1 && act w.1 w.2.
  Definition isI (w : nat * nat) : bool := negb (B w.1) && inn w.2.
  Definition plist := List.filter isP W.
  Definition ilist := List.filter isI W.
  Lemma W_sorted : StronglySorted lex W.
  Proof. apply lex_sorted; apply sorted_seq. Qed.
  Lemma act_lt i c : i ∈ bnds -> act i c = true -> c < D.
  Proof. intros Hi Ha. destruct (at_bnd i Hi) as [<- _]. apply act_iff in Ha as [d Hd]. apply elem_of_filter' in Hi as [Hi _]. apply elem_of_seq in Hi. rewrite node_dof_at in Hd by lia. destruct (g (nd i) !! c) eqn:E; [|done]. by eapply lookup_lt_Some. Qed.
  Lemma plist_enum : enumerates (fun w => is_Some (dof_of g e w)) plist.
  Proof.
    split; [apply sorted_filter_lex, W_sorted|]. intros [i c]. unfold plist. rewrite elem_of_filter', elem_of_prod, !elem_of_seq. cbn [fst snd]. unfold isP, dof_of. cbn [fst snd]. rewrite andb_true_iff, act_iff. split.
    - intros (_ & -> & H). done.
    - destruct (B i) eqn:Eb; [|by intros [? ?]]. intros H. assert (Hi : i < n). { destruct H as [d H]. unfold node_dof in H. cbn [fst] in H. destruct (el_nodes e !! i) eqn:E; [|done]. by eapply lookup_lt_Some. }
      assert (c < D) by (apply (act_lt i); [apply elem_of_filter'; split; [apply elem_of_seq; lia|done]|by apply act_iff]). split; [lia|done].
  Qed.
  Lemma ilist_enum : enumerates (interior g e D) ilist.
  Proof.
    split; [apply sorted_filter_lex, W_sorted|]. intros [i c]. unfold ilist. rewrite elem_of_filter', elem_of_prod, !elem_of_seq. cbn [fst snd]. unfold isI, interior. cbn [fst snd]. rewrite andb_true_iff, negb_true_iff, inn_iff. intuition lia.
  Qed.
  Lemma enum_eq P l l' : enumerates P l -> enumerates P l' -> l = l'.
  Proof. intros [H1 H2] [H1' H2']. apply lex_ext; [done..|]. intros w. by rewrite H2, H2'. Qed.

  (** ** Sizes. *)
  Lemma info_ok : exists dims, insert_elem_info D dofs e = Ok dims /\ cd_inds dims = List.filter inn (seq 0 D) /\ cd_bnd dims = length plist /\ cd_int dims = length ilist.
  Proof.
    unfold insert_elem_info, compute_elem_dof_info. rewrite bnodes_eq, bind_ok.
    set (row := fun i => map (fun c => negb (act i c)) (seq 0 D)).
    assert (Er : map_res (fun m => t ← dofs m; Ok (map (fun d => negb (is_valid d)) t.1.1)) (map nd bnds) = Ok (map row bnds)).
    { assert (Em : forall l, (forall i, i ∈ l -> i ∈ bnds) -> map_res (fun m => t ← dofs m; Ok (map (fun d => negb (is_valid d)) t.1.1)) (map nd l) = Ok (map row l)).
      { induction l as [|i l IH]; intros Hl; [done|]. cbn [map map_res]. destruct (at_bnd i) as [Hd ->]; [apply Hl; left|]. rewrite bind_ok. cbn [fst]. rewrite bind_ok, IH by (intros x Hx; apply Hl; by right). rewrite bind_ok. f_equal. f_equal. unfold row.
        apply list_eq. intros c. change (map ?f (map ?h ?l)) with (f <$> (h <$> l)). rewrite !list_lookup_fmap. destruct (decide (c < D)) as [Hc|Hc].
        - rewrite lookup_seq_lt by done. destruct (lookup_lt_is_Some_2 (g (nd i)) c ltac:(lia)) as [d Hd']. rewrite Hd'. cbn [fmap option_fmap option_map]. rewrite Nat.add_0_l. f_equal. f_equal. unfold act. assert (Hi : i ∈ bnds) by (apply Hl; left). apply elem_of_filter' in Hi as [Hi _]. apply elem_of_seq in Hi. rewrite node_dof_at by lia. rewrite Hd'. by destruct d.
        - rewrite !lookup_ge_None_2 by (rewrite ?seq_length; lia). done. }
      by apply Em. }
    rewrite Er, bind_ok.
    assert (Ef : forall l p, foldl (fun (p : nat * list bool) bmp => (p.1 + length (List.filter negb bmp), zip_with orb p.2 bmp)) (p, map (fun c => negb (forallb (fun i => act i c) [])) (seq 0 D)) (map row l) =
      (p + length (List.filter (fun w => act w.1 w.2) (list_prod l (seq 0 D))), map (fun c => negb (forallb (fun i => act i c) l)) (seq 0 D))).
    { induction l as [|i l IH] using rev_ind; intros p; [cbn; f_equal; lia|]. rewrite map_app, foldl_app, IH. cbn [map foldl fst snd]. f_equal.
      - rewrite prod_app, List.filter_app, app_length. cbn [list_prod]. rewrite app_nil_r, filter_map, map_length. cbn [fst snd]. unfold row. rewrite filter_map, map_length. rewrite <- Nat.add_assoc. f_equal. f_equal. f_equal. apply List.filter_ext. intros c. by rewrite negb_involutive.
      - unfold row. apply list_eq. intros c. rewrite lookup_zip_with. rewrite !(list_lookup_fmap (fun c => negb _)). destruct (seq 0 D !! c); [|done]. cbn. f_equal. rewrite forallb_app. cbn. rewrite andb_true_r. by destruct (forallb _ l), (act i _). }
    assert (E0 : replicate D false = map (fun c => negb (forallb (fun i => act i c) [])) (seq 0 D)).
    { apply replicate_map. }
    rewrite E0, Ef. cbn [mbind res_bind]. rewrite Nat.add_0_l. eexists. split; [reflexivity|]. cbn [cd_inds cd_bnd cd_int]. rewrite !map_length, seq_length.
    assert (Ei : List.filter (fun i => nth i (map negb (map (fun c => negb (forallb (fun i0 => act i0 c) bnds)) (seq 0 D))) false) (seq 0 D) = List.filter inn (seq 0 D)).
    { apply List.filter_ext_in. intros c Hc%elem_of_list_In%elem_of_seq. rewrite map_map. apply nth_lookup_Some. rewrite (list_lookup_fmap (fun c => negb (negb (forallb (fun i0 => act i0 c) bnds)))), lookup_seq_lt by lia. cbn [fmap option_fmap option_map]. f_equal. apply negb_involutive. }
    rewrite Ei. split; [done|]. split.
    - f_equal. unfold plist, isP. rewrite <- (filter_and (fun w => act w.1 w.2) (fun w => B w.1)). f_equal. pose proof (filter_prod B (fun _ => true) (seq 0 n) (seq 0 D)) as E. rewrite (filter_true (fun _ => true)) in E by done. rewrite <- E. apply List.filter_ext. intros w. by rewrite andb_true_r.
    - unfold ilist, isI. rewrite (filter_prod (fun i => negb (B i)) inn), prod_length, ints_eq. done.
  Qed.

  (** ** The loops. *)
  Context (fields : list nat) (Hs : StronglySorted lt fields) (Hf : fields_active g D e fields).
  Definition isA (w : nat * nat) : bool := bool_decide (w.2 ∈ fields).
  Notation K := (kernel_unknowns e fields).
  Lemma fields_lt c : c ∈ fields -> c < D.
  Proof. intros Hc. by apply Hf in Hc as [Hc _]. Qed.
  Lemma fields_eq : List.filter (fun c => bool_decide (c ∈ fields)) (seq 0 D) = fields.
  Proof.
    apply strict_ext; [apply sorted_filter, sorted_seq|done|]. intros c. rewrite elem_of_filter', elem_of_seq, bool_decide_eq_true. split; [tauto|]. intros Hc. pose proof (fields_lt c Hc). split; [lia|done].
  Qed.
  Lemma K_eq : K = List.filter isA W.
  Proof.
    pose proof (filter_prod (fun _ => true) (fun c => bool_decide (c ∈ fields)) (seq 0 n) (seq 0 D)) as E. rewrite fields_eq, (filter_true (fun _ => true)) in E by done. unfold kernel_unknowns. rewrite <- E. by apply List.filter_ext.
  Qed.
  Lemma A_P w : w ∈ W -> isA w = true -> B w.1 = true -> isP w = true.
  Proof. intros Hw Ha Hb. apply elem_of_prod in Hw as [Hw _]. apply elem_of_seq in Hw. apply bool_decide_eq_true in Ha. unfold isP. rewrite Hb. apply act_iff. apply Hf in Ha as [_ Ha]. destruct w as [i c]. apply Ha; [cbn in *; lia|done]. Qed.
  Lemma A_I w : isA w = true -> B w.1 = false -> isI w = true.
  Proof. intros Ha Hb. apply bool_decide_eq_true in Ha. unfold isI. rewrite Hb. apply inn_iff. by apply Hf in Ha as [_ Ha]. Qed.
  Lemma cap_b : length (List.filter (at_pos (fun w => B w.1) K) (seq 0 (length K))) = length fields * length bnds.
  Proof.
    rewrite pos_length. pose proof (filter_prod B (fun _ => true) (seq 0 n) fields) as E. rewrite (filter_true (fun _ => true)) in E by done. apply (f_equal length) in E. rewrite prod_length in E. unfold kernel_unknowns. rewrite Nat.mul_comm, <- E. f_equal. apply List.filter_ext. intros w. by rewrite andb_true_r.
  Qed.
  Lemma cap_i : length (List.filter (at_pos (fun w => negb (B w.1)) K) (seq 0 (length K))) = length fields * length ints.
  Proof.
    rewrite pos_length. pose proof (filter_prod (fun i => negb (B i)) (fun _ => true) (seq 0 n) fields) as E. rewrite (filter_true (fun _ => true)) in E by done. apply (f_equal length) in E. rewrite prod_length in E. unfold kernel_unknowns. rewrite Nat.mul_comm, <- E. f_equal. apply List.filter_ext. intros w. by rewrite andb_true_r.
  Qed.
  Definition same (l : list (nat * nat)) (k q : nat) : Prop := is_Some (K !! k) /\ l !! q = K !! k.
  Record inv (l : list (nat * nat)) (s : ld_state) : Prop := {
    iv_sys : ls_sys s = length (List.filter isA l);
    iv_prim : ls_prim s = length (List.filter isP l);
    iv_cond : ls_cond s = length (List.filter isI l);
    iv_psrc : li_psrc (ls_inds s) = List.filter (at_pos (fun w => B w.1) K) (seq 0 (ls_sys s));
    iv_csrc : li_csrc (ls_inds s) = List.filter (at_pos (fun w => negb (B w.1)) K) (seq 0 (ls_sys s));
    iv_pdest : Forall2 (same plist) (li_psrc (ls_inds s)) (li_pdest (ls_inds s));
    iv_cdest : Forall2 (same ilist) (li_csrc (ls_inds s)) (li_cdest (ls_inds s)) }.
  Lemma split_len (p : nat -> bool) m k : k < m -> p k = true -> length (List.filter p (seq 0 k)) < length (List.filter p (seq 0 m)).
  Proof. intros Hk Hp. replace m with (k + S (m - S k)) by lia. rewrite seq_app, List.filter_app, app_length. cbn [seq List.filter]. rewrite Nat.add_0_l, Hp. cbn [length]. lia. Qed.
  Lemma K_at l1 w l2 : W = l1 ++ w :: l2 -> isA w = true -> K !! length (List.filter isA l1) = Some w.
  Proof. intros E Ha. rewrite K_eq, E. by apply filter_at. Qed.
  Notation actv := (map (fun i => bool_decide (i ∈ fields)) (seq 0 D)).
  Notation intv := (map (fun i => bool_decide (i ∈ List.filter inn (seq 0 D))) (seq 0 D)).
  Lemma actv_at c : c < D -> rd actv c = Ok (bool_decide (c ∈ fields)).
  Proof. intros H. apply rd_ok. rewrite (list_lookup_fmap (fun i => bool_decide (i ∈ fields))), lookup_seq_lt by done. done. Qed.
  Lemma intv_at c : c < D -> rd intv c = Ok (inn c).
  Proof.
    intros H. apply rd_ok. rewrite (list_lookup_fmap (fun i => bool_decide (i ∈ List.filter inn (seq 0 D)))), lookup_seq_lt by done. cbn [fmap option_fmap option_map]. f_equal. rewrite Nat.add_0_l. destruct (inn c) eqn:E.
    - apply bool_decide_eq_true_2. apply elem_of_filter'. split; [apply elem_of_seq; lia|done].
    - apply bool_decide_eq_false_2. intros Hc. apply elem_of_filter' in Hc as [_ Hc]. congruence.
  Qed.
  Lemma push_ok cap l x : length l < cap -> push cap l x = Ok (l ++ [x]).
  Proof. intros H. unfold push. by rewrite (proj2 (Nat.ltb_lt _ _)). Qed.
  Lemma boundary_inv l1 i c l2 s : W = l1 ++ (i, c) :: l2 -> B i = true -> inv l1 s ->
    exists s', boundary_step (length fields * length bnds) actv (map (fmap ro) (g (nd i))) c s = Ok s' /\ inv (l1 ++ [(i, c)]) s' /\ ls_iter s' = ls_iter s.
  Proof.
    intros E Hb [I1 I2 I3 I4 I5 I6 I7]. assert (Hw : (i, c) ∈ W) by (rewrite E; set_solver). pose proof Hw as Hw'. apply elem_of_prod in Hw' as [Hi Hc]. apply elem_of_seq in Hi, Hc. cbn [fst snd] in Hi, Hc.
    assert (Hib : i ∈ bnds) by (apply elem_of_filter'; split; [apply elem_of_seq; lia|done]). assert (HnI : isI (i, c) = false) by (unfold isI; cbn [fst]; by rewrite Hb).
    unfold boundary_step. rewrite actv_at, bind_ok by lia. change (bool_decide (c ∈ fields)) with (isA (i, c)). destruct (isA (i, c)) eqn:Ea.
    - pose proof (A_P _ Hw Ea Hb) as HP. pose proof (K_at _ _ _ E Ea) as HK. rewrite <- I1 in HK. assert (Hlt : ls_sys s < length K) by (by eapply lookup_lt_Some).
      assert (Hps : at_pos (fun w => B w.1) K (ls_sys s) = true) by (unfold at_pos; by rewrite HK). assert (Hcs : at_pos (fun w => negb (B w.1)) K (ls_sys s) = false) by (unfold at_pos; rewrite HK; cbn [fst]; by rewrite Hb).
      assert (Hcap : length (li_psrc (ls_inds s)) < length fields * length bnds) by (rewrite I4, <- cap_b; by apply split_len). rewrite (push_ok _ _ _ Hcap), bind_ok. rewrite push_ok by (by rewrite <- (Forall2_length _ _ _ I6)). rewrite bind_ok.
      eexists. split; [reflexivity|]. split; [|done]. constructor; cbn [ls_sys ls_prim ls_cond ls_inds li_psrc li_pdest li_csrc li_cdest].
      + by rewrite filter_len_snoc, Ea, I1.
      + by rewrite filter_len_snoc, HP, I2.
      + by rewrite filter_len_snoc, HnI, I3.
      + rewrite seq_S, List.filter_app, I4, Nat.add_0_l. cbn [List.filter]. by rewrite Hps.
      + rewrite seq_S, List.filter_app, I5, Nat.add_0_l. cbn [List.filter]. by rewrite Hcs, app_nil_r.
      + apply Forall2_app; [done|]. constructor; [|constructor]. split; [by rewrite HK|]. rewrite HK, I2. unfold plist. rewrite E. by apply filter_at.
      + done.
    - assert (Hrd : rd (map (fmap ro) (g (nd i))) c = Ok (ro <$> node_dof g e (i, c))).
      { apply rd_ok. rewrite (list_lookup_fmap (fmap ro : option nat -> option nat)), node_dof_at by lia. destruct (at_bnd i Hib) as [Hd _]. destruct (lookup_lt_is_Some_2 (g (nd i)) c ltac:(lia)) as [d Hd']. rewrite Hd'. by destruct d. }
      rewrite Hrd, bind_ok. eexists. split; [reflexivity|]. split; [|done]. assert (HP : isP (i, c) = is_valid (ro <$> node_dof g e (i, c))) by (unfold isP; cbn [fst snd]; rewrite Hb; unfold act; by destruct (node_dof g e (i, c))).
      constructor; cbn [ls_sys ls_prim ls_cond ls_inds]; rewrite ?filter_len_snoc, ?Ea, ?HP, ?HnI; try done. by rewrite I2.
  Qed.
  Lemma internal_inv l1 i c l2 s : W = l1 ++ (i, c) :: l2 -> B i = false -> inv l1 s ->
    exists s', internal_step (length fields * length ints) actv intv c s = Ok s' /\ inv (l1 ++ [(i, c)]) s' /\ ls_iter s' = ls_iter s.
  Proof.
    intros E Hb [I1 I2 I3 I4 I5 I6 I7]. assert (Hw : (i, c) ∈ W) by (rewrite E; set_solver). pose proof Hw as Hw'. apply elem_of_prod in Hw' as [Hi Hc]. apply elem_of_seq in Hi, Hc. cbn [fst snd] in Hi, Hc.
    assert (HnP : isP (i, c) = false) by (unfold isP; cbn [fst]; by rewrite Hb).
    unfold internal_step. rewrite actv_at, bind_ok by lia. change (bool_decide (c ∈ fields)) with (isA (i, c)). destruct (isA (i, c)) eqn:Ea.
    - pose proof (A_I _ Ea Hb) as HI. pose proof (K_at _ _ _ E Ea) as HK. rewrite <- I1 in HK. assert (Hlt : ls_sys s < length K) by (by eapply lookup_lt_Some).
      assert (Hps : at_pos (fun w => B w.1) K (ls_sys s) = false) by (unfold at_pos; by rewrite HK). assert (Hcs : at_pos (fun w => negb (B w.1)) K (ls_sys s) = true) by (unfold at_pos; rewrite HK; cbn [fst]; by rewrite Hb).
      assert (Hcap : length (li_csrc (ls_inds s)) < length fields * length ints) by (rewrite I5, <- cap_i; by apply split_len). rewrite (push_ok _ _ _ Hcap), bind_ok. rewrite push_ok by (by rewrite <- (Forall2_length _ _ _ I7)). rewrite bind_ok.
      eexists. split; [reflexivity|]. split; [|done]. constructor; cbn [ls_sys ls_prim ls_cond ls_inds li_psrc li_pdest li_csrc li_cdest].
      + by rewrite filter_len_snoc, Ea, I1.
      + by rewrite filter_len_snoc, HnP, I2.
      + by rewrite filter_len_snoc, HI, I3.
      + rewrite seq_S, List.filter_app, I4, Nat.add_0_l. cbn [List.filter]. by rewrite Hps, app_nil_r.
      + rewrite seq_S, List.filter_app, I5, Nat.add_0_l. cbn [List.filter]. by rewrite Hcs.
      + done.
      + apply Forall2_app; [done|]. constructor; [|constructor]. split; [by rewrite HK|]. rewrite HK, I3. unfold ilist. rewrite E. by apply filter_at.
    - rewrite intv_at, bind_ok by lia. eexists. split; [reflexivity|]. split; [|done]. assert (HI : isI (i, c) = inn c) by (unfold isI; cbn [fst snd]; by rewrite Hb).
      constructor; cbn [ls_sys ls_prim ls_cond ls_inds]; rewrite ?filter_len_snoc, ?Ea, ?HI, ?HnP; try done. by rewrite I3.
  Qed.
  Lemma W_split i j : i < n -> j < D -> W = (list_prod (seq 0 i) (seq 0 D) ++ map (pair i) (seq 0 j)) ++ (i, j) :: (map (pair i) (seq (S j) (D - S j)) ++ list_prod (seq (S i) (n - S i)) (seq 0 D)).
  Proof.
    intros Hi Hj. replace (seq 0 n) with (seq 0 i ++ i :: seq (S i) (n - S i)) by (replace n with (i + S (n - S i)) at 2 by lia; rewrite seq_app; cbn [seq]; by rewrite Nat.add_0_l).
    rewrite prod_app. cbn [list_prod]. rewrite <- app_assoc. f_equal. replace (seq 0 D) with (seq 0 j ++ j :: seq (S j) (D - S j)) at 1 by (replace D with (j + S (D - S j)) at 2 by lia; rewrite seq_app; cbn [seq]; by rewrite Nat.add_0_l).
    change (map (fun y => (i, y)) ?l) with (map (pair i) l). rewrite map_app. cbn [map]. rewrite <- app_assoc. done.
  Qed.
  Lemma iter_read i : i < n -> exists b, rd bnds (length (List.filter B (seq 0 i))) = Ok b /\ (b =? i) = B i.
  Proof.
    intros Hi. destruct Ht as [Hn _]. destruct (last_bnd (el_type e) (el_order e)) as [Hpos Hlast]. rewrite <- Hn in Hpos, Hlast. fold (B (n - 1)) in Hlast.
    assert (Hsp : seq 0 n = seq 0 i ++ i :: seq (S i) (n - S i)) by (replace n with (i + S (n - S i)) at 1 by lia; rewrite seq_app; cbn [seq]; by rewrite Nat.add_0_l). destruct (B i) eqn:Eb.
    - exists i. split; [|apply Nat.eqb_refl]. apply rd_ok. rewrite Hsp. by apply filter_at.
    - assert (Hne : i <> n - 1) by (intros ->; congruence). rewrite Hsp, List.filter_app. cbn [List.filter]. rewrite Eb. destruct (List.filter B (seq (S i) (n - S i))) as [|b l] eqn:El.
      + assert (Hin : n - 1 ∈ List.filter B (seq (S i) (n - S i))) by (apply elem_of_filter'; split; [apply elem_of_seq; lia|done]). rewrite El in Hin. by apply elem_of_nil in Hin.
      + exists b. split; [apply rd_ok; by rewrite list_lookup_middle|]. assert (Hin : b ∈ List.filter B (seq (S i) (n - S i))) by (rewrite El; left). apply elem_of_filter' in Hin as [Hin _]. apply elem_of_seq in Hin. apply Nat.eqb_neq. lia.
  Qed.
  Theorem local_inds_ok : exists li, computeLocalDofInds D dofs e (List.filter inn (seq 0 D)) fields = Ok li /\
    li_psrc li = List.filter (at_pos (fun w => B w.1) K) (seq 0 (length K)) /\ li_csrc li = List.filter (at_pos (fun w => negb (B w.1)) K) (seq 0 (length K)) /\
    Forall2 (same plist) (li_psrc li) (li_pdest li) /\ Forall2 (same ilist) (li_csrc li) (li_cdest li).
  Proof.
    unfold computeLocalDofInds. cbv zeta. rewrite bnds_eq, ints_eq. rewrite (inds_to_bmp_ok D fields fields_lt), bind_ok. rewrite inds_to_bmp_ok by (intros c Hc; apply elem_of_filter' in Hc as [Hc _]; apply elem_of_seq in Hc; lia). rewrite bind_ok.
    set (body := fun (z : nat * nat) (s : ld_state) => _ : res ld_state).
    destruct (for_each_upto body (zip (seq 0 n) (el_nodes e)) (fun i s => inv (list_prod (seq 0 i) (seq 0 D)) s /\ ls_iter s = length (List.filter B (seq 0 i)))
      {| ls_iter := 0; ls_sys := 0; ls_prim := 0; ls_cond := 0; ls_inds := {| li_psrc := []; li_pdest := []; li_csrc := []; li_cdest := [] |} |}) as (s & E & Hinv & _).
    - split; [|done]. constructor; cbn; try done; constructor.
    - intros i [i' m] s Hz [Hinv Hit]. apply lookup_zip_with_Some in Hz as (i0 & m0 & [= <- <-] & Hi & Hm). apply lookup_seq in Hi as [-> Hi]. rewrite Nat.add_0_l in *. assert (m = nd i) as -> by (rewrite nd_at in Hm by done; congruence).
      unfold body. cbn [fst snd]. destruct (iter_read i Hi) as (b & Eb & Hb). rewrite Hit, Eb, bind_ok, Hb. clear b Eb Hb.
      assert (Hnext : list_prod (seq 0 (i + 1)) (seq 0 D) = list_prod (seq 0 i) (seq 0 D) ++ map (pair i) (seq 0 D)) by (rewrite Nat.add_1_r, seq_S, prod_app; cbn [list_prod]; by rewrite app_nil_r, Nat.add_0_l).
      assert (Hcnt : length (List.filter B (seq 0 (i + 1))) = if B i then S (length (List.filter B (seq 0 i))) else length (List.filter B (seq 0 i))) by (rewrite Nat.add_1_r, seq_S, Nat.add_0_l; apply filter_len_snoc).
      rewrite Hnext, Hcnt. destruct (B i) eqn:Hb.
      + assert (Hib : i ∈ bnds) by (apply elem_of_filter'; split; [apply elem_of_seq; lia|done]). destruct (at_bnd i Hib) as [_ ->]. rewrite bind_ok. cbn [fst].
        destruct (for_each_upto (boundary_step (length fields * length bnds) actv (map (fmap ro) (g (nd i)))) (seq 0 D) (fun j s' => inv (list_prod (seq 0 i) (seq 0 D) ++ map (pair i) (seq 0 j)) s' /\ ls_iter s' = S (length (List.filter B (seq 0 i))))
          {| ls_iter := S (length (List.filter B (seq 0 i))); ls_sys := ls_sys s; ls_prim := ls_prim s; ls_cond := ls_cond s; ls_inds := ls_inds s |}) as (s' & E' & H').
        * split; [|done]. cbn [seq map]. rewrite app_nil_r. by destruct Hinv; constructor.
        * intros j j' s' Hj [H1 H2]. apply lookup_seq in Hj as [-> Hj]. rewrite Nat.add_0_l. destruct (boundary_inv _ i j _ s' (W_split i j Hi Hj) Hb H1) as (s'' & E'' & H1' & H2'). exists s''. split; [done|]. split; [|congruence]. rewrite Nat.add_1_r, seq_S, map_app, app_assoc. done.
        * exists s'. rewrite seq_length in H'. by split.
      + destruct (for_each_upto (internal_step (length fields * length ints) actv intv) (seq 0 D) (fun j s' => inv (list_prod (seq 0 i) (seq 0 D) ++ map (pair i) (seq 0 j)) s' /\ ls_iter s' = length (List.filter B (seq 0 i))) s) as (s' & E' & H').
        * split; [|done]. cbn [seq map]. by rewrite app_nil_r.
        * intros j j' s' Hj [H1 H2]. apply lookup_seq in Hj as [-> Hj]. rewrite Nat.add_0_l. destruct (internal_inv _ i j _ s' (W_split i j Hi Hj) Hb H1) as (s'' & E'' & H1' & H2'). exists s''. split; [done|]. split; [|congruence]. rewrite Nat.add_1_r, seq_S, map_app, app_assoc. done.
        * exists s'. rewrite seq_length in H'. by split.
    - rewrite zip_with_length, seq_length, Nat.min_id in Hinv. rewrite E, bind_ok. eexists. split; [reflexivity|]. cbn [li_psrc li_pdest li_csrc li_cdest]. destruct Hinv as [I1 I2 I3 I4 I5 I6 I7]. rewrite <- K_eq in I1.
      assert (Lp : length fields * length bnds - length (li_psrc (ls_inds s)) = 0) by (rewrite I4, I1, cap_b; lia). assert (Lc : length fields * length ints - length (li_csrc (ls_inds s)) = 0) by (rewrite I5, I1, cap_i; lia).
      assert (Lp' : length fields * length bnds - length (li_pdest (ls_inds s)) = 0) by (by rewrite <- (Forall2_length _ _ _ I6)). assert (Lc' : length fields * length ints - length (li_cdest (ls_inds s)) = 0) by (by rewrite <- (Forall2_length _ _ _ I7)).
      rewrite Lp, Lc, Lp', Lc'. cbn [replicate]. rewrite !app_nil_r. rewrite I1 in *. done.
  Qed.
End elem.
