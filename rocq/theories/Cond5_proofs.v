(** C43: the effect of finalize_element and of recover_element. *)
From Coq Require Import Ring Ring_theory.
From Verif Require Import Base StdAlgo Elem_model Elem_spec Elem_proofs Mesh_model Mesh_spec Mesh_proofs Partition_model LocalView_model Periodic_proofs Sparsity_proofs Sparsity2_proofs Cond_model Cond_spec Cond_proofs Cond2_proofs Cond3_proofs Cond4_proofs.
Local Arguments Nat.mul : simpl never.
Local Arguments Nat.add : simpl never.
Local Arguments Nat.sub : simpl never.

Lemma prod_concat {A B} (l : list A) (l' : list B) : list_prod l l' = concat (map (fun i => map (pair i) l') l).
Proof. induction l as [|a l IH]; [done|]. cbn [list_prod map concat]. by rewrite IH. Qed.
Section elem.
  Context {F : Type} (zero one : F) (add mul sub : F -> F -> F) (opp : F -> F) (Rth : ring_theory zero one add mul sub opp (@eq F)).
  Add Ring Fring : Rth.
  Notation Sig := (Sig zero add).
  Notation only := (only zero).
  Notation mat := (nat -> nat -> F).
  Infix "+!" := add (at level 50, left associativity).
  Infix "*!" := mul (at level 40, left associativity).
  Context {V : Type} (D : nat) (dofs : nat -> res dof_triplet) (g : nat -> list (option nat)) (ro co ho : nat -> nat) (e : element V).
  Context (Ht : typed_el e) (Hg : dofs_agree g D dofs ro co ho e).
  Notation n := (length (el_nodes e)).
  Notation B := (el_bnd e).
  Notation bnds := (List.filter B (seq 0 n)).
  Notation ints := (List.filter (fun i => negb (B i)) (seq 0 n)).
  Notation nd := (nd e).
  Notation plist := (plist D g e).
  Notation ilist := (ilist D g e).
  Definition dP (k : nat) : nat := default 0 (plist !! k ≫= dof_of g e).
  Lemma plist_dof k : k < length plist -> exists w, plist !! k = Some w /\ dof_of g e w = Some (dP k) /\ node_dof g e w = Some (dP k).
  Proof using Ht Hg.
    intros Hk. destruct (lookup_lt_is_Some_2 _ _ Hk) as [w Hw]. exists w. split; [done|]. assert (Hin : w ∈ plist) by (by eapply elem_of_list_lookup_2). pose proof (plist_B D g e k w Hw) as Hb.
    apply (plist_enum D dofs g ro co ho e Hg) in Hin as [d Hd]. unfold dP. rewrite Hw. cbn [mbind option_bind]. rewrite Hd. split; [done|]. unfold dof_of in Hd. by rewrite Hb in Hd.
  Qed.
  Lemma dofs_valid_ok (sel : dof_triplet -> list (option nat)) (sg : nat -> nat) :
    (forall t, sel (map (fmap ro) t, map (fmap co) t, map (fmap ho) t) = map (fmap sg) t) ->
    dofs_valid dofs sel (map nd bnds) = Ok (map (fun k => Some (sg (dP k))) (seq 0 (length plist))).
  Proof using Ht Hg.
    intros Hsel. unfold dofs_valid.
    assert (Eg : forall i, i ∈ bnds -> g (nd i) = map (fun c => node_dof g e (i, c)) (seq 0 D)).
    { intros i Hi. destruct (at_bnd D dofs g ro co ho e Hg i Hi) as [Hd _]. apply elem_of_filter' in Hi as [Hi _]. apply elem_of_seq in Hi. apply list_eq. intros c. rewrite (list_lookup_fmap (fun c => node_dof g e (i, c))). destruct (decide (c < D)) as [Hc|Hc].
      - rewrite lookup_seq_lt by done. cbn. rewrite node_dof_at by lia. rewrite Nat.add_0_l. destruct (lookup_lt_is_Some_2 (g (nd i)) c ltac:(lia)) as [d ->]. done.
      - rewrite !lookup_ge_None_2 by (rewrite ?seq_length; lia). done. }
    assert (E : forall l, (forall i, i ∈ l -> i ∈ bnds) -> map_res (fun m => t ← dofs m; Ok (List.filter is_valid (sel t))) (map nd l) = Ok (map (fun i => map (fun c => sg <$> node_dof g e (i, c)) (List.filter (act g e i) (seq 0 D))) l)).
    { induction l as [|i l IH]; intros Hl; [done|]. cbn [map map_res]. assert (Hi : i ∈ bnds) by (apply Hl; left). destruct (at_bnd D dofs g ro co ho e Hg i Hi) as [Hd ->]. rewrite bind_ok, Hsel, bind_ok, IH by (intros x Hx; apply Hl; by right). rewrite bind_ok. f_equal. f_equal.
      rewrite (Eg i Hi), map_map, filter_map. f_equal. apply List.filter_ext. intros c. unfold act. by destruct (node_dof g e (i, c)). }
    rewrite E, bind_ok by done. f_equal.
    transitivity (map (fun w => sg <$> node_dof g e w) plist).
    - unfold Cond2_proofs.plist. rewrite prod_concat. generalize (seq 0 n) as l. induction l as [|i l IH]; [done|]. cbn [map concat List.filter]. rewrite List.filter_app, map_app. rewrite filter_map.
      assert (Ei : List.filter (fun c => isP g e (i, c)) (seq 0 D) = if B i then List.filter (act g e i) (seq 0 D) else []).
      { unfold isP. cbn [fst snd]. destruct (B i); [by apply List.filter_ext|]. generalize (seq 0 D) as m. induction m as [|? m IHm]; [done|exact IHm]. }
      rewrite Ei. destruct (B i); cbn [map concat app].
      + rewrite IH. f_equal. by rewrite map_map.
      + apply IH.
    - apply list_eq. intros k. rewrite (list_lookup_fmap (fun w => sg <$> node_dof g e w)), (list_lookup_fmap (fun k => Some (sg (dP k)))). destruct (decide (k < length plist)) as [Hk|Hk].
      + destruct (plist_dof k Hk) as (w & -> & _ & Hw). rewrite lookup_seq_lt by done. cbn [fmap option_fmap option_map]. by rewrite Hw, Nat.add_0_l.
      + rewrite !lookup_ge_None_2 by (rewrite ?seq_length; lia). done.
  Qed.
  Lemma gpickP u f (phi : nat -> F) U : inj_on U f -> dofs_in g U e -> u ∈ U ->
    Sig (seq 0 (length plist)) (fun k => only (f (dP k) = f u) (phi k)) = Sig (seq 0 (length plist)) (fun k => only (dP k = u) (phi k)).
  Proof using Ht Hg.
    intros Hinj Hin Hu. apply Sig_ext. intros k Hk. apply elem_of_seq in Hk. destruct (plist_dof k ltac:(lia)) as (w & _ & Hw & _). apply only_ext; [|done]. split; [|congruence]. intros H. apply Hinj; [by eapply Hin|done..].
  Qed.
  Theorem finalize_ok inverse nr d gs U : insert_elem_info D dofs e = Ok (cd_dims d) -> inj_on U ro -> inj_on U co -> inj_on U ho -> dofs_in g U e ->
    let p := length plist in let q := length ilist in
    let N := inverse q (cd_diag d) in
    let UN i m := Sig (seq 0 q) (fun j => cd_upper d i j *! N j m) in
    exists d' gs', finalize_element zero add mul opp dofs inverse nr e d gs = Ok (d', gs') /\ cd_dims d' = cd_dims d /\ cd_inv d' = N /\ cd_upper d' = cd_upper d /\ cd_rhs d' = cd_rhs d /\
      (forall u v, u ∈ U -> v ∈ U -> gs'.1 (ro u) (co v) = gs.1 (ro u) (co v) +! Sig (seq 0 p) (fun k => only (dP k = u) (Sig (seq 0 p) (fun l => only (dP l = v) (opp (Sig (seq 0 q) (fun m => UN k m *! cd_upper d l m))))))) /\
      (forall u r, u ∈ U -> r < nr -> gs'.2 (ho u) r = gs.2 (ho u) r +! Sig (seq 0 p) (fun k => only (dP k = u) (opp (Sig (seq 0 q) (fun m => UN k m *! cd_rhs d m r))))).
  Proof using Rth Ht Hg.
    intros Hd Iro Ico Iho Hin p q N UN. destruct (info_ok D dofs g ro co ho e Ht Hg) as (dims & E & Einds & Ebnd & Eint). rewrite E in Hd. injection Hd as Hd. rewrite Hd in *. clear E Hd dims.
    unfold finalize_element. cbv zeta. rewrite Ebnd, Eint. fold p q. fold N. rewrite (bnodes_eq e Ht), bind_ok.
    rewrite (dofs_valid_ok (fun t => t.1.1) ro), bind_ok by done. rewrite (dofs_valid_ok (fun t => t.1.2) co), bind_ok by done. rewrite (dofs_valid_ok (fun t => t.2) ho), bind_ok by done.
    destruct gs as [m h].
    destruct (scatter_ok zero one add mul sub opp Rth (seq 0 p) (fun k => ro (dP k)) (fun k => co (dP k)) (fun k => ho (dP k)) nr
      (fun k l => opp (Sig (seq 0 q) (fun m => UN k m *! cd_upper d l m))) (fun k r => opp (Sig (seq 0 q) (fun m => UN k m *! cd_rhs d m r)))
      (fun i j => opp (msum zero add q (fun k => msum zero add q (fun j0 => cd_upper d i j0 *! N j0 k) *! cd_upper d j k)))
      (fun i r => opp (msum zero add q (fun k => msum zero add q (fun j => cd_upper d i j *! N j k) *! cd_rhs d k r))) m h) as (m' & h' & E & Hm & Hh).
    { intros i j Hi Hj. rewrite seq_length in Hi, Hj. rewrite !seq_nth, !Nat.add_0_l by done. done. }
    { intros i r Hi. rewrite seq_length in Hi. rewrite !seq_nth, !Nat.add_0_l by done. done. }
    rewrite seq_length in E. fold p. rewrite E, bind_ok. eexists _, _. split; [reflexivity|]. cbn [cd_dims cd_inv cd_upper cd_rhs fst snd]. do 4 (split; [done|]). split.
    - intros u v Hu Hv. rewrite Hm. f_equal. rewrite (gpickP u ro _ U) by done. apply Sig_ext. intros k _. f_equal. by rewrite (gpickP v co _ U).
    - intros u r Hu Hr. rewrite Hh by done. f_equal. by rewrite (gpickP u ho _ U).
  Qed.

  (** ** Recovery. *)
  Definition recovered (d : cond_data) (x : nat -> F) (k r : nat) : F :=
    Sig (seq 0 (length ilist)) (fun j => cd_inv d k j *! (cd_rhs d j r +! opp (Sig (seq 0 (length plist)) (fun i => cd_upper d i j *! x (dP i))))).
  Lemma ilist_prod : ilist = list_prod ints (List.filter (inn g e) (seq 0 D)).
  Proof. unfold Cond2_proofs.ilist. rewrite <- (filter_prod (fun i => negb (B i)) (inn g e)). done. Qed.
  Lemma prod_lookup {A A'} (l : list A) (l' : list A') i j a b : l !! i = Some a -> l' !! j = Some b -> list_prod l l' !! (i * length l' + j) = Some (a, b).
  Proof.
    clear. revert i. induction l as [|x l IH]; intros i Hi Hj; [done|]. cbn [list_prod]. destruct i as [|i]; cbn in Hi.
    - injection Hi as ->. rewrite Nat.mul_0_l, Nat.add_0_l. rewrite lookup_app_l by (rewrite map_length; by eapply lookup_lt_Some). rewrite (list_lookup_fmap (fun y => (a, y))). by rewrite Hj.
    - rewrite lookup_app_r by (rewrite map_length, Nat.mul_succ_l; lia). rewrite map_length. replace (S i * length l' + j - length l') with (i * length l' + j) by (rewrite Nat.mul_succ_l; lia). by apply IH.
  Qed.
  Theorem recover_ok nr X d (x : nat -> nat -> F) sol_inds : insert_elem_info D dofs e = Ok (cd_dims d) -> Forall (fun c => c < D) sol_inds ->
    (forall i r, i < length plist -> X r (ho (dP i)) = x r (dP i)) ->
    exists ws, recover_element zero add mul opp D dofs nr X sol_inds e d = Ok ws /\
      forall t, t ∈ ws <-> exists k w r m, ilist !! k = Some w /\ w.2 ∈ sol_inds /\ r < nr /\ el_nodes e !! w.1 = Some m /\ t = (m, w.2, r, recovered d (x r) k r).
  Proof using Rth Ht Hg.
    intros Hd Hsol HX. destruct (info_ok D dofs g ro co ho e Ht Hg) as (dims & E & Einds & Ebnd & Eint). rewrite E in Hd. injection Hd as Hd. rewrite Hd in *. clear E Hd dims.
    unfold recover_element. cbv zeta. rewrite (bnodes_eq e Ht), bind_ok. rewrite (dofs_valid_ok (fun t => t.2) ho), bind_ok by done.
    assert (Ep : map_res (fun h => match h with Some h => Ok h | None => UB end) (map (fun k => Some (ho (dP k))) (seq 0 (length plist))) = Ok (map (fun k => ho (dP k)) (seq 0 (length plist)))).
    { generalize (seq 0 (length plist)) as l. induction l as [|k l IH]; [done|]. cbn [map map_res]. by rewrite bind_ok, IH, bind_ok. }
    rewrite Ep, bind_ok, (inodes_eq e Ht), bind_ok. rewrite Einds, Eint. rewrite map_length, seq_length.
    set (inds := List.filter (inn g e) (seq 0 D)).
    set (lookup := (foldl _ _ _).1).
    assert (Hlook : forall c, c < D -> lookup !! c = Some (if inn g e c then Some (length (List.filter (inn g e) (seq 0 c))) else None)).
    { assert (Hgen : forall m, m <= D -> foldl (fun (st : list (option nat) * nat) i => if binary_search inds i then (st.1 ++ [Some st.2], S st.2) else (st.1 ++ [None], st.2)) ([], 0) (seq 0 m) = (map (fun c => if inn g e c then Some (length (List.filter (inn g e) (seq 0 c))) else None) (seq 0 m), length (List.filter (inn g e) (seq 0 m)))).
      { induction m as [|m IH]; intros Hm; [done|]. rewrite seq_S, foldl_app, IH by lia. cbn [foldl fst snd]. rewrite Nat.add_0_l, map_app. cbn [map]. rewrite filter_len_snoc.
        assert (Eb : binary_search inds m = inn g e m).
        { apply eq_true_iff_eq. rewrite binary_search_spec.
          - unfold inds. rewrite elem_of_filter', elem_of_seq. intuition lia.
          - unfold inds. apply strict_sorted. clear. generalize 0 as s. induction D as [|D' IH']; intros s; cbn [seq List.filter]; [constructor|]. specialize (IH' (S s)). destruct (inn g e s); [|done]. constructor; [done|]. apply Forall_forall. intros x Hx. apply elem_of_filter' in Hx as [Hx _]. apply elem_of_seq in Hx. lia. }
        rewrite Eb. by destruct (inn g e m). }
      intros c Hc. unfold lookup. rewrite Hgen by lia. cbn [fst]. rewrite (list_lookup_fmap (fun c => if inn g e c then Some (length (List.filter (inn g e) (seq 0 c))) else None)). rewrite lookup_seq_lt by done. done. }
    set (vals := fun k r : nat => msum zero add (length ilist) (fun j => cd_inv d k j *! (cd_rhs d j r +! opp (msum zero add (length plist) (fun i => cd_upper d i j *! X r (nth i (map (fun k => ho (dP k)) (seq 0 (length plist))) 0)))))).
    assert (Hvals : forall k r, vals k r = recovered d (x r) k r).
    { intros k r. unfold vals, recovered. change (msum zero add) with (fun n f => Sig (seq 0 n) f). cbv beta. apply Sig_ext. intros j _. f_equal. f_equal. f_equal. apply Sig_ext. intros i Hi. apply elem_of_seq in Hi. f_equal. rewrite <- HX by lia. f_equal.
      rewrite (nth_indep _ 0 (ho (dP 0))) by (rewrite map_length, seq_length; lia). rewrite (map_nth (fun k => ho (dP k))), seq_nth by lia. done. }
    (* the write for one node and component *)
    set (wr1 := fun (z : nat * nat) c => if inn g e c then map (fun r => (z.2, c, r, vals (z.1 * length inds + length (List.filter (inn g e) (seq 0 c))) r)) (seq 0 nr) else []).
    assert (Hpos : forall c, c < D -> inn g e c = true -> inds !! length (List.filter (inn g e) (seq 0 c)) = Some c).
    { intros c Hc Hi. unfold inds. replace D with (c + S (D - S c)) by lia. rewrite seq_app, List.filter_app, Nat.add_0_l. cbn [seq List.filter]. rewrite Hi. by apply list_lookup_middle. }
    assert (Hints : forall i a, ints !! i = Some a -> forall c, c < D -> inn g e c = true -> ilist !! (i * length inds + length (List.filter (inn g e) (seq 0 c))) = Some (a, c)).
    { intros i a Hi c Hc Hin. rewrite ilist_prod. apply prod_lookup; [done|]. by apply Hpos. }
    match goal with |- context [map_res ?f (zip _ _)] => set (body := f) end.
    rewrite map_length.
    set (zs := zip (seq 0 (length ints)) (map nd ints)).
    assert (Hzs : forall z, z ∈ zs <-> exists a, ints !! z.1 = Some a /\ z.2 = nd a).
    { intros z. unfold zs. split.
      - intros Hz. apply elem_of_list_lookup_1 in Hz as [q Hz]. apply lookup_zip_with_Some in Hz as (i & m & -> & Hi & Hm). apply lookup_seq in Hi as [-> Hi]. rewrite (list_lookup_fmap nd) in Hm. destruct (ints !! q) as [a|] eqn:Ea; [|done]. injection Hm as <-. by exists a.
      - intros (a & Ha & Hz). apply (elem_of_list_lookup_2 _ z.1). apply lookup_zip_with_Some. exists z.1, (nd a). split; [destruct z; cbn in *; by subst|]. split; [apply lookup_seq; split; [lia|by eapply lookup_lt_Some]|]. rewrite (list_lookup_fmap nd). by rewrite Ha. }
    assert (Eb : map_res body zs = Ok (map (fun z => concat (map (wr1 z) sol_inds)) zs)).
    { apply map_res_ok. intros z Hz. apply Hzs in Hz as (a & Ha & Hz). unfold body.
      rewrite (map_res_ok _ (wr1 z)); [by rewrite bind_ok|]. intros c Hc. rewrite Forall_forall in Hsol. specialize (Hsol c Hc). rewrite (rd_ok lookup c _ (Hlook c Hsol)), bind_ok. unfold wr1. destruct (inn g e c) eqn:Ei; [|done].
      pose proof (Hints _ _ Ha c Hsol Ei) as Hil. apply lookup_lt_Some in Hil. by rewrite (proj2 (Nat.ltb_lt _ _) Hil). }
    rewrite Eb, bind_ok. eexists. split; [reflexivity|]. intros t. rewrite elem_of_concat. split.
    - intros (l & Ht' & Hl). apply elem_of_list_fmap in Hl as (z & -> & Hz). apply elem_of_concat in Ht' as (l & Ht' & Hl). apply elem_of_list_fmap in Hl as (c & -> & Hc). apply Hzs in Hz as (a & Ha & Hz). unfold wr1 in Ht'. destruct (inn g e c) eqn:Ei; [|by apply elem_of_nil in Ht'].
      apply elem_of_list_fmap in Ht' as (r & -> & Hr). apply elem_of_seq in Hr. rewrite Forall_forall in Hsol. specialize (Hsol c Hc). exists (z.1 * length inds + length (List.filter (inn g e) (seq 0 c))), (a, c), r, z.2.
      split; [by apply Hints|]. split; [done|]. split; [lia|]. split; [|by rewrite Hvals]. cbn [fst]. rewrite Hz. apply nd_at. apply elem_of_list_lookup_2, elem_of_filter' in Ha as [Ha _]. apply elem_of_seq in Ha. lia.
    - intros (k & [a c] & r & m & Hk & Hc & Hr & Hm & ->). cbn [fst snd] in *.
      assert (Hin : (a, c) ∈ ilist) by (by eapply elem_of_list_lookup_2). rewrite ilist_prod in Hin. apply elem_of_prod in Hin as [Ha Hci]. cbn [fst snd] in *. apply elem_of_filter' in Hci as [HcD Hci]. apply elem_of_seq in HcD. apply elem_of_list_lookup_1 in Ha as [q Hq].
      assert (Ek : k = q * length inds + length (List.filter (inn g e) (seq 0 c))) by (eapply NoDup_lookup; [apply (ilist_nodup D g e)|done|apply Hints; [done|lia|done]]).
      assert (Em : m = nd a). { assert (Ha : a ∈ ints) by (by eapply elem_of_list_lookup_2). apply elem_of_filter' in Ha as [Ha _]. apply elem_of_seq in Ha. rewrite nd_at in Hm by lia. congruence. }
      exists (concat (map (wr1 (q, m)) sol_inds)). split; [|apply elem_of_list_fmap; exists (q, m); split; [done|]; apply Hzs; exists a; by split]. apply elem_of_concat. exists (wr1 (q, m) c). split; [|apply elem_of_list_fmap; by exists c]. unfold wr1. rewrite Hci. apply elem_of_list_fmap. exists r. split; [|apply elem_of_seq; lia]. cbn [fst snd]. by rewrite Hvals, Ek.
  Qed.
End elem.
