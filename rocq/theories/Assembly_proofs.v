(** C79: the values on one rank. *)
From Verif Require Import Base StdAlgo Ownership_model Ownership_proofs Elem_model Mesh_model Mesh_spec Helpers_model Helpers_proofs Partition_model Dofs_model Dofs_spec Dofs_props Periodic2_proofs Sparsity_model Sparsity_spec Sparsity_proofs Sparsity2_proofs Cond_model Cond_spec Cond3_proofs Cond6_proofs Dirichlet_model Dirichlet_proofs LocalBC_model Assembly_model Assembly_spec.
Local Arguments Nat.mul : simpl never.
Local Arguments Nat.add : simpl never.
Local Arguments Nat.sub : simpl never.

(** ** Maps *)
Lemma all_ids_local o k : k ∈ all_ids o <-> dof_local o k.
Proof. unfold all_ids, dof_local, dof_owned, numOwned. rewrite elem_of_app, elem_of_seq. split; intros [H|H]; [left; lia|by right|left; lia|by right]. Qed.
Lemma all_ids_nodup o : own_ok o -> NoDup (all_ids o).
Proof. intros (_ & H1 & H2). apply (local_ids_nodup o); [done|]. intros k Hk. apply (H2 k Hk). Qed.
Lemma all_ids_length o : length (all_ids o) = localSize o.
Proof. unfold all_ids, localSize. by rewrite app_length, seq_length. Qed.
Lemma all_ids_global o l k : getGlobalIndex o l = Ok k <-> all_ids o !! l = Some k.
Proof.
  unfold getGlobalIndex, all_ids. destruct (Nat.ltb_spec l (numOwned o)) as [H|H].
  - rewrite lookup_app_l by (by rewrite seq_length). rewrite lookup_seq_lt by done. split; intros [= <-]; done.
  - rewrite lookup_app_r by (by rewrite seq_length). rewrite seq_length. split; intros E; [by apply rd_inv|by apply rd_ok].
Qed.
Lemma all_ids_owned o l : l < numOwned o -> all_ids o !! l = Some (so_begin o + l).
Proof. intros H. unfold all_ids. rewrite lookup_app_l by (by rewrite seq_length). by apply lookup_seq_lt. Qed.
Lemma all_ids_shared o s : all_ids o !! (numOwned o + s) = so_shared o !! s.
Proof. unfold all_ids. rewrite lookup_app_r by (rewrite seq_length; lia). rewrite seq_length. f_equal. lia. Qed.
Lemma index_at x l : NoDup l -> x ∈ l -> exists k, index_of x l = Some k /\ l !! k = Some x.
Proof. intros Hn Hx. destruct (index_of_elem x l Hx) as [k Hk]. exists k. split; [done|]. by apply index_of_some. Qed.
Lemma unknown_find g n f : unknown_no g n f = match hm_find n (dm_map g) with Some row => match row !! f with Some d => d | None => None end | None => None end.
Proof.
  unfold unknown_no. induction (dm_map g) as [|[n' row] l IH]; [done|]. cbn [List.find hm_find fst]. destruct (Nat.eqb_spec n' n) as [-> |Hne]; [by rewrite decide_True|]. rewrite decide_False by congruence. exact IH.
Qed.
Lemma node_find r n : node_dofs r n = match hm_find n (dm_map (ar_map r)) with Some row => Ok (local_dofs (row_map r) row, local_dofs (col_map r) row, local_dofs (col_map r) row) | None => Throw end.
Proof.
  unfold node_dofs, node_map. induction (dm_map (ar_map r)) as [|[n' row] l IH]; [done|]. cbn [map hm_find fst snd]. destruct (decide (n = n')); [done|]. exact IH.
Qed.
(** ** Lists *)
Lemma concat_uniform {A} (ls : list (list A)) m k : 0 < m -> (forall l, l ∈ ls -> length l = m) -> concat ls !! k = match ls !! (k / m) with Some l => l !! (k mod m) | None => None end.
Proof.
  intros Hm. revert k. induction ls as [|l ls IH]; intros k Hl; [by rewrite !lookup_nil|]. cbn [concat]. assert (El : length l = m) by (apply Hl; left). destruct (decide (k < m)) as [Hk|Hk].
  - rewrite lookup_app_l by lia. by rewrite Nat.div_small, Nat.mod_small by done.
  - rewrite lookup_app_r by lia. rewrite El, IH by (intros; apply Hl; by right). remember (k - m) as x eqn:Ex. assert (k = x + 1 * m) as -> by lia. rewrite Nat.div_add, Nat.mod_add by lia. by rewrite Nat.add_1_r.
Qed.

Section rank.
  Context {F : Type} (zero one : F) (add mul sub : F -> F -> F) (opp : F -> F) (Rth : ring_theory zero one add mul sub opp (@eq F)).
  Add Ring Fring : Rth.
  Notation Sig := (Cond_spec.Sig zero add).
  Notation only := (Cond_spec.only zero).
  Local Lemma add0r x : add x zero = x.
  Proof using Rth. ring. Qed.
  Local Lemma add0l x : add zero x = x.
  Proof using Rth. ring. Qed.
  Lemma Sig_concat {A B} (f : A -> list B) l (h : B -> F) : Sig (concat (map f l)) h = Sig l (fun a => Sig (f a) h).
  Proof using Rth. induction l as [|a l IH]; [done|]. cbn [map concat]. rewrite (Sig_app zero one add mul sub opp Rth), Sig_cons, IH. done. Qed.

  Context (nr : nat) (r : arank).
  Context (Hrows : length (sg_rows (ar_sp r)) = length (row_map r)) (Hrm : NoDup (row_map r)) (Hcm : NoDup (col_map r)).
  Context (Hinds : forall l inds, sg_rows (ar_sp r) !! l = Some inds -> NoDup inds /\ forall c, c ∈ inds -> c < length (col_map r)).
  (** The values are [G] and [H]. *)
  Record right (st : lsys F) (G H : nat -> nat -> F) : Prop := {
    ri_vlen : Forall2 (fun inds vals => length vals = length inds) (sg_rows (ar_sp r)) (l_vals st);
    ri_rlen : length (l_rhs st) = length (col_map r) /\ Forall (fun b => length b = nr) (l_rhs st);
    ri_vals : forall l i inds vals p c j, row_map r !! l = Some i -> sg_rows (ar_sp r) !! l = Some inds -> l_vals st !! l = Some vals -> inds !! p = Some c -> col_map r !! c = Some j -> vals !! p = Some (G i j);
    ri_rhs : forall h i b q, col_map r !! h = Some i -> l_rhs st !! h = Some b -> q < nr -> b !! q = Some (H i q) }.
  (** What a step adds to an entry. *)
  Definition mat_of (i j : nat) (s : step F) : F := match s with SMat l c v => only (row_map r !! l = Some i) (only (col_map r !! c = Some j) v) | SRhs _ _ _ => zero end.
  Definition rhs_of (i q : nat) (s : step F) : F := match s with SMat _ _ _ => zero | SRhs h q' v => only (col_map r !! h = Some i) (only (q' = q) v) end.
  Definition step_ok (s : step F) : Prop := match s with SMat l c _ => l < length (row_map r) /\ c < length (col_map r) | SRhs h q _ => h < length (col_map r) /\ q < nr end.
  Lemma right_ext st G H G' H' : right st G H -> (forall i j, G i j = G' i j) -> (forall i q, q < nr -> H i q = H' i q) -> right st G' H'.
  Proof using Type. intros [A1 A2 A3 A4] E E'. split; [done|done| |]; intros; [rewrite <- E; by eapply A3|rewrite <- E' by done; by eapply A4]. Qed.
  Lemma step_right s st G H : step_ok s -> right st G H -> exists st', do_step add r s st = Ok st' /\ right st' (fun i j => add (G i j) (mat_of i j s)) (fun i q => add (H i q) (rhs_of i q s)).
  Proof using Rth Hrows Hrm Hcm Hinds.
    intros Hs HR. destruct s as [l c v|h q v]; cbn [step_ok] in Hs.
    - destruct Hs as [Hl Hc]. destruct (lookup_lt_is_Some_2 (sg_rows (ar_sp r)) l ltac:(lia)) as [inds Hi]. destruct (Forall2_lookup_l _ _ _ _ _ (ri_vlen _ _ _ HR) Hi) as (vals & Hv & Lv).
      destruct (lookup_lt_is_Some_2 (row_map r) l Hl) as [i0 Hi0]. destruct (lookup_lt_is_Some_2 (col_map r) c Hc) as [j0 Hj0]. cbn [do_step]. rewrite (rd_ok _ _ _ Hi), bind_ok, (rd_ok _ _ _ Hv), bind_ok.
      destruct (index_of c inds) as [p|] eqn:Ep.
      + apply index_of_some in Ep. assert (Hp : p < length vals) by (rewrite Lv; by eapply lookup_lt_Some). pose proof (ri_vals _ _ _ HR l i0 inds vals p c j0 Hi0 Hi Hv Ep Hj0) as Hx.
        rewrite (rd_ok _ _ _ Hx), bind_ok, wr_ok, bind_ok by done. rewrite wr_ok, bind_ok by (by eapply lookup_lt_Some). eexists. split; [reflexivity|]. split; cbn [l_vals l_rhs].
        * apply Forall2_lookup. intros k. pose proof (proj1 (Forall2_lookup _ _ _) (ri_vlen _ _ _ HR) k) as Hk. destruct (decide (k = l)) as [-> |Hne]; [|by rewrite list_lookup_insert_ne]. rewrite list_lookup_insert by (by eapply lookup_lt_Some). rewrite Hi. constructor. by rewrite insert_length.
        * exact (ri_rlen _ _ _ HR).
        * intros l' i inds' vals' p' c' j Hri Hin Hvals Hp' Hcj. destruct (decide (l' = l)) as [-> |Hne].
          -- rewrite list_lookup_insert in Hvals by (by eapply lookup_lt_Some). injection Hvals as <-. rewrite Hi in Hin. injection Hin as <-. rewrite Hi0 in Hri. injection Hri as <-. cbn [mat_of]. rewrite only_true by done. destruct (decide (p' = p)) as [-> |Hpe].
             ++ rewrite Ep in Hp'. injection Hp' as <-. rewrite Hj0 in Hcj. injection Hcj as <-. rewrite list_lookup_insert by done. by rewrite only_true by done.
             ++ rewrite list_lookup_insert_ne by done. rewrite only_false; [|intros E; apply Hpe; assert (c' = c) as -> by exact (NoDup_lookup _ _ _ _ Hcm Hcj E); exact (NoDup_lookup _ _ _ _ (proj1 (Hinds l inds Hi)) Hp' Ep)].
                rewrite (ri_vals _ _ _ HR l i0 inds vals p' c' j Hi0 Hi Hv Hp' Hcj). f_equal. ring.
          -- rewrite list_lookup_insert_ne in Hvals by done. cbn [mat_of]. rewrite only_false; [|intros E; apply Hne; exact (NoDup_lookup _ _ _ _ Hrm Hri E)]. rewrite (ri_vals _ _ _ HR l' i inds' vals' p' c' j Hri Hin Hvals Hp' Hcj). f_equal. ring.
        * intros h i b q Hh Hb Hq. cbn [rhs_of]. rewrite (ri_rhs _ _ _ HR h i b q Hh Hb Hq). f_equal. ring.
      + exists st. split; [done|]. destruct HR as [A1 A2 A3 A4]. split; [done|done| |].
        * intros l' i inds' vals' p' c' j Hri Hin Hvals Hp' Hcj. rewrite (A3 l' i inds' vals' p' c' j Hri Hin Hvals Hp' Hcj). f_equal. cbn [mat_of].
          enough (only (row_map r !! l = Some i) (only (col_map r !! c = Some j) v) = zero) as -> by ring. destruct (decide (row_map r !! l = Some i)) as [E|E]; [|by apply only_false]. rewrite only_true by done. apply only_false. intros E'.
          assert (l' = l) as -> by exact (NoDup_lookup _ _ _ _ Hrm Hri E). assert (c' = c) as -> by exact (NoDup_lookup _ _ _ _ Hcm Hcj E'). rewrite Hi in Hin. injection Hin as <-. rewrite (index_of_nodup c inds p') in Ep; [done|exact (proj1 (Hinds l inds Hi))|done].
        * intros h i b q Hh Hb Hq. cbn [rhs_of]. rewrite (A4 h i b q Hh Hb Hq). f_equal. ring.
    - destruct Hs as [Hh Hq]. destruct HR as [A1 [A2 A2'] A3 A4]. destruct (lookup_lt_is_Some_2 (l_rhs st) h ltac:(lia)) as [b Hb]. destruct (lookup_lt_is_Some_2 (col_map r) h Hh) as [i0 Hi0]. assert (Lb : length b = nr) by (exact (proj1 (Forall_lookup _ _) A2' h b Hb)).
      cbn [do_step]. rewrite (rd_ok _ _ _ Hb), bind_ok, (rd_ok _ _ _ (A4 h i0 b q Hi0 Hb Hq)), bind_ok, wr_ok, bind_ok by lia. rewrite wr_ok, bind_ok by lia. eexists. split; [reflexivity|]. split; cbn [l_vals l_rhs].
      + done.
      + rewrite insert_length. split; [done|]. apply Forall_lookup. intros k b' Hk. destruct (decide (k = h)) as [-> |Hne]; [rewrite list_lookup_insert in Hk by lia; injection Hk as <-; by rewrite insert_length|]. rewrite list_lookup_insert_ne in Hk by done. exact (proj1 (Forall_lookup _ _) A2' k b' Hk).
      + intros l' i inds' vals' p' c' j Hri Hin Hvals Hp' Hcj. rewrite (A3 l' i inds' vals' p' c' j Hri Hin Hvals Hp' Hcj). f_equal. cbn [mat_of]. ring.
      + intros h' i b' q' Hh' Hb' Hq'. cbn [rhs_of]. destruct (decide (h' = h)) as [-> |Hne].
        * rewrite list_lookup_insert in Hb' by lia. injection Hb' as <-. rewrite Hi0 in Hh'. injection Hh' as <-. rewrite only_true by done. destruct (decide (q' = q)) as [-> |Hqe].
          -- rewrite list_lookup_insert by lia. by rewrite only_true by done.
          -- rewrite list_lookup_insert_ne by done. rewrite only_false by congruence. rewrite (A4 h i0 b q' Hi0 Hb Hq'). f_equal. ring.
        * rewrite list_lookup_insert_ne in Hb' by done. rewrite only_false by (intros E; apply Hne; exact (NoDup_lookup _ _ _ _ Hcm Hh' E)). rewrite (A4 h' i b' q' Hh' Hb' Hq'). f_equal. ring.
  Qed.
  Lemma steps_right l st G H : (forall s, s ∈ l -> step_ok s) -> right st G H -> exists st', for_each (do_step add r) l st = Ok st' /\ right st' (fun i j => add (G i j) (Sig l (mat_of i j))) (fun i q => add (H i q) (Sig l (rhs_of i q))).
  Proof using Rth Hrows Hrm Hcm Hinds.
    revert st G H. induction l as [|s l IH]; intros st G H Hs HR.
    - exists st. split; [done|]. eapply right_ext; [exact HR| |]; intros; cbn; ring.
    - cbn [for_each]. destruct (step_right s st G H (Hs s ltac:(left)) HR) as (st1 & E & HR1). rewrite E, bind_ok. destruct (IH st1 _ _ (fun t Ht => Hs t (elem_of_list_further _ _ _ Ht)) HR1) as (st2 & E2 & HR2). exists st2. split; [done|].
      eapply right_ext; [exact HR2| |]; intros; rewrite Sig_cons; ring.
  Qed.
  Lemma zeros_right : right (zeros zero nr r) (fun _ _ => zero) (fun _ _ => zero).
  Proof using Type.
    split; cbn [zeros l_vals l_rhs].
    - apply Forall2_fmap_r. apply Forall2_same_length_lookup. split; [done|]. intros k x y Hx Hy. rewrite Hx in Hy. injection Hy as <-. cbn. by rewrite map_length.
    - rewrite replicate_length. split; [done|]. apply Forall_replicate. by rewrite replicate_length.
    - intros l i inds vals p c j _ Hi Hv Hp _. change (map (map (fun _ : nat => zero)) ?l) with ((map (fun _ : nat => zero)) <$> l) in Hv. rewrite list_lookup_fmap, Hi in Hv. injection Hv as <-. change (map (fun _ : nat => zero) inds) with ((fun _ : nat => zero) <$> inds). by rewrite list_lookup_fmap, Hp.
    - intros h i b q _ Hb Hq. apply lookup_replicate in Hb as [-> _]. by apply lookup_replicate_2.
  Qed.

  (** ** Calls *)
  Lemma dofs_at_call (sel : dof_triplet -> list (option nat)) ids c : (forall row, sel (local_dofs (row_map r) row, local_dofs (col_map r) row, local_dofs (col_map r) row) = local_dofs ids row) ->
    (forall n f d, unknown_no (ar_map r) n f = Some d -> d ∈ ids) -> c_fields c <> [] -> (forall n f, n ∈ c_nodes c -> f ∈ c_fields c -> is_Some (unknown_no (ar_map r) n f)) ->
    exists L, Cond_model.dofs_at (node_dofs r) sel (c_fields c) (c_nodes c) = Ok L /\ forall k, k < n_loc (F:=F) c -> exists x d, L !! k = Some (Some x) /\ loc_dof (ar_map r) c k = Some d /\ ids !! x = Some d.
  Proof using Type.
    clear Hrows. intros Hsel Hids E0 Hex. unfold Cond_model.dofs_at.
    set (h := fun n => map (fun f => match unknown_no (ar_map r) n f with Some d => index_of d ids | None => None end) (c_fields c)).
    rewrite (map_res_ok _ h).
    - rewrite bind_ok. eexists. split; [reflexivity|]. intros k Hk. unfold n_loc in Hk. assert (Hnf : 0 < length (c_fields c)) by lia.
      rewrite (concat_uniform _ (length (c_fields c))) by (done || (intros l Hl; apply elem_of_list_fmap in Hl as (n & -> & _); unfold h; by rewrite map_length)).
      assert (Hd : k / length (c_fields c) < length (c_nodes c)) by (apply Nat.div_lt_upper_bound; lia). assert (Hm : k mod length (c_fields c) < length (c_fields c)) by (apply Nat.mod_upper_bound; lia).
      destruct (lookup_lt_is_Some_2 _ _ Hd) as [n Hn]. destruct (lookup_lt_is_Some_2 _ _ Hm) as [f Hf]. unfold loc_dof. rewrite Hn, Hf. change (map h (c_nodes c)) with (h <$> c_nodes c). rewrite list_lookup_fmap, Hn. cbn [fmap option_fmap option_map].
      destruct (Hex n f) as [d Hd']; [by eapply elem_of_list_lookup_2|by eapply elem_of_list_lookup_2|]. destruct (index_of_elem d ids (Hids _ _ _ Hd')) as [x Hx]. exists x, d. split; [|split; [done|by apply index_of_some]].
      unfold h. change (map ?g (c_fields c)) with (g <$> c_fields c). rewrite list_lookup_fmap, Hf. cbn [fmap option_fmap option_map]. by rewrite Hd', Hx.
    - intros n Hn. rewrite node_find. assert (exists f0, f0 ∈ c_fields c) as [f0 Hf0] by (destruct (c_fields c) as [|f0 fs]; [done|exists f0; left]). destruct (Hex n f0 Hn Hf0) as [d0 Hd0]. rewrite unknown_find in Hd0. destruct (hm_find n (dm_map (ar_map r))) as [row|] eqn:Er; [|done]. rewrite bind_ok, Hsel. unfold h. apply map_res_ok. intros f Hf. destruct (Hex n f Hn Hf) as [d Hd].
      rewrite Hd. rewrite unknown_find, Er in Hd. destruct (row !! f) as [d'|] eqn:E; [|done]. subst d'. apply rd_ok. unfold local_dofs. change (map ?g row) with (g <$> row). by rewrite list_lookup_fmap, E.
  Qed.
  Definition at_k (L : list (option nat)) (k : nat) : nat := match L !! k with Some (Some x) => x | _ => 0 end.
  Context (Hloc : forall n f d, unknown_no (ar_map r) n f = Some d -> d ∈ row_map r /\ d ∈ col_map r).
  Lemma only_ext (P Q : Prop) `{Decision P} `{Decision Q} v w : (P <-> Q) -> (P -> v = w) -> only P v = only Q w.
  Proof using Type. intros E Ev. destruct (decide P) as [HP|HP]; [rewrite !only_true by tauto; auto|rewrite !only_false by tauto; done]. Qed.
  Lemma zip_map_seq {A B C} (f : A -> B -> C) (h : A -> B) l : zip_with f l (map h l) = map (fun x => f x (h x)) l.
  Proof using Type. induction l as [|x l IH]; [done|]. cbn. by rewrite IH. Qed.
  Lemma call_ok c : c_fields c <> [] -> (forall n f, n ∈ c_nodes c -> f ∈ c_fields c -> is_Some (unknown_no (ar_map r) n f)) ->
    exists L, call_steps nr r c = Ok L /\ (forall s, s ∈ L -> step_ok s) /\ (forall i j, Sig L (mat_of i j) = mat_part zero add (ar_map r) [c] i j) /\ (forall i q, q < nr -> Sig L (rhs_of i q) = rhs_part zero add (ar_map r) [c] i q).
  Proof using Rth Hloc.
    clear Hrows. intros E0 Hex. destruct (dofs_at_call (fun t : dof_triplet => t.1.1) (row_map r) c) as (rows & Er & Hr); [done|intros n f d Hd; apply (Hloc n f d Hd)|done|done|].
    destruct (dofs_at_call (fun t : dof_triplet => t.1.2) (col_map r) c) as (cols & Ec & Hc); [done|intros n f d Hd; apply (Hloc n f d Hd)|done|done|]. destruct (dofs_at_call (fun t : dof_triplet => t.2) (col_map r) c) as (rhs & Eh & Hh); [done|intros n f d Hd; apply (Hloc n f d Hd)|done|done|].
    unfold call_steps. cbv zeta. rewrite Er, bind_ok, Ec, bind_ok, Eh, bind_ok. change (length (c_nodes c) * length (c_fields c)) with (n_loc c).
    assert (Hv : forall (ids : list nat) (L : list (option nat)) k, (forall k, k < n_loc c -> exists x d, L !! k = Some (Some x) /\ loc_dof (ar_map r) c k = Some d /\ ids !! x = Some d) -> k < n_loc c -> valid_dof L k = Ok (at_k L k) /\ exists d, loc_dof (ar_map r) c k = Some d /\ ids !! (at_k L k) = Some d).
    { intros ids L k HL Hk. destruct (HL k Hk) as (x & d & H1 & H2 & H3). unfold valid_dof, at_k. rewrite (rd_ok _ _ _ H1), bind_ok, H1. split; [done|]. eauto. }
    set (h := fun k => map (fun l => SMat (at_k rows k) (at_k cols l) (c_mat c k l)) (seq 0 (n_loc c)) ++ map (fun i => SRhs (at_k rhs k) i (c_rhs c k i)) (seq 0 nr)).
    rewrite (map_res_ok _ h).
    2: { intros k Hk. apply elem_of_seq in Hk. destruct (Hv _ _ k Hr ltac:(lia)) as [-> _]. rewrite bind_ok. rewrite (map_res_ok _ (at_k cols)), bind_ok by (intros l Hl; apply elem_of_seq in Hl; apply (Hv _ _ l Hc); lia).
      destruct (Hv _ _ k Hh ltac:(lia)) as [-> _]. rewrite bind_ok. unfold h. by rewrite zip_map_seq. }
    rewrite bind_ok. eexists. split; [reflexivity|]. split; [|split].
    - intros s Hs. apply elem_of_list_In, in_concat in Hs as (l & Hl & Hs). apply elem_of_list_In, elem_of_list_fmap in Hl as (k & -> & Hk). apply elem_of_seq in Hk. apply elem_of_list_In in Hs. unfold h in Hs. apply elem_of_app in Hs as [Hs|Hs]; apply elem_of_list_fmap in Hs as (l & -> & Hl); apply elem_of_seq in Hl; cbn [step_ok].
      + destruct (Hv _ _ k Hr ltac:(lia)) as [_ (d & _ & Hd)]. destruct (Hv _ _ l Hc ltac:(lia)) as [_ (d' & _ & Hd')]. split; by eapply lookup_lt_Some.
      + destruct (Hv _ _ k Hh ltac:(lia)) as [_ (d & _ & Hd)]. split; [by eapply lookup_lt_Some|lia].
    - intros i j. rewrite Sig_concat. unfold mat_part. rewrite Sig_cons. etransitivity; [|symmetry; apply add0r]. apply Sig_ext. intros k Hk. apply elem_of_seq in Hk. unfold h. rewrite (Sig_app zero one add mul sub opp Rth), !Sig_map. cbn [mat_of]. rewrite (Sig_0 zero one add mul sub opp Rth (seq 0 nr)) by done.
      etransitivity; [apply add0r|]. destruct (Hv _ _ k Hr ltac:(lia)) as [_ (d & H1 & H2)]. rewrite H1, H2. rewrite (only_Sig zero one add mul sub opp Rth). apply Sig_ext. intros l Hl. apply elem_of_seq in Hl. apply only_ext; [done|]. intros _. destruct (Hv _ _ l Hc ltac:(lia)) as [_ (d' & H1' & H2')]. by rewrite H1', H2'.
    - intros i q Hq. rewrite Sig_concat. unfold rhs_part. rewrite Sig_cons. etransitivity; [|symmetry; apply add0r]. apply Sig_ext. intros k Hk. apply elem_of_seq in Hk. unfold h. rewrite (Sig_app zero one add mul sub opp Rth), !Sig_map. cbn [rhs_of]. rewrite (Sig_0 zero one add mul sub opp Rth (seq 0 (n_loc c))) by done.
      etransitivity; [apply add0l|]. destruct (Hv _ _ k Hh ltac:(lia)) as [_ (d & H1 & H2)]. rewrite H1, H2. rewrite <- (only_Sig zero one add mul sub opp Rth). apply only_ext; [done|]. intros _.
      apply (Sig_one zero one add mul sub opp Rth _ q (fun i => c_rhs c k i)); [apply NoDup_seq|apply elem_of_seq; lia].
  Qed.
  Definition callable (c : call F) : Prop := c_fields c <> [] /\ forall n f, n ∈ c_nodes c -> f ∈ c_fields c -> is_Some (unknown_no (ar_map r) n f).
  Lemma calls_steps cs : (forall c, c ∈ cs -> callable c) -> exists ls, map_res (call_steps nr r) cs = Ok ls /\ (forall s, s ∈ concat ls -> step_ok s) /\
    (forall i j, Sig (concat ls) (mat_of i j) = mat_part zero add (ar_map r) cs i j) /\ (forall i q, q < nr -> Sig (concat ls) (rhs_of i q) = rhs_part zero add (ar_map r) cs i q).
  Proof using Rth Hloc.
    clear Hrows. induction cs as [|c cs IH]; intros Hc.
    - exists []. split; [done|]. split; [intros s Hs; by apply elem_of_nil in Hs|done].
    - destruct (call_ok c) as (L & E & H1 & H2 & H3); [apply (Hc c ltac:(left))|apply (Hc c ltac:(left))|]. destruct IH as (ls & E' & H1' & H2' & H3'); [intros; apply Hc; by right|]. exists (L :: ls). cbn [map_res]. rewrite E, bind_ok, E', bind_ok. split; [done|]. cbn [concat]. split; [|split].
      + intros s Hs. apply elem_of_app in Hs as [Hs|Hs]; auto.
      + intros i j. rewrite (Sig_app zero one add mul sub opp Rth), H2, H2'. unfold mat_part. rewrite !Sig_cons. change (Sig [] ?f) with zero. by rewrite add0r.
      + intros i q Hq. rewrite (Sig_app zero one add mul sub opp Rth), H3, H3' by done. unfold rhs_part. rewrite !Sig_cons. change (Sig [] ?f) with zero. by rewrite add0r.
  Qed.
  Lemma assemble_ok order cs st G H : (forall l, order l ≡ₚ l) -> (forall c, c ∈ cs -> callable c) -> right st G H ->
    exists st', assemble_rank add nr order r cs st = Ok st' /\ right st' (fun i j => add (G i j) (mat_part zero add (ar_map r) cs i j)) (fun i q => add (H i q) (rhs_part zero add (ar_map r) cs i q)).
  Proof using Rth Hrows Hrm Hcm Hinds Hloc.
    intros Ho Hc HR. destruct (calls_steps cs Hc) as (ls & E & H1 & H2 & H3). unfold assemble_rank. rewrite E, bind_ok.
    destruct (steps_right (order (concat ls)) st G H) as (st' & E' & HR'); [intros s Hs; apply H1; by rewrite <- (Ho (concat ls))|done|]. exists st'. split; [done|]. eapply right_ext; [exact HR'| |].
    - intros i j. cbv beta. by rewrite (Sig_perm zero one add mul sub opp Rth _ _ _ (Ho (concat ls))), H2.
    - intros i q Hq. cbv beta. by rewrite (Sig_perm zero one add mul sub opp Rth _ _ _ (Ho (concat ls))), H3.
  Qed.
End rank.
