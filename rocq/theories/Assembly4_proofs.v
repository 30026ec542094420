(** C79: the system of all ranks; Dirichlet conditions. *)
From Verif Require Merge_proofs.
From Verif Require Import Base StdAlgo Ownership_model Ownership_proofs Elem_model Mesh_model Mesh_spec Helpers_model Helpers_proofs Partition_model Dofs_model Dofs_spec Sparsity_model Sparsity_spec Sparsity_proofs Sparsity2_proofs Sparsity4_proofs Cond_model Cond_spec Cond3_proofs Cond6_proofs Dirichlet_model Dirichlet_spec Dirichlet_proofs LocalBC_model Assembly_model Assembly_spec Assembly_proofs Assembly2_proofs Assembly3_proofs.
Local Arguments Nat.mul : simpl never.
Local Arguments Nat.add : simpl never.
Local Arguments Nat.sub : simpl never.

Section system.
  Context {F : Type} (zero one : F) (add mul sub : F -> F -> F) (opp : F -> F) (Rth : ring_theory zero one add mul sub opp (@eq F)).
  Add Ring Fring : Rth.
  Notation Sig := (Cond_spec.Sig zero add).
  Notation only := (Cond_spec.only zero).
  Notation Sig_perm := (Sig_perm zero one add mul sub opp Rth).
  Notation Sig_0 := (Sig_0 zero one add mul sub opp Rth).
  Context {V : Type} (D : nat) (meshes : list (mesh V)) (ranks : list arank) (pdef : list (list nat * list bool)) (T : nat) (W : aworld D meshes ranks pdef T) (nr : nat).
  Definition coupled_any (i j : nat) : Prop := exists m' r', (m', r') ∈ zip meshes ranks /\ coupled false pdef m' (ar_map r') i j.
  Lemma coupled_lt i j : coupled_any i j -> i < T /\ j < T.
  Proof using W.
    intros (m & r & Hp & ids & bits & dom & e & _ & _ & _ & (n & row & f & _ & H1 & _ & H2) & (n' & row' & f' & _ & H1' & _ & H2')). apply elem_of_list_lookup in Hp as [b Hp]. apply lookup_zip_with_Some in Hp as (? & ? & [= <- <-] & Hm & Hr).
    assert (Hz : (m, ar_map r) ∈ zip meshes (map ar_map ranks)) by (eapply elem_of_list_lookup_2; by apply (pair_at _ _ b)). split; apply (local_lt _ _ _ _ _ W b r _ Hr); [by apply (proj2 (us_rows _ _ _ _ (aw_usable _ _ _ _ _ W) m (ar_map r) n row Hz H1) f)|by apply (proj2 (us_rows _ _ _ _ (aw_usable _ _ _ _ _ W) m (ar_map r) n' row' Hz H1') f')].
  Qed.
  Lemma Amat_0 calls i j : calls_ok meshes ranks pdef calls -> ~ coupled_any i j -> Amat zero add ranks calls i j = zero.
  Proof using Rth W.
    intros [_ HC] Hn. unfold Amat. apply Sig_0. intros [r cs] Hx. apply elem_of_list_lookup in Hx as [b Hb]. apply lookup_zip_with_Some in Hb as (? & ? & [= <- <-] & Hr & Hcs). destruct (mesh_at _ _ _ _ _ W b r Hr) as [m Hm]. cbn [fst snd].
    eapply (mat_part_0 zero one add mul sub opp Rth D meshes ranks pdef T W b m); [done|done|intros c Hc; by eapply HC|]. intros Hco. apply Hn. exists m, r. split; [|done]. eapply elem_of_list_lookup_2. by apply (pair_at _ _ b).
  Qed.
  Lemma row_index a r i : ranks !! a = Some r -> dof_owned (dm_own (ar_map r)) i -> exists l, l < numOwned (dm_own (ar_map r)) /\ i = so_begin (dm_own (ar_map r)) + l /\ row_map r !! l = Some i.
  Proof using Type. intros _ [H1 H2]. exists (i - so_begin (dm_own (ar_map r))). unfold numOwned. split; [lia|]. split; [lia|]. unfold row_map. rewrite all_ids_owned by (unfold numOwned; lia). f_equal. lia. Qed.
  (** The columns of an owned row. *)
  Lemma row_cols_iff a r l inds j : ranks !! a = Some r -> l < numOwned (dm_own (ar_map r)) -> sg_rows (ar_sp r) !! l = Some inds ->
    coupled_any (so_begin (dm_own (ar_map r)) + l) j <-> exists c, c ∈ inds /\ col_map r !! c = Some j.
  Proof using W.
    intros Ha Hl Hi. destruct (mesh_at _ _ _ _ _ W a r Ha) as [m Hm]. apply (proj1 (stored _ _ _ _ _ W a m r l _ inds Hm Ha (all_ids_owned _ _ Hl) Hi)). unfold dof_owned, numOwned in *. lia.
  Qed.
  Definition part_of (r : arank) (st : lsys F) : part F := let n := numOwned (dm_own (ar_map r)) in mk_part (owned_graph r) (take n (l_vals st)) (take n (l_rhs st)).
  Lemma lookup_take_iff {A} (l : list A) n k x : take n l !! k = Some x <-> k < n /\ l !! k = Some x.
  Proof using Type. destruct (decide (k < n)) as [H|H]; [rewrite lookup_take by done; tauto|]. rewrite lookup_take_ge by lia. split; [done|lia]. Qed.
  Lemma take_row r : take (numOwned (dm_own (ar_map r))) (row_map r) = seq (so_begin (dm_own (ar_map r))) (numOwned (dm_own (ar_map r))).
  Proof using Type. unfold row_map, all_ids. rewrite take_app_alt; [done|]. by rewrite seq_length. Qed.
  Lemma part_valid a r A B st : ranks !! a = Some r -> okrank nr A B r st -> valid_part nr (part_of r st).
  Proof using W.
    intros Ha H. destruct (rows_at _ _ _ _ _ W a r Ha) as (R1 & R2 & R3 & R4 & _). set (n := numOwned (dm_own (ar_map r))).
    assert (Ln : n <= length (row_map r)) by (unfold row_map; rewrite all_ids_length; unfold localSize; fold n; lia). assert (Hv : n <= length (l_vals st)). { destruct (decide (n = 0)) as [-> |Hn0]; [lia|]. destruct (H (n - 1)) as [(inds & vals & _ & Hv & _) _]; [fold n; lia|]. apply lookup_lt_Some in Hv. lia. }
    assert (Hr : n <= length (l_rhs st)). { destruct (decide (n = 0)) as [-> |Hn0]; [lia|]. destruct (H (n - 1)) as [_ Hb]; [fold n; lia|]. apply lookup_lt_Some in Hb. lia. }
    unfold part_of. fold n. split; cbn [p_graph p_vals p_rhs owned_graph g_row g_col g_inds]; fold n.
    - rewrite <- (take_drop n (row_map r)) in R2. by apply NoDup_app in R2 as [? _].
    - done.
    - apply Forall2_same_length_lookup. rewrite !take_length. split; [lia|]. intros l inds vals Hi Hvl. apply lookup_take_iff in Hi as [Hl Hi]. apply lookup_take_iff in Hvl as [_ Hvl]. destruct (H l Hl) as [(inds' & vals' & E1 & E2 & L & _) _]. destruct (R4 l inds Hi) as [N1 N2]. split; [done|]. split; [by apply Forall_forall|]. congruence.
    - rewrite !take_length. lia.
    - rewrite !take_length. split; [lia|]. apply Forall_lookup. intros l b Hb. apply lookup_take_iff in Hb as [Hl Hb]. destruct (H l Hl) as [_ Hb']. assert (b = map (B (so_begin (dm_own (ar_map r)) + l)) (seq 0 nr)) as -> by congruence. by rewrite map_length, seq_length.
  Qed.
  Lemma part_row a r A B st i cv b : ranks !! a = Some r -> okrank nr A B r st -> has_row (part_of r st) i cv b -> dof_owned (dm_own (ar_map r)) i /\ (forall j, j ∈ cv.*1 <-> coupled_any i j) /\ (forall j v, (j, v) ∈ cv -> v = A i j) /\ b = map (B i) (seq 0 nr) /\ NoDup cv.*1.
  Proof using W.
    intros Ha H (l & inds & vs & H1 & H2 & H3 & H4 & H5 & H6). cbn [part_of p_graph p_vals p_rhs owned_graph g_row g_col g_inds] in *. apply lookup_take_iff in H1 as [Hl H1]. apply lookup_take_iff in H2 as [_ H2]. apply lookup_take_iff in H3 as [_ H3]. apply lookup_take_iff in H4 as [_ H4].
    unfold row_map in H1. rewrite all_ids_owned in H1 by done. injection H1 as <-. destruct (H l Hl) as [(inds' & vals' & E1 & E2 & L & HA) Hb]. assert (inds' = inds) as -> by congruence. assert (vals' = vs) as -> by congruence. destruct (rows_at _ _ _ _ _ W a r Ha) as (R1 & R2 & R3 & R4 & _).
    split; [unfold dof_owned, numOwned in *; lia|]. split; [|split; [|split; [congruence|]]].
    - intros j. rewrite (row_cols_iff a r l inds j Ha Hl H2). split.
      + intros Hj. apply elem_of_list_lookup in Hj as [p Hp]. destruct (Forall2_lookup_r _ _ _ _ _ H5 Hp) as (c & Hc & Ec). exists c. split; [by eapply elem_of_list_lookup_2|done].
      + intros (c & Hc & Ec). apply elem_of_list_lookup in Hc as [p Hp]. destruct (Forall2_lookup_l _ _ _ _ _ H5 Hp) as (j' & Hj' & Ej). assert (j' = j) as -> by congruence. by eapply elem_of_list_lookup_2.
    - intros j v Hjv. apply elem_of_list_lookup in Hjv as [p Hp]. assert (Hj : cv.*1 !! p = Some j) by (by rewrite list_lookup_fmap, Hp). assert (Hv : vs !! p = Some v) by (subst vs; by rewrite list_lookup_fmap, Hp). destruct (Forall2_lookup_r _ _ _ _ _ H5 Hj) as (c & Hc & Ec). rewrite (HA p c j Hc Ec) in Hv. by injection Hv.
    - exact (cols_nodup _ _ _ R3 (proj1 (R4 l inds H2)) H5).
  Qed.
  Lemma system_ok A B sts : (forall i j, i < T -> ~ coupled_any i j -> A i j = zero) -> length sts = length ranks -> (forall a r st, ranks !! a = Some r -> sts !! a = Some st -> okrank nr A B r st) ->
    is_system zero nr T A B (zip_with part_of ranks sts).
  Proof using W.
    intros Hz Hl H. assert (Hp : forall p, p ∈ zip_with part_of ranks sts -> exists a r st, ranks !! a = Some r /\ sts !! a = Some st /\ p = part_of r st).
    { intros p Hp. apply elem_of_list_lookup in Hp as [a Hp]. apply lookup_zip_with_Some in Hp as (r & st & -> & Hr & Hs). by exists a, r, st. }
    assert (Hg : forall r st i, i ∈ g_row (p_graph (part_of r st)) <-> dof_owned (dm_own (ar_map r)) i). { intros r st i. cbn [part_of p_graph owned_graph g_row]. rewrite take_row, elem_of_seq. unfold dof_owned, numOwned. lia. }
    split.
    - apply Forall_forall. intros p Hx. destruct (Hp p Hx) as (a & r & st & Hr & Hs & ->). eapply part_valid; [done|by eapply H].
    - intros i. split.
      + intros Hi. destruct (owner_some _ _ _ _ _ W i Hi) as (a & r & Hr & Ho). destruct (lookup_lt_is_Some_2 sts a) as [st Hst]; [rewrite Hl; by eapply lookup_lt_Some|]. exists (part_of r st). split; [|by apply Hg]. eapply elem_of_list_lookup_2. apply lookup_zip_with_Some. by exists r, st.
      + intros (p & Hx & Hi). destruct (Hp p Hx) as (a & r & st & Hr & Hs & ->). apply Hg in Hi. apply (local_lt _ _ _ _ _ W a r i Hr). by left.
    - intros a b p q i Ha Hb Hi Hi'. apply lookup_zip_with_Some in Ha as (r & st & -> & Hr & _). apply lookup_zip_with_Some in Hb as (r' & st' & -> & Hr' & _). apply Hg in Hi, Hi'. by eapply (owner_one _ _ _ _ _ W a b r r' i).
    - intros p i cv b Hx Hrow. destruct (Hp p Hx) as (a & r & st & Hr & Hs & ->). destruct (part_row a r A B st i cv b Hr (H a r st Hr Hs) Hrow) as (Ho & Hc & Hv & Hb & _). split; [|split; [|done]].
      + intros j v Hj. split; [|by apply Hv]. apply (coupled_lt i j). apply Hc. apply elem_of_list_fmap. by exists (j, v).
      + intros j Hj. apply Hz; [apply (local_lt _ _ _ _ _ W a r i Hr); by left|]. by rewrite <- Hc.
  Qed.

  (** ** Dirichlet conditions *)
  Lemma Sig_sub l n (h : nat -> F) : NoDup l -> (forall j, j ∈ l -> j < n) -> (forall j, j ∉ l -> h j = zero) -> Sig l h = Sig (seq 0 n) h.
  Proof using Rth.
    intros Hn Hl Hz. rewrite (Sig_perm l (List.filter (fun j => bool_decide (j ∈ l)) (seq 0 n))).
    - rewrite (Sig_filter zero one add mul sub opp Rth). apply Sig_ext. intros j _. destruct (decide (j ∈ l)) as [Hj|Hj]; [apply only_true; by apply bool_decide_eq_true|]. rewrite (Hz j Hj). by destruct (decide (bool_decide (j ∈ l) = true)); [rewrite only_true|rewrite only_false].
    - apply NoDup_Permutation; [done|apply NoDup_ListNoDup; apply List.NoDup_filter; apply seq_NoDup|]. intros j. rewrite Merge_proofs.filter_elem, elem_of_seq, bool_decide_eq_true. split; [intros Hj; split; [specialize (Hl j Hj); lia|done]|tauto].
  Qed.
  Lemma lin_Sig cv x : lin zero add mul cv x = Sig cv (fun p => mul p.2 (x p.1)).
  Proof using Type. induction cv as [|[c v] cv IH]; [done|]. cbn [lin]. by rewrite IH. Qed.
  Context (fc : list nat -> list nat) (Hfc : forall l, fc l ≡ₚ l) (C : nat -> bool) (Hself : forall i, C i = true -> i < T -> coupled_any i i).
  Lemma apply_ok a r A B (bcv : nat -> nat -> F) st d bc_rows bc_cols dold : ranks !! a = Some r -> (forall i j, ~ coupled_any i j -> A i j = zero) -> okrank nr A B r st ->
    knows (fun i => C i = true) (part_of r st) bc_rows bc_cols -> make_dbc fc (owned_graph r) bc_rows bc_cols = Ok d -> Forall2 (fun s o => length o = length s) (db_sub d) dold ->
    exists st', apply_rank zero one add mul sub nr bcv r d dold st = Ok st' /\ okrank nr (Adir zero one C A) (Bdir zero add mul sub T C A B bcv) r st'.
  Proof using Rth W Hfc Hself.
    intros Ha Hz H (K1 & K2 & K3 & K4) Hd Hdold. cbn [part_of p_graph] in K3, K4. pose proof (part_valid a r A B st Ha H) as [P1 P2 P3 P4 P5]. cbn [part_of p_graph p_vals p_rhs] in *. set (n := numOwned (dm_own (ar_map r))) in *. set (g := owned_graph r) in *.
    assert (Hn : length (g_inds g) = length (g_row g)) by (rewrite P4; by eapply Forall2_length). assert (Hgn : length (g_row g) = n). { cbn [g owned_graph g_row]. fold n. unfold n. rewrite take_row, seq_length. done. }
    assert (Hinds : forall q, indsr g q = [] \/ exists inds, g_inds g !! q = Some inds /\ indsr g q = inds). { intros q. unfold indsr. destruct (g_inds g !! q) as [inds|]; [right; by exists inds|by left]. }
    assert (Hin : forall q l, l ∈ indsr g q -> l < length (g_col g)). { intros q l Hl. destruct (Hinds q) as [E|(inds & E & E')]; [rewrite E in Hl; by apply elem_of_nil in Hl|]. rewrite E' in Hl. destruct (Forall2_lookup_l _ _ _ _ _ P3 E) as (vs & _ & _ & HF & _). by apply (proj1 (Forall_forall _ _) HF). }
    assert (Hnd : forall q, NoDup (csr g q)). { intros q. unfold csr. destruct (Hinds q) as [E|(inds & E & E')]; [rewrite E; constructor|]. rewrite E'. destruct (Forall2_lookup_l _ _ _ _ _ P3 E) as (vs & _ & Nd & HF & _). eapply cols_nodup; [exact P2|exact Nd|]. apply Forall2_fmap_r. apply Forall2_same_length_lookup. split; [done|]. intros k x y Hx Hy. assert (x = y) as <- by congruence. destruct (lookup_lt_is_Some_2 (g_col g) x) as [j Hj]; [apply (proj1 (Forall_lookup _ _) HF k x Hx)|]. change (g_col g !! x = Some (default 0 (g_col g !! x))). by rewrite Hj. }
    rewrite (make_ok fc Hfc g bc_rows bc_cols Hn Hin) in Hd. injection Hd as <-.
    unfold apply_rank. cbv zeta. fold n g. unfold apply_dbc. rewrite Nat.eqb_refl. cbn [throwing_assert]. rewrite bind_ok.
    set (body := fun q => v ← rd (take n (l_vals st)) q; _).
    assert (Hrow : forall l, l < n -> exists inds vals', sg_rows (ar_sp r) !! l = Some inds /\ body l = Ok (vals', map (Bdir zero add mul sub T C A B bcv (so_begin (dm_own (ar_map r)) + l)) (seq 0 nr)) /\ length vals' = length inds /\
      forall p c j, inds !! p = Some c -> col_map r !! c = Some j -> vals' !! p = Some (Adir zero one C A (so_begin (dm_own (ar_map r)) + l) j)).
    { intros l Hl. destruct (H l Hl) as [(inds & vals & Hi & Hv & Lv & HA) Hb]. exists inds. set (i := so_begin (dm_own (ar_map r)) + l) in *. assert (Hgi : g_inds g !! l = Some inds) by (apply lookup_take_iff; done). assert (Ei : indsr g l = inds) by (unfold indsr; by rewrite Hgi).
      assert (Hrow : g_row g !! l = Some i). { apply lookup_take_iff. split; [done|]. by apply all_ids_owned. } assert (Er : rowi g l = i) by (unfold rowi; by rewrite Hrow). assert (Hrin : i ∈ g_row g) by (by eapply elem_of_list_lookup_2).
      assert (Hcs : forall p c j, inds !! p = Some c -> col_map r !! c = Some j -> csr g l !! p = Some j). { intros p c j Hp Hc. unfold csr. rewrite Ei. change (map ?f inds) with (f <$> inds). rewrite list_lookup_fmap, Hp. cbn [fmap option_fmap option_map]. change (g_col g) with (col_map r). by rewrite Hc. }
      assert (Hcs' : forall p j, csr g l !! p = Some j -> exists c, inds !! p = Some c /\ col_map r !! c = Some j). { intros p j Hp. unfold csr in Hp. rewrite Ei in Hp. change (map ?f inds) with (f <$> inds) in Hp. rewrite list_lookup_fmap in Hp. destruct (inds !! p) as [c|] eqn:Ec; [|done]. exists c. split; [done|]. cbn in Hp. destruct (lookup_lt_is_Some_2 (col_map r) c) as [j' Hj']; [apply (Hin l); rewrite Ei; by eapply elem_of_list_lookup_2|]. change (g_col g) with (col_map r) in Hp. rewrite Hj' in Hp. cbn in Hp. congruence. }
      assert (Hmem : forall j, j ∈ csr g l <-> coupled_any i j). { intros j. unfold i. rewrite (row_cols_iff a r l inds j Ha Hl Hi). split; [intros Hj; apply elem_of_list_lookup in Hj as [p Hp]; destruct (Hcs' p j Hp) as (c & Hc & Ec); exists c; split; [by eapply elem_of_list_lookup_2|done]|]. intros (c & Hc & Ec). apply elem_of_list_lookup in Hc as [p Hp]. eapply elem_of_list_lookup_2. by eapply Hcs. }
      assert (Hisr : isr bc_rows i = C i). { unfold isr. apply eq_true_iff_eq. rewrite binary_search_spec by done. by apply K3. }
      assert (Hisc : forall j, j ∈ csr g l -> isc bc_cols j = C j). { intros j Hj. unfold isc. apply eq_true_iff_eq. rewrite binary_search_spec by done. apply K4. apply elem_of_list_lookup in Hj as [p Hp]. destruct (Hcs' p j Hp) as (c & _ & Hc). by eapply elem_of_list_lookup_2. }
      destruct (apply_row_ok zero one add mul sub opp Rth fc Hfc g bc_rows bc_cols Hn Hin Hnd bcv dold Hdold l vals (map (B i) (seq 0 nr))) as (vals' & b' & E & L1 & L2 & Hx); [by rewrite Hgn|by rewrite Ei|rewrite Er, Hisr; intros HC'; apply Hmem, Hself; [done|]; apply (local_lt _ _ _ _ _ W a r i Ha); left; unfold dof_owned, i, n, numOwned in *; lia|].
      exists vals'. split; [done|]. assert (Lc : length (csr g l) = length inds) by (unfold csr; by rewrite map_length, Ei). rewrite Er, Hisr in Hx.
      assert (Eb : b' = map (Bdir zero add mul sub T C A B bcv i) (seq 0 nr) /\ forall p c j, inds !! p = Some c -> col_map r !! c = Some j -> vals' !! p = Some (Adir zero one C A i j)).
      { unfold Adir, Bdir. destruct (C i) eqn:EC; destruct Hx as [X1 X2].
        - split.
          + rewrite X2. apply list_eq_same_length with nr; [by rewrite map_length, seq_length|by rewrite imap_length, map_length, seq_length|]. intros q x y Hq Hx Hy. rewrite list_lookup_imap in Hx. change (map ?f (seq 0 nr)) with (f <$> seq 0 nr) in Hx, Hy. rewrite list_lookup_fmap, lookup_seq_lt in Hx, Hy by done. cbn in Hx, Hy. rewrite Nat.add_0_l in Hy. congruence.
          + intros p c j Hp Hc. destruct (lookup_lt_is_Some_2 vals' p) as [v Hv']; [rewrite L1, Lv; by eapply lookup_lt_Some|]. rewrite Hv'. f_equal. rewrite (X1 j v); [|eapply elem_of_list_lookup_2; apply lookup_zip_with_Some; eexists _, _; split; [reflexivity|]; split; [by eapply Hcs|exact Hv']]. destruct (decide (j = i)) as [-> |Hne]; [by rewrite only_true|rewrite only_false by congruence; done].
        - split.
          + rewrite X2. apply list_eq_same_length with nr; [by rewrite map_length, seq_length|by rewrite imap_length, map_length, seq_length|]. intros q x y Hq Hx Hy. rewrite list_lookup_imap in Hx. change (map ?f (seq 0 nr)) with (f <$> seq 0 nr) in Hx, Hy. rewrite list_lookup_fmap, lookup_seq_lt in Hx, Hy by done. cbn [fmap option_fmap option_map] in Hx, Hy. rewrite Nat.add_0_l in Hx, Hy. injection Hx as <-. injection Hy as <-. f_equal.
            rewrite lin_Sig, (Sig_filter zero one add mul sub opp Rth). rewrite <- (Sig_sub (csr g l) T (fun j => only (C j = true) (mul (A i j) (bcv q j)))).
            * assert (Hzip : zip (csr g l) vals = map (fun j => (j, A i j)) (csr g l)). { apply list_eq_same_length with (length inds); [by rewrite map_length|rewrite zip_with_length; lia|]. intros k [x1 x2] y Hk Hx Hy. apply lookup_zip_with_Some in Hx as (? & ? & [= <- <-] & Hx1 & Hx2). change (map ?f (csr g l)) with (f <$> csr g l) in Hy. rewrite list_lookup_fmap, Hx1 in Hy. cbn in Hy. injection Hy as <-. destruct (Hcs' k x1 Hx1) as (c & Hc & Ec). rewrite (HA k c x1 Hc Ec) in Hx2. congruence. }
              rewrite Hzip, Sig_map. apply Sig_ext. intros j Hj. cbn [fst snd]. by rewrite Hisc.
            * apply Hnd.
            * intros j Hj. apply Hmem in Hj. by apply (coupled_lt i j).
            * intros j Hj. rewrite Hz by (by rewrite <- Hmem). destruct (decide (C j = true)); [rewrite only_true by done; ring|by rewrite only_false].
          + intros p c j Hp Hc. destruct (lookup_lt_is_Some_2 vals' p) as [v Hv']; [rewrite L1, Lv; by eapply lookup_lt_Some|]. rewrite Hv'. f_equal. assert (Hzp : zip (csr g l) vals' !! p = Some (j, v)) by (apply lookup_zip_with_Some; eexists _, _; split; [reflexivity|]; split; [by eapply Hcs|exact Hv']).
            rewrite X1 in Hzp. unfold blank in Hzp. change (map ?f (zip (csr g l) vals)) with (f <$> zip (csr g l) vals) in Hzp. rewrite list_lookup_fmap in Hzp. destruct (zip (csr g l) vals !! p) as [[j' v']|] eqn:Ez; [|done]. apply lookup_zip_with_Some in Ez as (? & ? & [= <- <-] & Hj' & Hv''). cbn in Hzp. assert (j' = j) as -> by (rewrite (Hcs p c j Hp Hc) in Hj'; congruence). rewrite (HA p c j Hp Hc) in Hv''. injection Hv'' as <-. injection Hzp as <-. rewrite Hisc by (eapply elem_of_list_lookup_2; exact Hj'). done. }
      destruct Eb as [Eb1 Eb2]. split; [|split; [lia|done]]. unfold body. rewrite (rd_ok (take n (l_vals st)) l vals), bind_ok by (apply lookup_take_iff; split; [exact Hl|exact Hv]). rewrite (rd_ok (take n (l_rhs st)) l (map (B i) (seq 0 nr))), bind_ok by (apply lookup_take_iff; split; [exact Hl|exact Hb]). by rewrite E, Eb1. }
    rewrite Hgn. destruct (map_res_ex body (seq 0 n)) as (rows & Erows & HF). { intros l Hl. apply elem_of_seq in Hl. destruct (Hrow l ltac:(lia)) as (inds & v & _ & E & _). eauto. }
    rewrite Erows, !bind_ok. eexists. split; [reflexivity|]. intros l Hl. fold n in Hl. destruct (Hrow l Hl) as (inds & v & Hi & E & L & HA). assert (Hsl : seq 0 n !! l = Some l) by (by apply lookup_seq_lt). destruct (Forall2_lookup_l _ _ _ _ _ HF Hsl) as (x & Hx & Ex). rewrite E in Ex. injection Ex as <-. cbn [l_vals l_rhs].
    assert (Lr : l < length rows) by (by eapply lookup_lt_Some). split.
    - exists inds, v. split; [done|]. split; [|done]. rewrite lookup_app_l by (by rewrite fmap_length). by rewrite list_lookup_fmap, Hx.
    - rewrite lookup_app_l by (by rewrite fmap_length). by rewrite list_lookup_fmap, Hx.
  Qed.
End system.
