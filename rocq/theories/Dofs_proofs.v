From Verif Require Import Base StdAlgo Ownership_model Ownership_spec Ownership_proofs Elem_model Elem_spec Mesh_model Mesh_spec Mesh_proofs Helpers_model Partition_model Partition_spec Partition1_proofs Redist_spec Dofs_model Dofs_spec.
Local Arguments Nat.mul : simpl never.
Local Arguments Nat.add : simpl never.
Local Arguments Nat.sub : simpl never.

(** ** Counting *)
Lemma count_app l k : count_true (l ++ k) = count_true l + count_true k.
Proof. unfold count_true. by rewrite List.filter_app, app_length. Qed.
Lemma count_cons b l : count_true (b :: l) = (if b then 1 else 0) + count_true l.
Proof. unfold count_true. cbn. by destruct b. Qed.
Lemma count_take_S (l : list bool) i (b : bool) : l !! i = Some b -> count_true (take (S i) l) = count_true (take i l) + if b then 1 else 0.
Proof. intros H. rewrite (take_S_r _ _ _ H), count_app. f_equal. by destruct b. Qed.
Lemma count_take_mono l i j : i <= j -> count_true (take i l) <= count_true (take j l).
Proof. intros H. rewrite (Nat.le_add_sub i j H), <- take_take_drop, count_app. lia. Qed.
Lemma count_take_le l i : count_true (take i l) <= count_true l.
Proof. rewrite <- (take_drop i l) at 2. rewrite count_app. lia. Qed.
Lemma count_take_lt (l : list bool) i : l !! i = Some true -> count_true (take i l) < count_true l.
Proof. intros H. pose proof (count_take_S l i true H) as E. cbv iota in E. pose proof (count_take_le l (S i)). lia. Qed.
Lemma count_take_strict (l : list bool) i j : l !! i = Some true -> i < j -> count_true (take i l) < count_true (take j l).
Proof. intros H Hl. pose proof (count_take_S l i true H) as E. cbv iota in E. pose proof (count_take_mono l (S i) j). lia. Qed.
Lemma count_onto (l : list bool) k : k < count_true l -> exists i, l !! i = Some true /\ count_true (take i l) = k.
Proof.
  revert k. induction l as [|b l IH]; intros k Hk; [cbn in Hk; lia|]. rewrite count_cons in Hk. destruct b.
  - destruct k as [|k]; [by exists 0|]. destruct (IH k) as (i & Hi & E); [lia|]. exists (S i). split; [done|]. cbn [take]. rewrite count_cons. lia.
  - destruct (IH k) as (i & Hi & E); [lia|]. exists (S i). split; [done|]. cbn [take]. rewrite count_cons. lia.
Qed.
Lemma number_row_ok (info : list (option nat)) (row : list bool) (base : nat) : length info = length row ->
  let l := zip_with (fun p x => is_invalid p && x) info row in
  length (number_row info row base).1 = length row /\ (number_row info row base).2 = base + count_true l /\
  forall j (x : bool), l !! j = Some x -> (number_row info row base).1 !! j = Some (if x then Some (base + count_true (take j l)) else None).
Proof.
  revert row base. induction info as [|p info IH]; intros [|x row] base Hl; try done; cbv zeta.
  cbn in Hl. injection Hl as Hl. cbn [number_row zip_with]. cbv zeta. destruct (is_invalid p && x) eqn:E.
  - destruct (IH row (S base) Hl) as (H1 & H2 & H3). cbn [fst snd]. split; [cbn; by rewrite H1|]. split; [rewrite H2, count_cons; lia|].
      intros [|j] y; cbn; [intros [= <-]; f_equal; f_equal; unfold count_true; cbn; lia|]. intros Hj. etransitivity; [exact (H3 j y Hj)|]. destruct y; [|done]. f_equal. f_equal. unfold count_true. cbn. lia.
  - destruct (IH row base Hl) as (H1 & H2 & H3). cbn [fst snd]. split; [cbn; by rewrite H1|]. split; [rewrite H2, count_cons; lia|].
      intros [|j] y; cbn; [by intros [= <-]|]. intros Hj. etransitivity; [exact (H3 j y Hj)|]. by destruct y.
Qed.
(** Rows of length [D], one after another. *)
Lemma concat_rows {A} D (rows : list (list A)) n row j : Forall (fun r => length r = D) rows -> rows !! n = Some row -> j <= D ->
  concat rows !! (n * D + j) = (if decide (j < D) then row !! j else concat (drop (S n) rows) !! 0) /\ take (n * D + j) (concat rows) = concat (take n rows) ++ take j row.
Proof.
  revert n. induction rows as [|r rows IH]; intros n Hf Hn Hj; [done|]. inversion Hf as [|? ? Hr Hf']; subst. destruct n as [|n].
  - injection Hn as ->. cbn [concat take drop]. rewrite Nat.mul_0_l, Nat.add_0_l, app_nil_l. split.
    + case_decide as Hd; [by rewrite lookup_app_l|]. assert (j = length row) as -> by lia. rewrite lookup_app_r by lia. by rewrite Nat.sub_diag.
    + rewrite take_app_le by done. done.
  - cbn in Hn. destruct (IH n Hf' Hn Hj) as [H1 H2]. replace (S n * length r + j) with (length r + (n * length r + j)) by lia. cbn [concat take drop]. split.
    + rewrite lookup_app_r by lia. by replace (length r + (n * length r + j) - length r) with (n * length r + j) by lia.
    + rewrite take_app_ge by lia. replace (length r + (n * length r + j) - length r) with (n * length r + j) by lia. by rewrite H2, app_assoc.
Qed.
Lemma rows_at {A} D (rows : list (list A)) i x : Forall (fun r => length r = D) rows -> concat rows !! i = Some x ->
  exists n j row, rows !! n = Some row /\ row !! j = Some x /\ j < D /\ i = n * D + j.
Proof.
  revert i. induction rows as [|r rows IH]; intros i Hf Hi; [done|]. inversion Hf as [|? ? Hr Hf']; subst. cbn in Hi. apply lookup_app_Some in Hi as [Hi|[Hi1 Hi2]].
  - exists 0, i, r. split; [done|]. split; [done|]. apply lookup_lt_Some in Hi. lia.
  - destruct (IH _ Hf' Hi2) as (n & j & row & H1 & H2 & H3 & H4). exists (S n), j, row. split; [done|]. split; [done|]. split; [done|]. lia.
Qed.

Section rank.
  Context {V : Type} (D : nat) (ranks : list (mesh V * pbc)) (pdef : list (list nat * list bool)) (N : nat) (HN : numberable D ranks pdef N).
  Notation rk := (mesh V * pbc)%type.
  Definition nso (x : rk) : ownership :=
    let b := if numOwned (m_own x.1) =? 0 then 0 else so_begin (m_own x.1) in
    {| so_begin := b; so_end := b + numOwned (m_own x.1); so_shared := sort (so_shared (m_own x.1) ++ pb_ghosts x.2) |}.
  Definition loc (x : rk) (n : nat) : Prop := owned x.1 n \/ n ∈ so_shared (m_own x.1) \/ n ∈ pb_ghosts x.2.
  Notation lid x n := (getLocalIndex (nso x) n).
  Lemma in_fst (x : rk) : x ∈ ranks -> x.1 ∈ ranks.*1.
  Proof. intros H. apply elem_of_list_fmap. by exists x. Qed.
  Lemma nso_num x : numOwned (nso x) = numOwned (m_own x.1).
  Proof. unfold numOwned at 1, nso. cbn. lia. Qed.
  Lemma nso_owned x n : so_begin (nso x) <= n < so_end (nso x) <-> owned x.1 n.
  Proof. unfold nso, owned. cbn. unfold numOwned. destruct (so_end (m_own x.1) - so_begin (m_own x.1) =? 0) eqn:E; [apply Nat.eqb_eq in E|apply Nat.eqb_neq in E]; lia. Qed.
  Lemma nso_isOwned x n : isOwned (nso x) n = true <-> owned x.1 n.
  Proof. rewrite isOwned_spec. apply nso_owned. Qed.
  Lemma nso_shared x n : n ∈ so_shared (nso x) <-> n ∈ so_shared (m_own x.1) \/ n ∈ pb_ghosts x.2.
  Proof. unfold nso. cbn. by rewrite sort_elem, elem_of_app. Qed.
  Lemma not_owned x n : x ∈ ranks -> n ∈ so_shared (nso x) -> n < N /\ ~ owned x.1 n.
  Proof.
    intros Hx Hn. apply nso_shared in Hn as [Hn|Hn].
    - by apply (di_shared _ _ (nb_dist _ _ _ _ HN) x.1 (in_fst x Hx)).
    - destruct x as [m b]. destruct (nb_ghosts _ _ _ _ HN m b Hx) as [_ H]. apply H in Hn. tauto.
  Qed.
  Lemma nso_nodup x : x ∈ ranks -> NoDup (so_shared (m_own x.1) ++ pb_ghosts x.2).
  Proof.
    intros Hx. destruct (di_shared _ _ (nb_dist _ _ _ _ HN) x.1 (in_fst x Hx)) as [Hs _]. destruct x as [m b]. destruct (nb_ghosts _ _ _ _ HN m b Hx) as [Hg H].
    apply NoDup_app. split; [by apply strict_nodup|]. split; [|by apply strict_nodup]. intros n Hn Hn'. apply H in Hn'. by apply Hn'.
  Qed.
  Lemma nso_sorted x : Sorted Nat.le (so_shared (nso x)).
  Proof. apply sort_sorted. Qed.
  Lemma nso_ok x : x ∈ ranks -> makeNodeOwnership (m_own x.1) x.2 = Ok (nso x).
  Proof.
    intros Hx. unfold makeNodeOwnership. rewrite make_ownership_ok; [done|]. intros k Hk. pose proof (not_owned x k Hx) as H. rewrite nso_shared in H. apply elem_of_app in Hk. apply H in Hk as [_ Hk].
    rewrite <- nso_owned in Hk. exact Hk.
  Qed.
  Lemma lid_owned x n : owned x.1 n -> lid x n = n - so_begin (nso x) /\ lid x n < numOwned (nso x) /\ so_begin (nso x) + lid x n = n.
  Proof. intros Ho. unfold getLocalIndex. rewrite (proj2 (nso_isOwned x n) Ho). apply nso_owned in Ho. unfold numOwned. lia. Qed.
  Lemma lid_shared x n : x ∈ ranks -> n ∈ so_shared (nso x) -> numOwned (nso x) <= lid x n < localSize (nso x) /\ so_shared (nso x) !! (lid x n - numOwned (nso x)) = Some n.
  Proof.
    intros Hx Hn. unfold getLocalIndex. destruct (isOwned (nso x) n) eqn:E. { apply nso_isOwned in E. by apply not_owned in Hn as [_ Hn]. }
    pose proof (lower_bound_found _ _ (nso_sorted x) Hn) as H. replace (numOwned (nso x) + lower_bound (so_shared (nso x)) n - numOwned (nso x)) with (lower_bound (so_shared (nso x)) n) by lia.
    split; [|done]. apply lookup_lt_Some in H. unfold localSize. lia.
  Qed.
  Lemma loc_cases x n : loc x n <-> owned x.1 n \/ n ∈ so_shared (nso x).
  Proof. unfold loc. by rewrite nso_shared. Qed.
  Lemma lid_lt x n : x ∈ ranks -> loc x n -> lid x n < localSize (nso x).
  Proof. intros Hx [H|H]%loc_cases; [apply lid_owned in H; unfold localSize; lia|by apply lid_shared]. Qed.
  Lemma lid_inj x n n' : x ∈ ranks -> loc x n -> loc x n' -> lid x n = lid x n' -> n = n'.
  Proof.
    intros Hx [H|H]%loc_cases [H'|H']%loc_cases E.
    - apply lid_owned in H, H'. lia.
    - apply lid_owned in H. apply lid_shared in H'; [lia|done].
    - apply lid_owned in H'. apply lid_shared in H; [lia|done].
    - apply lid_shared in H as [_ H]; [|done]. apply lid_shared in H' as [_ H']; [|done]. congruence.
  Qed.
  Lemma lid_onto x l : x ∈ ranks -> l < localSize (nso x) -> exists n, loc x n /\ lid x n = l.
  Proof.
    intros Hx Hl. destruct (decide (l < numOwned (nso x))) as [Ho|Ho].
    - exists (so_begin (nso x) + l). assert (H : owned x.1 (so_begin (nso x) + l)) by (apply nso_owned; unfold numOwned in Ho; lia). split; [by left|]. apply lid_owned in H. lia.
    - destruct (lookup_lt_is_Some_2 (so_shared (nso x)) (l - numOwned (nso x))) as [n Hn]; [unfold localSize in Hl; lia|].
      assert (H : n ∈ so_shared (nso x)) by (by eapply elem_of_list_lookup_2). exists n. split; [apply loc_cases; by right|]. apply lid_shared in H as [H1 H2]; [|done].
      assert (Hnd : NoDup (so_shared (nso x))) by (by apply sort_nodup, nso_nodup). pose proof (NoDup_lookup _ _ _ _ Hnd Hn H2). lia.
  Qed.

  (** The view of rank [x] has, in the row of each local node [n] of [dm], the
      entry [j] satisfying [P n j]. *)
  Definition isview {A} (x : rk) (dm : nat -> Prop) (v : list (list A)) (P : nat -> nat -> A -> Prop) : Prop :=
    length v = localSize (nso x) /\ Forall (fun r => length r = D) v /\
    forall n, loc x n -> dm n -> exists row, v !! lid x n = Some row /\ forall j, j < D -> exists a, row !! j = Some a /\ P n j a.
  Definition setview (x : rk) (v : list (list bool)) (P : nat -> nat -> Prop) : Prop := isview x (fun _ => True) v (fun n j b => b = true <-> P n j).
  Lemma setview_ext x v P Q : (forall n j, loc x n -> j < D -> P n j <-> Q n j) -> setview x v P -> setview x v Q.
  Proof.
    intros HE (H1 & H2 & H3). split; [done|]. split; [done|]. intros n Hn Ht. destruct (H3 n Hn Ht) as (row & Hr & Hj). exists row. split; [done|]. intros j Hjd. destruct (Hj j Hjd) as (a & Ha & HP). exists a.
    split; [done|]. by rewrite HP, HE.
  Qed.
  Lemma setview_fold {T} x (f : T -> list (list bool) -> res (list (list bool))) (Q : T -> nat -> nat -> Prop) (l : list T) v P :
    (forall a v P, a ∈ l -> setview x v P -> exists v', f a v = Ok v' /\ setview x v' (fun n j => P n j \/ Q a n j)) ->
    setview x v P -> exists v', for_each f l v = Ok v' /\ setview x v' (fun n j => P n j \/ exists a, a ∈ l /\ Q a n j).
  Proof.
    revert v P. induction l as [|a l IH]; intros v P Hf Hv.
    - exists v. split; [done|]. eapply setview_ext, Hv. intros n j _ _. split; [by left|]. intros [H|(a & Ha & _)]; [done|by apply elem_of_nil in Ha].
    - destruct (Hf a v P) as (v1 & E1 & H1); [left|done|]. cbn [for_each]. rewrite E1, bind_ok. destruct (IH v1 (fun n j => P n j \/ Q a n j)) as (v' & E & H); [|done|].
      { intros a' w R Ha'. apply Hf. by right. }
      exists v'. split; [done|]. eapply setview_ext, H. intros n j _ _. setoid_rewrite elem_of_cons. naive_solver.
  Qed.
  Lemma setview_wr x v P t j : x ∈ ranks -> loc x t -> j < D -> setview x v P ->
    exists v', (row ← rd v (lid x t); row' ← wr row j true; wr v (lid x t) row') = Ok v' /\ setview x v' (fun n j' => P n j' \/ n = t /\ j' = j).
  Proof.
    intros Hx Ht Hj (H1 & H2 & H3). destruct (H3 t Ht I) as (row & Hr & Hp). rewrite (rd_ok _ _ _ Hr), bind_ok. assert (Hlr : length row = D) by (rewrite Forall_lookup in H2; by eapply H2).
    rewrite wr_ok by lia. rewrite bind_ok, wr_ok by (rewrite H1; by apply lid_lt). eexists. split; [done|]. split; [by rewrite insert_length|]. split.
    - apply Forall_insert; [done|]. by rewrite insert_length.
    - intros n Hn _. destruct (decide (n = t)) as [-> |Hne].
      + rewrite list_lookup_insert by (rewrite H1; by apply lid_lt). eexists. split; [done|]. intros j' Hj'. destruct (decide (j' = j)) as [-> |Hne].
        * rewrite list_lookup_insert by lia. exists true. split; [done|]. naive_solver.
        * rewrite list_lookup_insert_ne by done. destruct (Hp j' Hj') as (a & Ha & HP). exists a. split; [done|]. rewrite HP. naive_solver.
      + rewrite list_lookup_insert_ne. 2:{ intros E. apply Hne. symmetry. by eapply lid_inj. } destruct (H3 n Hn I) as (row' & Hr' & Hp'). exists row'. split; [done|].
        intros j' Hj'. destruct (Hp' j' Hj') as (a & Ha & HP). exists a. split; [done|]. rewrite HP. naive_solver.
  Qed.

  (** *** The local marks *)
  Lemma lookup_ok m b n : (m, b) ∈ ranks -> length (pb_lookup D b n) = D /\
    forall j p, pb_lookup D b n !! j = Some p -> forall a, p = Some a <-> passive b n j a.
  Proof.
    intros Hx. destruct (nb_keys _ _ _ _ HN m b Hx) as [Hnd Hk]. unfold pb_lookup.
    assert (Hf : forall row, hm_find n (pb_info b) = Some row -> (n, row) ∈ pb_info b).
    { generalize (pb_info b). clear. intros l row. induction l as [|[k r] l IH]; [done|]. cbn. case_decide; [|right; auto]. intros [= ->]. subst. left. }
    assert (Hg : forall row, (n, row) ∈ pb_info b -> hm_find n (pb_info b) = Some row).
    { clear -Hnd. generalize dependent (pb_info b). intros l Hnd row. induction l as [|[k r] l IH]; [by rewrite elem_of_nil|]. rewrite elem_of_cons. cbn in Hnd. apply NoDup_cons in Hnd as [Hn Hnd]. cbn. intros [[= -> ->]|H].
      - by rewrite decide_True.
      - case_decide as E; [|auto]. subst. destruct Hn. apply elem_of_list_fmap. by exists (k, row). }
    destruct (hm_find n (pb_info b)) as [row|] eqn:E.
    - specialize (Hf row eq_refl). destruct (Hk n row Hf) as [_ Hl]. split; [done|]. intros j p Hp a. split.
      + intros ->. by exists row.
      + intros (row' & Hin & Hr). apply Hg in Hin. congruence.
    - split; [apply replicate_length|]. intros j p Hp a. apply lookup_replicate in Hp as [-> _]. split; [done|]. intros (row & Hin & _). apply Hg in Hin. congruence.
  Qed.
  Definition tgt (b : pbc) (n j t : nat) : Prop := passive b n j t \/ (forall a, ~ passive b n j a) /\ t = n.
  Lemma mark_node_ok x act n v P : x ∈ ranks -> (forall j, j ∈ act -> j < D) -> loc x n -> setview x v P ->
    exists v', mark_node D (nso x) x.2 act n v = Ok v' /\ setview x v' (fun t j => P t j \/ j ∈ act /\ tgt x.2 n j t).
  Proof.
    intros Hx Ha Hn Hv. unfold mark_node. destruct x as [m b]. destruct (lookup_ok m b n Hx) as [Hl Hp]. cbn [snd].
    destruct (setview_fold (m, b) (fun j bmp => p ← rd (pb_lookup D b n) j; let l := match p with None => lid (m, b) n | Some a => lid (m, b) a end in
       row ← rd bmp l; row' ← wr row j true; wr bmp l row') (fun j t j' => j' = j /\ tgt b n j t) act v P) as (v' & E & H); [|done|].
    - intros j w Q Hj Hw. specialize (Ha j Hj). destruct (lookup_lt_is_Some_2 (pb_lookup D b n) j) as [p Hpj]; [lia|]. rewrite (rd_ok _ _ _ Hpj), bind_ok. cbv zeta.
      destruct p as [a|].
      + assert (Hpa : passive b n j a) by (by apply (Hp j (Some a) Hpj a)). destruct (nb_target _ _ _ _ HN m b n j a Hx Hpa) as [Hloc _].
        destruct (setview_wr (m, b) w Q a j Hx Hloc Ha Hw) as (v' & E & H). exists v'. split; [done|]. eapply setview_ext, H. intros t j' _ _. unfold tgt. split.
        * intros [HQ|[-> ->]]; [by left|]. right. split; [done|]. by left.
        * intros [HQ|[-> [Ht|[Ht _]]]]; [by left| |by apply Ht in Hpa]. right. split; [|done]. apply (Hp j (Some a) Hpj t) in Ht. congruence.
      + destruct (setview_wr (m, b) w Q n j Hx Hn Ha Hw) as (v' & E & H). exists v'. split; [done|]. eapply setview_ext, H. intros t j' _ _. unfold tgt. split.
        * intros [HQ|[-> ->]]; [by left|]. right. split; [done|]. right. split; [|done]. intros a Hpa. by apply (Hp j None Hpj a) in Hpa.
        * intros [HQ|[-> [Ht|[_ ->]]]]; [by left| |by right]. by apply (Hp j None Hpj t) in Ht.
    - exists v'. split; [exact E|]. eapply setview_ext, H. intros t j _ _. naive_solver.
  Qed.
  Lemma true_inds_elem bits j : j ∈ true_inds bits <-> bits !! j = Some true.
  Proof.
    unfold true_inds. rewrite elem_of_list_In, filter_In, <- elem_of_list_In, elem_of_seq. destruct (bits !! j) as [[]|] eqn:E; split; try naive_solver.
    intros _. apply lookup_lt_Some in E. split; [lia|done].
  Qed.
  Lemma primary_ok cond (e : element V) : typed_el e -> exists ns, primary_nodes cond e = Ok ns /\ forall n, n ∈ ns <-> primary cond e n.
  Proof. intros Ht. destruct cond; [by apply boundary_nodes_ok|]. by exists (el_nodes e). Qed.
  Lemma primary_in cond (e : element V) n : primary cond e n -> n ∈ el_nodes e.
  Proof. destruct cond; [|done]. intros (i & s & Hi & _). by eapply elem_of_list_lookup_2. Qed.
  Definition Mark (cond : bool) (x : rk) (t j : nat) : Prop := exists n, active_in cond pdef x.1 n j /\ tgt x.2 n j t.
  Lemma elem_loc x e n : x ∈ ranks -> is_elem (m_domains x.1) e -> n ∈ el_nodes e -> loc x n.
  Proof. intros Hx He Hn. destruct (di_nodes _ _ (nb_dist _ _ _ _ HN) x.1 n (in_fst x Hx)) as [H|H]; [by exists e|by left|right; by left]. Qed.
  Lemma local_bmp_ok sched cond x : (forall l, sched l ≡ₚ l) -> x ∈ ranks ->
    exists v, makeLocalDofBmp D sched cond x.1 pdef (nso x) x.2 = Ok v /\ setview x v (Mark cond x).
  Proof.
    intros Hs Hx. unfold makeLocalDofBmp.
    assert (H0 : setview x (replicate (localSize (nso x)) (replicate D false)) (fun _ _ => False)).
    { split; [apply replicate_length|]. split; [apply Forall_forall; intros r Hr; apply elem_of_replicate in Hr as [-> _]; apply replicate_length|].
      intros n Hn _. exists (replicate D false). split; [apply lookup_replicate; split; [done|by apply lid_lt]|]. intros j Hj. exists false. split; [by apply lookup_replicate|]. done. }
    destruct (setview_fold x (fun d bmp => let act := true_inds d.2 in
      for_each (fun e bmp => ns ← primary_nodes cond e; for_each (mark_node D (nso x) x.2 act) ns bmp) (sched (visit_elems (m_domains x.1) d.1)) bmp)
      (fun d t j => d.2 !! j = Some true /\ exists id e n, id ∈ d.1 /\ in_domain (m_domains x.1) id e /\ primary cond e n /\ tgt x.2 n j t) pdef (replicate (localSize (nso x)) (replicate D false)) (fun _ _ => False)) as (v & E & H); [|exact H0|].
    - intros [ids bits] v P Hd Hv. cbv zeta. cbn [fst snd]. pose proof (nb_bits _ _ _ _ HN ids bits Hd) as Hbl.
      destruct (setview_fold x (fun e bmp => ns ← primary_nodes cond e; for_each (mark_node D (nso x) x.2 (true_inds bits)) ns bmp)
        (fun e t j => exists n, primary cond e n /\ j ∈ true_inds bits /\ tgt x.2 n j t) (sched (visit_elems (m_domains x.1) ids)) v P) as (v' & E & H); [|done|].
      + intros e w Q He Hw. rewrite Hs, visit_elem in He by (by apply (di_keys _ _ (nb_dist _ _ _ _ HN)), in_fst). destruct He as (id & Hid & He).
        assert (Hie : is_elem (m_domains x.1) e) by (by exists id). destruct (primary_ok cond e) as (ns & -> & Hns); [destruct x as [m b]; by apply (nb_typed _ _ _ _ HN m b e Hx)|]. rewrite bind_ok.
        destruct (setview_fold x (mark_node D (nso x) x.2 (true_inds bits)) (fun n t j => j ∈ true_inds bits /\ tgt x.2 n j t) ns w Q) as (v' & E & H); [|done|].
        * intros n w' R Hn Hw'. apply mark_node_ok; [done| | |done].
          -- intros j Hj. apply true_inds_elem, lookup_lt_Some in Hj. lia.
          -- apply (elem_loc x e n Hx Hie). by apply (primary_in cond), Hns.
        * exists v'. split; [done|]. eapply setview_ext, H. intros t j _ _. naive_solver.
      + exists v'. split; [done|]. eapply setview_ext, H. intros t j _ _. setoid_rewrite true_inds_elem. setoid_rewrite Hs. setoid_rewrite visit_elem; [naive_solver|]. by apply (di_keys _ _ (nb_dist _ _ _ _ HN)), in_fst.
    - exists v. split; [exact E|]. eapply setview_ext, H. intros t j _ _. unfold Mark, active_in. split.
      + intros [[]|([ids bits] & Hd & Hb & id & e & n & H1 & H2 & H3 & H4)]. exists n. split; [|done]. by exists ids, bits, id, e.
      + intros (n & (ids & bits & id & e & H1 & H2 & H3 & H4 & H5) & H6). right. exists (ids, bits). split; [done|]. split; [done|]. by exists id, e, n.
  Qed.
End rank.
