(** C54: proofs. *)
From Coq Require Import Ring_theory Ring.
From Verif Require Import Base StdAlgo Dirichlet_model Dirichlet_spec Merge_proofs.
Local Arguments Nat.add : simpl never.

Lemma index_of_some x l k : index_of x l = Some k -> l !! k = Some x.
Proof. unfold index_of. intros H. apply fmap_Some in H as ([j y] & H & ->). by apply list_find_Some in H as (H & <- & _). Qed.
Lemma index_of_elem x l : x ∈ l -> exists k, index_of x l = Some k.
Proof. intros H. destruct (list_find_elem_of (eq x) l x H eq_refl) as [[k y] Hk]. exists k. unfold index_of. by rewrite Hk. Qed.
Lemma index_of_nodup x l k : NoDup l -> l !! k = Some x -> index_of x l = Some k.
Proof.
  intros Hnd Hk. destruct (index_of_elem x l) as [j Hj]; [by eapply elem_of_list_lookup_2|]. rewrite Hj. f_equal. apply index_of_some in Hj. by eapply NoDup_lookup.
Qed.
Lemma index_of_none x l : x ∉ l -> index_of x l = None.
Proof. intros H. destruct (index_of x l) as [k|] eqn:E; [|done]. apply index_of_some in E. exfalso. apply H. by eapply elem_of_list_lookup_2. Qed.
Lemma map_res_map {A B} (f : A -> res B) (g : A -> B) l : (forall a, a ∈ l -> f a = Ok (g a)) -> map_res f l = Ok (map g l).
Proof. induction l as [|a l IH]; intros H; [done|]. cbn. rewrite (H a) by left. cbn. rewrite IH; [done|]. intros b Hb. apply H. by right. Qed.

Section rows.
  Context {F : Type}.
  Lemma replace_length inds (vals : list F) cols news : length (replace_values inds vals cols news) = length vals.
  Proof.
    unfold replace_values. revert vals. induction (zip cols news) as [|p l IH]; intros vals; [done|]. cbn [foldl]. rewrite IH. destruct (index_of p.1 inds); [by rewrite insert_length|done].
  Qed.
  Lemma replace_lookup inds (vals : list F) cols news k c : NoDup inds -> length vals = length inds -> NoDup cols -> length news = length cols -> inds !! k = Some c ->
    replace_values inds vals cols news !! k = match index_of c cols with Some j => news !! j | None => vals !! k end.
  Proof.
    intros Hnd Hl. revert vals news Hl. induction cols as [|c0 cols IH]; intros vals news Hl Hc Hn Hk; [by destruct news|].
    destruct news as [|n0 news]; [done|]. apply NoDup_cons in Hc as [Hc0 Hc]. unfold replace_values. cbn [zip zip_with foldl fst snd].
    assert (Hsk : k < length inds) by (by eapply lookup_lt_Some). change (foldl _ ?v _) with (replace_values inds v cols news).
    rewrite IH; [|destruct (index_of c0 inds); rewrite ?insert_length; done|done|by injection Hn|done]. destruct (decide (c = c0)) as [-> |Hne].
    - rewrite (index_of_none c0 cols) by done. rewrite (index_of_nodup c0 inds k) by done. rewrite list_lookup_insert by lia. unfold index_of. cbn [list_find]. by rewrite decide_True.
    - assert (E : index_of c (c0 :: cols) = S <$> index_of c cols). { unfold index_of. cbn [list_find]. rewrite decide_False by done. by destruct (list_find (eq c) cols) as [[? ?]|]. }
      rewrite E. destruct (index_of c cols) as [j|]; cbn; [done|]. destruct (index_of c0 inds) as [k0|] eqn:E0; [|done]. apply index_of_some in E0. apply list_lookup_insert_ne. congruence.
  Qed.
End rows.

Section ring.
  Context {F : Type} (zero one : F) (add mul sub : F -> F -> F) (opp : F -> F) (Rth : ring_theory zero one add mul sub opp eq).
  Add Ring Fring : Rth.
  Notation lin := (lin zero add mul).
  Lemma lin_perm x cv cv' : cv ≡ₚ cv' -> lin cv x = lin cv' x.
  Proof using Rth.
    induction 1 as [|[c v] l l' _ IH|[c v] [c' v'] l|l1 l2 l3 _ IH1 _ IH2]; cbn; [done|by rewrite IH|ring|congruence].
  Qed.
  Lemma dot_lin x cs vs : dot zero add mul x cs vs = lin (zip cs vs) x.
  Proof using Type. unfold dot. induction (zip cs vs) as [|[c v] l IH]; [done|]. cbn. by rewrite IH. Qed.
  (** Splitting off the constrained columns. *)
  Definition blank (isc : nat -> bool) (cv : list (nat * F)) : list (nat * F) := map (fun p => (p.1, if isc p.1 then zero else p.2)) cv.
  Lemma lin_split isc cv x : lin cv x = add (lin (blank isc cv) x) (lin (List.filter (fun p => isc p.1) cv) x).
  Proof using Rth.
    induction cv as [|[c v] l IH]; [cbn; ring|]. cbn [blank map lin List.filter fst snd]. fold (blank isc l). rewrite IH. destruct (isc c); cbn [Dirichlet_spec.lin]; ring.
  Qed.
  Lemma lin_ext cv x y : (forall c, c ∈ cv.*1 -> x c = y c) -> lin cv x = lin cv y.
  Proof using Type. induction cv as [|[c v] l IH]; intros H; [done|]. cbn. rewrite (H c) by left. rewrite IH; [done|]. intros c' Hc. apply H. by right. Qed.
  Lemma lin_unit i cv x : NoDup cv.*1 -> i ∈ cv.*1 -> (forall c v, (c, v) ∈ cv -> v = if decide (c = i) then one else zero) -> lin cv x = x i.
  Proof using Rth.
    induction cv as [|[c v] l IH]; [intros _ H; by apply elem_of_nil in H|]. cbn. intros Hnd Hi Hv. apply NoDup_cons in Hnd as [Hn Hnd].
    rewrite (Hv c v) by left. assert (Hv' : forall c v, (c, v) ∈ l -> v = if decide (c = i) then one else zero) by (intros; apply Hv; by right).
    apply elem_of_cons in Hi as [-> |Hi].
    - rewrite decide_True by done. assert (E : lin l x = zero); [|rewrite E; ring]. clear IH Hnd Hv. induction l as [|[c' v'] l IH]; [done|]. cbn.
      rewrite (Hv' c' v') by left. rewrite decide_False by (intros ->; apply Hn; left). rewrite IH; [ring| |intros; apply Hv'; by right]. intros H. apply Hn. by right.
    - rewrite decide_False by (intros ->; done). rewrite IH by done. ring.
  Qed.

  Section part.
    Context (fc : list nat -> list nat) (Hfc : forall l, fc l ≡ₚ l).
    Context (g : graph) (bc_rows bc_cols : list nat).
    Definition rowi r := default 0 (g_row g !! r).
    Definition indsr r := default [] (g_inds g !! r).
    Definition csr r := map (fun l => default 0 (g_col g !! l)) (indsr r).
    Definition isr := binary_search bc_rows.
    Definition isc := binary_search bc_cols.
    Definition subr r := if isr (rowi r) then [] else fc (List.filter isc (csr r)).
    Definition blk r := omap (fun c => index_of c (csr r)) (subr r).
    Notation n := (length (g_row g)).
    Context (Hn : length (g_inds g) = n) (Hin : forall r l, l ∈ indsr r -> l < length (g_col g)) (Hnd : forall r, NoDup (csr r)).
    Lemma rowi_ok r : r < n -> rd (g_row g) r = Ok (rowi r).
    Proof using Type. intros H. unfold rowi. destruct (lookup_lt_is_Some_2 _ _ H) as [a Ha]. rewrite Ha. by apply rd_ok. Qed.
    Lemma indsr_ok r : r < n -> rd (g_inds g) r = Ok (indsr r).
    Proof using Hn. intros H. rewrite <- Hn in H. unfold indsr. destruct (lookup_lt_is_Some_2 _ _ H) as [a Ha]. rewrite Ha. by apply rd_ok. Qed.
    Lemma csr_ok r : r < n -> row_cols g r = Ok (csr r).
    Proof using Hn Hin.
      intros H. unfold row_cols. rewrite indsr_ok, bind_ok by done. apply map_res_map. intros l Hl. destruct (lookup_lt_is_Some_2 _ _ (Hin r l Hl)) as [a Ha]. rewrite Ha. by apply rd_ok.
    Qed.
    Lemma sub_in r c : c ∈ subr r -> c ∈ csr r /\ isc c = true.
    Proof using Hfc. unfold subr. destruct (isr (rowi r)); [intros H; by apply elem_of_nil in H|]. rewrite Hfc. apply filter_elem. Qed.
    Lemma blk_some r : map Some (blk r) = map (fun c => index_of c (csr r)) (subr r).
    Proof using Hfc.
      unfold blk. assert (H : forall c, c ∈ subr r -> c ∈ csr r) by (intros c Hc; exact (proj1 (sub_in r c Hc))). revert H. induction (subr r) as [|c l IH]; intros H; [done|].
      destruct (index_of_elem c (csr r)) as [k Hk]; [apply H; left|]. cbn. rewrite Hk. cbn. f_equal. apply IH. intros c' Hc. apply H. by right.
    Qed.
    Lemma blk_length r : length (blk r) = length (subr r).
    Proof using Hfc. rewrite <- (map_length Some (blk r)), blk_some. apply map_length. Qed.
    Definition pre (q : nat) : list nat := concat (map blk (seq 0 q)).
    Lemma pre_S q : pre (S q) = pre q ++ blk q.
    Proof using Hn. unfold pre. rewrite seq_S, map_app, concat_app. cbn. by rewrite app_nil_r. Qed.
    Lemma pre_take q m : q <= m -> exists t, pre m = pre q ++ t.
    Proof using Hn. intros H. unfold pre. replace m with (q + (m - q)) by lia. rewrite seq_app, map_app, concat_app. by eexists. Qed.
    Definition the_dbc : dbc := mk_dbc (map subr (seq 0 n)) (List.filter (fun r => isr (rowi r)) (seq 0 n)) (pre n) (map (fun q => length (pre q)) (seq 0 (S n))).
    Lemma make_ok : make_dbc fc g bc_rows bc_cols = Ok the_dbc.
    Proof using Hn Hin Hfc.
      unfold make_dbc. assert (Hs : getSubgraph fc g bc_rows bc_cols = Ok (map subr (seq 0 n))).
      { unfold getSubgraph. apply map_res_map. intros r Hr. apply elem_of_seq in Hr. rewrite rowi_ok, bind_ok by lia. unfold subr, isr. destruct (binary_search bc_rows (rowi r)); [done|]. rewrite csr_ok, bind_ok by lia. done. }
      rewrite Hs, bind_ok. set (body := fun r st => _). assert (Hloop : forall q, q <= n -> for_each body (seq 0 q) ([], [], [0]) =
        Ok (List.filter (fun r => isr (rowi r)) (seq 0 q), pre q, map (fun q => length (pre q)) (seq 0 (S q)))).
      { induction q as [|q IH]; intros Hq; [done|]. rewrite (seq_S q 0), for_each_app, IH, bind_ok by lia. cbn [for_each]. unfold body at 1. rewrite Nat.add_0_l, rowi_ok, bind_ok by lia.
        rewrite (seq_S (S q) 0), (seq_S q 0), !map_app. cbn [map]. rewrite Nat.add_0_l, last_snoc. change (default 0 (Some ?z)) with z. rewrite List.filter_app. cbn [List.filter]. rewrite (Nat.add_0_l (S q)), pre_S.
        fold isr. assert (Hb : isr (rowi q) = true -> blk q = []) by (intros E; unfold blk, subr; by rewrite E). destruct (isr (rowi q)).
        - rewrite bind_ok, (Hb eq_refl), !app_nil_r. done.
        - rewrite csr_ok, bind_ok by lia. assert (Hr : rd (map subr (seq 0 n)) q = Ok (subr q)). { apply rd_ok. change (map subr (seq 0 n)) with (subr <$> seq 0 n). rewrite list_lookup_fmap, lookup_seq_lt by lia. done. }
          rewrite Hr, !bind_ok, !app_nil_r. rewrite app_length, blk_length. done. }
      rewrite Hloop, bind_ok by lia. done.
    Qed.
    Lemma local_inds_ok r : r < n -> local_col_inds the_dbc r = Ok (blk r).
    Proof using Hn.
      intros Hr. unfold local_col_inds. assert (Ho : forall q, q <= n -> rd (db_offs the_dbc) q = Ok (length (pre q))).
      { intros q Hq. apply rd_ok. change (db_offs the_dbc) with ((fun q => length (pre q)) <$> seq 0 (S n)). rewrite list_lookup_fmap, lookup_seq_lt by lia. done. }
      rewrite !Ho, !bind_ok by lia. f_equal. rewrite Nat.add_1_r. cbn [db_inds the_dbc]. destruct (pre_take (S r) n) as (t & ->); [lia|]. rewrite take_app, pre_S, drop_app. done.
    Qed.
    Lemma owned_ok r : r < n -> binary_search (db_owned the_dbc) r = isr (rowi r).
    Proof using Hn.
      intros Hr. cbn [db_owned the_dbc]. apply eq_true_iff_eq. rewrite binary_search_spec.
      - rewrite filter_elem, elem_of_seq. split; [tauto|]. intros H. split; [lia|done].
      - assert (H : StronglySorted lt (List.filter (fun r => isr (rowi r)) (seq 0 n))); [|apply strict_sorted in H; done]. generalize n as m. clear - fc. intros m. generalize 0 as a. induction m as [|m IH]; intros a; [constructor|]. cbn [seq List.filter].
        destruct (isr (rowi a)); [|apply IH]. constructor; [apply IH|]. apply Forall_forall. intros x Hx. apply filter_elem in Hx as [Hx _]. apply elem_of_seq in Hx. lia.
    Qed.
    (** One row. *)
    Context (bcv : nat -> nat -> F) (dold : list (list F)).
    Context (Hdold : Forall2 (fun s o => length o = length s) (db_sub the_dbc) dold).
    Lemma apply_row_ok r vals b : r < n -> length vals = length (indsr r) -> (isr (rowi r) = true -> rowi r ∈ csr r) -> exists vals' b',
      apply_row zero one add mul sub g the_dbc bcv dold r vals b = Ok (vals', b') /\ length vals' = length vals /\ length b' = length b /\
      if isr (rowi r) then (forall c v, (c, v) ∈ zip (csr r) vals' -> v = if decide (c = rowi r) then one else zero) /\ b' = imap (fun k _ => bcv k (rowi r)) b
      else zip (csr r) vals' = blank isc (zip (csr r) vals) /\ b' = imap (fun k y => sub y (lin (List.filter (fun p => isc p.1) (zip (csr r) vals)) (bcv k))) b.
    Proof using Rth Hn Hin Hnd Hfc Hdold.
      intros Hr Hlen Hdiag. unfold apply_row. rewrite indsr_ok, bind_ok by done.
      assert (Hsub : db_sub the_dbc !! r = Some (subr r)). { change (db_sub the_dbc) with (subr <$> seq 0 n). rewrite list_lookup_fmap, lookup_seq_lt by lia. done. }
      destruct (Forall2_lookup_l _ _ _ _ _ Hdold Hsub) as (old & Hold & Hol). rewrite (rd_ok _ _ _ Hold), bind_ok, (rd_ok _ _ _ Hsub), bind_ok, owned_ok by done.
      assert (Hcl : length (csr r) = length (indsr r)) by apply map_length.
      assert (Hni : NoDup (indsr r)). { specialize (Hnd r). unfold csr in Hnd. clear - Hnd. induction (indsr r) as [|l ls IH]; [constructor|]. cbn [map] in Hnd. apply NoDup_cons in Hnd as [H1 H2]. constructor; [|by apply IH]. intros H. apply H1. by apply (elem_of_list_fmap_1 (fun l => default 0 (g_col g !! l))). }
      destruct (isr (rowi r)) eqn:Er.
      - rewrite rowi_ok, bind_ok, csr_ok, bind_ok by done. destruct (index_of_elem _ _ (Hdiag eq_refl)) as [k0 Hk0]. rewrite Hk0, !bind_ok. eexists _, _. split; [done|].
        split; [apply replace_length|]. split; [by rewrite !imap_length|]. split.
        + intros c v Hcv. apply elem_of_list_lookup in Hcv as [k Hk]. apply lookup_zip_with_Some in Hk as (c' & v' & [= <- <-] & Hc & Hv).
          assert (Hk : k < length (indsr r)) by (rewrite <- Hcl; by eapply lookup_lt_Some). destruct (lookup_lt_is_Some_2 _ _ Hk) as [l Hl].
          rewrite (replace_lookup _ _ _ _ k l) in Hv; [|done|done|done|by rewrite insert_length, replicate_length|done]. rewrite (index_of_nodup l _ k) in Hv by done.
          apply index_of_some in Hk0. case_decide as Hc'.
          * subst c. assert (k = k0) as -> by (eapply (NoDup_lookup (csr r)); [apply Hnd|done|done]). rewrite list_lookup_insert in Hv by (rewrite replicate_length; lia). congruence.
          * rewrite list_lookup_insert_ne in Hv by congruence. rewrite lookup_replicate in Hv. by destruct Hv as [-> _].
        + assert (Es : subr r = []) by (unfold subr; by rewrite Er). rewrite Es. apply list_eq. intros k. rewrite !list_lookup_imap. destruct (b !! k); [|done]. cbn. f_equal. unfold dot. cbn. ring.
      - rewrite local_inds_ok, bind_ok by done.
        assert (Hblk : forall k, k ∈ blk r -> k < length (indsr r)).
        { intros k Hk. assert (H : Some k ∈ map Some (blk r)) by (by apply (elem_of_list_fmap_1 Some)). rewrite blk_some in H. apply (elem_of_list_fmap (fun c => index_of c (csr r))) in H as (c & Hc & _). symmetry in Hc. apply index_of_some in Hc. rewrite <- Hcl. by eapply lookup_lt_Some. }
        set (vget := fun k => default zero (vals !! k)). rewrite (map_res_map (rd vals) vget), bind_ok.
        2: { intros k Hk. apply Hblk in Hk. rewrite <- Hlen in Hk. unfold vget. destruct (lookup_lt_is_Some_2 _ _ Hk) as [a Ha]. rewrite Ha. by apply rd_ok. }
        set (iget := fun k => default 0 (indsr r !! k)). rewrite (map_res_map (rd (indsr r)) iget), bind_ok.
        2: { intros k Hk. apply Hblk in Hk. unfold iget. destruct (lookup_lt_is_Some_2 _ _ Hk) as [a Ha]. rewrite Ha. by apply rd_ok. }
        rewrite bind_ok. eexists _, _. split; [done|]. split; [apply replace_length|]. split; [by rewrite imap_length|].
        assert (Hsnd : NoDup (subr r)). { unfold subr. rewrite Er, Hfc. apply NoDup_ListNoDup, List.NoDup_filter, NoDup_ListNoDup, Hnd. }
        assert (Hmem : forall k c, csr r !! k = Some c -> k ∈ blk r <-> isc c = true).
        { intros k c Hk. assert (Hm : k ∈ blk r <-> Some k ∈ map Some (blk r)). { split; [by apply (elem_of_list_fmap_1 Some)|]. intros H. apply (elem_of_list_fmap Some) in H as (k' & [= ->] & H). done. }
          rewrite Hm, blk_some, (elem_of_list_fmap (fun c => index_of c (csr r))). split.
          - intros (c' & Hc & Hc'). symmetry in Hc. apply index_of_some in Hc. apply sub_in in Hc' as [_ Hc']. congruence.
          - intros Hc. exists c. split; [symmetry; by apply index_of_nodup|]. unfold subr. rewrite Er, Hfc. apply filter_elem. split; [by eapply elem_of_list_lookup_2|done]. }
        assert (Hbnd : NoDup (blk r)).
        { clear - Hfc Hsnd. assert (H : NoDup (map Some (blk r))); [|by apply NoDup_fmap_1 in H]. rewrite blk_some. assert (Hc : forall c, c ∈ subr r -> c ∈ csr r) by (intros c Hc; exact (proj1 (sub_in r c Hc))).
          revert Hc. induction Hsnd as [|c l Hn Hl IH]; intros Hc; [constructor|]. cbn [map]. constructor; [|apply IH; intros; apply Hc; by right].
          intros H. apply (elem_of_list_fmap (fun c => index_of c (csr r))) in H as (c' & E & Hc'). destruct (index_of_elem c (csr r)) as [k Hk]; [apply Hc; left|]. rewrite Hk in E. symmetry in E. apply index_of_some in Hk, E. congruence. }
        split.
        + apply list_eq. intros k. unfold blank. change (map ?f ?l) with (f <$> l). rewrite list_lookup_fmap. destruct (decide (k < length (indsr r))) as [Hk|Hk].
          * destruct (lookup_lt_is_Some_2 _ _ Hk) as [l Hl]. assert (Hkc : k < length (csr r)) by lia. destruct (lookup_lt_is_Some_2 _ _ Hkc) as [c Hc]. assert (Hkv : k < length vals) by lia. destruct (lookup_lt_is_Some_2 _ _ Hkv) as [v Hv].
            rewrite !lookup_zip_with, Hc, Hv. cbn. rewrite (replace_lookup _ _ _ _ k l); [|done|done| |by rewrite replicate_length, map_length|done].
            2: { apply (NoDup_fmap_2_strong iget); [|done]. intros k1 k2 H1 H2 E. apply Hblk in H1, H2. unfold iget in E. destruct (lookup_lt_is_Some_2 _ _ H1) as [a Ha]. destruct (lookup_lt_is_Some_2 _ _ H2) as [a' Ha']. rewrite Ha, Ha' in E. cbn in E. subst a'. exact (NoDup_lookup _ _ _ _ Hni Ha Ha'). }
            assert (Hidx : l ∈ map iget (blk r) <-> isc c = true).
            { rewrite <- (Hmem k c Hc). rewrite (elem_of_list_fmap iget). split.
              - intros (k' & E & Hk'). assert (k' = k) as ->; [|done]. pose proof (Hblk _ Hk') as Hlt. unfold iget in E. destruct (lookup_lt_is_Some_2 _ _ Hlt) as [a Ha]. rewrite Ha in E. cbn in E. subst a. exact (NoDup_lookup _ _ _ _ Hni Ha Hl).
              - intros Hk'. exists k. split; [|done]. unfold iget. by rewrite Hl. }
            change (iget <$> blk r) with (map iget (blk r)). destruct (isc c).
            -- destruct (index_of_elem l (map iget (blk r)) (proj2 Hidx eq_refl)) as [j Hj]. rewrite Hj. apply index_of_some in Hj. assert (Hjl : j < length (blk r)) by (rewrite <- (map_length iget); by eapply lookup_lt_Some).
               rewrite lookup_replicate_2 by done. done.
            -- rewrite index_of_none; [by rewrite Hv|]. intros H. apply Hidx in H. done.
          * rewrite !lookup_zip_with. rewrite (lookup_ge_None_2 (csr r) k) by lia. done.
        + apply list_eq. intros kk. rewrite !list_lookup_imap. destruct (b !! kk) as [y|]; [|done]. cbn. do 2 f_equal. rewrite dot_lin. apply lin_perm.
          assert (Erep : replace_values (subr r) old (subr r) (map vget (blk r)) = map vget (blk r)).
          { apply list_eq. intros j. assert (Hll : length (blk r) = length (subr r)) by apply blk_length. destruct (decide (j < length (subr r))) as [Hj|Hj].
            - destruct (lookup_lt_is_Some_2 _ _ Hj) as [c Hc]. rewrite (replace_lookup _ _ _ _ j c); [|done|done|done|by rewrite map_length|done]. by rewrite (index_of_nodup c _ j).
            - rewrite !lookup_ge_None_2; [done|rewrite map_length; lia|rewrite replace_length; lia]. }
          rewrite Erep. assert (Hz : forall p, p ∈ zip (subr r) (map vget (blk r)) <-> p ∈ zip (csr r) vals /\ isc p.1 = true).
          { intros [c v]. rewrite elem_of_list_lookup. split.
            - intros [j Hj]. apply lookup_zip_with_Some in Hj as (c' & v' & [= <- <-] & Hc & Hv). assert (Hb : map Some (blk r) !! j = Some (index_of c (csr r))). { rewrite blk_some. change (map ?f ?l) with (f <$> l). by rewrite list_lookup_fmap, Hc. }
              change (map Some (blk r)) with (Some <$> blk r) in Hb. rewrite list_lookup_fmap in Hb. change (map vget (blk r)) with (vget <$> blk r) in Hv. rewrite list_lookup_fmap in Hv. destruct (blk r !! j) as [k|] eqn:Ek; [|done]. cbn in Hb, Hv. injection Hb as Hb. injection Hv as Hv.
              symmetry in Hb. apply index_of_some in Hb. assert (Hkb : k ∈ blk r) by (by eapply elem_of_list_lookup_2). split; [|cbn; by apply (Hmem k c)].
              apply elem_of_list_lookup. exists k. apply lookup_zip_with_Some. exists c, v. split; [done|]. split; [done|]. subst v. unfold vget. destruct (lookup_lt_is_Some_2 vals k) as [v Hv]; [rewrite Hlen; by apply Hblk|]. by rewrite Hv.
            - intros [H Hc']. cbn in Hc'. apply elem_of_list_lookup in H as [k Hk]. apply lookup_zip_with_Some in Hk as (c' & v' & [= <- <-] & Hc & Hv).
              assert (Hs : c ∈ subr r) by (unfold subr; rewrite Er, Hfc; apply filter_elem; split; [by eapply elem_of_list_lookup_2|done]). apply elem_of_list_lookup in Hs as [j Hj]. exists j. apply lookup_zip_with_Some. exists c, v. split; [done|]. split; [done|].
              assert (Hb : map Some (blk r) !! j = Some (index_of c (csr r))). { rewrite blk_some. change (map ?f ?l) with (f <$> l). by rewrite list_lookup_fmap, Hj. }
              change (map Some (blk r)) with (Some <$> blk r) in Hb. rewrite list_lookup_fmap in Hb. change (map vget (blk r)) with (vget <$> blk r). rewrite list_lookup_fmap. destruct (blk r !! j) as [k'|]; [|done]. cbn in Hb |- *. rewrite (index_of_nodup c _ k) in Hb by done. injection Hb as ->. unfold vget. by rewrite Hv. }
          assert (Hnz : forall (l : list nat) (w : list F), NoDup l -> NoDup (zip l w)).
          { intros l w Hl. revert w. induction Hl as [|a l Ha Hl IH]; intros w; [constructor|]. destruct w as [|y' w]; [constructor|]. cbn. constructor; [|apply IH]. intros H. apply Ha. apply elem_of_list_lookup in H as [q Hq]. apply lookup_zip_with_Some in Hq as (? & ? & [= <- <-] & Hq & _). by eapply elem_of_list_lookup_2. }
          apply NoDup_Permutation; [by apply Hnz|apply NoDup_ListNoDup, List.NoDup_filter, NoDup_ListNoDup, Hnz, Hnd|]. intros p. rewrite Hz, filter_elem. done.
    Qed.
  End part.
End ring.
