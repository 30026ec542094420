From Verif Require Import Base StdAlgo Ownership_model Elem_model Elem_spec Elem_proofs Mesh_model Mesh_spec Mesh_proofs Helpers_model Helpers_proofs Partition_model Partition_spec Partition1_proofs Partition2_proofs.
Local Arguments Nat.mul : simpl never.
Local Arguments Nat.add : simpl never.
Local Arguments Nat.sub : simpl never.

Lemma filter_elem {A} (f : A -> bool) l x : x ∈ List.filter f l <-> x ∈ l /\ f x = true.
Proof. by rewrite elem_of_list_In, filter_In, <- elem_of_list_In. Qed.
Lemma filter_nodup {A} (f : A -> bool) (l : list A) : NoDup l -> NoDup (List.filter f l).
Proof. intros H. by apply NoDup_ListNoDup, List.NoDup_filter, NoDup_ListNoDup. Qed.
Lemma sort_strict l : NoDup l -> StronglySorted lt (sort l).
Proof. intros H. apply sorted_nodup_strict; [apply sort_sorted|by apply sort_nodup]. Qed.
Lemma delete_strict (l : list nat) i : StronglySorted lt l -> StronglySorted lt (delete i l).
Proof.
  intros H. revert i. induction H as [|a l H IH Ha]; intros i; [constructor|]. destruct i as [|i]; [done|]. change (delete (S i) (a :: l)) with (a :: delete i l). constructor; [apply IH|].
  apply Forall_forall. intros x Hx. rewrite Forall_forall in Ha. apply Ha. apply elem_of_list_lookup in Hx as [j Hj].
  destruct (decide (j < i)); [rewrite lookup_delete_lt in Hj by done|rewrite lookup_delete_ge in Hj by lia]; by eapply elem_of_list_lookup_2.
Qed.
Lemma delete_elem (l : list nat) i a x : NoDup l -> l !! i = Some a -> x ∈ delete i l <-> x ∈ l /\ x <> a.
Proof.
  intros Hnd Hi. rewrite delete_take_drop. pose proof (take_drop_middle l i a Hi) as El.
  assert (Hx : x ∈ l <-> x ∈ take i l \/ x = a \/ x ∈ drop (S i) l) by (rewrite <- El at 1; by rewrite elem_of_app, elem_of_cons).
  rewrite <- El in Hnd. apply NoDup_app in Hnd as (H1 & H2 & H3). apply NoDup_cons in H3 as [H3 H4]. rewrite Hx, elem_of_app. split.
  - intros [H|H]; (split; [auto|]); intros ->; [by apply (H2 a H); left|done].
  - intros [[H|[-> |H]] Hne]; auto. done.
Qed.
Lemma claim_ok nodes claimed ghosts : NoDup nodes -> StronglySorted lt ghosts ->
  exists ghosts', claim_loop nodes claimed ghosts =
    (List.filter (fun n => negb (bool_decide (n ∈ ghosts))) nodes, (claimed ++ List.filter (fun n => bool_decide (n ∈ ghosts)) nodes, ghosts')) /\
    StronglySorted lt ghosts' /\ forall x, x ∈ ghosts' <-> x ∈ ghosts /\ x ∉ nodes.
Proof.
  revert claimed ghosts. induction nodes as [|n nodes IH]; intros claimed ghosts Hnd Hs; cbn [claim_loop List.filter].
  - exists ghosts. rewrite app_nil_r. split; [done|]. split; [done|]. intros x. split; [intros H; split; [done|by apply not_elem_of_nil]|tauto].
  - apply NoDup_cons in Hnd as [Hn Hnd]. destruct (decide (n ∈ ghosts)) as [Hin|Hin].
    + pose proof (lower_bound_found ghosts n (strict_sorted _ Hs) Hin) as Hlk. rewrite bool_decide_true by done. rewrite (bool_decide_true (n ∈ ghosts)) by done. cbn [negb].
      set (i := lower_bound ghosts n) in *. assert (Hde : forall x, x ∈ delete i ghosts <-> x ∈ ghosts /\ x <> n) by (intros x; apply delete_elem; [by apply strict_nodup|done]).
      destruct (IH (claimed ++ [n]) (delete i ghosts) Hnd (delete_strict _ _ Hs)) as (g' & -> & Hs' & Hg').
      assert (Heq : forall k, k ∈ nodes -> bool_decide (k ∈ delete i ghosts) = bool_decide (k ∈ ghosts)).
      { intros k Hk. apply bool_decide_ext. rewrite Hde. split; [tauto|]. intros H. split; [done|]. intros ->. done. }
      exists g'. split; [|split; [done|]].
      * rewrite <- app_assoc. cbn [app]. f_equal; [|f_equal; f_equal; f_equal]; apply filter_ext_in; intros k Hk%elem_of_list_In; by rewrite Heq.
      * intros x. rewrite Hg', Hde, elem_of_cons. naive_solver.
    + rewrite bool_decide_false. 2:{ intros H. apply Hin. by eapply elem_of_list_lookup_2. }
      rewrite (bool_decide_false (n ∈ ghosts)) by done. cbn [negb]. destruct (IH claimed ghosts Hnd Hs) as (g' & -> & Hs' & Hg'). cbn [fst snd].
      exists g'. split; [done|]. split; [done|]. intros x. rewrite Hg', elem_of_cons. naive_solver.
Qed.

Section nodes.
  Context {V : Type} (orders : list nat).
  Notation el := (element V).
  Notation doms := (dmap (domain V)).
  Context (N np : nat) (q : list (option nat)) (maps : list doms)
    (Hq : length q = N) (Hqn : forall n, n < N -> exists p, q !! n = Some (Some p) /\ p < np) (Hmaps : length maps = np)
    (Hnd : forall p dm, maps !! p = Some dm -> NoDup dm.*1)
    (Hlt : forall p dm n, maps !! p = Some dm -> is_node dm n -> n < N)
    (Hcov : forall n, n < N -> exists p dm, maps !! p = Some dm /\ is_node dm n).
  Definition in_part (p n : nat) : Prop := exists dm, maps !! p = Some dm /\ is_node dm n.
  Definition want (n p : nat) : Prop := q !! n = Some (Some p).
  (** The part that gets node [n]. *)
  Definition owns (p n : nat) : Prop := in_part p n /\ (want n p \/ (forall w, want n w -> ~ in_part w n) /\ forall p', p' < p -> ~ in_part p' n).
  Lemma rd_npart_ok n p : q !! n = Some (Some p) -> rd_npart q n = Ok p.
  Proof. intros H. unfold rd_npart. by rewrite (rd_ok _ _ _ H), bind_ok. Qed.
  Lemma part_nodes_ok p dm : maps !! p = Some dm -> exists o g, part_nodes q p dm = Ok (o, g) /\ StronglySorted lt o /\ StronglySorted lt g /\
    (forall n, n ∈ o <-> is_node dm n /\ want n p) /\ (forall n, n ∈ g <-> is_node dm n /\ ~ want n p).
  Proof.
    intros Hdm. unfold part_nodes.
    rewrite (for_each_nested (fun (e : el) (n : nat) (st : list nat * list nat) => x ← rd_npart q n; Ok (if x =? p then (n :: st.1, st.2) else (st.1, n :: st.2)))).
    set (l := concat (map (fun e : el => map (pair e) (el_nodes e)) (all_elems dm))).
    assert (Hl : forall n, (exists e, (e, n) ∈ l) <-> is_node dm n).
    { intros n. unfold l, is_node. setoid_rewrite elem_of_concat. split.
      - intros (e & k & Hk & Hin). apply (elem_of_list_fmap (fun e : el => map (pair e) (el_nodes e))) in Hin as (e' & -> & He').
        apply (elem_of_list_fmap (pair e')) in Hk as (n' & [= -> ->] & Hn'). exists e'. split; [|done]. apply all_elems_elem; [by eapply Hnd|done].
      - intros (e & He & Hn). apply all_elems_elem in He; [|by eapply Hnd]. exists e, (map (pair e) (el_nodes e)). split; [by apply (elem_of_list_fmap_1 (pair e))|].
        apply (elem_of_list_fmap (fun e : el => map (pair e) (el_nodes e))). eauto. }
    destruct (for_each_inv (fun (x : el * nat) (st : list nat * list nat) => y ← rd_npart q x.2; Ok (if y =? p then (x.2 :: st.1, st.2) else (st.1, x.2 :: st.2)))
      (fun pre st => (forall n, n ∈ st.1 <-> (exists e, (e, n) ∈ pre) /\ want n p) /\ (forall n, n ∈ st.2 <-> (exists e, (e, n) ∈ pre) /\ ~ want n p)) l [] ([], [])) as ([a b] & Hst & Ha & Hb).
    - split; intros n; (split; [intros H; by apply elem_of_nil in H|intros [[e He] _]; by apply elem_of_nil in He]).
    - intros pre [e n] st (post & Heq) [H1 H2]. cbn [app fst snd] in *. assert (Hn : n < N). { eapply Hlt; [exact Hdm|]. apply Hl. exists e. rewrite Heq, elem_of_app. right. left. }
      destruct (Hqn n Hn) as (w & Hw & _). rewrite (rd_npart_ok n w Hw), bind_ok. eexists. split; [done|].
      assert (Hpre : forall n', (exists e', (e', n') ∈ pre ++ [(e, n)]) <-> n' = n \/ exists e', (e', n') ∈ pre).
      { intros n'. setoid_rewrite elem_of_app. setoid_rewrite elem_of_list_singleton. split; [|naive_solver]. intros (e' & [?|[= -> ->]]); eauto. }
      unfold want in *. destruct (Nat.eqb_spec w p) as [->|Hne]; cbn [fst snd]; (split; intros n'; rewrite Hpre, ?elem_of_cons).
      + rewrite H1. naive_solver.
      + rewrite H2. naive_solver.
      + rewrite H1. split; [naive_solver|]. intros [[-> |?] ?]; [congruence|naive_solver].
      + rewrite H2. split; [|naive_solver]. intros [-> |?]; [|naive_solver]. split; [by left|]. congruence.
    - rewrite Hst, bind_ok. cbn [app fst snd] in *. eexists _, _. split; [done|].
      split; [apply sort_strict, NoDup_remove_dups|]. split; [apply sort_strict, NoDup_remove_dups|].
      split; intros n; rewrite sort_elem, elem_of_remove_dups, ?Ha, ?Hb, Hl; done.
  Qed.
  Lemma disjoint_ok p dm o : maps !! p = Some dm -> (forall n, n ∈ o <-> is_node dm n /\ want n p) ->
    exists d, disjoint_of q p o = Ok d /\ NoDup d /\ forall n, n ∈ d <-> want n p /\ ~ is_node dm n.
  Proof.
    intros Hdm Ho. unfold disjoint_of.
    destruct (map_res_total (rd_npart q) (seq 0 (length q))) as [ps Hps].
    { intros n Hn. apply elem_of_seq in Hn. destruct (Hqn n ltac:(lia)) as (w & Hw & _). exists w. by apply rd_npart_ok. }
    rewrite Hps, bind_ok. eexists. split; [done|]. split; [apply filter_nodup, NoDup_seq|].
    assert (Hlk : forall n x, n < N -> ps !! n = Some x <-> want n x).
    { intros n x Hn. pose proof (map_res_inv _ _ _ Hps) as HF. destruct (Hqn n Hn) as (w & Hw & _).
      destruct (Forall2_lookup_l _ _ _ n n HF) as (y & Hy & Hr); [apply lookup_seq; lia|]. rewrite (rd_npart_ok n w Hw) in Hr. injection Hr as <-. unfold want. rewrite Hy, Hw. split; congruence. }
    intros n. rewrite filter_elem, elem_of_seq. rewrite andb_true_iff, bool_decide_eq_true, negb_true_iff, bool_decide_eq_false, Ho. split.
    - intros (Hn & Hp & Hno). apply Hlk in Hp; [|lia]. split; [done|]. intros Hi. by apply Hno.
    - intros [Hw Hno]. assert (Hn : n < N) by (rewrite <- Hq; by eapply lookup_lt_Some). split; [lia|]. split; [by apply Hlk|]. naive_solver.
  Qed.
  Lemma reassign_ok (vecs : list (list nat * list nat)) D : length vecs = np -> NoDup D ->
    (forall p o g, vecs !! p = Some (o, g) -> StronglySorted lt o /\ StronglySorted lt g /\ (forall n, n ∈ o <-> in_part p n /\ want n p) /\ (forall n, n ∈ g <-> in_part p n /\ ~ want n p)) ->
    (forall n, n ∈ D <-> exists w, want n w /\ ~ in_part w n) ->
    exists vecs', reassignDisjointNodes vecs D = Ok vecs' /\ length vecs' = np /\
      forall p o g, vecs' !! p = Some (o, g) -> StronglySorted lt o /\ StronglySorted lt g /\ (forall n, n ∈ o <-> owns p n) /\ (forall n, n ∈ g <-> in_part p n /\ ~ owns p n).
  Proof.
    intros Hlv HDnd Hvecs HD. unfold reassignDisjointNodes.
    set (step := fun (st : list (list nat * list nat) * list nat) (nodes : list nat * list nat) =>
                       let r := claim_loop st.2 [] nodes.2 in (st.1 ++ [(sort (nodes.1 ++ sort r.2.1), r.2.2)], r.1)).
    assert (Hgen : forall post pre st, vecs = pre ++ post -> length st.1 = length pre -> NoDup st.2 ->
       (forall n, n ∈ st.2 <-> n ∈ D /\ forall p', p' < length pre -> ~ in_part p' n) ->
       (forall p o g, st.1 !! p = Some (o, g) -> StronglySorted lt o /\ StronglySorted lt g /\ (forall n, n ∈ o <-> owns p n) /\ (forall n, n ∈ g <-> in_part p n /\ ~ owns p n)) ->
       let st' := foldl step st post in length st'.1 = np /\ (forall n, n ∈ st'.2 <-> n ∈ D /\ forall p', p' < np -> ~ in_part p' n) /\
       (forall p o g, st'.1 !! p = Some (o, g) -> StronglySorted lt o /\ StronglySorted lt g /\ (forall n, n ∈ o <-> owns p n) /\ (forall n, n ∈ g <-> in_part p n /\ ~ owns p n))).
    { intros post. induction post as [|[o g] post IH]; intros pre [out rest] Heq Hlo Hnr Hrest Hout; cbn [foldl fst snd] in *.
      - rewrite app_nil_r in Heq. subst pre. rewrite Hlv in *. done.
      - assert (Hp : vecs !! length pre = Some (o, g)) by (rewrite Heq, lookup_app_r by lia; by rewrite Nat.sub_diag). destruct (Hvecs _ _ _ Hp) as (So & Sg & Ho & Hg).
        unfold step at 2 4 6. cbn [fst snd]. destruct (claim_ok rest [] g Hnr Sg) as (g' & -> & Sg' & Hg'). cbn [fst snd app].
        assert (Hclaim : forall n, n ∈ List.filter (fun n => bool_decide (n ∈ g)) rest <-> in_part (length pre) n /\ (forall w, want n w -> ~ in_part w n) /\ forall p', p' < length pre -> ~ in_part p' n).
        { intros n. rewrite filter_elem, bool_decide_eq_true, Hrest, Hg, HD. split.
          - intros ([(w & Hw & Hno) Hpre] & Hin & Hnw). split; [done|]. split; [|done]. intros w' Hw'. unfold want in *. congruence.
          - intros (Hin & Hno & Hpre). assert (Hn : n < N) by (destruct Hin as (dm & Hdm & Hi); by eapply Hlt). destruct (Hqn n Hn) as (w & Hw & _).
            split; [|split; [done|]]; [split; [|done]; exists w; split; [done|by apply Hno]|]. intros Hw'. by apply (Hno _ Hw'). }
        assert (Howns : forall n, n ∈ sort (o ++ sort (List.filter (fun n => bool_decide (n ∈ g)) rest)) <-> owns (length pre) n).
        { intros n. rewrite sort_elem, elem_of_app, sort_elem, Ho, Hclaim. unfold owns. tauto. }
        apply (IH (pre ++ [(o, g)])).
        + by rewrite <- app_assoc.
        + cbn [fst]. rewrite !app_length, Hlo. done.
        + cbn [snd]. by apply filter_nodup.
        + cbn [snd]. intros n. rewrite filter_elem, negb_true_iff, bool_decide_eq_false, Hrest, Hg, app_length. cbn [List.length]. split.
          * intros ([HDn Hpre] & Hng). split; [done|]. intros p' Hp'. destruct (decide (p' = length pre)) as [->|]; [|apply Hpre; lia]. intros Hi. apply Hng. split; [done|].
            intros Hw. apply HD in HDn as (w & Hw' & Hno). unfold want in *. assert (w = length pre) as -> by congruence. done.
          * intros [HDn Hpre]. split; [split; [done|intros; apply Hpre; lia]|]. intros [Hi _]. by apply (Hpre (length pre) ltac:(lia)).
        + cbn [fst]. intros p o' g'' Hlk. destruct (decide (p < length out)) as [Hlt'|Hge].
          * rewrite lookup_app_l in Hlk by done. by apply Hout.
          * rewrite lookup_app_r in Hlk by lia. destruct (p - length out) as [|k] eqn:Ek; [|done]. cbn in Hlk. assert (p = length pre) as -> by lia. injection Hlk as <- <-.
            split; [|split; [done|split; [done|]]].
            -- apply sort_strict. apply NoDup_app. split; [by apply strict_nodup|]. split; [|by apply sort_nodup, filter_nodup].
               intros n Hn1 Hn2. apply Ho in Hn1. rewrite sort_elem, filter_elem, bool_decide_eq_true, Hg in Hn2. naive_solver.
            -- intros n. rewrite Hg', Hg. unfold owns. rewrite Hrest, HD. split.
               ++ intros [[Hi Hw] Hno]. split; [done|]. intros [_ [?|[Hall Hpre]]]; [done|]. apply Hno. split; [|done].
                  assert (Hn : n < N) by (destruct Hi as (dm & Hdm & Hi); by eapply Hlt). destruct (Hqn n Hn) as (w & Hw' & _). exists w. split; [done|by apply Hall].
               ++ intros [Hi Hno]. split; [split; [done|intros Hw; apply Hno; auto]|]. intros [(w & Hw & Hnw) Hpre]. apply Hno. split; [done|]. right. split; [|done].
                  intros w' Hw'. unfold want in *. congruence. }
    destruct (Hgen vecs [] ([], D)) as (Hl' & Hrest & Hout); try done.
    { cbn [snd]. intros n. split; [|tauto]. intros H. split; [done|]. intros p' Hp'. cbn in Hp'. lia. }
    assert (Hempty : (foldl step ([], D) vecs).2 = []).
    { destruct (foldl step ([], D) vecs).2 as [|n r]; [done|]. assert (Hn : n ∈ n :: r) by left. apply Hrest in Hn as [HDn Hno]. apply HD in HDn as (w & Hw & _).
      assert (n < N) as Hn by (rewrite <- Hq; by eapply lookup_lt_Some). destruct (Hcov n Hn) as (p & dm & Hdm & Hi). destruct (Hno p); [apply lookup_lt_Some in Hdm; lia|]. by exists dm. }
    rewrite Hempty. change (throwing_assert (length [] =? 0)) with (Ok tt). rewrite bind_ok. eexists. split; [done|]. done.
  Qed.
  Lemma assign_nodes_ok : exists vecs, assignNodes q maps = Ok vecs /\ length vecs = np /\
      forall p o g, vecs !! p = Some (o, g) -> StronglySorted lt o /\ StronglySorted lt g /\ (forall n, n ∈ o <-> owns p n) /\ (forall n, n ∈ g <-> in_part p n /\ ~ owns p n).
  Proof.
    unfold assignNodes.
    assert (Hz : forall {A} (l : list A) k (x : nat * A), zip (seq 0 (length l)) l !! k = Some x <-> x.1 = k /\ l !! k = Some x.2).
    { intros A l k [i a]. rewrite lookup_zip_with_Some. split.
      - intros (i' & a' & [= -> ->] & Hi & Ha). apply lookup_seq in Hi as [-> _]. done.
      - cbn [fst snd]. intros [-> Ha]. exists k, a. split; [done|]. split; [|done]. apply lookup_seq. split; [lia|by eapply lookup_lt_Some]. }
    destruct (map_res_total (fun ip : nat * doms => part_nodes q ip.1 ip.2) (zip (seq 0 (length maps)) maps)) as [vecs Hvecs].
    { intros [p dm] Hin. apply elem_of_list_lookup in Hin as [k Hk]. apply Hz in Hk as [<- Hk]. destruct (part_nodes_ok _ _ Hk) as (o & g & Hr & _). eauto. }
    pose proof (map_res_inv _ _ _ Hvecs) as HF. rewrite Hvecs, bind_ok.
    assert (Hlv : length vecs = np). { rewrite <- (Forall2_length _ _ _ HF), zip_with_length, seq_length. lia. }
    assert (Hspec : forall p o g, vecs !! p = Some (o, g) -> exists dm, maps !! p = Some dm /\ StronglySorted lt o /\ StronglySorted lt g /\ (forall n, n ∈ o <-> is_node dm n /\ want n p) /\ (forall n, n ∈ g <-> is_node dm n /\ ~ want n p)).
    { intros p o g Hp. destruct (Forall2_lookup_r _ _ _ _ _ HF Hp) as ([p' dm] & Hk & Hr). apply Hz in Hk as [Hp' Hk]. cbn [fst snd] in *. subst p'. destruct (part_nodes_ok _ _ Hk) as (o' & g' & Hr' & Hx).
      rewrite Hr in Hr'. injection Hr' as <- <-. exists dm. done. }
    assert (Hin : forall p dm n, maps !! p = Some dm -> in_part p n <-> is_node dm n).
    { intros p dm n Hdm. unfold in_part. split; [intros (dm' & Hdm' & ?); congruence|eauto]. }
    destruct (map_res_total (fun ip : nat * (list nat * list nat) => disjoint_of q ip.1 ip.2.1) (zip (seq 0 (length vecs)) vecs)) as [ds Hds].
    { intros [p [o g]] Hi. apply elem_of_list_lookup in Hi as [k Hk]. apply Hz in Hk as [<- Hk]. cbn [fst snd] in *. destruct (Hspec _ _ _ Hk) as (dm & Hdm & _ & _ & Ho & _).
      destruct (disjoint_ok _ _ _ Hdm Ho) as (d & Hd & _). eauto. }
    rewrite Hds, bind_ok. pose proof (map_res_inv _ _ _ Hds) as HF2.
    assert (Hdspec : forall p d, ds !! p = Some d -> NoDup d /\ forall n, n ∈ d <-> want n p /\ ~ in_part p n).
    { intros p d Hp. destruct (Forall2_lookup_r _ _ _ _ _ HF2 Hp) as ([p' [o g]] & Hk & Hr). apply Hz in Hk as [Hp' Hk]. cbn [fst snd] in *. subst p'. destruct (Hspec _ _ _ Hk) as (dm & Hdm & _ & _ & Ho & _).
      destruct (disjoint_ok _ _ _ Hdm Ho) as (d' & Hd & Hnd' & Hx). rewrite Hr in Hd. injection Hd as <-. split; [done|]. intros n. by rewrite (Hin p dm n Hdm). }
    apply reassign_ok; [done| | |].
    - assert (Hg : forall k, (forall p d, ds !! p = Some d -> NoDup d /\ forall n, n ∈ d <-> want n (k + p) /\ ~ in_part (k + p) n) -> NoDup (concat ds)).
      { clear. induction ds as [|d ds IH]; intros k H; [constructor|]. cbn [concat]. apply NoDup_app. split; [by apply (H 0)|]. split.
        - intros n Hn Hn'. apply elem_of_concat in Hn' as (d' & Hn' & Hd'). apply elem_of_list_lookup in Hd' as [j Hj].
          destruct (H 0 d eq_refl) as [_ H0]. destruct (H (S j) d' Hj) as [_ H1]. pose proof (proj1 (proj1 (H0 n) Hn)) as Ha. pose proof (proj1 (proj1 (H1 n) Hn')) as Hb. unfold want in *. rewrite Ha in Hb. injection Hb. lia.
        - apply (IH (S k)). intros p d' Hp. replace (S k + p) with (k + S p) by lia. by apply (H (S p)). }
      apply (Hg 0). intros p d Hp. by apply Hdspec.
    - intros p o g Hp. destruct (Hspec _ _ _ Hp) as (dm & Hdm & H1 & H2 & H3 & H4). split; [done|]. split; [done|]. split; intros n; rewrite (Hin p dm n Hdm); auto.
    - intros n. rewrite elem_of_concat. split.
      + intros (d & Hn & Hd). apply elem_of_list_lookup in Hd as [p Hp]. apply (Hdspec _ _ Hp) in Hn. eauto.
      + intros (w & Hw & Hno). assert (n < N) as Hn by (rewrite <- Hq; by eapply lookup_lt_Some). destruct (Hqn n Hn) as (w' & Hw' & Hlt'). unfold want in *. assert (w' = w) as -> by congruence.
        destruct (lookup_lt_is_Some_2 ds w) as [d Hd]. { rewrite <- (Forall2_length _ _ _ HF2), zip_with_length, seq_length. lia. }
        exists d. split; [by apply (Hdspec _ _ Hd)|by eapply elem_of_list_lookup_2].
  Qed.
  Lemma owner_unique n : n < N -> exists p, p < np /\ owns p n /\ forall p', owns p' n -> p' = p.
  Proof.
    intros Hn. destruct (Hqn n Hn) as (w & Hw & Hwlt). destruct (Hcov n Hn) as (p0 & dm & Hdm & Hi). assert (Hin0 : in_part p0 n) by (by exists dm).
    assert (Hlt' : forall p, in_part p n -> p < np) by (intros p (dm' & Hd & _); apply lookup_lt_Some in Hd; lia).
    assert (Hdec : forall p, in_part p n \/ ~ in_part p n).
    { intros p. unfold in_part. destruct (maps !! p) as [dm'|] eqn:E; [|right; by intros (? & ? & _)]. destruct (decide (n ∈ node_set dm')) as [H|H].
      - left. exists dm'. split; [done|]. apply node_set_elem; [by eapply Hnd|done].
      - right. intros (d & [= <-] & Hx). apply H. apply node_set_elem; [by eapply Hnd|done]. }
    destruct (Hdec w) as [Hiw|Hiw].
    - exists w. split; [done|]. split; [split; [done|by left]|]. intros p' [_ [Hw'|[H _]]]; [unfold want in *; congruence|]. by destruct (H w Hw).
    - assert (exists p, in_part p n /\ forall p', p' < p -> ~ in_part p' n) as (p & Hp & Hmin).
      { clear -Hin0 Hdec. induction p0 as [p0 IH] using lt_wf_ind. assert (Hs : (exists p', p' < p0 /\ in_part p' n) \/ forall p', p' < p0 -> ~ in_part p' n).
        { clear -Hdec. induction p0 as [|k IHk]; [right; intros; lia|]. destruct IHk as [(p' & ? & ?)|IHk]; [left; exists p'; split; [lia|done]|].
          destruct (Hdec k) as [H|H]; [left; exists k; split; [lia|done]|]. right. intros p' Hp'. destruct (decide (p' = k)) as [->|]; [done|]. apply IHk. lia. }
        destruct Hs as [(p' & Hp' & Hi)|Hs]; [by apply (IH p')|]. exists p0. done. }
      exists p. split; [by apply Hlt'|]. split.
      + split; [done|]. right. split; [|done]. intros w' Hw'. unfold want in *. assert (w' = w) as -> by congruence. done.
      + intros p' [Hi' [Hw'|[_ Hmin']]]; [unfold want in *; assert (p' = w) as -> by congruence; done|].
        destruct (Nat.lt_trichotomy p' p) as [?|[?|?]]; [by destruct (Hmin p')|done|by destruct (Hmin' p)].
  Qed.
End nodes.
