(** Proofs for C76: the numbering the conversion produces, for any notion of "the same
    point" the matching agrees with. *)
From Verif Require Import Base StdAlgo Ownership_model Elem_model Elem_spec Elem_proofs Mesh_model Mesh_spec Mesh_proofs Merge_model Helpers_model Helpers_proofs Convert_model Convert_proofs.

Section numbering.
  Context {V P : Type} (near : P -> P -> bool) (loc : etype -> list V -> nat -> nat -> P) (OC : nat).
  Notation el := (element V).
  Notation doms := (dmap (domain V)).
  (** Position of vertex [k] among the nodes of order OC; "the same point". *)
  Context (vpos : etype -> nat -> nat) (same : el -> nat -> el -> nat -> Prop).
  Context (m : doms) (adj : list (list nat)) (n0 nE : nat).
  Notation npe := nodes_per_element.
  Notation isv e i := (exists k, k < npe (el_type e) 1 /\ i = vpos (el_type e) k).
  Notation ismem e := (e ∈ (pairs m).*2).
  Context (Hkeys : StronglySorted lt m.*1)
    (Hdim : forall dom e, (dom, e) ∈ pairs m -> exists d, dm_find dom m = Some d /\ d_dim d = Some (native_dim (el_type e)))
    (Hids : NoDup (map (fun de : nat * el => el_id de.2) (pairs m)))
    (Hlt : forall de, de ∈ pairs m -> el_id de.2 < nE)
    (Hasc : forall dom t, StronglySorted lt (map el_id (pick (pairs m) dom t)))
    (Hadj : length adj = nE) (Hadj' : forall l i, l ∈ adj -> i ∈ l -> i < nE)
    (Hnodes : forall e, ismem e -> length (el_nodes e) = npe (el_type e) 1 /\ forall n, n ∈ el_nodes e -> n < n0).
  Context (Sym : forall e i f j, same e i f j -> same f j e i) (Trans : forall e i f j g k, same e i f j -> same f j g k -> same e i g k)
    (Refl : forall e i, same e i e i) (Inj : forall e i j, ismem e -> i < npe (el_type e) OC -> j < npe (el_type e) OC -> same e i e j -> i = j)
    (Hvinj : forall t k k', k < npe t 1 -> k' < npe t 1 -> vpos t k = vpos t k' -> k = k')
    (Hvr : forall t k, k < npe t 1 -> vpos t k < npe t OC)
    (Hown : forall e i k, ismem e -> i < npe (el_type e) OC -> k < npe (el_type e) 1 ->
       near (loc (el_type e) (el_verts e) OC i) (loc (el_type e) (el_verts e) 1 k) = true <-> i = vpos (el_type e) k)
    (Hvert : forall e k f j n, ismem e -> ismem f -> el_nodes e !! k = Some n -> j < npe (el_type f) OC ->
       same e (vpos (el_type e) k) f j <-> exists k', el_nodes f !! k' = Some n /\ j = vpos (el_type f) k')
    (Hint : forall f e, ismem f -> ismem e -> f <> e -> exists pf pe, element_intersection OC f e = Ok (pf, pe) /\
       (forall j, j ∈ pf -> j < npe (el_type f) OC) /\ (forall i, i ∈ pe -> i < npe (el_type e) OC) /\
       (forall i, i ∈ pe -> ~ isv e i -> (exists j, j ∈ pf /\ same f j e i) /\
          forall j, j ∈ pf -> near (loc (el_type f) (el_verts f) OC j) (loc (el_type e) (el_verts e) OC i) = true <-> same f j e i) /\
       (forall i j, i < npe (el_type e) OC -> j < npe (el_type f) OC -> ~ isv e i -> same f j e i -> i ∈ pe /\ exists l, adj !! el_id e = Some l /\ el_id f ∈ l)).

  Definition numbered (pre : list (nat * el)) (nu : nat -> list nat) (N : nat) : Prop :=
    n0 <= N /\
    (forall e, e ∈ pre.*2 -> length (nu (el_id e)) = npe (el_type e) OC /\
       (forall k n, el_nodes e !! k = Some n -> nu (el_id e) !! vpos (el_type e) k = Some n) /\
       forall i a, nu (el_id e) !! i = Some a -> a < N /\ (~ isv e i -> n0 <= a)) /\
    (forall e f i j a b, e ∈ pre.*2 -> f ∈ pre.*2 -> nu (el_id e) !! i = Some a -> nu (el_id f) !! j = Some b -> a = b <-> same e i f j) /\
    (forall a, n0 <= a < N -> exists e i, e ∈ pre.*2 /\ nu (el_id e) !! i = Some a).
  Definition conv_inv (pre : list (nat * el)) (st : doms * nat * list bool) : Prop :=
    exists nu, st.1.1 = built OC m pre nu /\ numbered pre nu st.1.2 /\ length st.2 = nE /\
      forall i, i < nE -> st.2 !! i = Some (bool_decide (i ∈ map (fun de : nat * el => el_id de.2) pre)).

  Lemma ids_unique de de' : de ∈ pairs m -> de' ∈ pairs m -> el_id de.2 = el_id de'.2 -> de = de'.
  Proof using All.
    intros H1 H2 E. apply elem_of_list_lookup in H1 as [i Hi]. apply elem_of_list_lookup in H2 as [j Hj].
    assert (i = j); [|congruence]. eapply (NoDup_lookup _ i j _ Hids); change (map ?f ?l) with (f <$> l); rewrite list_lookup_fmap; [by rewrite Hi|rewrite Hj]. cbn. by rewrite E.
  Qed.
  Lemma info_ok dom e : (dom, e) ∈ pairs m -> nbr_info m (el_id e) = Some (dom, e).
  Proof using All.
    intros He. unfold nbr_info. change (concat _) with (pairs m). destruct (List.find _ (pairs m)) as [de|] eqn:E.
    - apply List.find_some in E as [H1 H2]. apply elem_of_list_In in H1. f_equal. apply ids_unique; [done|done|]. by apply Nat.eqb_eq.
    - exfalso. apply elem_of_list_In in He. pose proof (List.find_none _ _ E _ He) as H. cbn in H. by rewrite Nat.eqb_refl in H.
  Qed.
  (** A converted neighbour is found in its vector. *)
  Lemma find_converted pre post nu dom e d : pairs m = pre ++ post -> (dom, e) ∈ pre -> dm_find dom m = Some d ->
    exists v, d_els (mk_dom (map (fun s : etype * nat => map (conv OC nu) (pick pre dom s.1)) (slots [OC])) (d_dim d)) !! slot_of (el_type e) = Some v /\
      v !! lower_bound (map el_id v) (el_id e) = Some (conv OC nu e).
  Proof using All.
    intros Hp He Hd. exists (map (conv OC nu) (pick pre dom (el_type e))). split; [by destruct (el_type e)|].
    assert (Hm : map el_id (map (conv OC nu) (pick pre dom (el_type e))) = map el_id (pick pre dom (el_type e))) by (rewrite map_map; by apply map_ext).
    rewrite Hm. assert (Hs : StronglySorted lt (map el_id (pick pre dom (el_type e)))).
    { pose proof (Hasc dom (el_type e)) as H. rewrite Hp, pick_app, map_app in H. by apply StronglySorted_app_inv_l in H. }
    assert (Hin : e ∈ pick pre dom (el_type e)) by (by apply pick_elem). apply elem_of_list_lookup in Hin as [i Hi].
    rewrite (lower_bound_elem _ _ i); [|by apply strict_sorted|by apply strict_nodup|].
    - change (map ?f ?l) with (f <$> l). rewrite list_lookup_fmap, Hi. done.
    - change (map ?f ?l) with (f <$> l). rewrite list_lookup_fmap, Hi. done.
  Qed.

  Section element.
    Context (pre : list (nat * el)) (dom : nat) (e : el) (post : list (nat * el)) (Hp : pairs m = pre ++ (dom, e) :: post) (nu : nat -> list nat) (N : nat) (HN : numbered pre nu N).
    Let right (i a : nat) : Prop := (exists k, el_nodes e !! k = Some a /\ i = vpos (el_type e) k) \/
      (~ isv e i /\ exists f j, f ∈ pre.*2 /\ nu (el_id f) !! j = Some a /\ same f j e i).
    Let n := npe (el_type e) OC.
    Lemma He_in : (dom, e) ∈ pairs m. Proof using All. rewrite Hp. apply elem_of_app. right. left. Qed.
    Lemma He_mem : ismem e. Proof using All. apply elem_of_list_fmap. exists (dom, e). split; [done|apply He_in]. Qed.
    Lemma pre_in de : de ∈ pre -> de ∈ pairs m. Proof using All. intros H. rewrite Hp. apply elem_of_app. by left. Qed.
    Lemma pre_mem f : f ∈ pre.*2 -> ismem f.
    Proof using All. intros H. apply elem_of_list_fmap in H as (de & -> & H). apply elem_of_list_fmap. exists de. split; [done|by apply pre_in]. Qed.
    Lemma fresh de : de ∈ pre -> el_id de.2 <> el_id e.
    Proof using All.
      intros H E. pose proof Hids as Hn. rewrite Hp, map_app in Hn. apply NoDup_app in Hn as (_ & Hn & _). apply (Hn (el_id e)); [|left].
      apply elem_of_list_fmap. by exists de.
    Qed.
    Lemma fresh_ne f : f ∈ pre.*2 -> f <> e.
    Proof using All. intros H ->. apply elem_of_list_fmap in H as (de & E & H). by apply fresh in H as []; rewrite <- E. Qed.
    Lemma vert_of k a : el_nodes e !! k = Some a -> k < npe (el_type e) 1.
    Proof using All. intros H. apply lookup_lt_Some in H. destruct (Hnodes e He_mem). lia. Qed.
    Lemma own_ok : exists mn, own_match near loc OC e (replicate n false, replicate n 0) = Ok mn /\ marked n right mn /\ forall k, k < npe (el_type e) 1 -> mn.1 !! vpos (el_type e) k = Some true.
    Proof using All.
      destruct (Hnodes e He_mem) as [Hl _]. unfold own_match.
      set (o1 := map (loc (el_type e) (el_verts e) 1) (seq 0 (npe (el_type e) 1))). set (oN := map (loc (el_type e) (el_verts e) OC) (seq 0 (npe (el_type e) OC))).
      destruct (puts_ok n right (fun (ki : nat * nat) mn => n ← rd (el_nodes e) ki.1; put_node ki.2 n mn) (fun ki i => i = vpos (el_type e) ki.1) (indexed (matchingPermutation near oN o1)) (replicate n false, replicate n 0)) as (mn & E & Hm & _ & Hs & _).
      - intros [k ind] Hk. apply indexed_elem in Hk. cbn [fst snd]. unfold matchingPermutation in Hk. change (map ?f ?l) with (f <$> l) in Hk. rewrite list_lookup_fmap in Hk. destruct (o1 !! k) as [p|] eqn:Ep; [|done]. injection Hk as <-.
        assert (k < npe (el_type e) 1 /\ p = loc (el_type e) (el_verts e) 1 k) as [Hk ->].
        { unfold o1 in Ep. change (map ?f ?l) with (f <$> l) in Ep. rewrite list_lookup_fmap in Ep. destruct (seq 0 (npe (el_type e) 1) !! k) as [k'|] eqn:Es; [|done]. apply lookup_seq in Es as [-> ?]. injection Ep as <-. done. }
        destruct (lookup_lt_is_Some_2 (el_nodes e) k) as [a Ha]; [lia|].
        assert (HoN : forall i x, oN !! i = Some x <-> i < npe (el_type e) OC /\ x = loc (el_type e) (el_verts e) OC i).
        { intros i x. unfold oN. change (map ?f ?l) with (f <$> l). rewrite list_lookup_fmap. destruct (seq 0 (npe (el_type e) OC) !! i) as [i'|] eqn:Es; cbn.
          - apply lookup_seq in Es as [-> ?]. split; [intros [= <-]; done|intros [? ->]; done].
          - apply lookup_ge_None in Es. rewrite seq_length in Es. split; [done|]. intros [? ?]. lia. }
        destruct (find_pos_found (fun q => near q (loc (el_type e) (el_verts e) 1 k)) oN (vpos (el_type e) k) (loc (el_type e) (el_verts e) OC (vpos (el_type e) k))) as (y & Hy & Hny).
        { apply HoN. split; [by apply Hvr|done]. } { apply Hown; [apply He_mem|by apply Hvr|done|done]. }
        apply HoN in Hy as [Hpos ->]. apply (Hown e _ k He_mem Hpos Hk) in Hny. exists (vpos (el_type e) k), a.
        split; [|split; [by apply Hvr|split; [left; by exists k|done]]]. intros mn. rewrite (rd_ok _ _ _ Ha), bind_ok. by rewrite Hny.
      - unfold marked. cbn [fst snd]. rewrite !replicate_length. split; [done|]. split; [done|]. intros i Hi. apply lookup_replicate_1 in Hi as [? _]. done.
      - exists mn. split; [exact E|]. split; [done|]. intros k Hk.
        assert (exists ind, (k, ind) ∈ indexed (matchingPermutation near oN o1)) as [ind Hind].
        { destruct (lookup_lt_is_Some_2 (matchingPermutation near oN o1) k) as [ind Hi]; [unfold matchingPermutation, o1; by rewrite !map_length, seq_length|]. exists ind. by apply indexed_elem. }
        destruct (Hs _ Hind) as (i & -> & Ht). done.
    Qed.
    Lemma nbr_ok f mn : f ∈ pre.*2 -> marked n right mn -> (forall k, k < npe (el_type e) 1 -> mn.1 !! vpos (el_type e) k = Some true) ->
      exists mn', nbr_match near loc OC f (conv OC nu f) e mn = Ok mn' /\ marked n right mn' /\ (forall i, mn.1 !! i = Some true -> mn'.1 !! i = Some true) /\
        (forall i j, i < n -> j < npe (el_type f) OC -> ~ isv e i -> same f j e i -> mn'.1 !! i = Some true).
    Proof using All.
      intros Hf Hm Hv. unfold nbr_match. destruct (Hint f e (pre_mem f Hf) He_mem (fresh_ne f Hf)) as (pf & pe & -> & Hpf & Hpe & Hmatch & Hall). rewrite bind_ok. cbv beta iota.
      destruct Hm as (Hm1 & Hm2 & Hm3).
      rewrite (map_res_ok _ (fun i => (i, default false (mn.1 !! i)))).
      2:{ intros i Hi. destruct (lookup_lt_is_Some_2 mn.1 i) as [b Hb]; [rewrite Hm1; by apply Hpe|]. rewrite (rd_ok _ _ _ Hb), bind_ok, Hb. done. }
      rewrite bind_ok. set (filtered := map fst _). set (buffer := matchingPermutation _ _ _).
      assert (Hfil : forall i, i ∈ filtered <-> i ∈ pe /\ mn.1 !! i = Some false).
      { intros i. unfold filtered. rewrite elem_of_list_fmap. split.
        - intros ([i' b] & -> & H). apply elem_of_list_In, filter_In in H as [H E]. apply elem_of_list_In, elem_of_list_fmap in H as (i & [= -> ->] & H). cbn in *. split; [done|].
          destruct (lookup_lt_is_Some_2 mn.1 i) as [b Hb]; [rewrite Hm1; by apply Hpe|]. rewrite Hb in *. cbn in E. destruct b; done.
        - intros [H E]. exists (i, false). split; [done|]. apply elem_of_list_In, filter_In. split; [|done]. apply elem_of_list_In, elem_of_list_fmap. exists i. rewrite E. done. }
      destruct HN as (HN0 & HN1 & _). destruct (HN1 f Hf) as (Hlf & _).
      destruct (puts_ok n right (fun (km : nat * nat) mn => b ← rd buffer km.1; p ← rd pf b; a ← rd (el_nodes (conv OC nu f)) p; put_node km.2 a mn) (fun km i => i = km.2) (indexed filtered) mn) as (mn' & E & Hm' & Hk & Hs & Hb).
      - intros [k i] Hk. apply indexed_elem in Hk. cbn [fst snd]. assert (Hi : i ∈ filtered) by (by eapply elem_of_list_lookup_2). apply Hfil in Hi as [Hi Hfalse].
        assert (Hnv : ~ isv e i) by (intros (k' & Hk' & ->); rewrite Hv in Hfalse by done; done).
        destruct (Hmatch i Hi Hnv) as [(j & Hj & Hsj) Hnear]. apply elem_of_list_lookup in Hj as [q Hq].
        set (pr := fun p => near p (loc (el_type e) (el_verts e) OC i)). set (pat := map (loc (el_type f) (el_verts f) OC) pf).
        assert (Hbk : buffer !! k = Some (find_pos pr pat)). { unfold buffer, matchingPermutation. rewrite !map_lookup, Hk. done. }
        assert (Hpat : forall q x, pat !! q = Some x <-> exists j, pf !! q = Some j /\ x = loc (el_type f) (el_verts f) OC j).
        { intros q' x. unfold pat. rewrite map_lookup. destruct (pf !! q') as [j'|]; cbn; [|split; [done|intros (? & ? & ?); done]]. split; [intros [= <-]; by exists j'|intros (? & [= <-] & ->); done]. }
        destruct (find_pos_found pr pat q (loc (el_type f) (el_verts f) OC j)) as (y & Hy & Hny).
        { apply Hpat. by exists j. } { unfold pr. apply Hnear; [by eapply elem_of_list_lookup_2|done]. }
        apply Hpat in Hy as (j' & Hj' & ->). unfold pr in Hny. assert (Hj'in : j' ∈ pf) by (by eapply elem_of_list_lookup_2). apply (Hnear j' Hj'in) in Hny.
        destruct (lookup_lt_is_Some_2 (nu (el_id f)) j') as [a Ha]; [rewrite Hlf; by apply Hpf|].
        exists i, a. split; [|split; [by apply Hpe|split; [|done]]].
        + intros mn0. rewrite (rd_ok _ _ _ Hbk), bind_ok, (rd_ok _ _ _ Hj'), bind_ok. change (el_nodes (conv OC nu f)) with (nu (el_id f)). rewrite (rd_ok _ _ _ Ha), bind_ok. done.
        + right. split; [done|]. exists f, j'. done.
      - done.
      - exists mn'. split; [exact E|]. split; [done|]. split; [done|]. intros i j Hi Hj Hnv Hsame. destruct (Hall i j Hi Hj Hnv Hsame) as [Hin _].
        destruct (lookup_lt_is_Some_2 mn.1 i) as [b Hbi]; [lia|]. destruct b; [by apply Hk|]. assert (Hif : i ∈ filtered) by (by apply Hfil). apply elem_of_list_lookup in Hif as [k Hk'].
        destruct (Hs (k, i)) as (i' & -> & Ht); [by apply indexed_elem|done].
    Qed.
    Lemma all_nbrs_ok st nbrs mn : st.1.1 = built OC m pre nu -> (forall i, i < nE -> st.2 !! i = Some (bool_decide (i ∈ map (fun de : nat * el => el_id de.2) pre))) ->
      (forall i, i ∈ nbrs -> i < nE) -> marked n right mn -> (forall k, k < npe (el_type e) 1 -> mn.1 !! vpos (el_type e) k = Some true) ->
      exists mn', for_each (match_nbr near loc OC m st e) nbrs mn = Ok mn' /\ marked n right mn' /\ (forall i, mn.1 !! i = Some true -> mn'.1 !! i = Some true) /\
        forall f i j, f ∈ pre.*2 -> el_id f ∈ nbrs -> i < n -> j < npe (el_type f) OC -> ~ isv e i -> same f j e i -> mn'.1 !! i = Some true.
    Proof using All.
      intros Hst Hc. revert mn. induction nbrs as [|id nbrs IH]; intros mn Hlt' Hm Hv; cbn [for_each].
      { exists mn. split; [done|]. split; [done|]. split; [done|]. intros f i j _ H. by apply elem_of_nil in H. }
      assert (exists mn1, match_nbr near loc OC m st e id mn = Ok mn1 /\ marked n right mn1 /\ (forall i, mn.1 !! i = Some true -> mn1.1 !! i = Some true) /\
        forall f i j, f ∈ pre.*2 -> el_id f = id -> i < n -> j < npe (el_type f) OC -> ~ isv e i -> same f j e i -> mn1.1 !! i = Some true) as (mn1 & -> & Hm1 & Hk1 & Hf1).
      { unfold match_nbr. destruct st as [[new_d N'] cv]. cbn [fst snd] in *. rewrite (rd_ok _ _ _ (Hc id (Hlt' id ltac:(left)))), bind_ok. case_bool_decide as Hid; cbn [negb].
        - apply elem_of_list_fmap in Hid as ([fd f] & Eid & Hf). cbn in Eid. subst id. rewrite (info_ok fd f (pre_in _ Hf)).
          destruct (Hdim fd f (pre_in _ Hf)) as (d & Hd & _). rewrite Hst, (built_find OC m pre nu fd d Hd), slot_pos.
          destruct (find_converted pre ((dom, e) :: post) nu fd f d Hp Hf Hd) as (v & Hv1 & Hv2). rewrite (rd_ok _ _ _ Hv1), bind_ok, (rd_ok _ _ _ Hv2), bind_ok.
          destruct (nbr_ok f mn) as (mn' & E & H1 & H2 & H3); [apply elem_of_list_fmap; by exists (fd, f)|done|done|]. exists mn'. split; [done|]. split; [done|]. split; [done|].
          intros g i j Hg Eg. assert (g = f) as ->; [|by apply H3]. apply elem_of_list_fmap in Hg as (gd & -> & Hg). pose proof (ids_unique gd (fd, f) (pre_in _ Hg) (pre_in _ Hf) Eg) as ->. done.
        - exists mn. split; [done|]. split; [done|]. split; [done|]. intros f i j Hf Ef. exfalso. apply Hid. apply elem_of_list_fmap in Hf as (de & -> & Hf). apply elem_of_list_fmap. exists de. done. }
      rewrite bind_ok. destruct (IH mn1) as (mn2 & -> & Hm2 & Hk2 & Hf2); [intros; apply Hlt'; by right|done|auto|]. exists mn2. split; [done|]. split; [done|]. split; [auto|].
      intros f i j Hf Hin. apply elem_of_cons in Hin as [E|Hin]; [intros; apply Hk2; by eapply Hf1|by apply Hf2].
    Qed.
    Lemma element_ok st : st.1.1 = built OC m pre nu -> st.1.2 = N -> length st.2 = nE -> (forall i, i < nE -> st.2 !! i = Some (bool_decide (i ∈ map (fun de : nat * el => el_id de.2) pre))) ->
      exists st', convert_element near loc OC m adj dom e st = Ok st' /\ conv_inv (pre ++ [(dom, e)]) st'.
    Proof using All.
      intros Hst HstN Hlc Hc. unfold convert_element. fold n. destruct own_ok as (mn0 & -> & Hm0 & Hv0). rewrite bind_ok.
      assert (Hide : el_id e < nE) by (exact (Hlt _ He_in)). destruct (lookup_lt_is_Some_2 adj (el_id e)) as [nbrs Hnb]; [lia|]. rewrite (rd_ok _ _ _ Hnb), bind_ok.
      destruct (all_nbrs_ok st nbrs mn0 Hst Hc) as (mn1 & -> & Hm1 & Hk1 & Hf1); [intros i Hi; eapply Hadj'; [by eapply elem_of_list_lookup_2|done]|done|done|]. rewrite bind_ok.
      destruct mn1 as [mask nodes]. destruct Hm1 as (L1 & L2 & Hright). cbn [fst snd] in *.
      destruct (number2_ok n (el_type e) OC mask nodes N eq_refl L1 L2) as (nodes' & N' & E & Hl' & HNN & Kt & Kf & Kd & Ks). rewrite HstN.
      apply bind_inv in E as (s1 & E1 & E2). rewrite E1, bind_ok, E2, bind_ok. cbn [fst snd].
      destruct (Hdim dom e He_in) as (d & Hd & Hdd). destruct (built_push OC m pre nu dom d e nodes' Hkeys Hd Hdd fresh) as (d1 & d2 & F1 & F2 & F3). rewrite Hst, F1, F2, bind_ok.
      rewrite wr_ok by lia. rewrite bind_ok. eexists. split; [done|]. cbn in F3. set (nu' := fun i => if i =? el_id e then nodes' else nu i) in *. exists nu'. cbn [fst snd]. split; [exact F3|].
      assert (Hnue : nu' (el_id e) = nodes') by (unfold nu'; by rewrite Nat.eqb_refl).
      assert (Hnuf : forall f, f ∈ pre.*2 -> nu' (el_id f) = nu (el_id f)).
      { intros f Hf. apply elem_of_list_fmap in Hf as (de & -> & Hf). unfold nu'. destruct (Nat.eqb_spec (el_id de.2) (el_id e)) as [Ee|]; [by apply fresh in Ee|done]. }
      assert (Hmem : forall f, f ∈ (pre ++ [(dom, e)]).*2 <-> f ∈ pre.*2 \/ f = e). { intros f. rewrite fmap_app, elem_of_app. cbn. by rewrite elem_of_list_singleton. }
      destruct HN as (HN0 & HN1 & HN2 & HN3). destruct (Hnodes e He_mem) as [Hle Hbe].
      assert (Hmaskv : forall i, i < n -> isv e i -> mask !! i = Some true). { intros i _ (k & Hk & ->). apply Hk1, Hv0, Hk. }
      assert (Hmaskn : forall i, i < n -> ~ isv e i -> mask !! i = Some true <-> exists f j, f ∈ pre.*2 /\ j < npe (el_type f) OC /\ same f j e i).
      { intros i Hi Hnv. split.
        - intros Ht. destruct (Hright i Ht) as (a & Ha & [(k & Hk & ->)|(_ & f & j & Hf & Hj & Hs)]); [exfalso; apply Hnv; exists k; split; [by eapply vert_of|done]|]. exists f, j. split; [done|]. split; [|done]. destruct (HN1 f Hf) as [<- _]. by eapply lookup_lt_Some.
        - intros (f & j & Hf & Hj & Hs). eapply Hf1; [exact Hf| |exact Hi|exact Hj|done|exact Hs]. destruct (Hint f e (pre_mem f Hf) He_mem (fresh_ne f Hf)) as (pf & pe & _ & _ & _ & _ & Hall). destruct (Hall i j Hi Hj Hnv Hs) as (_ & l & Hl1 & Hl2). congruence. }
      (* the value at an index *)
      assert (Hval : forall i a, nodes' !! i = Some a -> i < n /\ ((mask !! i = Some true /\ right i a) \/ (mask !! i = Some false /\ N <= a < N' /\ ~ isv e i))).
      { intros i a Ha. assert (Hi : i < n) by (apply lookup_lt_Some in Ha; lia). split; [done|]. destruct (lookup_lt_is_Some_2 mask i) as [b Hb]; [lia|]. destruct b.
        - left. split; [done|]. destruct (Hright i Hb) as (a' & Ha' & Hr). rewrite (Kt i Hb), Ha' in Ha. injection Ha as <-. done.
        - right. split; [done|]. destruct (Kf i Hb) as (a' & Ha' & ?). rewrite Ha' in Ha. injection Ha as <-. split; [done|]. intros Hv. rewrite Hmaskv in Hb by done. done. }
      assert (Hev : forall i a f j b, f ∈ pre.*2 -> nodes' !! i = Some a -> nu (el_id f) !! j = Some b -> a = b <-> same e i f j).
      { intros i a f j b Hf Ha Hb. destruct (Hval i a Ha) as [Hi [[Ht [(k & Hk & ->)|(Hnv & g & q & Hg & Hq & Hs)]]|(Hfl & Hr & Hnv)]].
        - assert (Hj : j < npe (el_type f) OC). { destruct (HN1 f Hf) as [<- _]. by eapply lookup_lt_Some. }
          rewrite (Hvert e k f j a He_mem (pre_mem f Hf) Hk Hj). destruct (HN1 f Hf) as (_ & Hfv & Hfn). split.
          + intros <-. destruct (Hfn j a Hb) as [_ Hge]. destruct (Hnodes f (pre_mem f Hf)) as [Hlf _].
            assert (Hdec : isv f j \/ ~ isv f j). { destruct (decide (Exists (fun k => j = vpos (el_type f) k) (seq 0 (npe (el_type f) 1)))) as [H|H]; [left|right]; rewrite Exists_exists in H; [destruct H as (k' & Hk' & ->); apply elem_of_seq in Hk'; exists k'; split; [lia|done]|intros (k' & Hk' & ->); apply H; exists k'; split; [apply elem_of_seq; lia|done]]. }
            destruct Hdec as [(k' & Hk' & ->)|Hn]; [|apply Hge in Hn; assert (a < n0) by (apply Hbe; by eapply elem_of_list_lookup_2); lia].
            destruct (lookup_lt_is_Some_2 (el_nodes f) k') as [a' Ha']; [lia|]. exists k'. split; [|done]. rewrite (Hfv k' a' Ha') in Hb. congruence.
          + intros (k' & Hk' & ->). rewrite (Hfv k' a Hk') in Hb. congruence.
        - rewrite (HN2 g f q j a b Hg Hf Hq Hb). split; intros H; [eapply Trans; [apply Sym, Hs|exact H]|eapply Trans; [exact Hs|exact H]].
        - destruct (HN1 f Hf) as (Hlf & _ & Hfn). destruct (Hfn j b Hb) as [Hlb _]. split; [intros ->; lia|]. intros Hs. exfalso.
          assert (mask !! i = Some true); [|congruence]. apply (Hmaskn i Hi Hnv). exists f, j. split; [done|]. split; [rewrite <- Hlf; by eapply lookup_lt_Some|by apply Sym]. }
      assert (Hee : forall i j a, nodes' !! i = Some a -> nodes' !! j = Some a -> same e i e j).
      { intros i j a Ha Hb. destruct (Hval i a Ha) as [Hi Hvi]. destruct (Hval j a Hb) as [Hj Hvj].
        destruct Hvi as [[Hti Hri]|(Hfi & Hri & Hnvi)].
        - assert (Hcase : forall i j, i < n -> j < n -> nodes' !! i = Some a -> nodes' !! j = Some a -> right i a -> (exists f q, f ∈ pre.*2 /\ nu (el_id f) !! q = Some a) -> same e i e j).
          { clear i j Ha Hb Hi Hj Hti Hri Hvj. intros i j Hi Hj Ha Hb _ (f & q & Hf & Hq). eapply Trans; [apply (Hev i a f q a Hf Ha Hq); done|]. apply Sym. apply (Hev j a f q a Hf Hb Hq). done. }
          destruct Hri as [(k & Hk & ->)|(Hnv & g & q & Hg & Hq & Hs)].
          + destruct Hvj as [[Htj [(k' & Hk' & ->)|(Hnv & g & q & Hg & Hq & Hs)]]|(Hfj & Hrj & Hnvj)].
            * assert (Hvk : vpos (el_type e) k' < npe (el_type e) OC) by (exact Hj). apply (Hvert e k e (vpos (el_type e) k') a He_mem He_mem Hk Hvk). by exists k'.
            * apply (Hcase _ _ Hi Hj Ha Hb); [left; by exists k|by exists g, q].
            * assert (a < n0) by (apply Hbe; by eapply elem_of_list_lookup_2). lia.
          + apply (Hcase _ _ Hi Hj Ha Hb); [right; split; [done|by exists g, q]|by exists g, q].
        - destruct Hvj as [[Htj [(k' & Hk' & ->)|(Hnv & g & q & Hg & Hq & Hs)]]|(Hfj & Hrj & Hnvj)].
          + assert (a < n0) by (apply Hbe; by eapply elem_of_list_lookup_2). lia.
          + destruct (HN1 g Hg) as (_ & _ & Hgn). destruct (Hgn q a Hq). lia.
          + rewrite (Kd i j a Hfi Hfj Ha Hb). apply Refl. }
      split; [|split].
      - split; [lia|]. split; [|split].
        + intros f Hf. apply Hmem in Hf as [Hf| ->].
          * rewrite (Hnuf f Hf). destruct (HN1 f Hf) as (A & B & C). split; [done|]. split; [done|]. intros i a Ha. destruct (C i a Ha). split; [lia|done].
          * rewrite Hnue. split; [done|]. split.
            -- intros k a Hk. assert (Hkl : k < npe (el_type e) 1) by (by eapply vert_of). assert (Ht : mask !! vpos (el_type e) k = Some true) by (apply Hmaskv; [by apply Hvr|by exists k]).
               destruct (Hright _ Ht) as (a' & Ha' & [(k' & Hk' & Ek)|(Hnv & _)]); [|exfalso; apply Hnv; by exists k]. rewrite (Kt _ Ht), Ha'.
               assert (Hvk : vpos (el_type e) k < npe (el_type e) OC) by (by apply Hvr).
               assert (k' = k) as -> by (apply (Hvinj (el_type e)); [by eapply vert_of|done|done]). congruence.
            -- intros i a Ha. destruct (Hval i a Ha) as [Hi [[Ht [(k & Hk & ->)|(Hnv & g & q & Hg & Hq & Hs)]]|(Hfl & Hr & Hnv)]].
               ++ assert (a < n0) by (apply Hbe; by eapply elem_of_list_lookup_2). split; [lia|]. intros Hn. exfalso. apply Hn. exists k. split; [by eapply vert_of|done].
               ++ destruct (HN1 g Hg) as (Hlg & Hgv & Hgn). destruct (Hgn q a Hq) as [H1 H2]. split; [lia|]. intros _. apply H2. intros (k & Hk & ->). destruct (Hnodes g (pre_mem g Hg)) as [Hlg' _]. destruct (lookup_lt_is_Some_2 (el_nodes g) k) as [b Hb]; [lia|].
                  apply (Hvert g k e i b (pre_mem g Hg) He_mem Hb Hi) in Hs as (k' & Hk' & ->). apply Hnv. exists k'. split; [by eapply vert_of|done].
               ++ split; [lia|]. intros _. lia.
        + intros f g i j a b Hf Hg Ha Hb. apply Hmem in Hf. apply Hmem in Hg. destruct Hf as [Hf| ->], Hg as [Hg| ->].
          * rewrite Hnuf in Ha, Hb by done. by apply HN2.
          * rewrite Hnuf in Ha by done. rewrite Hnue in Hb. split; [intros ->; apply Sym; by apply (Hev j b f i b Hf Hb Ha)|intros Hs; symmetry; apply (Hev j b f i a Hf Hb Ha); by apply Sym].
          * rewrite Hnuf in Hb by done. rewrite Hnue in Ha. by apply Hev.
          * rewrite Hnue in Ha, Hb. split; [intros ->; by eapply Hee|]. intros Hs. apply (Inj e i j He_mem) in Hs; [congruence|apply lookup_lt_Some in Ha; lia|apply lookup_lt_Some in Hb; lia].
        + intros a Ha. destruct (decide (a < N)) as [Hlt'|Hge].
          * destruct (HN3 a ltac:(lia)) as (f & i & Hf & Hi). exists f, i. split; [apply Hmem; by left|by rewrite Hnuf].
          * destruct (Ks a ltac:(lia)) as (i & _ & Hi). exists e, i. split; [apply Hmem; by right|by rewrite Hnue].
      - by rewrite insert_length.
      - intros i Hi. rewrite map_app. destruct (decide (i = el_id e)) as [->|Hne].
        + rewrite list_lookup_insert by lia. f_equal. symmetry. apply bool_decide_eq_true. apply elem_of_app. right. left.
        + rewrite list_lookup_insert_ne by done. rewrite Hc by done. f_equal. apply bool_decide_ext. rewrite elem_of_app. cbn. rewrite elem_of_list_singleton. naive_solver.
    Qed.
  End element.
  Lemma nested {S} (g : nat -> el -> S -> res S) l (s : S) :
    for_each (fun (d : nat * domain V) s => for_each (g d.1) (concat (d_els d.2)) s) l s = for_each (fun (de : nat * el) => g de.1 de.2) (pairs l) s.
  Proof.
    revert s. induction l as [|d l IH]; intros s; [done|]. unfold pairs. cbn [for_each map concat]. rewrite for_each_app.
    assert (E : forall v s, for_each (g d.1) v s = for_each (fun de : nat * el => g de.1 de.2) (map (pair d.1) v) s).
    { induction v as [|e v IHv]; intros s'; [done|]. cbn [for_each map fst snd]. destruct (g d.1 e s'); [apply IHv|done|done]. }
    rewrite <- E. destruct (for_each (g d.1) (concat (d_els d.2)) s) as [a| |]; [|done|done]. rewrite !bind_ok. apply IH.
  Qed.
  Lemma init_built : init_domains OC m = built OC m [] (fun _ => []).
  Proof. done. Qed.
  Lemma domains_ok : exists st, convert_domains near loc OC m adj (init_domains OC m, n0, replicate nE false) = Ok st /\ conv_inv (pairs m) st.
  Proof using All.
    unfold convert_domains. rewrite nested.
    destruct (for_each_inv (fun (de : nat * el) => convert_element near loc OC m adj de.1 de.2) conv_inv (pairs m) [] (init_domains OC m, n0, replicate nE false)) as (st & E & H).
    - exists (fun _ => []). cbn [fst snd]. split; [done|]. split; [|split; [by rewrite replicate_length|]].
      + split; [done|]. split; [intros e He; by apply elem_of_nil in He|]. split; [intros e f i j a b He; by apply elem_of_nil in He|lia].
      + intros i Hi. rewrite lookup_replicate_2 by done. done.
    - intros pre [dom e] st (post & Hp) (nu & H1 & H2 & H3 & H4). cbn [app] in Hp. cbn [fst snd]. by apply (element_ok pre dom e post Hp nu st.1.2 H2 st).
    - exists st. split; [exact E|exact H].
  Qed.
End numbering.

Lemma pick_all {V} (l : dmap (domain V)) (k : nat) (t : etype) : NoDup l.*1 -> Forall (fun p => typed_domain [1] p.2) l ->
  pick (pairs l) k t = match dm_find k l with Some d => match d_els d !! slot_of t with Some v => v | None => [] end | None => [] end.
Proof.
  induction l as [|[k' d'] l IH]; intros Hn Hl; [done|]. cbn [fmap list_fmap] in Hn. apply NoDup_cons in Hn as [Hk' Hn]. apply Forall_cons in Hl as [Hd Hl]. cbn in Hd. specialize (IH Hn Hl).
    change (pairs ((k', d') :: l)) with (map (pair k') (concat (d_els d')) ++ pairs l). rewrite pick_app, IH. cbn [dm_find].
    assert (Hp : forall v : list (element V), pick (map (pair k') v) k t = if k =? k' then List.filter (fun e => bool_decide (el_type e = t)) v else []).
    { clear. induction v as [|e v IH]; [by destruct (k =? k')|]. unfold pick in *. cbn [map List.filter fst snd]. destruct (Nat.eqb_spec k k') as [->|Hne].
      - destruct (bool_decide_reflect (k' = k' /\ el_type e = t)) as [[_ E]|E], (bool_decide_reflect (el_type e = t)); cbn [map snd]; try (by rewrite IH); exfalso; tauto.
      - rewrite bool_decide_eq_false_2 by (intros [? _]; done). exact IH. }
    rewrite Hp. destruct (Nat.eqb_spec k k') as [->|Hne]; [|done].
    assert (dm_find k' l = None) as -> by (by apply dm_find_none). rewrite app_nil_r.
    unfold typed_domain in Hd. rewrite slots1 in Hd. destruct (d_els d') as [|v0 [|v1 [|v2 [|? ?]]]]; try (by inversion Hd; simplify_eq; repeat match goal with H : Forall2 _ _ _ |- _ => inversion H; clear H; simplify_eq end).
    rewrite !Forall2_cons in Hd. destruct Hd as (F0 & F1 & F2 & _). cbn [concat]. rewrite app_nil_r, !List.filter_app.
    assert (Hall : forall v t', Forall (fun e : element V => (el_type e, el_order e) = (t', 1) /\ typed_el e) v -> List.filter (fun e => bool_decide (el_type e = t)) v = if decide (t' = t) then v else []).
    { clear. intros v t' H. induction H as [|e v [E _] H IH]; [by case_decide|]. cbn [List.filter]. injection E as E _. rewrite IH. destruct (bool_decide_reflect (el_type e = t)); case_decide; try congruence; done. }
    rewrite (Hall _ _ F0), (Hall _ _ F1), (Hall _ _ F2). destruct t; repeat case_decide; try congruence; cbn; by rewrite ?app_nil_r.
Qed.
(** The domains built from all elements are the old ones with every element converted. *)
Lemma built_all {V} (OC : nat) (m : dmap (domain V)) (nu : nat -> list nat) : StronglySorted lt m.*1 -> Forall (fun p => typed_domain [1] p.2) m ->
  built OC m (pairs m) nu = map (fun d : nat * domain V => (d.1, mk_dom (map (map (conv OC nu)) (d_els d.2)) (d_dim d.2))) m.
Proof.
  intros Hs Ht. unfold built. apply map_ext_in. intros [k d] Hk. apply elem_of_list_In in Hk. cbn [fst snd]. f_equal. f_equal.
  pose proof (fun l t => @pick_all V l k t) as Hpick.
  assert (Hd : dm_find k m = Some d) by (by apply dm_find_iff). rewrite slots1. cbn [map fst]. rewrite !Hpick, Hd by (try apply strict_nodup; done).
  rewrite Forall_forall in Ht. specialize (Ht _ Hk). cbn in Ht. unfold typed_domain in Ht. rewrite slots1 in Ht.
  destruct (d_els d) as [|v0 [|v1 [|v2 [|? ?]]]]; try (by inversion Ht; simplify_eq; repeat match goal with H : Forall2 _ _ _ |- _ => inversion H; clear H; simplify_eq end).
Qed.
