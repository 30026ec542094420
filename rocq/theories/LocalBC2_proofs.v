(** C74: normalisation and the exchange of the flags. *)
From Verif Require Import Base StdAlgo Elem_model Elem_spec Elem_proofs LocalView_model Dofs_model Dofs_proofs Ownership_spec Ownership_proofs ImportExport_spec NodeVals_model NodeVals_spec NodeVals_proofs NodeVals_props Exch_proofs LocalBC_model LocalBC_spec LocalBC_proofs.

Lemma my_norm_ok D inds rows : forall cur, length cur = length inds -> (forall row, row ∈ rows -> length row = D) -> (forall j, j ∈ inds -> j < D) ->
  exists cur', for_each (fun dofs cur => ex ← map_res (rd dofs) inds; Ok (zip_with min_dof cur ex)) rows cur = Ok cur' /\ length cur' = length inds /\
    forall k j, inds !! k = Some j -> exists o o', cur !! k = Some o /\ cur' !! k = Some o' /\
      (forall l, o' = Some l -> o = Some l \/ exists row, row ∈ rows /\ row !! j = Some (Some l)) /\
      (o' = None -> forall row l, row ∈ rows -> row !! j <> Some (Some l)) /\ (o <> None -> o' <> None).
Proof.
  induction rows as [|row rows IH]; intros cur Lc Hrow Hj; cbn [for_each].
  - exists cur. split; [done|]. split; [done|]. intros k j Hk. destruct (lookup_lt_is_Some_2 cur k) as [o Ho]; [rewrite Lc; by eapply lookup_lt_Some|]. exists o, o. split; [done|]. split; [done|]. split; [by left|]. split; [|done]. intros _ row l Hr. by apply elem_of_nil in Hr.
  - destruct (map_res_each (rd row) (fun j o => row !! j = Some o) inds) as (ex & Ee & HF).
    { intros j Hin. destruct (lookup_lt_is_Some_2 row j) as [o Ho]; [rewrite (Hrow row) by left; by apply Hj|]. exists o. split; [by apply rd_ok|done]. }
    rewrite Ee, !bind_ok. pose proof (Forall2_length _ _ _ HF) as Lx. destruct (IH (zip_with min_dof cur ex)) as (cur' & E & L & H); [rewrite zip_with_length; lia|intros r Hr; apply Hrow; by right|done|]. rewrite E. exists cur'. split; [done|]. split; [done|].
    intros k j Hk. destruct (H k j Hk) as (o1 & o' & H1 & H2 & H3 & H4 & H5). destruct (lookup_lt_is_Some_2 cur k) as [o Ho]; [rewrite Lc; by eapply lookup_lt_Some|]. exists o, o'. split; [done|]. split; [done|].
    destruct (Forall2_lookup_l _ _ _ _ _ HF Hk) as (e & He & Hre). rewrite lookup_zip_with, Ho, He in H1. cbn in H1. injection H1 as <-. split; [|split].
    + intros l El. destruct (H3 l El) as [Hm|(r & Hr & Hrj)]; [|right; exists r; split; [by right|done]]. unfold min_dof in Hm. destruct e as [e|], o as [oc|]; [|right; exists row; split; [left|congruence]|by left|by left].
      destruct (Nat.min_spec oc e) as [[_ Em]|[_ Em]]; rewrite Em in Hm; [left; congruence|right; exists row; split; [left|congruence]].
    + intros En r l Hr. apply elem_of_cons in Hr as [-> |Hr]; [|by apply H4]. rewrite Hre. intros [= ->]. apply H5; [|done]. unfold min_dof. by destruct o.
    + intros Hne. apply H5. unfold min_dof. destruct e, o; done.
Qed.

Lemma first_rank_some all k b : first_rank all k = Some b -> exists l d, all !! b = Some l /\ l !! k = Some (Some d).
Proof.
  unfold first_rank. intros H. assert (Hin : b ∈ List.filter (fun b => match all !! b with Some l => match l !! k with Some (Some _) => true | _ => false end | None => false end) (seq 0 (length all))).
  { destruct (List.filter _ _) as [|x xs]; [done|]. injection H as ->. left. }
  apply filter_In' in Hin as [_ Hb]. destruct (all !! b) as [l|]; [|done]. destruct (l !! k) as [[d|]|] eqn:El; [|discriminate Hb..]. by exists l, d.
Qed.
Lemma first_rank_none all k b l d : first_rank all k = None -> all !! b = Some l -> l !! k = Some (Some d) -> False.
Proof.
  unfold first_rank. intros H Hb Hl. assert (Hin : b ∈ List.filter (fun b => match all !! b with Some l => match l !! k with Some (Some _) => true | _ => false end | None => false end) (seq 0 (length all))).
  { apply filter_In'. split; [apply elem_of_seq; apply lookup_lt_Some in Hb; lia|]. by rewrite Hb, Hl. }
  destruct (List.filter _ _) as [|x xs]; [by apply elem_of_nil in Hin|done].
Qed.
Section norm.
  Context {V : Type} (D : nat) (def : bc_def) (ranks : list (bc_rank V)).
  Context (Hrows : forall r row, r ∈ ranks -> row ∈ ld_map (br_map r) -> length row = D) (Hj : forall j, j ∈ bd_norm def -> j < D).
  Lemma normalization_ok : (forall j, j ∈ bd_norm def -> found ranks j) ->
    exists norms choice, normalization def ranks = Ok norms /\ length norms = length ranks /\
      (forall k j, bd_norm def !! k = Some j -> exists b r n l, choice k = (b, l) /\ ranks !! b = Some r /\ unknown_of (br_map r) n j l) /\
      (forall b l, (exists ls, norms !! b = Some ls /\ l ∈ ls) <-> exists k, k < length (bd_norm def) /\ choice k = (b, l)).
  Proof using Hrows Hj.
    intros Hf. unfold normalization. destruct (decide (bd_norm def = [])) as [En|Hne].
    - exists (map (fun _ => []) ranks), (fun _ => (0, 0)). split; [done|]. split; [by rewrite map_length|]. rewrite En. split; [intros k j Hk; by rewrite lookup_nil in Hk|]. intros b l. split.
      + intros (ls & Hls & Hl). rewrite map_lookup in Hls. destruct (ranks !! b); [|done]. injection Hls as <-. by apply elem_of_nil in Hl.
      + intros (k & Hk & _). cbn in Hk. lia.
    - destruct (map_res_each (fun r => my_norm_dofs (br_map r) (ld_owned (br_map r)) (bd_norm def)) (fun r l => length l = length (bd_norm def) /\ forall k j, bd_norm def !! k = Some j -> exists o, l !! k = Some o /\
        (forall d, o = Some d -> exists n, unknown_of (br_map r) n j d) /\ (forall n d, n < ld_owned (br_map r) -> unknown_of (br_map r) n j d -> o <> None)) ranks) as (all & Ea & HF).
      { intros r Hr. unfold my_norm_dofs. destruct (my_norm_ok D (bd_norm def) (take (ld_owned (br_map r)) (ld_map (br_map r))) (map (fun _ => None) (bd_norm def))) as (cur & E & L & H); [by rewrite map_length|intros row Hrow; apply (Hrows r); [done|by apply elem_of_take in Hrow as (i & Hi & _); eapply elem_of_list_lookup_2]|done|].
        exists cur. split; [done|]. split; [done|]. intros k j Hk. destruct (H k j Hk) as (o & o' & H1 & H2 & H3 & H4 & _). rewrite map_lookup, Hk in H1. injection H1 as <-. exists o'. split; [done|]. split.
        - intros d ->. destruct (H3 d eq_refl) as [?|(row & Hrow & Hd)]; [done|]. apply elem_of_take in Hrow as (i & Hi & _). exists i, row. done.
        - intros n d Hn (row & Hrow & Hd) ->. apply (H4 eq_refl row d); [|done]. apply elem_of_take. exists n. done. }
      rewrite Ea, bind_ok. pose proof (Forall2_length _ _ _ HF) as La.
      assert (Hfr : forall k j, bd_norm def !! k = Some j -> exists b r l d, first_rank all k = Some b /\ ranks !! b = Some r /\ all !! b = Some l /\ l !! k = Some (Some d) /\ exists n, unknown_of (br_map r) n j d).
      { intros k j Hk. destruct (first_rank all k) as [b|] eqn:Eb.
        - destruct (first_rank_some _ _ _ Eb) as (l & d & Hb & Hl). destruct (Forall2_lookup_r _ _ _ _ _ HF Hb) as (r & Hr & _ & H). destruct (H k j Hk) as (o & Ho & Hs & _). assert (o = Some d) as -> by congruence. exists b, r, l, d. repeat split; try done. by apply Hs.
        - exfalso. destruct (Hf j) as (r & n & l & Hr & Hn & Hu); [by eapply elem_of_list_lookup_2|]. apply elem_of_list_lookup in Hr as [b Hb]. destruct (Forall2_lookup_l _ _ _ _ _ HF Hb) as (lb & Hlb & _ & H). destruct (H k j Hk) as (o & Ho & _ & Hs). destruct o as [d|]; [|by eapply Hs]. by eapply first_rank_none. }
      set (choice := fun k => match first_rank all k with Some b => (b, match all !! b with Some l => match l !! k with Some (Some d) => d | _ => 0 end | None => 0 end) | None => (0, 0) end).
      destruct (map_res_each (pick_norm_dofs all (length (bd_norm def))) (fun b ls => forall l, l ∈ ls <-> exists k, k < length (bd_norm def) /\ choice k = (b, l)) (seq 0 (length ranks))) as (norms & Eno & HN).
      { intros b Hb. apply elem_of_seq in Hb. unfold pick_norm_dofs. replace (forallb _ _) with true; [|symmetry; apply forallb_forall; intros k Hk%elem_of_list_In%elem_of_seq; destruct (lookup_lt_is_Some_2 (bd_norm def) k ltac:(lia)) as [j Hkj]; destruct (Hfr k j Hkj) as (b' & _ & _ & _ & -> & _); done].
        cbn [throwing_assert]. rewrite bind_ok. destruct (lookup_lt_is_Some_2 all b ltac:(lia)) as [mine Hm]. rewrite (rd_ok _ _ _ Hm), bind_ok. eexists. split; [done|]. intros l. rewrite somes_elem. rewrite elem_of_list_In, in_map_iff. split.
        - intros (k & E & Hk%elem_of_list_In%elem_of_seq). exists k. split; [lia|]. unfold choice. destruct (first_rank all k) as [b'|] eqn:Eb; [|done]. destruct (Nat.eqb_spec b' b) as [-> |]; [|done]. rewrite Hm. destruct (mine !! k) as [[d|]|]; [congruence|done..].
        - intros (k & Hk & Hc). exists k. split; [|apply elem_of_list_In, elem_of_seq; lia]. unfold choice in Hc. destruct (lookup_lt_is_Some_2 (bd_norm def) k Hk) as [j Hkj]. destruct (Hfr k j Hkj) as (b' & r & lb & d & E1 & _ & Hlb & Hd & _). rewrite E1, Hlb, Hd in Hc. injection Hc as -> ->. rewrite E1, Nat.eqb_refl. assert (lb = mine) as -> by congruence. by rewrite Hd. }
      rewrite Eno. exists norms, choice. split; [done|]. pose proof (Forall2_length _ _ _ HN) as Ln. rewrite seq_length in Ln. split; [done|]. split.
      + intros k j Hk. destruct (Hfr k j Hk) as (b & r & l & d & E1 & E2 & E3 & E4 & n & Hu). exists b, r, n, d. split; [unfold choice; by rewrite E1, E3, E4|]. by split.
      + intros b l. split.
        * intros (ls & Hls & Hl). destruct (Forall2_lookup_r _ _ _ _ _ HN Hls) as (b' & Hb' & H). apply lookup_seq in Hb' as [-> _]. by apply H.
        * intros H. assert (Hb : b < length ranks). { destruct H as (k & Hk & Hc). destruct (lookup_lt_is_Some_2 (bd_norm def) k Hk) as [j Hkj]. destruct (Hfr k j Hkj) as (b' & r & lb & d & E1 & E2 & E3 & E4 & _). unfold choice in Hc. rewrite E1, E3, E4 in Hc. injection Hc as <- _. by eapply lookup_lt_Some. }
          destruct (Forall2_lookup_l _ _ _ b b HN) as (ls & Hls & Hiff); [by rewrite lookup_seq_lt|]. exists ls. split; [done|]. by apply Hiff.
  Qed.
End norm.

(** ** The exchange. *)
Lemma fsum_orb (l : list bool) : fsum false orb l = true <-> true ∈ l.
Proof.
  unfold fsum. induction l as [|b l IH]; cbn [foldr]; [split; [done|intros H; by apply elem_of_nil in H]|]. rewrite orb_true_iff, IH, elem_of_cons. naive_solver.
Qed.
Section flags.
  Context (counts : list nat) (shareds : list (list nat)) (HT : tables counts shareds) (phases : list (list bool * list bool)) (finals : list (list bool)) (mk : nat -> nat -> Prop).
  Context (HP : forall b c sh, counts !! b = Some c -> shareds !! b = Some sh -> exists ph, phases !! b = Some ph /\ length ph.1 = c + length sh /\ length ph.2 = c + length sh /\
    forall l, l < c + length sh -> exists v1 v2, ph.1 !! l = Some v1 /\ ph.2 !! l = Some v2 /\ (v2 = true <-> mk b l) /\ (c <= l -> v1 = v2)).
  Context (HE : flags_exchanged counts shareds phases finals) (Hph : length phases = length counts).
  Definition bool_ins : list (rank_in bool) := map (fun ph => {| ri_border := map (fun l => (l, true)) (true_inds ph.2); ri_interior := [] |}) phases.
  Lemma bool_value (ph : list bool * list bool) l v : ph.2 !! l = Some v -> fsum false orb (values_at (map (fun l => (l, true)) (true_inds ph.2) ++ []) l) = v.
  Proof using.
    intros Hl. rewrite app_nil_r. apply eq_bool_prop_intro. rewrite !Is_true_true, fsum_orb. unfold values_at. rewrite elem_of_list_In, in_map_iff. split.
    - intros ([l' t] & Ht & Hin). apply filter_In in Hin as [Hin Heq]. cbn in Heq. apply Nat.eqb_eq in Heq as ->. apply in_map_iff in Hin as (x & [= -> _] & Hx). apply elem_of_list_In, true_inds_elem in Hx. congruence.
    - intros ->. exists (l, true). split; [done|]. apply filter_In. split; [|apply Nat.eqb_refl]. apply in_map_iff. exists l. split; [done|]. by apply elem_of_list_In, true_inds_elem.
  Qed.
  Definition mk_global (g : nat) : Prop := exists b l, local_of counts shareds b g = Some l /\ mk b l.
  Lemma contributed_iff g : fsum false orb (contributed counts shareds bool_ins g) = true <-> mk_global g.
  Proof using HT HP Hph.
    rewrite fsum_orb. unfold contributed. rewrite elem_of_list_In, in_concat. setoid_rewrite in_map_iff. split.
    - intros (x & (b & <- & Hb) & Hx). apply elem_of_list_In in Hx. unfold bool_ins in Hx. rewrite map_lookup in Hx. destruct (phases !! b) as [ph|] eqn:Eph; [|by apply elem_of_nil in Hx]. cbn [fmap option_fmap option_map] in Hx. destruct (local_of counts shareds b g) as [l|] eqn:El; [|by apply elem_of_nil in Hx]. exists b, l. split; [done|].
      destruct (local_rank _ _ _ _ _ El) as (c & sh & Hc & Hsh). destruct (HP b c sh Hc Hsh) as (ph' & Eph' & L1 & L2 & H). assert (ph' = ph) as -> by congruence.
      assert (Hlt : l < c + length sh) by (destruct (local_cases counts shareds HT b c sh g l Hc Hsh El) as [(_ & _ & ?)|(_ & -> & ? & _)]; lia). destruct (H l Hlt) as (v1 & v2 & _ & H2 & H3 & _). apply H3. rewrite <- (bool_value ph l v2 H2). by apply fsum_orb.
    - intros (b & l & El & Hm). destruct (local_rank _ _ _ _ _ El) as (c & sh & Hc & Hsh). destruct (HP b c sh Hc Hsh) as (ph & Eph & L1 & L2 & H).
      assert (Hlt : l < c + length sh) by (destruct (local_cases counts shareds HT b c sh g l Hc Hsh El) as [(_ & _ & ?)|(_ & -> & ? & _)]; lia). destruct (H l Hlt) as (v1 & v2 & _ & H2 & H3 & _). apply H3 in Hm. subst v2.
      eexists. split; [exists b; split; [reflexivity|]; apply elem_of_list_In, elem_of_seq; apply lookup_lt_Some in Hc; lia|]. unfold bool_ins. rewrite map_lookup, Eph. cbn [fmap option_fmap option_map]. rewrite El. apply elem_of_list_In. apply fsum_orb. cbn [ri_border ri_interior]. by apply bool_value.
  Qed.
  Lemma final_flags b f : finals !! b = Some f -> flags_say counts shareds b mk_global f /\ (forall c sh, counts !! b = Some c -> shareds !! b = Some sh -> length f = c + length sh).
  Proof using HT HP HE Hph.
    intros Hf. destruct HE as (owneds & Lo & Lf & Hex). assert (Hb : b < length counts) by (apply lookup_lt_Some in Hf; lia).
    assert (Hinsl : length bool_ins = length counts) by (unfold bool_ins; by rewrite map_length).
    assert (Hown : forall a o g, owneds !! a = Some o -> owns counts a g -> o !! (g - first_owned counts a) = Some (fsum false orb (contributed counts shareds bool_ins g))).
    { intros a o g Hao Ho. pose proof (owns_lt _ _ _ Ho) as Ha. destruct (Ho) as (c & Hc & Hrange). destruct HT as [HL HS]. destruct (lookup_lt_is_Some_2 shareds a ltac:(lia)) as [sh Hsh]. destruct (HP a c sh Hc Hsh) as (ph & Eph & L1 & L2 & H). destruct (lookup_lt_is_Some_2 finals a ltac:(lia)) as [fa Hfa].
      destruct (Hex a c sh ph o fa Hc Hsh Eph Hao Hfa) as [He _].
      apply (export_total false orb orb_false_l orb_comm orb_assoc counts shareds bool_ins HT Hinsl (zip_with (fun ph c => drop c ph.1) phases counts) a g (take c ph.2) o false); [|done|done|].
      - intros b' c' sh' r' Hc' Hsh' Hr'. destruct (HP b' c' sh' Hc' Hsh') as (ph' & Eph' & L1' & L2' & H'). eexists. split; [rewrite lookup_zip_with, Eph'; cbn [mbind option_bind]; by rewrite Hc'|]. intros j Hj. rewrite lookup_drop. destruct (H' (c' + j) ltac:(lia)) as (v1 & v2 & H1 & H2 & _ & H4). rewrite H1, (H4 ltac:(lia)). f_equal.
        unfold bool_ins in Hr'. rewrite map_lookup, Eph' in Hr'. cbn in Hr'. injection Hr' as <-. symmetry. by apply bool_value.
      - rewrite lookup_take by lia. destruct (H (g - first_owned counts a) ltac:(lia)) as (v1 & v2 & _ & H2 & _). rewrite H2. f_equal. cbn [orb]. unfold made. unfold bool_ins. rewrite map_lookup, Eph. cbn [fmap option_fmap option_map]. rewrite (local_owned counts shareds HT a g Ho). cbn [ri_border ri_interior]. symmetry. by apply bool_value. }
    assert (Hlen : forall c sh, counts !! b = Some c -> shareds !! b = Some sh -> exists o s, owneds !! b = Some o /\ f = o ++ s /\ length o = c /\ length s = length sh /\ imported counts shareds owneds b s).
    { intros c sh Hc Hsh. destruct (HP b c sh Hc Hsh) as (ph & Eph & L1 & L2 & H). destruct (lookup_lt_is_Some_2 owneds b ltac:(lia)) as [o Hbo]. destruct (Hex b c sh ph o f Hc Hsh Eph Hbo Hf) as [(Lx & _) (s & -> & Ls & Hi)]. rewrite take_length in Lx. exists o, s. repeat split; try done. lia. }
    split.
    - intros g l El. destruct (local_rank _ _ _ _ _ El) as (c & sh & Hc & Hsh). destruct (Hlen c sh Hc Hsh) as (o & s & Hbo & -> & Lo' & Ls & Hi).
      exists (fsum false orb (contributed counts shareds bool_ins g)). split; [|apply contributed_iff].
      destruct (local_cases counts shareds HT b c sh g l Hc Hsh El) as [(Ho & -> & Hlt)|(Hg & -> & Hlt & a & Ha)].
      + rewrite lookup_app_l by lia. by apply Hown.
      + rewrite lookup_app_r by lia. replace (c + entry_of sh g - length o) with (entry_of sh g) by lia. pose proof (owns_lt _ _ _ Ha) as Hal. destruct (lookup_lt_is_Some_2 owneds a ltac:(lia)) as [oa Hoa]. rewrite (Hi sh g a oa Hsh Hg Ha Hoa). by apply Hown.
    - intros c sh Hc Hsh. destruct (Hlen c sh Hc Hsh) as (o & s & _ & -> & ? & ? & _). rewrite app_length. lia.
  Qed.
End flags.
