(** C75: additions to columns and their exchange. *)
From Verif Require Import Base StdAlgo Elem_proofs Dofs_model Ownership_spec Ownership_proofs ImportExport_spec NodeVals_model NodeVals_spec NodeVals_proofs NodeVals_props Exch_proofs LocalBC_model LocalBC_proofs Cond_spec Cond3_proofs MatFree_model MatFree_spec.

Section cells.
  Context {F : Type} (zero one : F) (add mul sub : F -> F -> F) (opp : F -> F) (Rth : ring_theory zero one add mul sub opp eq).
  Add Ring Fring : Rth.
  Notation fsum := (fsum zero add).
  Notation Sig := (Cond_spec.Sig zero add).
  Lemma A0 x : add zero x = x. Proof using Rth. ring. Qed.
  Lemma AC x y : add x y = add y x. Proof using Rth. ring. Qed.
  Lemma AA x y z : add x (add y z) = add (add x y) z. Proof using Rth. ring. Qed.
  (** The additions to entry [l] of column [r]; those to column [r]. *)
  Definition at_cell (l r : nat) (cells : list (nat * nat * F)) : list F := map snd (List.filter (fun x => (x.1.1 =? l) && (x.1.2 =? r)) cells).
  Definition col_cells (r : nat) (cells : list (nat * nat * F)) : list (nat * F) := map (fun x => (x.1.1, x.2)) (List.filter (fun x => x.1.2 =? r) cells).
  Lemma col_at r l cells : values_at (col_cells r cells) l = at_cell l r cells.
  Proof using.
    unfold values_at, col_cells, at_cell. induction cells as [|[[d r'] v] cells IH]; [done|]. cbn [List.filter fst snd]. destruct (r' =? r); [|rewrite andb_false_r; done]. cbn [map List.filter fst snd]. rewrite andb_true_r. destruct (d =? l); cbn [map snd]; by rewrite IH.
  Qed.
  Lemma col_cells_app r a b : col_cells r (a ++ b) = col_cells r a ++ col_cells r b.
  Proof using. unfold col_cells. by rewrite List.filter_app, map_app. Qed.
  Lemma at_cell_app l r a b : at_cell l r (a ++ b) = at_cell l r a ++ at_cell l r b.
  Proof using. unfold at_cell. by rewrite List.filter_app, map_app. Qed.
  Lemma filter_perm {A} (p : A -> bool) l l' : l ≡ₚ l' -> List.filter p l ≡ₚ List.filter p l'.
  Proof using. induction 1 as [|x l l' _ IH|x y l|l l' l'' _ IH1 _ IH2]; cbn [List.filter]; [done|destruct (p x); [by constructor|done]|destruct (p x), (p y); try done; by constructor|by etransitivity]. Qed.
  Lemma at_cell_perm l r a b : a ≡ₚ b -> fsum (at_cell l r a) = fsum (at_cell l r b).
  Proof using Rth. intros H. apply (fsum_perm zero add AC AA). unfold at_cell. by apply Permutation_map, filter_perm. Qed.
  Lemma at_cell_none l r a : (forall x, x ∈ a -> x.1.1 <> l) -> at_cell l r a = [].
  Proof using.
    intros H. unfold at_cell. induction a as [|x a IH]; [done|]. cbn [List.filter]. rewrite (proj2 (Nat.eqb_neq x.1.1 l)) by (apply H; left). cbn [andb]. apply IH. intros y Hy. apply H. by right.
  Qed.

  Lemma adds_cells c s cells : forall st, (forall col, col ∈ st -> shape c s col) -> (forall x, x ∈ cells -> x.1.1 < c + s /\ x.1.2 < length st) ->
    exists st', for_each (add_cell add c) cells st = Ok st' /\ length st' = length st /\ (forall col, col ∈ st' -> shape c s col) /\
      forall r col, st !! r = Some col -> exists col', st' !! r = Some col' /\ forall l, get c col' l = (fun v => add v (fsum (at_cell l r cells))) <$> get c col l.
  Proof using Rth.
    induction cells as [|[[d r0] v] cells IH]; intros st Hs Hx; cbn [for_each].
    - exists st. split; [done|]. split; [done|]. split; [done|]. intros r col Hr. exists col. split; [done|]. intros l. destruct (get c col l); [|done]. cbn. f_equal. unfold at_cell. cbn. ring.
    - destruct (Hx (d, r0, v) (elem_of_list_here _ _)) as [Hd Hr0]. cbn [fst snd] in Hd, Hr0. destruct (lookup_lt_is_Some_2 st r0 Hr0) as [col0 Hc0].
      destruct (access_ok c s (fun w => add w v) d col0 (Hs col0 ltac:(by eapply elem_of_list_lookup_2)) Hd) as (col1 & E1 & Hs1 & H1). assert (E0 : add_cell add c (d, r0, v) st = Ok (<[r0:=col1]> st)) by (unfold add_cell; cbn [fst snd]; rewrite (rd_ok _ _ _ Hc0), bind_ok, E1, bind_ok; by apply wr_ok). rewrite E0, bind_ok.
      destruct (IH (<[r0:=col1]> st)) as (st' & E & L & Hs' & H).
      { intros col Hcol. apply elem_of_list_lookup in Hcol as [i Hi]. destruct (decide (i = r0)) as [-> |Hne]; [rewrite list_lookup_insert in Hi by done; congruence|]. rewrite list_lookup_insert_ne in Hi by done. apply Hs. by eapply elem_of_list_lookup_2. }
      { intros x Hin. rewrite insert_length. apply Hx. by right. }
      rewrite insert_length in L. exists st'. split; [done|]. split; [done|]. split; [done|]. intros r col Hr. unfold at_cell. cbn [List.filter fst snd]. destruct (decide (r = r0)) as [-> |Hne].
      + assert (col = col0) as -> by congruence. destruct (H r0 col1) as (col' & Hc' & Hg); [by rewrite list_lookup_insert|]. exists col'. split; [done|]. intros l. rewrite Hg, H1, Nat.eqb_refl. destruct (decide (l = d)) as [-> |Hl].
        * rewrite Nat.eqb_refl. cbn [andb map snd]. rewrite fsum_cons. destruct (get c col0 d); [|done]. cbn. f_equal. unfold at_cell. ring.
        * rewrite (proj2 (Nat.eqb_neq d l)) by done. cbn [andb]. done.
      + destruct (H r col) as (col' & Hc' & Hg); [by rewrite list_lookup_insert_ne|]. exists col'. split; [done|]. intros l. rewrite Hg. rewrite (proj2 (Nat.eqb_neq r0 r)) by done. rewrite andb_false_r. done.
  Qed.

  (** What is sent is the border part; what is held is everything. *)
  Lemma phases_ok c s nc pre post cb rest (y : list (list F)) (e : F) :
    pre ++ post ≡ₚ cb ++ rest -> (forall x, x ∈ post -> x.1.1 < c) -> (forall x, x ∈ rest -> x.1.1 < c) -> (forall x, x ∈ cb -> x.1.1 < c + s) -> (forall x, x ∈ cb ++ rest -> x.1.2 < nc) ->
    length y = nc -> (forall col, col ∈ y -> length col = c) ->
    exists out, two_phases add c pre post (map (fun col => (col, replicate s zero)) y) = Ok out /\ length out.1 = nc /\ length out.2 = nc /\
      forall r col, y !! r = Some col -> exists sent own, out.1 !! r = Some sent /\ out.2 !! r = Some own /\ length sent = s /\ length own = c /\
        (forall j, j < s -> sent !! j = Some (fsum (at_cell (c + j) r (cb ++ rest)))) /\
        (forall l v, col !! l = Some v -> own !! l = Some (add v (fsum (at_cell l r (cb ++ rest))))).
  Proof using Rth.
    intros HP Hpost Hrest Hcb Hr Ly Hy.
    assert (Hall : forall x, x ∈ pre ++ post -> x.1.1 < c + s /\ x.1.2 < nc).
    { intros x Hx. rewrite HP in Hx. split; [|by apply Hr]. apply elem_of_app in Hx as [Hx|Hx]; [by apply Hcb|]. pose proof (Hrest x Hx). lia. }
    unfold two_phases. destruct (adds_cells c s pre (map (fun col => (col, replicate s zero)) y)) as (st1 & E1 & L1 & S1 & H1).
    { intros col Hcol. apply elem_of_list_In, in_map_iff in Hcol as (y0 & <- & Hin%elem_of_list_In). split; cbn [fst snd]; [by apply Hy|apply replicate_length]. }
    { intros x Hx. rewrite map_length, Ly. apply Hall. apply elem_of_app. by left. }
    rewrite E1, bind_ok. rewrite map_length, Ly in L1. destruct (adds_cells c s post st1 S1) as (st2 & E2 & L2 & S2 & H2).
    { intros x Hx. rewrite L1. apply Hall. apply elem_of_app. by right. }
    rewrite E2, bind_ok. eexists. split; [reflexivity|]. cbn [fst snd]. split; [by rewrite map_length|]. split; [rewrite map_length; lia|]. intros r col Hcol.
    destruct (H1 r (col, replicate s zero)) as (c1 & Hc1 & G1); [by rewrite map_lookup, Hcol|]. destruct (H2 r c1 Hc1) as (c2 & Hc2 & G2).
    destruct (S1 c1) as [Sa Sb]; [by eapply elem_of_list_lookup_2|]. destruct (S2 c2) as [Sc Sd]; [by eapply elem_of_list_lookup_2|].
    exists c1.2, c2.1. split; [by rewrite map_lookup, Hc1|]. split; [by rewrite map_lookup, Hc2|]. split; [done|]. split; [done|]. split.
    - intros j Hj. specialize (G1 (c + j)). unfold get in G1. rewrite (proj2 (Nat.ltb_ge (c + j) c)) in G1 by lia. replace (c + j - c) with j in G1 by lia. cbn [fst snd] in G1. rewrite lookup_replicate_2 in G1 by done. cbn in G1. rewrite G1. f_equal. rewrite A0, <- (at_cell_perm (c + j) r _ _ HP), at_cell_app.
      rewrite (at_cell_none (c + j) r post); [by rewrite app_nil_r|]. intros x Hx. pose proof (Hpost x Hx). lia.
    - intros l v Hl. specialize (G2 l). specialize (G1 l). unfold get in G1, G2. pose proof (lookup_lt_Some _ _ _ Hl) as Hlt. rewrite (Hy col) in Hlt by (by eapply elem_of_list_lookup_2). rewrite (proj2 (Nat.ltb_lt l c) Hlt) in G1, G2. cbn [fst] in G1. rewrite G2, G1, Hl. cbn. f_equal. rewrite <- (at_cell_perm l r _ _ HP), at_cell_app, (fsum_app zero add A0 AA). ring.
  Qed.
End cells.

Section exchange.
  Context {F : Type} (zero one : F) (add mul sub : F -> F -> F) (opp : F -> F) (Rth : ring_theory zero one add mul sub opp eq).
  Add Ring Fring' : Rth.
  Notation fsum := (fsum zero add).
  Notation Sig := (Cond_spec.Sig zero add).
  Context (counts : list nat) (shareds : list (list nat)) (HT : tables counts shareds).
  Lemma fsum_Sig {A} (f : A -> F) l : fsum (map f l) = Sig l f.
  Proof using. induction l as [|a l IH]; [done|]. cbn [map]. rewrite fsum_cons, IH. done. Qed.
  (** The new columns: the old ones plus all additions. *)
  Lemma exchange_ok nc (outs : list (list (list F) * list (list F))) (news : list (list (list F))) (cells : nat -> list (nat * nat * F)) (Y : nat -> nat -> F) :
    length outs = length counts ->
    (forall b c sh out, counts !! b = Some c -> shareds !! b = Some sh -> outs !! b = Some out -> length out.1 = nc /\ length out.2 = nc /\
       forall r, r < nc -> exists sent own, out.1 !! r = Some sent /\ out.2 !! r = Some own /\ length own = c /\
        (forall j, j < length sh -> sent !! j = Some (fsum (at_cell (c + j) r (cells b)))) /\
        (forall g, owns counts b g -> own !! (g - first_owned counts b) = Some (add (Y g r) (fsum (at_cell (g - first_owned counts b) r (cells b)))))) ->
    all_exported add counts shareds nc outs news ->
    holds counts nc (fun g r => add (Y g r) (Sig (seq 0 (length counts)) (fun b => match local_of counts shareds b g with Some l => fsum (at_cell l r (cells b)) | None => zero end))) news.
  Proof using Rth HT.
    intros Lo Hout [Ln He]. split; [done|]. intros b c x Hc Hx. pose proof (lookup_lt_Some _ _ _ Hc) as Hb. destruct (lookup_lt_is_Some_2 outs b ltac:(lia)) as [out Hob]. destruct (He b out x Hob Hx) as [Lx Hcols]. split; [done|]. intros r col Hr.
    pose proof (lookup_lt_Some _ _ _ Hr) as Hrn. rewrite Lx in Hrn. destruct HT as [HL _]. destruct (lookup_lt_is_Some_2 shareds b ltac:(lia)) as [sh Hsh]. destruct (Hout b c sh out Hc Hsh Hob) as (L1 & L2 & Hr'). destruct (Hr' r Hrn) as (sent & own & Hs & Hw & Lw & H1 & H2). pose proof (Hcols r own col Hw Hr) as Hex.
    split; [destruct Hex as [-> _]; done|]. intros g Hg.
    set (ins := map (fun b => {| ri_border := col_cells r (cells b); ri_interior := [] |} : rank_in F) (seq 0 (length counts))).
    assert (Hins : length ins = length counts) by (unfold ins; by rewrite map_length, seq_length).
    assert (Hinb : forall b' ir, ins !! b' = Some ir -> ir = {| ri_border := col_cells r (cells b'); ri_interior := [] |}).
    { intros b' ir Hi. unfold ins in Hi. rewrite map_lookup in Hi. destruct (seq 0 (length counts) !! b') as [b''|] eqn:Eb; [|done]. apply lookup_seq in Eb as [-> _]. cbn in Hi. congruence. }
    rewrite (export_total zero add (A0 zero one add mul sub opp Rth) (AC zero one add mul sub opp Rth) (AA zero one add mul sub opp Rth) counts shareds ins HT Hins (column r (map fst outs)) b g own col (Y g r)); [| |done|done|].
    - f_equal. f_equal. unfold contributed. rewrite (fsum_concat zero add (A0 zero one add mul sub opp Rth) (AA zero one add mul sub opp Rth)), map_map, fsum_Sig. apply Sig_ext. intros b' Hb'. apply elem_of_seq in Hb'. destruct (lookup_lt_is_Some_2 ins b' ltac:(lia)) as [ir Hir]. rewrite Hir, (Hinb _ _ Hir). destruct (local_of counts shareds b' g) as [l|]; [|done]. cbn [ri_border ri_interior]. by rewrite app_nil_r, col_at.
    - intros b' c' sh' ir Hc' Hsh' Hir. rewrite (Hinb _ _ Hir). cbn [ri_border ri_interior]. rewrite app_nil_r. pose proof (lookup_lt_Some _ _ _ Hc') as Hb'. destruct (lookup_lt_is_Some_2 outs b' ltac:(lia)) as [out' Hob']. destruct (Hout b' c' sh' out' Hc' Hsh' Hob') as (_ & _ & Hr2). destruct (Hr2 r Hrn) as (sent' & own' & Hs' & _ & _ & H1' & _).
      exists sent'. split.
      + unfold column. rewrite map_map, map_lookup, Hob'. cbn [fmap option_fmap option_map]. f_equal. by apply nth_lookup_Some.
      + intros j Hj. rewrite col_at. by apply H1'.
    - rewrite (H2 g Hg). f_equal. f_equal. unfold made. destruct (lookup_lt_is_Some_2 ins b ltac:(lia)) as [ir Hir]. rewrite Hir, (Hinb _ _ Hir), (local_owned counts shareds HT b g Hg). cbn [ri_border ri_interior]. by rewrite app_nil_r, col_at.
  Qed.
End exchange.
