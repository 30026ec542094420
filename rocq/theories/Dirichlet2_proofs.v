(** C54: one rank, all ranks. *)
From Coq Require Import Ring_theory Ring.
From Verif Require Import Base StdAlgo Dirichlet_model Dirichlet_spec Merge_proofs Dirichlet_proofs.
Local Arguments Nat.add : simpl never.

Lemma zip_fst {A B} (l : list A) (k : list B) : length l = length k -> (zip l k).*1 = l.
Proof. intros H. apply fst_zip. lia. Qed.
Lemma zip_snd {A B} (l : list A) (k : list B) : length l = length k -> (zip l k).*2 = k.
Proof. intros H. apply snd_zip. lia. Qed.
Lemma zip_split {A B} (l : list (A * B)) : zip l.*1 l.*2 = l.
Proof. induction l as [|[a b] l IH]; [done|]. cbn. by rewrite IH. Qed.

Section ring.
  Context {F : Type} (zero one : F) (add mul sub : F -> F -> F) (opp : F -> F) (Rth : ring_theory zero one add mul sub opp eq).
  Add Ring Fring2 : Rth.
  Notation lin := (lin zero add mul).
  Definition related (n_rhs : nat) (bcv : nat -> nat -> F) (bc_rows bc_cols : list nat) (i : nat) (cv cv' : list (nat * F)) (b b' : list F) : Prop :=
    length b = n_rhs /\ length b' = n_rhs /\ NoDup cv.*1 /\ cv'.*1 = cv.*1 /\
    if binary_search bc_rows i then (forall c v, (c, v) ∈ cv' -> v = if decide (c = i) then one else zero) /\ b' = imap (fun k _ => bcv k i) b
    else cv' = blank zero (binary_search bc_cols) cv /\ b' = imap (fun k y => sub y (lin (List.filter (fun p => binary_search bc_cols p.1) cv) (bcv k))) b.
  Lemma part_ok fc junk bcv n_rhs (p : part F) bc_rows bc_cols :
    (forall l, fc l ≡ₚ l) -> (forall s, Forall2 (fun a o => length o = length a) s (junk s)) ->
    valid_part n_rhs p -> (forall i cv b, binary_search bc_rows i = true -> has_row p i cv b -> i ∈ cv.*1) ->
    exists p', impose zero one add mul sub fc junk bcv n_rhs n_rhs (p, (bc_rows, bc_cols)) = Ok p' /\ p_graph p' = p_graph p /\ valid_part n_rhs p' /\
      (forall i cv b, has_row p i cv b -> exists cv' b', has_row p' i cv' b' /\ related n_rhs bcv bc_rows bc_cols i cv cv' b b') /\
      (forall i cv' b', has_row p' i cv' b' -> exists cv b, has_row p i cv b /\ related n_rhs bcv bc_rows bc_cols i cv cv' b b').
  Proof using Rth.
    intros Hfc Hjunk [Hrow Hcol Hinds Hlen [Hrl Hrn]] Hdiag. destruct p as [g vals rhs]. cbn [p_graph p_vals p_rhs] in *.
    set (n := length (g_row g)) in *.
    assert (Hn : length (g_inds g) = n) by (unfold n; rewrite (Forall2_length _ _ _ Hinds), <- Hlen; done).
    assert (Hrow_in : forall r, indsr g r = [] \/ g_inds g !! r = Some (indsr g r)).
    { intros r. unfold indsr. destruct (g_inds g !! r) eqn:E; [by right|by left]. }
    assert (Hin : forall r l, l ∈ indsr g r -> l < length (g_col g)).
    { intros r l Hl. destruct (Hrow_in r) as [E|E]; [rewrite E in Hl; by apply elem_of_nil in Hl|]. destruct (Forall2_lookup_l _ _ _ _ _ Hinds E) as (vs & _ & _ & Hb & _). rewrite Forall_forall in Hb. by apply Hb. }
    assert (Hnd : forall r, NoDup (csr g r)).
    { intros r. unfold csr. destruct (Hrow_in r) as [E|E]; [rewrite E; constructor|]. destruct (Forall2_lookup_l _ _ _ _ _ Hinds E) as (vs & _ & Hni & _). apply (NoDup_fmap_2_strong (fun l => default 0 (g_col g !! l))); [|done].
      intros a b Ha Hb He. apply Hin in Ha, Hb. destruct (lookup_lt_is_Some_2 _ _ Ha) as [x Hx]. destruct (lookup_lt_is_Some_2 _ _ Hb) as [y Hy]. rewrite Hx, Hy in He. cbn in He. subst y. exact (NoDup_lookup _ _ _ _ Hcol Hx Hy). }
    assert (Hvl : forall r vs, vals !! r = Some vs -> length vs = length (indsr g r)).
    { intros r vs Hv. destruct (Forall2_lookup_r _ _ _ _ _ Hinds Hv) as (inds & Hi & _ & _ & E). unfold indsr. rewrite Hi. done. }
    assert (Hhas : forall (vals2 rhs2 : list (list F)) i cv b, (forall r vs, vals2 !! r = Some vs -> length vs = length (indsr g r)) -> has_row (mk_part g vals2 rhs2) i cv b <->
      exists r vs, r < n /\ rowi g r = i /\ vals2 !! r = Some vs /\ rhs2 !! r = Some b /\ cv = zip (csr g r) vs).
    { intros vals2 rhs2 i cv b Hvl2. unfold has_row. cbn [p_graph p_vals p_rhs]. split.
      - intros (r & inds & vs & Hr & Hi & Hv & Hb & HF & Ev). exists r, vs. split; [by eapply lookup_lt_Some|]. split; [unfold rowi; by rewrite Hr|]. split; [done|]. split; [done|].
        rewrite <- (zip_split cv), <- Ev. f_equal. unfold csr, indsr. rewrite Hi. change (default [] (Some inds)) with inds. clear - HF. induction HF as [|l c ls cs H HF IH]; [done|]. cbn. rewrite H. cbn. by f_equal.
      - intros (r & vs & Hr & Hi & Hv & Hb & ->). destruct (lookup_lt_is_Some_2 _ _ Hr) as [i' Hi']. assert (Hr2 : r < length (g_inds g)) by lia. destruct (lookup_lt_is_Some_2 _ _ Hr2) as [inds Hinds'].
        exists r, inds, vs. unfold rowi in Hi. rewrite Hi' in Hi. cbn in Hi. subst i'. split; [done|]. split; [done|]. split; [done|]. split; [done|].
        assert (El : length (csr g r) = length vs) by (unfold csr; rewrite map_length; symmetry; by apply Hvl2). rewrite zip_fst, zip_snd by done. split; [|done].
        unfold csr, indsr. rewrite Hinds'. change (default [] (Some inds)) with inds. assert (Hb2 : forall l, l ∈ inds -> l < length (g_col g)) by (intros l Hl; apply (Hin r); unfold indsr; by rewrite Hinds'). clear - Hb2.
        induction inds as [|l ls IH]; [constructor|]. cbn. constructor; [|apply IH; intros; apply Hb2; by right]. destruct (lookup_lt_is_Some_2 _ _ (Hb2 l ltac:(left))) as [c Hc]. by rewrite Hc. }
    unfold impose. cbn [fst snd p_graph p_vals p_rhs]. rewrite (make_ok fc Hfc g bc_rows bc_cols Hn Hin), bind_ok. set (d := the_dbc fc g bc_rows bc_cols). set (dold := junk (db_sub d)).
    unfold apply_dbc. fold n. rewrite Nat.eqb_refl. change (throwing_assert true) with (Ok tt). rewrite bind_ok.
    assert (Hone : forall r, r < n -> exists vs b vs' b', vals !! r = Some vs /\ rhs !! r = Some b /\
      apply_row zero one add mul sub g d bcv dold r vs b = Ok (vs', b') /\ length vs' = length vs /\ related n_rhs bcv bc_rows bc_cols (rowi g r) (zip (csr g r) vs) (zip (csr g r) vs') b b').
    { intros r Hr. assert (Hr1 : r < length vals) by lia. assert (Hr2 : r < length rhs) by lia. destruct (lookup_lt_is_Some_2 _ _ Hr1) as [vs Hvs]. destruct (lookup_lt_is_Some_2 _ _ Hr2) as [b Hb].
      assert (El : length (csr g r) = length vs) by (unfold csr; rewrite map_length; symmetry; by apply Hvl).
      destruct (apply_row_ok zero one add mul sub opp Rth fc Hfc g bc_rows bc_cols Hn Hin Hnd bcv dold (Hjunk _) r vs b Hr) as (vs' & b' & Ha & L1 & L2 & Hrel); [by apply Hvl| |].
      { intros Hi. rewrite <- (zip_fst (csr g r) vs) by done. apply (Hdiag _ _ b Hi). apply Hhas; [done|]. exists r, vs. done. }
      exists vs, b, vs', b'. split; [done|]. split; [done|]. split; [done|]. split; [done|]. rewrite Forall_forall in Hrn. assert (length b = n_rhs) by (apply Hrn; by eapply elem_of_list_lookup_2).
      split; [done|]. split; [lia|]. rewrite !zip_fst by lia. split; [apply Hnd|]. split; [done|]. exact Hrel. }
    assert (exists rows, map_res (fun r => v ← rd vals r; b ← rd rhs r; apply_row zero one add mul sub g d bcv dold r v b) (seq 0 n) = Ok rows /\ length rows = n /\
      forall r, r < n -> exists vs b vs' b', vals !! r = Some vs /\ rhs !! r = Some b /\ rows !! r = Some (vs', b') /\ length vs' = length vs /\ related n_rhs bcv bc_rows bc_cols (rowi g r) (zip (csr g r) vs) (zip (csr g r) vs') b b') as (rows & -> & Hrl2 & Hrows).
    { revert Hone. generalize n. clear. intros n Hone. induction n as [|n IH]; [exists []; split; [done|]; split; [done|]; intros r Hr; lia|]. destruct IH as (rows & Hrows & Hl & Hall); [intros r Hr; apply Hone; lia|].
      destruct (Hone n) as (vs & b & vs' & b' & Hv & Hb & Ha & L & Hrel); [lia|]. exists (rows ++ [(vs', b')]). split; [|split].
      - rewrite seq_S, Nat.add_0_l. clear - Hrows Hv Hb Ha. revert rows Hrows. induction (seq 0 n) as [|a l IH]; intros rows Hrows.
        + cbn in Hrows. injection Hrows as <-. cbn. rewrite (rd_ok _ _ _ Hv), bind_ok, (rd_ok _ _ _ Hb), bind_ok. cbn in Ha. rewrite Ha. done.
        + cbn [map_res app] in Hrows |- *. apply bind_inv in Hrows as (x & -> & Hrows). rewrite bind_ok. apply bind_inv in Hrows as (xs & Hxs & [= <-]). rewrite (IH _ Hxs), bind_ok. done.
      - rewrite app_length. cbn. lia.
      - intros r Hr. destruct (decide (r < n)) as [Hlt|Hge].
        + destruct (Hall r Hlt) as (? & ? & ? & ? & ? & ? & E & ? & ?). eexists _, _, _, _. split; [done|]. split; [done|]. split; [rewrite lookup_app_l by lia; exact E|]. done.
        + assert (r = n) as -> by lia. exists vs, b, vs', b'. split; [done|]. split; [done|]. split; [|done]. rewrite lookup_app_r, Hl, Nat.sub_diag by lia. done. }
    rewrite !bind_ok. cbn [fst snd]. eexists. split; [done|]. cbn [p_graph]. split; [done|].
    assert (Hf1 : forall r vs', rows.*1 !! r = Some vs' -> exists b', rows !! r = Some (vs', b')). { intros r vs' H. rewrite list_lookup_fmap in H. destruct (rows !! r) as [[? b']|]; [|done]. cbn in H. injection H as ->. by exists b'. }
    assert (Hf2 : forall r b', rows.*2 !! r = Some b' -> exists vs', rows !! r = Some (vs', b')). { intros r b' H. rewrite list_lookup_fmap in H. destruct (rows !! r) as [[vs' ?]|]; [|done]. cbn in H. injection H as ->. by exists vs'. }
    assert (Hvl' : forall r vs, rows.*1 !! r = Some vs -> length vs = length (indsr g r)).
    { intros r vs H. destruct (Hf1 _ _ H) as (b' & H'). assert (Hr : r < n) by (rewrite <- Hrl2; by eapply lookup_lt_Some). destruct (Hrows r Hr) as (vs0 & b0 & vs1 & b1 & Hv0 & _ & E & L & _). rewrite H' in E. injection E as -> ->. rewrite L. by apply Hvl. }
    split; [split; cbn [p_graph p_vals p_rhs]|split].
    - done.
    - done.
    - apply Forall2_same_length_lookup_2; [by rewrite fmap_length, Hrl2|]. intros r inds vs' Hi Hv'. destruct (Hf1 _ _ Hv') as (b' & H'). assert (Hr : r < n) by (rewrite <- Hrl2; by eapply lookup_lt_Some).
      destruct (Forall2_lookup_l _ _ _ _ _ Hinds Hi) as (vs & _ & H1 & H2 & _). split; [done|]. split; [done|]. rewrite (Hvl' _ _ Hv'). unfold indsr. by rewrite Hi.
    - by rewrite fmap_length.
    - split; [by rewrite !fmap_length|]. apply Forall_forall. intros b' Hb'. apply elem_of_list_lookup in Hb' as [r Hb']. destruct (Hf2 _ _ Hb') as (vs' & H'). assert (Hr : r < n) by (rewrite <- Hrl2; by eapply lookup_lt_Some).
      destruct (Hrows r Hr) as (vs0 & b0 & vs1 & b1 & _ & _ & E & _ & _ & HL & _). rewrite H' in E. by injection E as -> ->.
    - intros i cv b H. apply Hhas in H as (r & vs & Hr & <- & Hv & Hb & ->); [|done]. destruct (Hrows r Hr) as (vs0 & b0 & vs1 & b1 & Hv0 & Hb0 & E & L & Hrel). rewrite Hv in Hv0. injection Hv0 as <-. rewrite Hb in Hb0. injection Hb0 as <-.
      exists (zip (csr g r) vs1), b1. split; [|done]. apply Hhas; [done|]. exists r, vs1. rewrite !list_lookup_fmap, E. done.
    - intros i cv' b' H. apply Hhas in H as (r & vs' & Hr & <- & Hv' & Hb' & ->); [|done]. destruct (Hrows r Hr) as (vs0 & b0 & vs1 & b1 & Hv0 & Hb0 & E & L & Hrel). rewrite list_lookup_fmap, E in Hv', Hb'. injection Hv' as <-. injection Hb' as <-.
      exists (zip (csr g r) vs0), b0. split; [|done]. apply Hhas; [done|]. by exists r, vs0.
  Qed.

  Lemma has_row_in p i cv b : has_row (F := F) p i cv b -> i ∈ g_row (p_graph p) /\ forall c, c ∈ cv.*1 -> c ∈ g_col (p_graph p).
  Proof using Type.
    intros (r & inds & vs & Hr & _ & _ & _ & HF & _). split; [by eapply elem_of_list_lookup_2|]. intros c Hc. apply elem_of_list_lookup in Hc as [k Hk]. destruct (Forall2_lookup_r _ _ _ _ _ HF Hk) as (l & _ & Hl). by eapply elem_of_list_lookup_2.
  Qed.
  Theorem impose_ok fc junk bcv n_rhs (C : nat -> Prop) (ranks : list (part F * (list nat * list nat))) :
    (forall l, fc l ≡ₚ l) -> (forall s, Forall2 (fun a o => length o = length a) s (junk s)) ->
    (forall p rows cols, (p, (rows, cols)) ∈ ranks -> valid_part n_rhs p /\ knows C p rows cols /\ has_diag C p) ->
    (forall p j, p ∈ ranks.*1 -> j ∈ g_col (p_graph p) -> C j -> is_row ranks.*1 j) ->
    exists ps, map_res (impose zero one add mul sub fc junk bcv n_rhs n_rhs) ranks = Ok ps /\
      (forall k x, k < n_rhs -> solves zero add mul ps k x <->
         (forall i, C i -> is_row ranks.*1 i -> x i = bcv k i) /\
         (forall p i cv b, p ∈ ranks.*1 -> has_row p i cv b -> ~ C i -> sat zero add mul cv b k x)) /\
      (symmetric zero ranks.*1 -> symmetric zero ps) /\
      Forall2 (fun p p' => p_graph p' = p_graph p /\ valid_part n_rhs p') ranks.*1 ps.
  Proof using Rth.
    intros Hfc Hjunk Hval Hcover.
    assert (Hstep : forall p rows cols, (p, (rows, cols)) ∈ ranks -> exists p', impose zero one add mul sub fc junk bcv n_rhs n_rhs (p, (rows, cols)) = Ok p' /\ p_graph p' = p_graph p /\ valid_part n_rhs p' /\
      (forall i cv b, has_row p i cv b -> exists cv' b', has_row p' i cv' b' /\ related n_rhs bcv rows cols i cv cv' b b') /\
      (forall i cv' b', has_row p' i cv' b' -> exists cv b, has_row p i cv b /\ related n_rhs bcv rows cols i cv cv' b b')).
    { intros p rows cols Hp. destruct (Hval _ _ _ Hp) as (Hv & (Hs1 & Hs2 & Hk1 & Hk2) & Hd). apply part_ok; [done|done|done|]. intros i cv b Hi Hrow. apply (Hd i cv b); [|done]. apply Hk1; [exact (proj1 (has_row_in _ _ _ _ Hrow))|]. by apply binary_search_spec. }
    assert (exists ps, map_res (impose zero one add mul sub fc junk bcv n_rhs n_rhs) ranks = Ok ps /\ Forall2 (fun rk p' => p_graph p' = p_graph rk.1 /\ valid_part n_rhs p' /\
      (forall i cv b, has_row rk.1 i cv b -> exists cv' b', has_row p' i cv' b' /\ related n_rhs bcv rk.2.1 rk.2.2 i cv cv' b b') /\
      (forall i cv' b', has_row p' i cv' b' -> exists cv b, has_row rk.1 i cv b /\ related n_rhs bcv rk.2.1 rk.2.2 i cv cv' b b')) ranks ps) as (ps & Hps & HF).
    { clear Hval Hcover. induction ranks as [|[p [rows cols]] l IH]; [exists []; by split|]. destruct IH as (ps & Hps & HF); [intros; apply Hstep; by right|]. destruct (Hstep p rows cols ltac:(left)) as (p' & Hp' & Hrest).
      exists (p' :: ps). split; [|by constructor]. cbn [map_res]. by rewrite Hp', bind_ok, Hps, bind_ok. }
    exists ps. split; [done|].
    (** constrained or not, as the rank knows it *)
    assert (Hkr : forall p rows cols i cv b, (p, (rows, cols)) ∈ ranks -> has_row p i cv b -> binary_search rows i = true <-> C i).
    { intros p rows cols i cv b Hp Hr. destruct (Hval _ _ _ Hp) as (_ & (Hs1 & Hs2 & Hk1 & Hk2) & _). rewrite binary_search_spec by done. apply Hk1. exact (proj1 (has_row_in _ _ _ _ Hr)). }
    assert (Hkc : forall p rows cols i cv b c, (p, (rows, cols)) ∈ ranks -> has_row p i cv b -> c ∈ cv.*1 -> binary_search cols c = true <-> C c).
    { intros p rows cols i cv b c Hp Hr Hc. destruct (Hval _ _ _ Hp) as (_ & (Hs1 & Hs2 & Hk1 & Hk2) & _). rewrite binary_search_spec by done. apply Hk2. by apply (has_row_in _ _ _ _ Hr). }
    assert (Hp1 : forall p, p ∈ ranks.*1 -> exists rows cols, (p, (rows, cols)) ∈ ranks). { intros p Hp. apply elem_of_list_fmap in Hp as ([p0 [rows cols]] & -> & Hp). by exists rows, cols. }
    assert (Hfwd : forall p rows cols, (p, (rows, cols)) ∈ ranks -> exists p', p' ∈ ps /\ forall i cv b, has_row p i cv b -> exists cv' b', has_row p' i cv' b' /\ related n_rhs bcv rows cols i cv cv' b b').
    { intros p rows cols Hp. apply elem_of_list_lookup in Hp as [j Hj]. destruct (Forall2_lookup_l _ _ _ _ _ HF Hj) as (p' & Hp' & _ & _ & H & _). exists p'. split; [by eapply elem_of_list_lookup_2|done]. }
    assert (Hbwd : forall p', p' ∈ ps -> exists p rows cols, (p, (rows, cols)) ∈ ranks /\ forall i cv' b', has_row p' i cv' b' -> exists cv b, has_row p i cv b /\ related n_rhs bcv rows cols i cv cv' b b').
    { intros p' Hp'. apply elem_of_list_lookup in Hp' as [j Hj]. destruct (Forall2_lookup_r _ _ _ _ _ HF Hj) as ([p [rows cols]] & Hp & _ & _ & _ & H). exists p, rows, cols. split; [by eapply elem_of_list_lookup_2|done]. }
    assert (Hrow_ex : forall p rows cols i, (p, (rows, cols)) ∈ ranks -> i ∈ g_row (p_graph p) -> exists cv b, has_row p i cv b).
    { intros p rows cols i Hp Hi. destruct (Hval _ _ _ Hp) as ([Hv1 Hv2 Hv3 Hv4 [Hv5 Hv6]] & _). apply elem_of_list_lookup in Hi as [r Hr]. assert (Hlt := lookup_lt_Some _ _ _ Hr). rewrite Hv4 in Hlt.
      destruct (lookup_lt_is_Some_2 _ _ Hlt) as [vs Hvs]. rewrite <- Hv5 in Hlt. destruct (lookup_lt_is_Some_2 _ _ Hlt) as [b Hb]. destruct (Forall2_lookup_r _ _ _ _ _ Hv3 Hvs) as (inds & Hi & _ & Hbd & Hl).
      exists (zip (map (fun l => default 0 (g_col (p_graph p) !! l)) inds) vs), b. exists r, inds, vs. split; [done|]. split; [done|]. split; [done|]. split; [done|]. rewrite zip_fst, zip_snd by (by rewrite map_length). split; [|done].
      clear - Hbd. induction Hbd as [|l ls Hl Hbd IH]; [constructor|]. cbn. constructor; [|done]. destruct (lookup_lt_is_Some_2 _ _ Hl) as [c Hc]. by rewrite Hc. }
    split; [|split].
    - intros k x Hk.
      assert (Hb_k : forall b : list F, length b = n_rhs -> exists y, b !! k = Some y) by (intros b Hb; apply lookup_lt_is_Some_2; lia).
      assert (Hun : forall p rows cols i cv b cv' b', (p, (rows, cols)) ∈ ranks -> has_row p i cv b -> related n_rhs bcv rows cols i cv cv' b b' -> C i -> sat zero add mul cv' b' k x <-> x i = bcv k i).
      { intros p rows cols i cv b cv' b' Hp Hr (L1 & L2 & Hnd & E1 & Hrel) HC. rewrite (proj2 (Hkr _ _ _ _ _ _ Hp Hr) HC) in Hrel. destruct Hrel as [Hu ->]. unfold sat. rewrite list_lookup_imap. destruct (Hb_k b L1) as [y ->]. cbn.
        rewrite (lin_unit zero one add mul sub opp Rth i cv' x); [| | |done]; [|by rewrite E1|rewrite E1; by apply (proj2 (proj2 (Hval _ _ _ Hp)) i cv b)]. split; [intros [= ->]; done|by intros ->]. }
      assert (Hco : (forall i, C i -> is_row ranks.*1 i -> x i = bcv k i) -> forall p rows cols i cv b cv' b', (p, (rows, cols)) ∈ ranks -> has_row p i cv b -> related n_rhs bcv rows cols i cv cv' b b' -> ~ C i -> sat zero add mul cv' b' k x <-> sat zero add mul cv b k x).
      { intros Hx p rows cols i cv b cv' b' Hp Hr (L1 & L2 & Hnd & E1 & Hrel) HC. destruct (binary_search rows i) eqn:Ei; [by destruct HC; apply (Hkr _ _ _ _ _ _ Hp Hr)|]. destruct Hrel as [-> ->]. unfold sat. rewrite list_lookup_imap. destruct (Hb_k b L1) as [y ->]. cbn.
        rewrite (lin_split zero one add mul sub opp Rth (binary_search cols) cv x). rewrite (lin_ext zero add mul (List.filter _ cv) x (bcv k)).
        2: { intros c Hc. apply elem_of_list_fmap in Hc as ([c' v] & -> & Hc). apply filter_elem in Hc as [Hc Hcc]. cbn in Hcc |- *. assert (Hcv : c' ∈ cv.*1) by (apply elem_of_list_fmap; by exists (c', v)). apply (Hkc _ _ _ _ _ _ _ Hp Hr Hcv) in Hcc. apply Hx; [done|].
             apply (Hcover p); [apply elem_of_list_fmap; by exists (p, (rows, cols))| |done]. by apply (has_row_in _ _ _ _ Hr). }
        set (s := lin (List.filter _ cv) (bcv k)). set (t := lin (blank _ _ _) x). split; intros [= H]; f_equal.
        - rewrite <- H. ring.
        - rewrite H. ring. }
      split.
      + intros Hs. assert (Hx : forall i, C i -> is_row ranks.*1 i -> x i = bcv k i).
        { intros i HC (p & Hp & Hi). apply Hp1 in Hp as (rows & cols & Hp). destruct (Hrow_ex _ _ _ _ Hp Hi) as (cv & b & Hr). destruct (Hfwd _ _ _ Hp) as (p' & Hp' & Hf). destruct (Hf _ _ _ Hr) as (cv' & b' & Hr' & Hrel).
          apply (Hun _ _ _ _ _ _ _ _ Hp Hr Hrel HC). by apply (Hs p' i). }
        split; [done|]. intros p i cv b Hp Hr HC. apply Hp1 in Hp as (rows & cols & Hp). destruct (Hfwd _ _ _ Hp) as (p' & Hp' & Hf). destruct (Hf _ _ _ Hr) as (cv' & b' & Hr' & Hrel).
        apply (Hco Hx _ _ _ _ _ _ _ _ Hp Hr Hrel HC). by apply (Hs p' i).
      + intros [Hx Hs] p' i cv' b' Hp' Hr'. destruct (Hbwd _ Hp') as (p & rows & cols & Hp & Hb). destruct (Hb _ _ _ Hr') as (cv & b & Hr & Hrel). assert (Hp2 : p ∈ ranks.*1) by (apply elem_of_list_fmap; by exists (p, (rows, cols))).
        destruct (binary_search rows i) eqn:Ei.
        * assert (HC : C i) by (by apply (Hkr _ _ _ _ _ _ Hp Hr)). apply (Hun _ _ _ _ _ _ _ _ Hp Hr Hrel HC). apply Hx; [done|]. exists p. split; [done|]. exact (proj1 (has_row_in _ _ _ _ Hr)).
        * assert (HC : ~ C i) by (intros HC; apply (Hkr _ _ _ _ _ _ Hp Hr) in HC; congruence). apply (Hco Hx _ _ _ _ _ _ _ _ Hp Hr Hrel HC). by apply (Hs p i).
    - intros Hsym.
      assert (He : forall i j v, entry zero ps i j v -> (C i /\ v = if decide (j = i) then one else zero) \/ (~ C i /\ C j /\ v = zero) \/ (~ C i /\ (~ C j \/ v = zero) /\ entry zero ranks.*1 i j v) ).
      { intros i j v (p' & cv' & b' & Hp' & Hr' & Hv). destruct (Hbwd _ Hp') as (p & rows & cols & Hp & Hb). destruct (Hb _ _ _ Hr') as (cv & b & Hr & L1 & L2 & Hnd & E1 & Hrel). assert (Hp2 : p ∈ ranks.*1) by (apply elem_of_list_fmap; by exists (p, (rows, cols))).
        destruct (binary_search rows i) eqn:Ei.
        - left. assert (HC : C i) by (by apply (Hkr _ _ _ _ _ _ Hp Hr)). split; [done|]. destruct Hrel as [Hu _]. destruct Hv as [Hv|[Hv ->]]; [by apply Hu|]. case_decide as Hji; [|done]. subst j. destruct Hv. rewrite E1. by apply (proj2 (proj2 (Hval _ _ _ Hp)) i cv b).
        - right. assert (HC : ~ C i) by (intros HC; apply (Hkr _ _ _ _ _ _ Hp Hr) in HC; congruence). destruct Hrel as [-> _]. destruct Hv as [Hv|[Hv ->]].
          + apply (elem_of_list_fmap (fun q : nat * F => (q.1, if binary_search cols q.1 then zero else q.2))) in Hv as ([c w] & [= -> ->] & Hv). cbn. assert (Hcv : c ∈ cv.*1) by (apply elem_of_list_fmap; by exists (c, w)). destruct (binary_search cols c) eqn:Ec.
            * left. split; [done|]. split; [|done]. by apply (Hkc _ _ _ _ _ _ _ Hp Hr Hcv).
            * right. split; [done|]. split; [left; intros HCc; apply (Hkc _ _ _ _ _ _ _ Hp Hr Hcv) in HCc; congruence|]. exists p, cv, b. split; [done|]. split; [done|]. by left.
          + right. split; [done|]. split; [by right|]. exists p, cv, b. split; [done|]. split; [done|]. right. split; [|done]. by rewrite <- E1. }
      intros i j v w Hv Hw. destruct (He _ _ _ Hv) as [[H1 ->]|[(H1 & H2 & ->)|(H1 & H2 & H3)]], (He _ _ _ Hw) as [[H4 ->]|[(H4 & H5 & ->)|(H4 & H5 & H6)]]; try done.
      + destruct (decide (j = i)), (decide (i = j)); congruence.
      + rewrite decide_False by congruence. done.
      + destruct H5 as [?| ->]; [done|]. by rewrite decide_False by congruence.
      + by rewrite decide_False by congruence.
      + destruct H2 as [?| ->]; [done|]. by rewrite decide_False by congruence.
      + by apply (Hsym i j).
    - apply Forall2_fmap_l. eapply Forall2_impl; [exact HF|]. cbn. intros rk p' (H1 & H2 & _). done.
  Qed.
End ring.
