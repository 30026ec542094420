(** C45: the overload for given values, and the connection with the export (C11) and the
    import (C10). *)
From Verif Require Import Base StdAlgo Ownership_model Ownership_spec Ownership_proofs Mpi_model ImportExport_spec ImportExport_model ImportExport_proofs ImportExport_world ImportExport_props NodeVals_model NodeVals_spec NodeVals_proofs.
Local Arguments Nat.add : simpl never.
Local Arguments Nat.sub : simpl never.
Local Arguments Nat.ltb : simpl never.

Section constant.
  Context {F : Type} (zero : F) (add : F -> F -> F) (div : F -> F -> F) (of_nat : nat -> F).
  Context (A0 : forall x, add zero x = x) (AC : forall x y, add x y = add y x) (AA : forall x y z, add x (add y z) = add (add x y) z) (D1 : forall x, div x (of_nat 1) = x).
  Lemma values_cons (x : nat * F) xs l : values_at (x :: xs) l = if decide (x.1 = l) then x.2 :: values_at xs l else values_at xs l.
  Proof. clear. unfold values_at. cbn [List.filter]. destruct (Nat.eqb_spec x.1 l), (decide (x.1 = l)); done. Qed.
  Lemma stores_ok c s (xs : list (nat * F)) : forall st cs, shape c s st -> length cs = c + s -> (forall x, x ∈ xs -> x.1 < c + s) ->
    exists st' cs', for_each (store_one c) xs (st, cs) = Ok (st', cs') /\ shape c s st' /\ length cs' = c + s /\
      (forall l, get c st' l = match last (values_at xs l) with Some v => Some v | None => get c st l end) /\ (forall l, cs' !! l = match values_at xs l with [] => cs !! l | _ => Some 1 end).
  Proof.
    clear. induction xs as [|x xs IH]; intros st cs Hs Hc Hx; cbn [for_each]; [by exists st, cs|].
    pose proof (Hx x (elem_of_list_here _ _)) as Hx1. destruct (lookup_lt_is_Some_2 cs x.1 ltac:(lia)) as [k Hk].
    destruct (access_ok c s (fun _ => x.2) x.1 st Hs Hx1) as (st1 & E1 & Hs1 & H1).
    assert (Es : store_one c x (st, cs) = Ok (st1, <[x.1 := 1]> cs)) by (unfold store_one; cbn [fst snd]; rewrite (rd_ok _ _ _ Hk), bind_ok, wr_ok, bind_ok, E1, bind_ok by lia; done).
    rewrite Es, bind_ok.
    destruct (IH st1 (<[x.1 := 1]> cs) Hs1) as (st2 & cs2 & E2 & Hs2 & L2 & G2 & C2); [by rewrite insert_length|intros y Hy; apply Hx; by right|]. exists st2, cs2. split; [done|]. split; [done|]. split; [done|].
    assert (Hg : exists v, get c st x.1 = Some v). { unfold get. destruct Hs as [S1 S2]. destruct (Nat.ltb_spec x.1 c); apply lookup_lt_is_Some_2; lia. } destruct Hg as [v0 Hv0].
    split; intros l; rewrite values_cons; [rewrite G2, H1|rewrite C2].
    - destruct (decide (x.1 = l)) as [<- |Hne].
      + rewrite decide_True by done. rewrite last_cons. rewrite Hv0. by destruct (last (values_at xs x.1)).
      + by rewrite decide_False by congruence.
    - destruct (decide (x.1 = l)) as [<- |Hne]; [|by rewrite list_lookup_insert_ne]. destruct (values_at xs x.1); [by rewrite list_lookup_insert by lia|done].
  Qed.
  Definition last_or (l : list F) : F := match last l with Some v => v | None => zero end.
  Definition constant_right (c s : nat) (r : rank_in F) (old : list F) (p : phase) : Prop :=
    length (p_owned p) = c /\ length (p_counts p) = c + s /\ p_sent_counts p = replicate s 0 /\ length (p_sent_values p) = s /\
    (forall l, l < c + s -> p_counts p !! l = Some (match values_at (ri_border r ++ ri_interior r) l with [] => 0 | _ => 1 end)) /\
    (forall j, j < s -> p_sent_values p !! j = Some (last_or (values_at (ri_border r ++ ri_interior r) (c + j)))) /\
    (forall i, i < c -> p_owned p !! i = match last (values_at (ri_border r ++ ri_interior r) i) with None => old !! i | Some v => Some v end).
  Lemma constant_phase_ok c s r old : length old = c -> rank_ok c s r -> exists p, constant_phase zero c s r old = Ok p /\ constant_right c s r old p.
  Proof.
    clear. intros Ho [Hb Hi]. unfold constant_phase. cbv zeta.
    destruct (stores_ok c s (ri_border r) (old, replicate s zero) (replicate (c + s) 0)) as (st & cs & E & Hs & Lc & G & C); [split; [done|apply replicate_length]|apply replicate_length|done|]. rewrite E, bind_ok.
    destruct (stores_ok c s (ri_interior r) st cs Hs Lc) as (st2 & cs2 & E2 & Hs2 & Lc2 & G2 & C2); [intros x Hx; pose proof (Hi x Hx); lia|]. rewrite E2, bind_ok. eexists. split; [reflexivity|].
    unfold constant_right. cbn [p_owned p_counts p_sent_counts p_sent_values fst snd]. split; [apply Hs2|]. split; [done|]. split; [rewrite drop_replicate; f_equal; lia|]. split; [apply Hs|]. split; [|split].
    - intros l Hl. rewrite C2, C, values_at_app. rewrite lookup_replicate_2 by done. destruct (values_at (ri_interior r) l); [rewrite app_nil_r; by destruct (values_at (ri_border r) l)|]. by destruct (values_at (ri_border r) l).
    - intros j Hj. assert (En : values_at (ri_interior r) (c + j) = []) by (apply values_at_nil; intros x Hx; pose proof (Hi x Hx); lia). rewrite values_at_app, En, app_nil_r. specialize (G (c + j)). unfold get in G. rewrite (proj2 (Nat.ltb_ge (c + j) c)) in G by lia. replace (c + j - c) with j in G by lia. cbn [snd] in G. rewrite G. unfold last_or. destruct (last (values_at (ri_border r) (c + j))); [done|]. by apply lookup_replicate_2.
    - intros i Hlt. specialize (G2 i). rewrite G in G2. unfold get in G2. rewrite (proj2 (Nat.ltb_lt i c) Hlt) in G2. cbn [fst] in G2. rewrite G2, values_at_app, last_app. by destruct (last (values_at (ri_interior r) i)).
  Qed.
  Context (counts : list nat) (shareds : list (list nat)) (ins : list (rank_in F)) (HT : tables counts shareds) (Hins : length ins = length counts).
  Context (olds : list (list F)) (phases : list (phase (F := F))).
  Context (HP : forall b c sh r, counts !! b = Some c -> shareds !! b = Some sh -> ins !! b = Some r -> exists old p, olds !! b = Some old /\ phases !! b = Some p /\ length old = c /\ constant_right c (length sh) r old p).
  Theorem constant_ok a : a < length counts -> average zero add div of_nat counts shareds phases a (fun new =>
    forall g, owns counts a g -> (forall b, b <> a -> made counts shareds ins b g = []) -> exists old ov nv, olds !! a = Some old /\ old !! (g - first_owned counts a) = Some ov /\ new !! (g - first_owned counts a) = Some nv /\
      nv = match last (contributed counts shareds ins g) with Some v => v | None => ov end).
  Proof using HT Hins HP A0 AC AA D1.
    intros Ha. destruct (rank_at counts shareds ins HT Hins a Ha) as (c & sh & r & Hc & Hsh & Hr). destruct (HP a c sh r Hc Hsh Hr) as (old & p & Hold & Hp & Hlo & P1 & P2 & P3 & P4 & P5 & P6 & P7).
    exists p, c. split; [done|]. split; [done|]. intros cs (Ec1 & Ec2 & _).
    destruct (zero_foreign_ok zero c (p_counts p) cs (p_owned p) P1 ltac:(lia) ltac:(lia)) as (o1 & E1 & L1 & H1). exists o1. split; [done|]. intros o2 (Ev1 & Ev2 & _).
    destruct (divide_ok div of_nat c cs o2 ltac:(lia) ltac:(lia)) as (new & E2 & L2 & H2). exists new. split; [done|]. intros g Ho Honly.
    destruct (Ho) as (c' & Hc' & Hrange). assert (c' = c) as -> by congruence. set (i := g - first_owned counts a) in *. assert (Hi : i < c) by lia.
    destruct (lookup_lt_is_Some_2 old i ltac:(lia)) as [ov Hov].
    assert (Em : made counts shareds ins a g = values_at (ri_border r ++ ri_interior r) i) by (unfold made; by rewrite Hr, (local_owned counts shareds HT a g Ho)).
    assert (Eo : forall x, x ∈ omap (others counts shareds ins g) (seq 0 (length counts)) -> x = []).
    { intros x Hx. apply elem_of_list_omap in Hx as (b & _ & Hb). unfold others in Hb. destruct (shareds !! b) as [shb|] eqn:Hshb; [|done]. destruct (decide (g ∈ shb)) as [Hg|]; [|done]. injection Hb as <-. apply Honly. intros ->. destruct HT as [_ HS]. by destruct (proj2 (HS a shb Hshb) g Hg) as [Hn _]. }
    assert (Ect : contributed counts shareds ins g = made counts shareds ins a g).
    { assert (Hp' : contributed counts shareds ins g ≡ₚ made counts shareds ins a g ++ concat (omap (others counts shareds ins g) (seq 0 (length counts)))) by by apply contributed_split.
      unfold contributed. fold (made counts shareds ins). clear -Honly Ha. assert (HG : forall ls, NoDup ls -> concat (map (fun b => made counts shareds ins b g) ls) = if decide (a ∈ ls) then made counts shareds ins a g else []).
      { induction ls as [|b ls IH]; intros Hnd; [done|]. apply NoDup_cons in Hnd as [Hb Hnd]. cbn [map concat]. rewrite (IH Hnd). destruct (decide (b = a)) as [-> |Hne].
        - rewrite (decide_False (P := a ∈ ls)) by done. rewrite (decide_True (P := a ∈ a :: ls)) by left. by rewrite app_nil_r.
        - rewrite (Honly b Hne). cbn [app]. destruct (decide (a ∈ b :: ls)) as [Hd|Hd], (decide (a ∈ ls)) as [He|He]; [done| | |done]; [apply elem_of_cons in Hd as [Hd|Hd]; [by destruct Hne|done]|destruct Hd; by right]. }
      change (concat (map (fun b => made counts shareds ins b g) (seq 0 (length counts))) = made counts shareds ins a g). rewrite HG by apply NoDup_seq. by rewrite decide_True by (apply elem_of_seq; lia). }
    pose proof (P5 i ltac:(lia)) as Hcnt. rewrite <- Em in Hcnt. pose proof (P7 i Hi) as Hval. rewrite <- Em in Hval.
    destruct (Ec2 g _ Ho Hcnt) as (lc & Hlc & Hcs).
    rewrite (sent_map counts shareds ins HT Hins (fun _ => 0)) in Hlc.
    2:{ intros b cb shb rb Hcb Hshb Hrb. destruct (HP b cb shb rb Hcb Hshb Hrb) as (ob & pb & _ & Hpb & _ & _ & Q2 & Q3 & _). exists (p_sent_counts pb). split; [change (map ?f phases) with (f <$> phases); by rewrite list_lookup_fmap, Hpb|]. intros j Hj. rewrite Q3. by apply lookup_replicate_2. }
    fold i in Hcs.
    assert (Hnc : foldl add16 (match made counts shareds ins a g with [] => 0 | _ => 1 end) lc = match made counts shareds ins a g with [] => 0 | _ => 1 end).
    { assert (Hz : sum lc = 0). { rewrite (sum_perm _ _ Hlc). clear. induction (omap _ _); [done|]. unfold sum in *. cbn [map foldr]. lia. }
      assert (Hu : forall k, k < 2 -> foldl add16 k lc = k). { intros k Hk. assert (Hku : k = u16 k) by (symmetry; apply u16_small; lia). rewrite Hku at 1. rewrite fold16, Hz, Nat.add_0_r. done. }
      destruct (made counts shareds ins a g); apply Hu; lia. }
    rewrite Hnc in Hcs.
    assert (Hov1 : exists v1, o1 !! i = Some v1) by (apply lookup_lt_is_Some_2; lia). destruct Hov1 as [v1 Hv1].
    destruct (Ev2 g v1 Ho Hv1) as (lv & Hlv & Ho2). fold i in Ho2.
    rewrite (sent_map counts shareds ins HT Hins last_or) in Hlv.
    2:{ intros b cb shb rb Hcb Hshb Hrb. destruct (HP b cb shb rb Hcb Hshb Hrb) as (ob & pb & _ & Hpb & _ & _ & _ & _ & _ & _ & Q6 & _). exists (p_sent_values pb). split; [change (map ?f phases) with (f <$> phases); by rewrite list_lookup_fmap, Hpb|]. intros j Hj. by apply Q6. }
    assert (Hfs : foldl add v1 lv = v1).
    { rewrite (foldl_fsum zero add A0 AC AA), (fsum_perm zero add AC AA _ _ Hlv). assert (Hz : fsum zero add (map last_or (omap (others counts shareds ins g) (seq 0 (length counts)))) = zero); [|by rewrite Hz, AC, A0].
      clear -Eo A0. induction (omap (others counts shareds ins g) (seq 0 (length counts))) as [|x l IH]; [done|]. cbn [map]. rewrite (Eo x) by left. rewrite fsum_cons. rewrite IH by (intros y Hy; apply Eo; by right). apply A0. }
    rewrite Hfs in Ho2. pose proof (H2 i _ Hi Hcs) as Hnew. rewrite Ho2 in Hnew. cbn [fmap option_fmap option_map] in Hnew.
    eexists old, ov, _. split; [done|]. split; [done|]. split; [exact Hnew|]. rewrite Ect.
    pose proof (H1 i _ _ Hi Hcs Hcnt) as Hz. rewrite decide_False in Hz by (destruct (made counts shareds ins a g); lia). rewrite Hval in Hz.
    destruct (made counts shareds ins a g) as [|x m] eqn:Emm.
    - rewrite decide_False by lia. cbn [last] in *. congruence.
    - rewrite decide_True by lia. rewrite D1. destruct (last (x :: m)) as [w|] eqn:El; [congruence|]. apply last_None in El. done.
  Qed.
End constant.

Lemma omap_ext' {X Y} (f h : X -> option Y) (l : list X) : (forall x, f x = h x) -> omap f l = omap h l.
Proof. intros H. induction l as [|x l IH]; [done|]. cbn [omap list_omap]. by rewrite H, IH. Qed.
(** C11 gives [exported], C10 gives [imported]. *)
Theorem export_exported (V : Type) counts shareds sos st counter (bufs : list (buffers V)) ies :
  counts <> [] -> length counts = length shareds -> Forall NoDup shareds -> Forall (Forall (fun g => g < total counts)) shareds -> make_all counts shareds = Ok sos ->
  rtc nx_step (nx_init (all_outs sos)) st -> (forall r x, nx_ranks st !! r = Some x -> nx_done x) -> configured sos st 1 counter bufs ies -> roomy counts shareds 1 bufs ->
  exists progs, (forall r ie, ies !! r = Some ie -> exists p, progs !! r = Some p /\ export_post ie = Ok p) /\
    exists N, forall k n, nsteps net_step k (net_init progs (map ie_pack ies)) n -> k <= N /\ n_err n = false /\
      ((exists n', net_step n n') \/ (net_done n /\ forall a ba ie pack order combine, bufs !! a = Some ba -> ies !! a = Some ie -> n_mem n !! a = Some pack ->
         order ≡ₚ work 1 (length (getOwnedInds (ie_ctx ie))) ->
         exists owned', unpack combine order pack ie = Ok owned' /\ exported combine counts shareds (map b_shared bufs) a (b_owned ba) owned')).
Proof.
  intros H1 H2 H3 H4 H5 H6 H7 H8 H9. destruct (export_correct V counts shareds sos st 1 counter bufs ies H1 H2 H3 H4 H5 H6 H7 H8 H9) as (progs & _ & Hp & N & HN).
  exists progs. split; [done|]. exists N. intros k n Hk. destruct (HN k n Hk) as (Hb & He & [Hs|[Hd Hr]]); (split; [done|]); (split; [done|]); [by left|right]. split; [done|].
  intros a ba ie pack order combine Hba Hie Hpk Hor. destruct (Hr a ba ie pack order combine Hba Hie Hpk Hor) as (o & E & L & Hin & Hout). exists o. split; [done|]. split; [done|]. split.
  - intros g old Ho Hold. destruct (Hin 0 g old ltac:(lia) Ho Hold) as (l & Hl & Hv). exists l. split; [|done]. rewrite Hl. unfold contributions, sent.
    rewrite (omap_ext' _ (fun b => sh ← shareds !! b; s ← map b_shared bufs !! b; if decide (g ∈ sh) then s !! entry_of sh g else None)); [done|].
    intros b. change (map b_shared bufs) with (b_shared <$> bufs). rewrite list_lookup_fmap. destruct (shareds !! b); [|done]. cbn [mbind option_bind]. by destruct (bufs !! b).
  - intros q Hq. apply Hout. intros v g b sh Hv Ho _ _ Heq. assert (v = 0) as -> by lia. by apply (Hq g Ho).
Qed.
Theorem import_imported (V : Type) counts shareds sos st counter (bufs : list (buffers V)) ies orders :
  counts <> [] -> length counts = length shareds -> Forall NoDup shareds -> Forall (Forall (fun g => g < total counts)) shareds -> make_all counts shareds = Ok sos ->
  rtc nx_step (nx_init (all_outs sos)) st -> (forall r x, nx_ranks st !! r = Some x -> nx_done x) -> configured sos st 1 counter bufs ies -> roomy counts shareds 1 bufs ->
  (forall r ie, ies !! r = Some ie -> orders r ≡ₚ work 1 (length (getOwnedInds (ie_ctx ie)))) ->
  exists progs, (forall r ie, ies !! r = Some ie -> exists p, progs !! r = Some p /\ import_post (orders r) ie = Ok p) /\
    exists N, forall k n, nsteps net_step k (net_init progs (map b_shared bufs)) n -> k <= N /\ n_err n = false /\
      ((exists n', net_step n n') \/ (net_done n /\ forall b bb m, bufs !! b = Some bb -> n_mem n !! b = Some m -> length m = length (b_shared bb) /\ imported counts shareds (map b_owned bufs) b m)).
Proof.
  intros H1 H2 H3 H4 H5 H6 H7 H8 H9 H10. destruct (import_correct V counts shareds sos st 1 counter bufs ies orders H1 H2 H3 H4 H5 H6 H7 H8 H9 H10) as (progs & _ & Hp & N & HN).
  exists progs. split; [done|]. exists N. intros k n Hk. destruct (HN k n Hk) as (Hb & He & [Hs|[Hd Hr]]); (split; [done|]); (split; [done|]); [by left|right]. split; [done|].
  assert (Hlb : length bufs = length counts). { destruct H8 as (Hl & _). rewrite Hl. apply (make_all_inv _ _ _ H2 H5). }
  intros b bb m Hbb Hm. destruct (lookup_lt_is_Some_2 shareds b) as [sh Hsh]; [apply lookup_lt_Some in Hbb; lia|].
  destruct (Hr b bb sh m Hbb Hsh Hm) as (Hl & Hin & _). split; [done|]. intros sh' g a o Hsh' Hg Ho Ha. assert (sh' = sh) as -> by congruence. change (map b_owned bufs) with (b_owned <$> bufs) in Ha. rewrite list_lookup_fmap in Ha. destruct (bufs !! a) as [ba|] eqn:Hba; [|done]. injection Ha as <-.
  destruct (Hin 0 g a ba ltac:(lia) Hg Ho Hba) as (x & Hx & Hy). change (0 * b_sstride bb + entry_of sh g) with (entry_of sh g) in Hx. change (0 * b_ostride ba + (g - first_owned counts a)) with (g - first_owned counts a) in Hy. by rewrite Hx, Hy.
Qed.
