(** C74: which unknowns a matrix-free system treats as Dirichlet unknowns. *)
From Verif Require Import Base StdAlgo Elem_model Elem_spec Elem_proofs LocalView_model Dofs_model Dofs_proofs Ownership_spec Ownership_proofs ImportExport_spec NodeVals_model NodeVals_spec NodeVals_proofs NodeVals_props Exch_proofs LocalBC_model LocalBC_spec LocalBC_proofs LocalBC2_proofs.

(** The definition holds exactly what was asked for; a component number out of range throws. *)
Lemma build_from D calls : forall def, (forall x, x ∈ bd_defs def -> Sorted Nat.le x.1) -> (forall j, j ∈ bd_norm def -> j < D) ->
  (Forall (fun c => Forall (fun j => j < D) (call_inds c)) calls ->
   exists def', for_each (fun c b => match c with CDirichlet doms inds => defineDirichletBoundary D doms inds b | CNormalize inds => normalize D inds b end) calls def = Ok def' /\
     (forall x, x ∈ bd_defs def' -> Sorted Nat.le x.1) /\ (forall j, j ∈ bd_norm def' -> j < D) /\
     (forall d j, prescribed def' d j <-> prescribed def d j \/ exists doms inds, CDirichlet doms inds ∈ calls /\ d ∈ doms /\ j ∈ inds) /\
     (forall j, j ∈ bd_norm def' <-> j ∈ bd_norm def \/ exists inds, CNormalize inds ∈ calls /\ j ∈ inds)) /\
  (~ Forall (fun c => Forall (fun j => j < D) (call_inds c)) calls ->
   for_each (fun c b => match c with CDirichlet doms inds => defineDirichletBoundary D doms inds b | CNormalize inds => normalize D inds b end) calls def = Throw).
Proof.
  induction calls as [|c calls IH]; intros def Hs Hn; cbn [for_each].
  - split; [intros _; exists def; split; [done|]; split; [done|]; split; [done|]; split; [intros d j|intros j]; (split; [by left|intros [H|(? & H)]; [done|]])|intros H; by destruct H].
    + destruct H as (? & H & _). by apply elem_of_nil in H.
    + destruct H as [H _]. by apply elem_of_nil in H.
  - destruct (decide (Forall (fun j => j < D) (call_inds c))) as [Hc|Hc].
    + assert (Hb : forallb (fun i => i <? D) (call_inds c) = true). { apply forallb_forall. intros x Hx%elem_of_list_In. apply Nat.ltb_lt. rewrite Forall_forall in Hc. by apply Hc. }
      rewrite Forall_forall in Hc. destruct c as [doms inds|inds]; cbn [call_inds] in Hb, Hc.
      * assert (E0 : defineDirichletBoundary D doms inds def = Ok {| bd_defs := bd_defs def ++ [(unique (sort doms), unique (sort inds))]; bd_norm := bd_norm def |}) by (unfold defineDirichletBoundary; by rewrite Hb). rewrite E0, !bind_ok. destruct (IH {| bd_defs := bd_defs def ++ [(unique (sort doms), unique (sort inds))]; bd_norm := bd_norm def |}) as [IH1 IH2]; cbn [bd_defs bd_norm].
        { intros x Hx. apply elem_of_app in Hx as [Hx|Hx]; [by apply Hs|]. apply elem_of_list_singleton in Hx as ->. cbn [fst]. by apply strict_sorted, unique_strict, sort_sorted. }
        { done. }
        split.
        -- intros HF. apply Forall_cons in HF as [_ HF]. destruct (IH1 HF) as (def' & E & H1 & H2 & H3 & H4). exists def'. split; [done|]. split; [done|]. split; [done|]. split.
           ++ intros d j. rewrite H3. unfold prescribed. cbn [bd_defs]. setoid_rewrite elem_of_app. setoid_rewrite elem_of_list_singleton. setoid_rewrite elem_of_cons. split.
              ** intros [(a & b & [Hx|[= -> ->]] & Hd & Hj)|(a & b & Hx & Hd & Hj)]; [left; by exists a, b|right|right; exists a, b; by split; [right|]]. exists doms, inds. split; [by left|]. by rewrite unique_elem, sort_elem in Hd, Hj.
              ** intros [(a & b & Hx & Hd & Hj)|(a & b & [[= -> ->]|Hx] & Hd & Hj)]; [left; exists a, b; by split; [left|]| |right; by exists a, b]. left. exists (unique (sort doms)), (unique (sort inds)). split; [by right|]. by rewrite !unique_elem, !sort_elem.
           ++ intros j. rewrite H4. cbn [bd_norm]. setoid_rewrite elem_of_cons. naive_solver.
        -- intros HF. apply IH2. intros HF'. apply HF. constructor; [by apply Forall_forall|done].
      * assert (E0 : normalize D inds def = Ok {| bd_defs := bd_defs def; bd_norm := List.filter (fun i => existsb (Nat.eqb i) (bd_norm def ++ inds)) (seq 0 D) |}) by (unfold normalize; by rewrite Hb). rewrite E0, !bind_ok. destruct (IH {| bd_defs := bd_defs def; bd_norm := List.filter (fun i => existsb (Nat.eqb i) (bd_norm def ++ inds)) (seq 0 D) |}) as [IH1 IH2]; cbn [bd_defs bd_norm].
        { done. }
        { intros j Hj. apply filter_In' in Hj as [Hj _]. apply elem_of_seq in Hj. lia. }
        split.
        -- intros HF. apply Forall_cons in HF as [_ HF]. destruct (IH1 HF) as (def' & E & H1 & H2 & H3 & H4). exists def'. split; [done|]. split; [done|]. split; [done|]. split.
           ++ intros d j. rewrite H3. unfold prescribed. cbn [bd_defs]. setoid_rewrite elem_of_cons. naive_solver.
           ++ intros j. rewrite H4. cbn [bd_norm]. rewrite filter_In', elem_of_seq, existsb_elem. setoid_rewrite elem_of_app. setoid_rewrite elem_of_cons. split.
              ** intros [[_ (x & [Hx|Hx] & Ex)]|(a & Hx & Hj)]; [apply Nat.eqb_eq in Ex as ->; by left|apply Nat.eqb_eq in Ex as ->; right; exists inds; by split; [left|]|right; exists a; by split; [right|]].
              ** intros [Hj|(a & [[= ->]|Hx] & Hj)]; [left; split; [pose proof (Hn j Hj); lia|]; exists j; split; [by left|apply Nat.eqb_refl]|left; split; [pose proof (Hc j Hj); lia|]; exists j; split; [by right|apply Nat.eqb_refl]|right; by exists a].
        -- intros HF. apply IH2. intros HF'. apply HF. constructor; [by apply Forall_forall|done].
    + split; [intros HF; by apply Forall_cons in HF as [? _]|]. intros _. assert (Hb : forallb (fun i => i <? D) (call_inds c) = false). { apply not_true_is_false. intros Hb. apply Hc, Forall_forall. intros x Hx%elem_of_list_In. rewrite forallb_forall in Hb. by apply Nat.ltb_lt, Hb. }
      destruct c as [doms inds|inds]; cbn [call_inds] in Hb; [unfold defineDirichletBoundary|unfold normalize]; by rewrite Hb.
Qed.
Theorem bc_definition D calls :
  (Forall (fun c => Forall (fun j => j < D) (call_inds c)) calls ->
   exists def, build D calls = Ok def /\ (forall x, x ∈ bd_defs def -> Sorted Nat.le x.1) /\ (forall j, j ∈ bd_norm def -> j < D) /\
     (forall d j, prescribed def d j <-> exists doms inds, CDirichlet doms inds ∈ calls /\ d ∈ doms /\ j ∈ inds) /\
     (forall j, j ∈ bd_norm def <-> exists inds, CNormalize inds ∈ calls /\ j ∈ inds)) /\
  (~ Forall (fun c => Forall (fun j => j < D) (call_inds c)) calls -> build D calls = Throw).
Proof.
  destruct (build_from D calls no_bc) as [H1 H2]; [intros x Hx; by apply elem_of_nil in Hx|intros x Hx; by apply elem_of_nil in Hx|]. split; [|done]. intros HF. destruct (H1 HF) as (def & E & Hs & Hn & Hp & Hm). exists def. split; [done|]. split; [done|]. split; [done|]. split.
  - intros d j. rewrite Hp. split; [intros [(a & b & H & _)|H]; [by apply elem_of_nil in H|done]|by right].
  - intros j. rewrite Hm. split; [intros [H|H]; [by apply elem_of_nil in H|done]|by right].
Qed.

(** What the constructor leaves on rank [b] when the Dirichlet unknowns are those in [P]. *)
Definition knows (counts : list nat) (shareds : list (list nat)) (b : nat) (P : nat -> Prop) (c : nat) (flags : list bool) : Prop :=
  flags_say counts shareds b P flags /\
  forall hash, (forall l, hash l ≡ₚ l) ->
    (forall g l, local_of counts shareds b g = Some l -> l ∈ dofs_set hash flags <-> P g) /\
    (forall g l, local_of counts shareds b g = Some l -> l ∈ dofs_sorted c (dofs_set hash flags) <-> P g /\ owns counts b g) /\
    (forall l, l ∈ dofs_set hash flags -> exists g, local_of counts shareds b g = Some l) /\
    StronglySorted lt (dofs_sorted c (dofs_set hash flags)).
Lemma knows_ok counts shareds b c sh P f : tables counts shareds -> counts !! b = Some c -> shareds !! b = Some sh -> length f = c + length sh -> flags_say counts shareds b P f -> knows counts shareds b P c f.
Proof.
  intros HT Hc Hsh Lf Hf. split; [done|]. intros hash Hh.
  assert (Hset : forall l, l ∈ dofs_set hash f <-> f !! l = Some true) by (intros l; unfold dofs_set; by rewrite Hh, true_inds_elem).
  assert (Hin : forall g l, local_of counts shareds b g = Some l -> l ∈ dofs_set hash f <-> P g).
  { intros g l Hl. rewrite Hset. destruct (Hf g l Hl) as (v & Hv & HP). rewrite Hv, <- HP. split; [by intros [= ->]|by intros ->]. }
  split; [done|]. split; [|split].
  - intros g l Hl. unfold dofs_sorted. rewrite sort_elem, filter_In', (Hin g l Hl), Nat.ltb_lt. destruct (local_cases counts shareds HT b c sh g l Hc Hsh Hl) as [(Ho & -> & Hlt)|(Hg & -> & Hlt & a & Ha)]; [naive_solver|]. split; [intros [_ H]; lia|]. intros [_ Ho]. destruct HT as [_ HS]. destruct (HS b sh Hsh) as [_ Hs]. destruct (Hs g Hg). done.
  - intros l Hl%Hset. apply (local_onto counts shareds HT b c sh); [done|done|]. apply lookup_lt_Some in Hl. lia.
  - apply sorted_nodup_strict; [apply sort_sorted|]. apply sort_nodup, NoDup_ListNoDup, List.NoDup_filter, NoDup_ListNoDup. unfold dofs_set. rewrite Hh. unfold true_inds. apply NoDup_ListNoDup, List.NoDup_filter, List.seq_NoDup.
Qed.

(** Every run: the normalised unknowns [norms], the order in which each rank sets its flags,
    and the result of the exchange. *)
Definition flag_run {V} (D : nat) (def : bc_def) (ranks : list (bc_rank V)) (norms : list (list nat)) (phases : list (list bool * list bool)) : Prop :=
  length phases = length ranks /\ forall b r norm ph, ranks !! b = Some r -> norms !! b = Some norm -> phases !! b = Some ph -> exists o, order_ok o /\ flag_phase D def o r norm = Ok ph.

Theorem local_dirichlet_partial {V} (D : nat) (def : bc_def) counts shareds (ranks : list (bc_rank V)) :
  bc_world D def counts shareds ranks -> (forall j, j ∈ bd_norm def -> found ranks j) ->
  exists norms picks, normalization def ranks = Ok norms /\ length norms = length ranks /\ is_choice def counts shareds ranks picks /\
    (forall b r norm o, ranks !! b = Some r -> norms !! b = Some norm -> order_ok o -> exists ph, flag_phase D def o r norm = Ok ph) /\
    forall phases finals, flag_run D def ranks norms phases -> flags_exchanged counts shareds phases finals ->
      forall b c f, counts !! b = Some c -> finals !! b = Some f -> knows counts shareds b (fun g => dirichlet_somewhere D def counts shareds ranks g \/ g ∈ picks) c f.
Proof.
  intros [HT HL HR Hdef HN] Hf. destruct HT as [HTL HS] eqn:EHT. clear EHT. assert (HT' : tables counts shareds) by done.
  assert (Hok : forall b r, ranks !! b = Some r -> exists c sh, counts !! b = Some c /\ shareds !! b = Some sh /\ bc_rank_ok D c (length sh) r).
  { intros b r Hr. pose proof (lookup_lt_Some _ _ _ Hr) as Hb. destruct (lookup_lt_is_Some_2 counts b ltac:(lia)) as [c Hc]. destruct (lookup_lt_is_Some_2 shareds b ltac:(lia)) as [sh Hsh]. exists c, sh. split; [done|]. split; [done|]. by apply (HR b). }
  destruct (normalization_ok D def ranks) as (norms & choice & En & Ln & Hch & Hin); [|done|done|].
  { intros r row Hr Hrow. apply elem_of_list_lookup in Hr as [b Hb]. destruct (Hok b r Hb) as (c & sh & _ & _ & H). by apply (bk_rows _ _ _ _ H). }
  assert (Hpk : forall k j, bd_norm def !! k = Some j -> exists g, local_of counts shareds (choice k).1 g = Some (choice k).2 /\ exists b r n l, ranks !! b = Some r /\ unknown_of (br_map r) n j l /\ local_of counts shareds b g = Some l).
  { intros k j Hk. destruct (Hch k j Hk) as (b & r & n & l & -> & Hr & Hu). destruct (Hok b r Hr) as (c & sh & Hc & Hsh & H). destruct (local_onto counts shareds HT' b c sh l Hc Hsh) as [g Hg]; [by apply (unknown_lt D c (length sh) r H n j)|]. exists g. split; [done|]. by exists b, r, n, l. }
  assert (Hpicks : exists picks, length picks = length (bd_norm def) /\ forall k j, bd_norm def !! k = Some j -> exists g, picks !! k = Some g /\ local_of counts shareds (choice k).1 g = Some (choice k).2 /\ exists b r n l, ranks !! b = Some r /\ unknown_of (br_map r) n j l /\ local_of counts shareds b g = Some l).
  { destruct (choose_list (length (bd_norm def)) (fun k g => forall j, bd_norm def !! k = Some j -> local_of counts shareds (choice k).1 g = Some (choice k).2 /\ exists b r n l, ranks !! b = Some r /\ unknown_of (br_map r) n j l /\ local_of counts shareds b g = Some l)) as (picks & Lp & Hp).
    - intros k Hk. destruct (lookup_lt_is_Some_2 (bd_norm def) k Hk) as [j Hj]. destruct (Hpk k j Hj) as (g & Hg). exists g. intros j' Hj'. assert (j' = j) as -> by congruence. done.
    - exists picks. split; [done|]. intros k j Hk. destruct (Hp k ltac:(by eapply lookup_lt_Some)) as (g & Hg & H). exists g. split; [done|]. by apply H. }
  destruct Hpicks as (picks & Lp & Hp). exists norms, picks. split; [done|]. split; [done|]. split; [|split].
  - apply Forall2_same_length_lookup_2; [done|]. intros k j g Hk Hg. destruct (Hp k j Hk) as (g' & Hg' & _ & H). assert (g' = g) as -> by congruence. done.
  - intros b r norm o Hr Hn Ho. destruct (Hok b r Hr) as (c & sh & Hc & Hsh & H). destruct (flag_phase_ok D def Hdef c (length sh) r H o Ho norm) as (f1 & f2 & E & _); [|by exists (f1, f2)].
    intros l Hl. assert (exists ls, norms !! b = Some ls /\ l ∈ ls) as Hl' by by exists norm. apply Hin in Hl' as (k & Hk & Ek). destruct (lookup_lt_is_Some_2 (bd_norm def) k Hk) as [j Hj]. destruct (Hch k j Hj) as (b' & r' & n & l' & Ek' & Hr' & Hu). rewrite Ek in Ek'. injection Ek' as <- <-. assert (r' = r) as -> by congruence. by apply (unknown_lt D c (length sh) r H n j).
  - intros phases finals [Lph Hrun] HE b c f Hc Hfb.
    assert (HP : forall b c sh, counts !! b = Some c -> shareds !! b = Some sh -> exists ph, phases !! b = Some ph /\ length ph.1 = c + length sh /\ length ph.2 = c + length sh /\
      forall l, l < c + length sh -> exists v1 v2, ph.1 !! l = Some v1 /\ ph.2 !! l = Some v2 /\ (v2 = true <-> exists r norm, ranks !! b = Some r /\ norms !! b = Some norm /\ dmark D def r norm l) /\ (c <= l -> v1 = v2)).
    { clear b c f Hc Hfb. intros b c sh Hc Hsh. pose proof (lookup_lt_Some _ _ _ Hc) as Hb. destruct (lookup_lt_is_Some_2 ranks b ltac:(lia)) as [r Hr]. destruct (lookup_lt_is_Some_2 norms b ltac:(lia)) as [norm Hn]. destruct (lookup_lt_is_Some_2 phases b ltac:(lia)) as [ph Hph]. exists ph. split; [done|].
      destruct (Hrun b r norm ph Hr Hn Hph) as (o & Ho & E). pose proof (HR b c sh r Hc Hsh Hr) as H. destruct (flag_phase_ok D def Hdef c (length sh) r H o Ho norm) as (f1 & f2 & E' & L1 & L2 & Hl).
      - intros l Hl. assert (exists ls, norms !! b = Some ls /\ l ∈ ls) as Hl' by by exists norm. apply Hin in Hl' as (k & Hk & Ek). destruct (lookup_lt_is_Some_2 (bd_norm def) k Hk) as [j Hj]. destruct (Hch k j Hj) as (b' & r' & n & l' & Ek' & Hr' & Hu). rewrite Ek in Ek'. injection Ek' as <- <-. assert (r' = r) as -> by congruence. by apply (unknown_lt D c (length sh) r H n j).
      - assert (ph = (f1, f2)) as -> by congruence. cbn [fst snd]. split; [done|]. split; [done|]. intros l Hlt. destruct (Hl l Hlt) as (v1 & v2 & H1 & H2 & H3 & H4). exists v1, v2. split; [done|]. split; [done|]. split; [|done]. rewrite H3. split; [intros Hd; by exists r, norm|]. intros (r' & n' & Hr' & Hn' & Hd). congruence. }
    destruct (final_flags counts shareds HT' phases finals _ HP HE ltac:(lia) b f Hfb) as [Hs Hlen]. destruct (lookup_lt_is_Some_2 shareds b) as [sh Hsh]; [apply lookup_lt_Some in Hc; lia|].
    apply (knows_ok counts shareds b c sh); [done|done|done|by apply Hlen|]. intros g l Hl. destruct (Hs g l Hl) as (v & Hv & HPv). exists v. split; [done|]. rewrite HPv. unfold mk_global, dmark, dirichlet_somewhere. split.
    + intros (b' & l' & Hl' & r & norm & Hr & Hn & [Hd|(lv & Hlv & Hd)]); [right|left; by exists b', r, lv, l'].
      assert (exists ls, norms !! b' = Some ls /\ l' ∈ ls) as Hx by by exists norm. apply Hin in Hx as (k & Hk & Ek). destruct (lookup_lt_is_Some_2 (bd_norm def) k Hk) as [j Hj]. destruct (Hp k j Hj) as (g' & Hg' & Hloc & _). rewrite Ek in Hloc. assert (g' = g) as -> by by eapply (local_inj counts shareds HT' b'). by eapply elem_of_list_lookup_2.
    + intros [(b' & r & lv & l' & Hr & Hlv & Hd & Hl')|Hg].
      * exists b', l'. split; [done|]. destruct (lookup_lt_is_Some_2 norms b') as [norm Hn]; [apply lookup_lt_Some in Hr; lia|]. exists r, norm. split; [done|]. split; [done|]. right. by exists lv.
      * apply elem_of_list_lookup in Hg as [k Hk]. pose proof (lookup_lt_Some _ _ _ Hk) as Hk'. rewrite Lp in Hk'. destruct (lookup_lt_is_Some_2 (bd_norm def) k Hk') as [j Hj]. destruct (Hp k j Hj) as (g' & Hg' & Hloc & _). assert (g' = g) as -> by congruence. destruct (choice k) as [b' l'] eqn:Ek. cbn [fst snd] in Hloc. exists b', l'. split; [done|]. destruct (Hch k j Hj) as (b2 & r & n & l2 & Ek2 & Hr & _). rewrite Ek in Ek2. injection Ek2 as <- <-.
        destruct (proj2 (Hin b' l')) as (ls & Hls & Hl2); [by exists k|]. exists r, ls. split; [done|]. split; [done|]. by left.
Qed.

(** Without normalisation nothing has to be found. *)
Theorem local_dirichlet {V} (D : nat) (def : bc_def) counts shareds (ranks : list (bc_rank V)) :
  bc_world D def counts shareds ranks -> bd_norm def = [] ->
  exists norms, normalization def ranks = Ok norms /\ length norms = length ranks /\
    (forall b r norm o, ranks !! b = Some r -> norms !! b = Some norm -> order_ok o -> exists ph, flag_phase D def o r norm = Ok ph) /\
    forall phases finals, flag_run D def ranks norms phases -> flags_exchanged counts shareds phases finals ->
      forall b c f, counts !! b = Some c -> finals !! b = Some f -> knows counts shareds b (dirichlet_somewhere D def counts shareds ranks) c f.
Proof.
  intros HW Hn. destruct (local_dirichlet_partial D def counts shareds ranks HW) as (norms & picks & E & L & Hc & Hp & H); [intros j Hj; rewrite Hn in Hj; by apply elem_of_nil in Hj|]. exists norms. split; [done|]. split; [done|]. split; [done|]. intros phases finals Hr He b c f Hb Hf.
  unfold is_choice in Hc. rewrite Hn in Hc. apply Forall2_nil_inv_l in Hc as ->. destruct (H phases finals Hr He b c f Hb Hf) as [H1 H2].
  assert (Hiff : forall g, dirichlet_somewhere D def counts shareds ranks g \/ g ∈ [] <-> dirichlet_somewhere D def counts shareds ranks g) by (intros g; split; [intros [?|Hx]; [done|by apply elem_of_nil in Hx]|by left]).
  split; [intros g l Hl; destruct (H1 g l Hl) as (v & Hv & Hx); exists v; split; [done|]; by rewrite Hx, Hiff|]. intros hash Hh. destruct (H2 hash Hh) as (A1 & A2 & A3 & A4). split; [intros g l Hl; by rewrite (A1 g l Hl), Hiff|]. split; [intros g l Hl; by rewrite (A2 g l Hl), Hiff|]. done.
Qed.

(** The number of owned unknowns is not the number of owned nodes: a component that lives
    only on the last nodes is not found, although it exists. *)
Definition top_rank : bc_rank nat := {| br_map := {| ld_map := [[None]; [None]; [Some 0]; [Some 1]]; ld_owned := 2; ld_total := 2 |}; br_border := []; br_interior := [mk_lv Quad 1 [0; 1; 2; 3] [] [None; Some 7; None; None]] |}.
Definition top_def : bc_def := {| bd_defs := []; bd_norm := [0] |}.
Theorem normalization_refuted : ~ (forall (V : Type) D def counts shareds (ranks : list (bc_rank V)), bc_world D def counts shareds ranks ->
  (forall j, j ∈ bd_norm def -> exists r n l, r ∈ ranks /\ l < ld_owned (br_map r) /\ unknown_of (br_map r) n j l) -> normalization def ranks <> Throw).
Proof.
  intros H. apply (H nat 1 top_def [2] [[]] [top_rank]); [| |by vm_compute].
  - split.
    + split; [done|]. intros b sh Hsh. destruct b; [injection Hsh as <-|done]. split; [constructor|]. intros g Hg. by apply elem_of_nil in Hg.
    + done.
    + intros b c sh r Hc Hsh Hr. destruct b; [|done]. injection Hc as <-. injection Hsh as <-. injection Hr as <-. split; cbn [top_rank br_map br_border br_interior ld_owned ld_total ld_map app].
      * done.
      * intros row Hrow. apply elem_of_list_lookup in Hrow as [i Hi]. destruct i as [|[|[|[|i]]]]; [injection Hi as <-..|done]; (split; [done|]; intros l Hl; apply elem_of_list_singleton in Hl; try discriminate Hl; injection Hl; cbn; lia).
      * intros lv Hlv. apply elem_of_list_singleton in Hlv as ->. exists [0; 1; 2; 3]. split; [by vm_compute|]. split; [done|]. split; [cbn; lia|]. split; [done|]. intros n Hn. apply (Forall_forall (fun n => n < 4) [0; 1; 2; 3]); [repeat constructor; lia|done].
      * intros lv nodes n j l _ _ _ (row & Hrow & Hj). destruct n as [|[|[|[|n]]]]; [injection Hrow as <-..|done]; (destruct j; [|done]); try discriminate Hj; injection Hj; cbn; lia.
    + intros x Hx. by apply elem_of_nil in Hx.
    + intros j Hj. apply elem_of_list_singleton in Hj as ->. lia.
  - intros j Hj. apply elem_of_list_singleton in Hj as ->. exists top_rank, 2, 0. split; [left|]. split; [cbn; lia|]. by exists [Some 0].
Qed.

(** Example: two squares side by side, one per rank; the bottom of the right one is a
    Dirichlet boundary.  Rank 0 owns the node (unknown 1) it has in common with that side,
    but sees no Dirichlet side.  Component 0 is normalised, too. *)
Definition ex_bc_counts : list nat := [4; 2].
Definition ex_bc_shareds : list (list nat) := [[]; [1; 3]].
Definition ex_bc_ranks : list (bc_rank nat) :=
  [{| br_map := {| ld_map := [[Some 0]; [Some 1]; [Some 2]; [Some 3]]; ld_owned := 4; ld_total := 4 |}; br_border := []; br_interior := [mk_lv Quad 1 [0; 1; 2; 3] [] [Some 5; None; Some 5; None]] |};
   {| br_map := {| ld_map := [[Some 0]; [Some 1]; [Some 2]; [Some 3]]; ld_owned := 2; ld_total := 4 |}; br_border := [mk_lv Quad 1 [2; 0; 3; 1] [] [Some 7; None; None; None]]; br_interior := [] |}].
Example bc_example :
  exists def norms phases, build 1 [CDirichlet [7; 6; 7] [0]; CNormalize [0]] = Ok def /\ normalization def ex_bc_ranks = Ok norms /\ norms = [[0]; []] /\
    map_res (fun x : bc_rank nat * list nat => flag_phase 1 def {| bo_border := fun l => l; bo_interior := fun l => l |} x.1 x.2) (zip ex_bc_ranks norms) = Ok phases /\
    phases = [([true; false; false; false], [true; false; false; false]); ([true; false; true; false], [true; false; true; false])] /\
    flags_exchanged ex_bc_counts ex_bc_shareds phases [[true; true; false; false]; [true; false; true; false]] /\
    dofs_sorted 4 (dofs_set (@rev nat) [true; true; false; false]) = [0; 1].
Proof.
  do 3 eexists. split; [vm_compute; reflexivity|]. split; [vm_compute; reflexivity|]. split; [reflexivity|]. split; [vm_compute; reflexivity|]. split; [reflexivity|]. split; [|by vm_compute].
  exists [[true; true; false; false]; [true; false]]. split; [done|]. split; [done|]. intros b c sh ph o f Hc Hsh Hph Ho Hf. destruct b as [|[|b]]; [injection Hc as <-; injection Hsh as <-; injection Hph as <-; injection Ho as <-; injection Hf as <-..|done].
  - split; [|exists []; split; [done|]; split; [done|]; intros sh g a o Hsh Hg; injection Hsh as <-; by apply elem_of_nil in Hg].
    split; [done|]. split.
    + intros g old (c & Hc & Hg) Hold. injection Hc as <-. assert (Hg' : g < 4) by (vm_compute in Hg; lia). destruct g as [|[|[|[|g]]]]; [| | | |lia]; vm_compute in Hold; injection Hold as <-; [exists []|exists [true]|exists []|exists [false]]; split; by vm_compute.
    + intros p Hp. destruct (decide (p < 4)) as [H|H]; [destruct (Hp p); [exists 4; split; [done|]; vm_compute; split; auto with lia|vm_compute; by destruct p]|]. rewrite !lookup_ge_None_2; [done|cbn; lia..].
  - split.
    + split; [done|]. split.
      * intros g old (c & Hc & Hg) Hold. injection Hc as <-. assert (Hg' : g = 4 \/ g = 5) by (vm_compute in Hg; lia). destruct Hg' as [-> | ->]; vm_compute in Hold; injection Hold as <-; exists []; split; by vm_compute.
      * intros p Hp. destruct (decide (p < 2)) as [H|H]; [destruct (Hp (4 + p)); [exists 2; split; [done|]; vm_compute; split; auto with lia|vm_compute; by destruct p]|]. rewrite !lookup_ge_None_2; [done|cbn; lia..].
    + exists [true; false]. split; [done|]. split; [done|]. intros sh g a o Hsh Hg (c & Hc & Hr) Ho. injection Hsh as <-. destruct a as [|[|a]]; [injection Hc as <-; injection Ho as <-|injection Hc as <-; injection Ho as <-|done]; vm_compute in Hr; repeat (apply elem_of_cons in Hg as [-> |Hg]); try (by apply elem_of_nil in Hg); try (by vm_compute); lia.
Qed.

Print Assumptions bc_definition.
Print Assumptions local_dirichlet.
Print Assumptions local_dirichlet_partial.
Print Assumptions normalization_refuted.
