From Verif Require Import Base MGraph_model MGraph_spec.

Definition ptr_of (g : graph) : list nat := option_list (xadj g) ++ option_list (adjncy g).
Definition ptrs (gs : list graph) : list nat := concat (map ptr_of gs).

Lemma ptrs_app a b : ptrs (a ++ b) = ptrs a ++ ptrs b.
Proof. unfold ptrs. by rewrite map_app, concat_app. Qed.
Lemma ptrs_insert gs : forall i g g', gs !! i = Some g -> ptrs (<[i := g']> gs) ++ ptr_of g ≡ₚ ptrs gs ++ ptr_of g'.
Proof.
  induction gs as [|c gs IH]; intros [|i] g g' H; cbn in H; [done|done| |].
  - injection H as ->. change (<[0 := g']> (g :: gs)) with (g' :: gs). unfold ptrs. cbn [map concat].
    rewrite (Permutation_app_comm (ptr_of g' ++ _) (ptr_of g)), app_assoc.
    rewrite (Permutation_app_comm (ptr_of g ++ ptr_of g')), app_assoc.
    rewrite (Permutation_app_comm (concat (map ptr_of gs)) (ptr_of g)). done.
  - change (<[S i := g']> (c :: gs)) with (c :: <[i := g']> gs). unfold ptrs. cbn [map concat].
    rewrite <- !app_assoc. apply Permutation_app_head. by apply (IH i g g').
Qed.
Lemma ptrs_elem gs i g p : gs !! i = Some g -> p ∈ ptr_of g -> p ∈ ptrs gs.
Proof.
  intros H Hp. unfold ptrs. apply elem_of_list_In, in_concat. exists (ptr_of g).
  split; [|by apply elem_of_list_In]. apply in_map, elem_of_list_In. by eapply elem_of_list_lookup_2.
Qed.

Definition refers (h : gheap) (g : graph) (v : option (list (list nat))) : Prop :=
  match v with
  | Some rows => exists p q, g = mk_graph (Some p) (Some q) (length rows) /\
      h !! p = Some (Some (offsets rows)) /\ h !! q = Some (Some (concat rows))
  | None => xadj g = None /\ adjncy g = None
  end.
Record good (h : gheap) (gs : list graph) (vs : list (option (list (list nat)))) : Prop := {
  g_ref : Forall2 (refers h) gs vs;
  g_nodup : NoDup (ptrs gs);
  g_live : forall p b, h !! p = Some (Some b) -> p ∈ ptrs gs }.

Lemma refers_bound h g v p : refers h g v -> p ∈ ptr_of g -> p < length h.
Proof.
  destruct v as [rows|]; cbn [refers].
  - intros (a & b & -> & Ha & Hb) Hp. unfold ptr_of in Hp. cbn in Hp.
    apply elem_of_cons in Hp as [->|Hp]; [by eapply lookup_lt_Some|].
    apply elem_of_cons in Hp as [->|Hp]; [by eapply lookup_lt_Some|]. by apply elem_of_nil in Hp.
  - intros [A B] Hp. unfold ptr_of in Hp. rewrite A, B in Hp. by apply elem_of_nil in Hp.
Qed.
Lemma refers_live h g v p : refers h g v -> p ∈ ptr_of g -> exists b, h !! p = Some (Some b).
Proof.
  destruct v as [rows|]; cbn [refers].
  - intros (a & b & -> & Ha & Hb) Hp. unfold ptr_of in Hp. cbn in Hp.
    apply elem_of_cons in Hp as [->|Hp]; [by eauto|].
    apply elem_of_cons in Hp as [->|Hp]; [by eauto|]. by apply elem_of_nil in Hp.
  - intros [A B] Hp. unfold ptr_of in Hp. rewrite A, B in Hp. by apply elem_of_nil in Hp.
Qed.
Lemma good_bound h gs vs p : good h gs vs -> p ∈ ptrs gs -> p < length h.
Proof.
  intros G Hp. unfold ptrs in Hp. apply elem_of_list_In, in_concat in Hp as (l & Hl & Hp).
  apply in_map_iff in Hl as (g & <- & Hg). apply elem_of_list_In, elem_of_list_lookup in Hg as [i Hg].
  apply elem_of_list_In in Hp. destruct (Forall2_lookup_l _ _ _ _ _ (g_ref _ _ _ G) Hg) as (v & _ & R).
  by eapply refers_bound.
Qed.

(** [h'] is [h] with the blocks [F] freed and something added at the end. *)
Definition freed (F : list nat) (h h' : gheap) : Prop :=
  length h <= length h' /\
  (forall r, r < length h -> r ∈ F -> h' !! r = Some None) /\
  (forall r, r < length h -> ~ r ∈ F -> h' !! r = h !! r).
Lemma refers_frame F h h' g v : freed F h h' -> refers h g v -> (forall p, p ∈ ptr_of g -> ~ p ∈ F) -> refers h' g v.
Proof.
  intros (_ & _ & K) R D. destruct v as [rows|]; [|exact R]. destruct R as (p & q & -> & Hp & Hq).
  exists p, q. split; [done|]. unfold ptr_of in D. cbn in D.
  split; (rewrite K; [done|by eapply lookup_lt_Some|apply D; set_solver]).
Qed.
Lemma good_step h gs vs h' gs' vs' F A : good h gs vs -> freed F h h' ->
  ptrs gs' ++ F ≡ₚ ptrs gs ++ A -> NoDup A -> (forall p, p ∈ A -> length h <= p) ->
  (forall r b, length h <= r -> h' !! r = Some (Some b) -> r ∈ A) ->
  (forall p, p ∈ F -> p < length h) ->
  length gs' = length vs' ->
  (forall k g v, gs' !! k = Some g -> vs' !! k = Some v ->
    refers h' g v \/ refers h g v) ->
  good h' gs' vs'.
Proof.
  intros G Fr P NA BA LA BF L R.
  assert (ND : NoDup (ptrs gs' ++ F)).
  { rewrite P. apply NoDup_app. split; [apply G|]. split; [|done]. intros p Hp HA.
    pose proof (good_bound h gs vs p G Hp). pose proof (BA p HA). lia. }
  apply NoDup_app in ND as (N1 & N2 & N3). split.
  - apply Forall2_same_length_lookup. split; [done|]. intros k g v Hg Hv.
    destruct (R k g v Hg Hv) as [X|X]; [exact X|]. apply (refers_frame F h h' g v Fr X).
    intros p Hp. apply N2. by eapply ptrs_elem.
  - done.
  - intros p b Hp. destruct Fr as (F1 & F2 & F3). destruct (decide (p < length h)) as [Lp|Lp].
    + destruct (decide (p ∈ F)) as [I|I]; [rewrite (F2 p Lp I) in Hp; done|].
      rewrite (F3 p Lp I) in Hp. pose proof (g_live _ _ _ G p b Hp) as M.
      assert (M' : p ∈ ptrs gs' ++ F) by (rewrite P; apply elem_of_app; by left).
      apply elem_of_app in M' as [M'|M']; done.
    + assert (M' : p ∈ ptrs gs' ++ F) by (rewrite P; apply elem_of_app; right; apply (LA p b); [lia|done]).
      apply elem_of_app in M' as [M'|M']; [done|]. pose proof (BF p M'). lia.
Qed.

(** Steps on the heap. *)
Lemma freed_app F h h1 l : freed F h h1 -> freed F h (h1 ++ l).
Proof.
  intros (A & B & C). split; [rewrite app_length; lia|].
  split; intros r Hr Hi; rewrite lookup_app_l by lia; auto.
Qed.
Lemma freed_write F h h1 r x : freed F h h1 -> length h <= r -> freed F h (<[r := x]> h1).
Proof.
  intros (A & B & C) L. split; [by rewrite insert_length|].
  split; intros k Hk Hi; rewrite list_lookup_insert_ne by lia; auto.
Qed.
Lemma freed_nil h : freed [] h h.
Proof. split; [done|]. split; [|done]. intros r _ H. by apply elem_of_nil in H. Qed.
Lemma freed_free F h h1 p : freed F h h1 ->
  (forall r, p = Some r -> ~ r ∈ F /\ exists b, h !! r = Some (Some b)) ->
  exists h2, gfree p h1 = Ok h2 /\ freed (F ++ option_list p) h h2 /\ length h2 = length h1 /\
    forall r, length h <= r -> h2 !! r = h1 !! r.
Proof.
  intros Fr H. destruct p as [r|]; cbn [gfree option_list].
  - destruct (H r eq_refl) as (N & b & Hb). pose proof (lookup_lt_Some _ _ _ Hb) as L.
    pose proof Fr as (A & B & C). assert (E : h1 !! r = Some (Some b)) by (by rewrite (C r L N)).
    rewrite (rd_ok _ _ _ E), bind_ok. rewrite (wr_ok h1 r None) by lia. eexists. split; [done|].
    split; [|split; [apply insert_length|intros k Hk; by rewrite list_lookup_insert_ne by lia]].
    split; [rewrite insert_length; lia|]. split; intros k Hk Hi; destruct (decide (k = r)) as [->|Hn].
    + rewrite list_lookup_insert by lia. done.
    + rewrite list_lookup_insert_ne by done. apply B; [done|].
      apply elem_of_app in Hi as [Hi|Hi]; [done|]. apply elem_of_list_singleton in Hi. done.
    + exfalso. apply Hi, elem_of_app. right. by apply elem_of_list_singleton.
    + rewrite list_lookup_insert_ne by done. apply C; [done|]. intros X. apply Hi, elem_of_app. by left.
  - exists h1. rewrite app_nil_r. done.
Qed.
Lemma gcopy_ok l p h c : h !! p = Some (Some c) -> length l = length c -> gcopy l p h = Ok (<[p := Some l]> h).
Proof.
  intros H L. unfold gcopy. rewrite (rd_ok _ _ _ H), bind_ok. rewrite (proj2 (Nat.leb_le _ _)) by lia.
  rewrite L, drop_all, app_nil_r. apply wr_ok. by eapply lookup_lt_Some.
Qed.

(** Reading a graph. *)
Lemma offsets_length rows : length (offsets rows) = length rows + 1.
Proof. unfold offsets. rewrite map_length, seq_length. lia. Qed.
Lemma offsets_lookup rows i : i <= length rows -> offsets rows !! i = Some (length (concat (take i rows))).
Proof.
  intros H. unfold offsets. change (((fun i => length (concat (take i rows))) <$> seq 0 (S (length rows))) !! i = Some (length (concat (take i rows)))).
  rewrite list_lookup_fmap, lookup_seq_lt by lia. done.
Qed.
Lemma xadj_ok h g rows : refers h g (Some rows) -> getXadj g h = Ok (offsets rows).
Proof.
  intros (p & q & -> & Hp & Hq). unfold getXadj, gspan. cbn [xadj nvert]. rewrite (rd_ok _ _ _ Hp), bind_ok.
  rewrite (proj2 (Nat.leb_le _ _)) by (rewrite offsets_length; lia).
  rewrite take_ge by (rewrite offsets_length; lia). done.
Qed.
Lemma adjncy_ok h g rows : refers h g (Some rows) -> getAdjncy g h = Ok (concat rows).
Proof.
  intros R. unfold getAdjncy. rewrite (xadj_ok h g rows R), bind_ok. destruct R as (p & q & -> & Hp & Hq).
  assert (E : offsets rows !! (length (offsets rows) - 1) = Some (length (concat rows))).
  { rewrite offsets_length, offsets_lookup by lia. replace (length rows + 1 - 1) with (length rows) by lia. by rewrite firstn_all. }
  rewrite (rd_ok _ _ _ E), bind_ok. unfold gspan. cbn [adjncy]. rewrite (rd_ok _ _ _ Hq), bind_ok.
  rewrite (proj2 (Nat.leb_le _ _)) by lia. by rewrite firstn_all.
Qed.
Lemma adjacent_ok h g rows e row : refers h g (Some rows) -> rows !! e = Some row -> getElementAdjacent g h e = Ok row.
Proof.
  intros R He. unfold getElementAdjacent. rewrite (xadj_ok h g rows R), bind_ok.
  pose proof (lookup_lt_Some _ _ _ He) as L.
  rewrite (rd_ok _ _ _ (offsets_lookup rows e ltac:(lia))), bind_ok.
  rewrite (rd_ok _ _ _ (offsets_lookup rows (e + 1) ltac:(lia))), bind_ok.
  rewrite (adjncy_ok h g rows R), bind_ok.
  assert (T : take (e + 1) rows = take e rows ++ [row]) by (rewrite Nat.add_1_r; by apply take_S_r).
  assert (C : concat rows = concat (take e rows) ++ row ++ concat (drop (S e) rows)).
  { rewrite <- (take_drop_middle rows e row He) at 1. rewrite concat_app. done. }
  rewrite T, concat_app, app_length. cbn [concat]. rewrite app_nil_r.
  rewrite C, !app_length. rewrite (proj2 (Nat.leb_le _ _)) by lia. rewrite (proj2 (Nat.leb_le _ _)) by lia.
  cbn [andb]. rewrite drop_app. rewrite Nat.add_comm, Nat.add_sub. by rewrite take_app.
Qed.

(** The operations. *)
Lemma assign_ok h g v o rows : refers h g v -> refers h o (Some rows) -> NoDup (ptr_of g) ->
  (forall p, p ∈ ptr_of o -> ~ p ∈ ptr_of g) ->
  exists h', gassign g o h = Ok (h', mk_graph (Some (length h)) (Some (S (length h))) (length rows)) /\
    freed (ptr_of g) h h' /\ length h' = S (S (length h)) /\
    h' !! length h = Some (Some (offsets rows)) /\ h' !! S (length h) = Some (Some (concat rows)).
Proof.
  intros Rg Ro ND D. unfold gassign. rewrite (xadj_ok h o rows Ro), bind_ok. unfold gmalloc. cbv zeta. cbn [fst snd].
  set (h1 := h ++ [Some (replicate (length (offsets rows)) 0)]).
  assert (F1 : freed [] h h1) by apply freed_app, freed_nil.
  destruct (freed_free [] h h1 (xadj g) F1) as (h2 & -> & F2 & L2 & K2).
  { intros r E. split; [apply not_elem_of_nil|]. apply (refers_live h g v r Rg). unfold ptr_of. rewrite E. apply elem_of_app. left. by apply elem_of_list_singleton. }
  rewrite bind_ok. cbn [app] in F2.
  assert (R2 : refers h2 o (Some rows)).
  { apply (refers_frame _ h h2 o _ F2 Ro). intros p Hp X. apply (D p Hp). unfold ptr_of. apply elem_of_app. by left. }
  rewrite (adjncy_ok h2 o rows R2), bind_ok. cbn [fst snd].
  assert (L1 : length h1 = S (length h)) by (unfold h1; rewrite app_length; cbn; lia).
  set (h3 := h2 ++ [Some (replicate (length (concat rows)) 0)]).
  assert (F3 : freed (option_list (xadj g)) h h3) by (by apply freed_app).
  destruct (freed_free _ h h3 (adjncy g) F3) as (h4 & -> & F4 & L4 & K4).
  { intros r E. unfold ptr_of in ND. apply NoDup_app in ND as (_ & N & _). split.
    - intros X. apply (N r X). rewrite E. by apply elem_of_list_singleton.
    - apply (refers_live h g v r Rg). unfold ptr_of. rewrite E. apply elem_of_app. right. by apply elem_of_list_singleton. }
  rewrite bind_ok. fold (ptr_of g) in F4.
  assert (R4 : refers h4 o (Some rows)) by (by apply (refers_frame _ h h4 o _ F4 Ro)).
  rewrite (xadj_ok h4 o rows R4), bind_ok.
  assert (L3 : length h3 = S (S (length h))) by (unfold h3; rewrite app_length; cbn; lia).
  assert (E4 : h4 !! length h = Some (Some (replicate (length (offsets rows)) 0))).
  { rewrite K4 by lia. unfold h3. rewrite lookup_app_l by lia. rewrite K2 by lia. unfold h1. rewrite lookup_app_r by lia. by rewrite Nat.sub_diag. }
  assert (E4' : h4 !! S (length h) = Some (Some (replicate (length (concat rows)) 0))).
  { rewrite K4 by lia. unfold h3. rewrite lookup_app_r by lia. by replace (S (length h) - length h2) with 0 by lia. }
  rewrite (gcopy_ok (offsets rows) (length h) h4 _ E4) by (by rewrite replicate_length). rewrite bind_ok.
  set (h5 := <[length h := Some (offsets rows)]> h4).
  assert (F5 : freed (ptr_of g) h h5) by (by apply freed_write).
  rewrite (adjncy_ok h5 o rows (refers_frame _ h h5 o _ F5 Ro D)), bind_ok.
  replace (length h2) with (S (length h)) by lia.
  assert (E5 : h5 !! S (length h) = Some (Some (replicate (length (concat rows)) 0))) by (unfold h5; rewrite list_lookup_insert_ne by lia; exact E4').
  rewrite (gcopy_ok (concat rows) (S (length h)) h5 _ E5) by (by rewrite replicate_length). rewrite bind_ok.
  assert (L5 : length h5 = S (S (length h))) by (unfold h5; rewrite insert_length; lia).
  eexists. split; [destruct Ro as (p & q & -> & _); done|].
  split; [apply freed_write; [exact F5|lia]|]. split; [rewrite insert_length; exact L5|].
  split; [rewrite list_lookup_insert_ne by lia; unfold h5; by rewrite list_lookup_insert by lia|].
  by rewrite list_lookup_insert by lia.
Qed.

Lemma nodup_one gs : forall i g, NoDup (ptrs gs) -> gs !! i = Some g -> NoDup (ptr_of g).
Proof.
  induction gs as [|c gs IH]; intros [|i] g N H; cbn in H; [done|done| |].
  - injection H as ->. unfold ptrs in N. cbn [map concat] in N. apply NoDup_app in N as (N & _ & _). exact N.
  - unfold ptrs in N. cbn [map concat] in N. apply NoDup_app in N as (_ & _ & N). by apply (IH i).
Qed.
Lemma disjoint_two gs i j g o : NoDup (ptrs gs) -> i <> j -> gs !! i = Some g -> gs !! j = Some o ->
  forall p, p ∈ ptr_of o -> ~ p ∈ ptr_of g.
Proof.
  intros N Hn Hi Hj p Ho Hg. pose proof (ptrs_insert gs i g null_graph Hi) as P.
  unfold ptr_of at 2 in P. cbn [null_graph xadj adjncy option_list app] in P. rewrite app_nil_r in P.
  assert (N' : NoDup (ptrs (<[i := null_graph]> gs) ++ ptr_of g)) by (by rewrite P).
  apply NoDup_app in N' as (_ & N' & _). apply (N' p); [|exact Hg].
  apply (ptrs_elem _ j o); [|done]. by rewrite list_lookup_insert_ne.
Qed.

Lemma do_assign_ok h gs vs i j w rows : good h gs vs -> i <> j -> vs !! i = Some w -> vs !! j = Some (Some rows) ->
  exists h' gs', do_assign i j (h, gs) = Ok (h', gs') /\ good h' gs' (<[i := Some rows]> vs).
Proof.
  intros G Hn Hi Hj.
  destruct (Forall2_lookup_r _ _ _ _ _ (g_ref _ _ _ G) Hi) as (g & Hg & Rg).
  destruct (Forall2_lookup_r _ _ _ _ _ (g_ref _ _ _ G) Hj) as (o & Ho & Ro).
  destruct (assign_ok h g w o rows Rg Ro) as (h' & E & Fr & Lh & X & A).
  { eapply nodup_one; [apply G|exact Hg]. }
  { eapply (disjoint_two gs i j); [apply G|done|done|done]. }
  unfold do_assign. cbn [fst snd]. rewrite (rd_ok _ _ _ Hg), bind_ok, (rd_ok _ _ _ Ho), bind_ok.
  rewrite (proj2 (Nat.eqb_neq i j) Hn), E, bind_ok. cbn [fst snd]. eexists _, _. split; [done|].
  set (g' := mk_graph (Some (length h)) (Some (S (length h))) (length rows)).
  apply (good_step h gs vs h' _ _ (ptr_of g) (ptr_of g') G Fr).
  - by apply ptrs_insert.
  - unfold ptr_of. cbn. repeat constructor; [|apply not_elem_of_nil]. intros Y. apply elem_of_list_singleton in Y. lia.
  - intros p Hp. unfold ptr_of in Hp. cbn in Hp. apply elem_of_cons in Hp as [->|Hp]; [lia|].
    apply elem_of_list_singleton in Hp. lia.
  - intros r b Hr Hb. apply lookup_lt_Some in Hb. unfold ptr_of. cbn.
    apply elem_of_cons. destruct (decide (r = length h)); [by left|right]. apply elem_of_list_singleton. lia.
  - intros p Hp. eapply refers_bound; [exact Rg|exact Hp].
  - rewrite (insert_length gs), (insert_length vs). eapply Forall2_length, G.
  - intros k c u Hc Hu. destruct (decide (k = i)) as [->|Hk].
    + rewrite list_lookup_insert in Hc by (by eapply lookup_lt_Some). rewrite list_lookup_insert in Hu by (by eapply lookup_lt_Some).
      injection Hc as <-. injection Hu as <-. left. by exists (length h), (S (length h)).
    + rewrite list_lookup_insert_ne in Hc by done. rewrite list_lookup_insert_ne in Hu by done.
      right. destruct (Forall2_lookup_l _ _ _ _ _ (g_ref _ _ _ G) Hc) as (u' & Hu' & R). by replace u with u' by congruence.
Qed.
Lemma do_move_ok h gs vs i j w v : good h gs vs -> i <> j -> vs !! i = Some w -> vs !! j = Some v ->
  exists h' gs', do_move i j (h, gs) = Ok (h', gs') /\ good h' gs' (<[j := None]> (<[i := v]> vs)).
Proof.
  intros G Hn Hi Hj.
  destruct (Forall2_lookup_r _ _ _ _ _ (g_ref _ _ _ G) Hi) as (g & Hg & Rg).
  destruct (Forall2_lookup_r _ _ _ _ _ (g_ref _ _ _ G) Hj) as (o & Ho & Ro).
  pose proof (nodup_one gs i g (g_nodup _ _ _ G) Hg) as ND. unfold ptr_of in ND. apply NoDup_app in ND as (_ & N & _).
  unfold do_move. cbn [fst snd]. rewrite (rd_ok _ _ _ Hg), bind_ok, (rd_ok _ _ _ Ho), bind_ok.
  rewrite (proj2 (Nat.eqb_neq i j) Hn). unfold gmove.
  destruct (freed_free [] h h (xadj g) (freed_nil h)) as (h2 & -> & F2 & L2 & K2).
  { intros r E. split; [apply not_elem_of_nil|]. apply (refers_live h g w r Rg). unfold ptr_of. rewrite E. apply elem_of_app. left. by apply elem_of_list_singleton. }
  rewrite bind_ok. cbn [app] in F2.
  destruct (freed_free _ h h2 (adjncy g) F2) as (h4 & -> & F4 & L4 & K4).
  { intros r E. split.
    - intros X. apply (N r X). rewrite E. by apply elem_of_list_singleton.
    - apply (refers_live h g w r Rg). unfold ptr_of. rewrite E. apply elem_of_app. right. by apply elem_of_list_singleton. }
  rewrite !bind_ok. fold (ptr_of g) in F4. cbn [fst snd]. eexists _, _. split; [done|].
  set (o' := mk_graph (xadj o) (adjncy o) (nvert o)). set (z := mk_graph None None (nvert o)).
  apply (good_step h gs vs h4 _ _ (ptr_of g) [] G F4).
  - pose proof (ptrs_insert gs i g o' Hg) as P1.
    assert (Ho' : <[i := o']> gs !! j = Some o) by (by rewrite list_lookup_insert_ne).
    pose proof (ptrs_insert (<[i := o']> gs) j o z Ho') as P2.
    change (ptr_of z) with (@nil nat) in P2. change (ptr_of o') with (ptr_of o) in P1. rewrite app_nil_r in P2 |- *.
    apply (Permutation_app_inv_r (ptr_of o)). rewrite <- P1, <- P2, <- !app_assoc.
    apply Permutation_app_head, Permutation_app_comm.
  - constructor.
  - intros p Hp. by apply elem_of_nil in Hp.
  - intros r b Hr Hb. apply lookup_lt_Some in Hb. lia.
  - intros p Hp. eapply refers_bound; [exact Rg|exact Hp].
  - rewrite (insert_length (<[i := o']> gs)), (insert_length (<[i := v]> vs)), (insert_length gs), (insert_length vs). eapply Forall2_length, G.
  - intros k c u Hc Hu. destruct (decide (k = j)) as [->|Hk].
    + rewrite list_lookup_insert in Hc by (rewrite insert_length; by eapply lookup_lt_Some).
      rewrite list_lookup_insert in Hu by (rewrite insert_length; by eapply lookup_lt_Some).
      injection Hc as <-. injection Hu as <-. by left.
    + rewrite list_lookup_insert_ne in Hc by done. rewrite list_lookup_insert_ne in Hu by done. right.
      destruct (decide (k = i)) as [->|Hk'].
      * rewrite list_lookup_insert in Hc by (by eapply lookup_lt_Some). rewrite list_lookup_insert in Hu by (by eapply lookup_lt_Some).
        injection Hc as <-. injection Hu as <-. unfold o'. by destruct o.
      * rewrite list_lookup_insert_ne in Hc by done. rewrite list_lookup_insert_ne in Hu by done.
        destruct (Forall2_lookup_l _ _ _ _ _ (g_ref _ _ _ G) Hc) as (u' & Hu' & R). by replace u with u' by congruence.
Qed.

Lemma good_null h gs vs : good h gs vs -> good h (gs ++ [null_graph]) (vs ++ [None]).
Proof.
  intros [A B C]. assert (E : ptrs (gs ++ [null_graph]) = ptrs gs) by (rewrite ptrs_app; apply app_nil_r). split.
  - apply Forall2_app; [done|]. by repeat constructor.
  - by rewrite E.
  - intros p b Hp. rewrite E. by eapply C.
Qed.
Lemma good_new h gs vs rows : good h gs vs ->
  good (h ++ [Some (offsets rows); Some (concat rows)]) (gs ++ [mk_graph (Some (length h)) (Some (S (length h))) (length rows)]) (vs ++ [Some rows]).
Proof.
  intros G. set (g' := mk_graph (Some (length h)) (Some (S (length h))) (length rows)).
  apply (good_step h gs vs _ _ _ [] (ptr_of g') G).
  - apply freed_app, freed_nil.
  - rewrite app_nil_r, ptrs_app. unfold ptrs at 2. cbn [map concat]. by rewrite app_nil_r.
  - unfold ptr_of. cbn. repeat constructor; [|apply not_elem_of_nil]. intros Y. apply elem_of_list_singleton in Y. lia.
  - intros p Hp. unfold ptr_of in Hp. cbn in Hp. apply elem_of_cons in Hp as [->|Hp]; [lia|].
    apply elem_of_list_singleton in Hp. lia.
  - intros r b Hr Hb. apply lookup_lt_Some in Hb. rewrite app_length in Hb. cbn in Hb. unfold ptr_of. cbn.
    apply elem_of_cons. destruct (decide (r = length h)); [by left|right]. apply elem_of_list_singleton. lia.
  - intros p Hp. by apply elem_of_nil in Hp.
  - rewrite (app_length gs), (app_length vs), (Forall2_length _ _ _ (g_ref _ _ _ G)). done.
  - intros k c u Hc Hu. pose proof (Forall2_length _ _ _ (g_ref _ _ _ G)) as L. destruct (decide (k < length gs)) as [Hk|Hk].
    + rewrite lookup_app_l in Hc by lia. rewrite lookup_app_l in Hu by lia. right.
      destruct (Forall2_lookup_l _ _ _ _ _ (g_ref _ _ _ G) Hc) as (u' & Hu' & R). by replace u with u' by congruence.
    + rewrite lookup_app_r in Hc by lia. rewrite lookup_app_r in Hu by lia. rewrite <- L in Hu.
      apply list_lookup_singleton_Some in Hc as [E <-]. apply list_lookup_singleton_Some in Hu as [_ <-].
      left. exists (length h), (S (length h)). split; [done|]. split.
      * rewrite lookup_app_r by lia. by rewrite Nat.sub_diag.
      * rewrite lookup_app_r by lia. by replace (S (length h) - length h) with 1 by lia.
Qed.

(** Programs. *)
Lemma insert_last {A} (l : list A) (x y : A) n : n = length l -> <[n := y]> (l ++ [x]) = l ++ [y].
Proof. intros ->. rewrite insert_app_r_alt by done. by rewrite Nat.sub_diag. Qed.
Lemma gstep_ok o h gs vs vs' : good h gs vs -> vstep o vs = Some vs' ->
  exists h' gs', gstep (run_as o) (h, gs) = Ok (h', gs') /\ good h' gs' vs'.
Proof.
  intros G H. pose proof (Forall2_length _ _ _ (g_ref _ _ _ G)) as L.
  destruct o as [rows|i|i j|i|i j]; cbn [vstep run_as gstep fst snd] in *.
  - injection H as <-. eexists _, _. split; [done|]. by apply good_new.
  - destruct (vs !! i) as [[r|]|] eqn:E; try done. injection H as <-. pose proof (lookup_lt_Some _ _ _ E) as Hi.
    destruct (do_assign_ok h (gs ++ [null_graph]) (vs ++ [None]) (length gs) i None r) as (h' & gs' & X & G').
    + by apply good_null.
    + lia.
    + rewrite lookup_app_r by lia. by replace (length gs - length vs) with 0 by lia.
    + by apply lookup_app_l_Some.
    + exists h', gs'. split; [exact X|]. rewrite insert_last in G' by lia. exact G'.
  - destruct (vs !! i) as [w|] eqn:Ei; [|done]. destruct (vs !! j) as [v|] eqn:Ej; [|done].
    destruct (decide (i = j)) as [->|Hn].
    + injection H as <-. destruct (Forall2_lookup_r _ _ _ _ _ (g_ref _ _ _ G) Ej) as (g & Hg & _).
      unfold do_assign. cbn [fst snd]. rewrite (rd_ok _ _ _ Hg), !bind_ok, Nat.eqb_refl. by exists h, gs.
    + destruct v as [r|]; [|done]. injection H as <-. by apply (do_assign_ok h gs vs i j w r).
  - destruct (vs !! i) as [v|] eqn:E; try done. injection H as <-. pose proof (lookup_lt_Some _ _ _ E) as Hi.
    destruct (do_move_ok h (gs ++ [null_graph]) (vs ++ [None]) (length gs) i None v) as (h' & gs' & X & G').
    + by apply good_null.
    + lia.
    + rewrite lookup_app_r by lia. by replace (length gs - length vs) with 0 by lia.
    + by apply lookup_app_l_Some.
    + exists h', gs'. split; [exact X|]. rewrite insert_last in G' by lia. rewrite insert_app_l in G' by lia. exact G'.
  - destruct (vs !! i) as [w|] eqn:Ei; [|done]. destruct (vs !! j) as [v|] eqn:Ej; [|done].
    destruct (decide (i = j)) as [->|Hn].
    + injection H as <-. destruct (Forall2_lookup_r _ _ _ _ _ (g_ref _ _ _ G) Ej) as (g & Hg & _).
      unfold do_move. cbn [fst snd]. rewrite (rd_ok _ _ _ Hg), !bind_ok, Nat.eqb_refl. by exists h, gs.
    + injection H as <-. by apply (do_move_ok h gs vs i j w v).
Qed.
Lemma gsteps_ok l : forall h gs vs vs', good h gs vs -> vsteps l vs = Some vs' ->
  exists h' gs', for_each gstep (map run_as l) (h, gs) = Ok (h', gs') /\ good h' gs' vs'.
Proof.
  induction l as [|o l IH]; intros h gs vs vs' G H; cbn [vsteps map for_each] in *.
  - injection H as <-. eauto.
  - destruct (vstep o vs) as [vs1|] eqn:E; [|done]. destruct (gstep_ok o h gs vs vs1 G E) as (h1 & gs1 & -> & G1).
    rewrite bind_ok. by apply (IH h1 gs1 vs1).
Qed.
Lemma gdestroy_ok gs : forall h vs, good h gs vs -> exists h', for_each gdestroy gs h = Ok h' /\ forall p b, h' !! p <> Some (Some b).
Proof.
  induction gs as [|g gs IH]; intros h vs G; cbn [for_each].
  - exists h. split; [done|]. intros p b Hp. pose proof (g_live _ _ _ G p b Hp) as X. by apply elem_of_nil in X.
  - destruct vs as [|v vs]; [by pose proof (Forall2_length _ _ _ (g_ref _ _ _ G))|].
    pose proof (g_ref _ _ _ G) as R. apply Forall2_cons in R as [Rg R].
    pose proof (nodup_one (g :: gs) 0 g (g_nodup _ _ _ G) eq_refl) as ND. unfold ptr_of in ND. apply NoDup_app in ND as (_ & N & _).

    destruct (freed_free [] h h (adjncy g) (freed_nil h)) as (h2 & E2 & F2 & L2 & K2).
    { intros r E. split; [apply not_elem_of_nil|]. apply (refers_live h g v r Rg). unfold ptr_of. rewrite E. apply elem_of_app. right. by apply elem_of_list_singleton. }
    cbn [app] in F2.
    destruct (freed_free _ h h2 (xadj g) F2) as (h4 & E4 & F4 & L4 & K4).
    { intros r E. split.
      - intros X. apply (N r); [|exact X]. rewrite E. by apply elem_of_list_singleton.
      - apply (refers_live h g v r Rg). unfold ptr_of. rewrite E. apply elem_of_app. left. by apply elem_of_list_singleton. }
    assert (D : gdestroy g h = Ok h4) by (unfold gdestroy; rewrite E2, bind_ok; exact E4).
    rewrite D, bind_ok. apply (IH h4 vs).
    apply (good_step h (g :: gs) (v :: vs) h4 gs vs _ [] G F4).
    + rewrite app_nil_r. unfold ptrs at 2. cbn [map concat]. rewrite (Permutation_app_comm (ptrs gs)).
      apply Permutation_app_tail. unfold ptr_of. apply Permutation_app_comm.
    + constructor.
    + intros p Hp. by apply elem_of_nil in Hp.
    + intros r b Hr Hb. apply lookup_lt_Some in Hb. lia.
    + intros p Hp. eapply refers_bound; [exact Rg|]. unfold ptr_of. rewrite elem_of_app in Hp |- *. tauto.
    + by eapply Forall2_length.
    + intros k c u Hc Hu. right. destruct (Forall2_lookup_l _ _ _ _ _ R Hc) as (u' & Hu' & Rc). by replace u with u' by congruence.
Qed.
Lemma good_empty : good [] [] [].
Proof. split; [constructor|constructor|]. intros p b H. by rewrite lookup_nil in H. Qed.
