(** C41: the graph of one rank. *)
From Verif Require Import Base StdAlgo Ownership_model Ownership_spec Ownership_proofs Elem_model Elem_spec Mesh_model Mesh_spec Mesh_proofs Helpers_model Helpers_proofs Graph_model Graph_spec Graph_proofs Partition_model Partition_spec Dofs_model Dofs_spec Dofs_proofs Dofs2_proofs Periodic_proofs Sparsity_model Sparsity_spec.
Local Arguments Nat.mul : simpl never.
Local Arguments Nat.add : simpl never.
Local Arguments Nat.sub : simpl never.

(** ** Rows packed into one array. *)
Definition offset (rows : list (list nat)) (l : nat) : nat := sum (map length (take l rows)).
Lemma concat_len (ls : list (list nat)) : length (concat ls) = sum (map length ls).
Proof. induction ls as [|l ls IH]; [done|]. cbn [concat map]. by rewrite app_length, IH, sum_cons. Qed.
Lemma offset_S rows l r : rows !! l = Some r -> offset rows (S l) = offset rows l + length r.
Proof. intros H. unfold offset. rewrite (take_S_r _ _ _ H), map_app, sum_app. cbn. lia. Qed.
Lemma offset_le rows l : offset rows l <= length (concat rows).
Proof. rewrite concat_len. unfold offset. rewrite <- (take_drop l rows) at 2. rewrite map_app, sum_app. lia. Qed.
Lemma concat_split (rows : list (list nat)) l r : rows !! l = Some r -> concat rows = concat (take l rows) ++ r ++ concat (drop (S l) rows) /\ length (concat (take l rows)) = offset rows l.
Proof. intros H. split; [|apply concat_len]. rewrite <- (take_drop_middle rows l r H) at 1. by rewrite concat_app. Qed.
Lemma concat_slice (rows : list (list nat)) l r : rows !! l = Some r -> take (length r) (drop (offset rows l) (concat rows)) = r.
Proof. intros H. destruct (concat_split rows l r H) as [-> Hl]. rewrite <- Hl, drop_app, take_app. done. Qed.
Lemma concat_replace (rows : list (list nat)) l r r' : rows !! l = Some r -> length r' = length r ->
  take (offset rows l) (concat rows) ++ r' ++ drop (offset rows l + length r) (concat rows) = concat (<[l := r']> rows).
Proof.
  intros H Hr. destruct (concat_split rows l r H) as [E Hl]. rewrite E, <- Hl, take_app. rewrite (app_assoc (concat (take l rows)) r), <- app_length, drop_app.
  assert (Hlt : l < length rows) by (by eapply lookup_lt_Some). rewrite insert_take_drop by done. by rewrite concat_app.
Qed.
Lemma concat_index (ls : list (list nat)) i : i < length (concat ls) -> exists l r q, ls !! l = Some r /\ q < length r /\ i = offset ls l + q.
Proof.
  revert i. induction ls as [|a ls IH]; intros i Hi; [cbn in Hi; lia|]. cbn [concat] in Hi. rewrite app_length in Hi. destruct (decide (i < length a)) as [Hlt|Hge].
  - exists 0, a, i. done.
  - destruct (IH (i - length a)) as (l & r & q & H1 & H2 & H3); [lia|]. exists (S l), r, q. split; [done|]. split; [done|]. unfold offset in *. cbn [take map]. rewrite sum_cons. lia.
Qed.
Lemma concat_at' (rows : list (list nat)) l r q : rows !! l = Some r -> q < length r -> concat rows !! (offset rows l + q) = r !! q.
Proof. intros H Hq. destruct (concat_split rows l r H) as [-> <-]. rewrite lookup_app_r by lia. replace (_ + q - _) with q by lia. by rewrite lookup_app_l. Qed.
Lemma offset_lt rows l r : rows !! l = Some r -> offset rows l + length r <= length (concat rows).
Proof. intros H. rewrite <- (offset_S rows l r H). apply offset_le. Qed.

Lemma app_cons_snoc_inv {A} (pre : list A) p pre' p' post' : pre ++ [p] = pre' ++ p' :: post' -> (pre = pre' /\ p = p' /\ post' = []) \/ exists post'', post' = post'' ++ [p] /\ pre = pre' ++ p' :: post''.
Proof.
  intros H. destruct post' as [|q post' _] using rev_ind.
  - left. apply app_inj_tail in H as [-> ->]. done.
  - right. exists post'. rewrite app_comm_cons, app_assoc in H. apply app_inj_tail in H as [-> ->]. done.
Qed.
Definition packed (g : crs) (rows : list (list nat)) : Prop := crs_offs g = 0 :: inclusive_scan 0 (map length rows) /\ crs_adj g = concat rows.
Lemma offs_at (rows : list (list nat)) l : l <= length rows -> (0 :: inclusive_scan 0 (map length rows)) !! l = Some (offset rows l).
Proof. intros H. rewrite offs_lookup by (by rewrite map_length). unfold offset. by rewrite firstn_map. Qed.
Lemma packed_range offs adj (rows : list (list nat)) l r : offs = 0 :: inclusive_scan 0 (map length rows) -> length adj = length (concat rows) -> rows !! l = Some r ->
  row_range {| crs_offs := offs; crs_adj := adj |} l = Ok (offset rows l, offset rows l + length r).
Proof.
  intros Ho Ha Hr. assert (Hlt : l < length rows) by (by eapply lookup_lt_Some). apply row_range_ok; cbn [crs_offs crs_adj].
  - rewrite Ho. apply offs_at. lia.
  - rewrite Ho, offs_at by lia. replace (l + 1) with (S l) by lia. by rewrite (offset_S _ _ _ Hr).
  - lia.
  - rewrite Ha. by apply offset_lt.
Qed.
Lemma packed_row g rows l r : packed g rows -> rows !! l = Some r -> row g l = Ok r.
Proof.
  intros [Ho Ha] Hr. destruct g as [offs adj]. cbn in *. unfold row. rewrite (packed_range offs adj rows l r Ho) by (by subst). rewrite bind_ok. cbn [crs_adj]. replace (_ - _) with (length r) by lia. subst adj. by rewrite concat_slice.
Qed.

(** ** Counting and reserving. *)
Section rows.
  Context (own : ownership) (evs : list (nat * list nat)).
  Notation lid k := (getLocalIndex own k).
  Notation n := (localSize own).
  Context (Hlid : forall p, p ∈ evs -> lid p.1 < n).
  Definition of_row (l : nat) (ps : list (nat * list nat)) : list (list nat) := map snd (List.filter (fun p => lid p.1 =? l) ps).
  Definition weight (l : nat) (ps : list (nat * list nat)) : nat := sum (map length (of_row l ps)).
  Lemma of_row_app l a b : of_row l (a ++ b) = of_row l a ++ of_row l b.
  Proof. unfold of_row. by rewrite List.filter_app, map_app. Qed.
  Lemma weight_app l a b : weight l (a ++ b) = weight l a + weight l b.
  Proof. unfold weight. by rewrite of_row_app, map_app, sum_app. Qed.
  Lemma of_row_one l p : of_row l [p] = if lid p.1 =? l then [p.2] else [].
  Proof. unfold of_row. cbn. by destruct (_ =? _). Qed.
  Lemma weight_one l p : weight l [p] = if lid p.1 =? l then length p.2 else 0.
  Proof. unfold weight. rewrite of_row_one. destruct (_ =? _); cbn; lia. Qed.
  Lemma filter_perm {A} (q : A -> bool) (a b : list A) : a ≡ₚ b -> List.filter q a ≡ₚ List.filter q b.
  Proof. induction 1 as [|x a b _ IH|x y a|a b c _ IH1 _ IH2]; cbn; [done| | |by etransitivity]; [destruct (q x); by rewrite ?IH|]. destruct (q x), (q y); try done. apply perm_swap. Qed.
  Lemma sum_perm (a b : list nat) : a ≡ₚ b -> sum a = sum b.
  Proof. induction 1; rewrite ?sum_cons in *; lia. Qed.
  Lemma weight_perm l a b : a ≡ₚ b -> weight l a = weight l b.
  Proof. intros H. unfold weight, of_row. apply sum_perm. by rewrite (filter_perm _ _ _ H). Qed.
  Lemma of_row_elem l ps d : d ∈ of_row l ps <-> exists k, (k, d) ∈ ps /\ lid k = l.
  Proof.
    unfold of_row. rewrite (elem_of_list_fmap snd). split.
    - intros ([k d'] & -> & H). rewrite elem_of_list_In, filter_In, <- elem_of_list_In in H. destruct H as [H E]. apply Nat.eqb_eq in E. by exists k.
    - intros (k & H & E). exists (k, d). split; [done|]. rewrite elem_of_list_In, filter_In, <- elem_of_list_In. split; [done|]. by apply Nat.eqb_eq.
  Qed.
  Lemma count_ok ps : ps ≡ₚ evs -> for_each (count_pass own) ps (replicate n 0) = Ok (map (fun l => weight l ps) (seq 0 n)).
  Proof.
    intros Hp. destruct (for_each_inv (count_pass own) (fun pre sizes => sizes = map (fun l => weight l pre) (seq 0 n)) ps [] (replicate n 0)) as (s & E & H).
    - change (map (fun l => weight l []) (seq 0 n)) with (map (fun _ => 0) (seq 0 n)). apply list_eq. intros i. rewrite list_lookup_fmap. destruct (decide (i < n)).
      + rewrite lookup_replicate_2, lookup_seq_lt by done. done.
      + rewrite !lookup_ge_None_2; [done|rewrite seq_length; lia|rewrite replicate_length; lia].
    - intros pre p s [post Hpp] ->. assert (Hin : p ∈ evs) by (rewrite <- Hp; cbn in Hpp; rewrite Hpp; set_solver). specialize (Hlid p Hin).
      unfold count_pass, at_. rewrite (list_lookup_fmap (fun l => weight l pre)), lookup_seq_lt by done. cbn [fmap option_fmap option_map]. rewrite bind_ok, wr_ok by (rewrite map_length, seq_length; done).
      eexists. split; [reflexivity|]. apply list_eq. intros i. rewrite (list_lookup_fmap (fun l => weight l (pre ++ [p]))). destruct (decide (i < n)) as [Hi|Hi].
      + rewrite lookup_seq_lt by done. cbn. rewrite weight_app, weight_one. destruct (Nat.eqb_spec (lid p.1) (0 + i)) as [He|He].
        * rewrite Nat.add_0_l in He. subst i. rewrite list_lookup_insert by (by rewrite map_length, seq_length). done.
        * rewrite list_lookup_insert_ne by done. rewrite (list_lookup_fmap (fun l => weight l pre)), lookup_seq_lt by done. cbn. f_equal. lia.
      + rewrite lookup_ge_None_2 by (rewrite insert_length, map_length, seq_length; lia). rewrite lookup_ge_None_2 by (rewrite seq_length; lia). done.
    - cbn in H. by subst s.
  Qed.

  (** [goal]: the array of all entries after the copies, for the reservation order [ps]. *)
  Context (ps : list (nat * list nat)) (Hps : ps ≡ₚ evs).
  Definition goal_rows : list (list nat) := map (fun l => concat (of_row l ps)) (seq 0 n).
  Lemma goal_at l : l < n -> goal_rows !! l = Some (concat (of_row l ps)).
  Proof. intros H. unfold goal_rows. rewrite (list_lookup_fmap (fun l => concat (of_row l ps))), lookup_seq_lt by done. done. Qed.
  Lemma goal_sizes : map length goal_rows = map (fun l => weight l evs) (seq 0 n).
  Proof. unfold goal_rows. rewrite map_map. apply map_ext. intros l. rewrite concat_len. by apply (weight_perm l). Qed.
  (** The position reserved by the pass [p] after the passes [pre]. *)
  Definition spot (pre : list (nat * list nat)) (p : nat * list nat) : nat * list nat := (offset goal_rows (lid p.1) + weight (lid p.1) pre, p.2).
  Lemma reserve_ok fill : exists rs, for_each (reserve_pass own (make_crs fill (map length goal_rows))) ps (map length goal_rows, []) = Ok (replicate n 0, rs) /\
    forall z, z ∈ rs <-> exists pre p post, ps = pre ++ p :: post /\ z = spot pre p.
  Proof.
    set (g := make_crs fill (map length goal_rows)).
    assert (Hg : forall l, l < n -> row_range g l = Ok (offset goal_rows l, offset goal_rows l + weight l evs)).
    { intros l Hl. unfold g, make_crs. rewrite (packed_range _ _ goal_rows l (concat (of_row l ps)) eq_refl).
      - do 2 f_equal. f_equal. rewrite concat_len. by apply (weight_perm l).
      - rewrite map_length, seq_length. destruct goal_rows as [|r rs] eqn:Eg; [done|]. rewrite <- Eg.
        assert (Hlast : (0 :: inclusive_scan 0 (map length goal_rows)) !! length goal_rows = Some (List.last (0 :: inclusive_scan 0 (map length goal_rows)) 0)).
        { rewrite <- last_at by done. f_equal. cbn [length]. rewrite inclusive_scan_length, map_length. lia. }
        rewrite offs_at in Hlast by done. apply (inj Some) in Hlast. rewrite <- Hlast, concat_len. unfold offset. by rewrite take_ge by done.
      - by apply goal_at. }
    destruct (for_each_inv (reserve_pass own g) (fun pre st => st.1 = map (fun l => weight l evs - weight l pre) (seq 0 n) /\ forall z, z ∈ st.2 <-> exists pre' p post, pre = pre' ++ p :: post /\ z = spot pre' p) ps [] (map length goal_rows, [])) as ([s rs] & E & H1 & H2).
    - cbn [fst snd]. split; [rewrite goal_sizes; apply map_ext; intros l; unfold weight; cbn; lia|]. intros z. rewrite elem_of_nil. split; [done|]. intros (pre' & p & post & Hn & _). by destruct pre'.
    - intros pre p [s rs] [post Hpp] [Hs1 Hz]. cbn [fst snd] in *. subst s. cbn [app] in Hpp. assert (Hin : p ∈ evs) by (rewrite <- Hps, Hpp; set_solver). specialize (Hlid p Hin). set (l := lid p.1) in *.
      assert (Hw : weight l evs = weight l pre + length p.2 + weight l post).
      { rewrite <- (weight_perm l ps evs Hps), Hpp, weight_app. change (p :: post) with ([p] ++ post). rewrite weight_app, weight_one. fold l. rewrite Nat.eqb_refl. lia. }
      unfold reserve_pass. fold l. cbn [fst snd]. unfold at_. rewrite (list_lookup_fmap (fun l => weight l evs - weight l pre)), lookup_seq_lt by done. cbn [fmap option_fmap option_map]. rewrite bind_ok, wr_ok by (rewrite map_length, seq_length; done).
      rewrite bind_ok, Hg by done. rewrite bind_ok. cbv zeta iota beta.
      replace (0 + l) with l by lia. replace (offset goal_rows l + weight l evs - offset goal_rows l) with (weight l evs) by lia.
      rewrite (proj2 (Nat.leb_le _ _)) by lia. cbn [andb]. rewrite (proj2 (Nat.leb_le _ _)) by lia. eexists. split; [reflexivity|]. cbn [fst snd]. split.
      + apply list_eq. intros i. rewrite (list_lookup_fmap (fun l => weight l evs - weight l (pre ++ [p]))). destruct (decide (i < n)) as [Hi|Hi].
        * rewrite lookup_seq_lt by done. cbn [fmap option_fmap option_map]. rewrite weight_app, weight_one. fold l. destruct (Nat.eqb_spec l (0 + i)) as [He|He].
          -- rewrite Nat.add_0_l in He. subst i. rewrite list_lookup_insert by (by rewrite map_length, seq_length). rewrite ?Nat.add_0_l. f_equal. lia.
          -- rewrite list_lookup_insert_ne by done. rewrite (list_lookup_fmap (fun l => weight l evs - weight l pre)), lookup_seq_lt by done. cbn [fmap option_fmap option_map]. f_equal. lia.
        * rewrite lookup_ge_None_2 by (rewrite insert_length, map_length, seq_length; lia). rewrite lookup_ge_None_2 by (rewrite seq_length; lia). done.
      + intros z. rewrite elem_of_app, elem_of_list_singleton, Hz. split.
        * intros [(pre' & p' & post' & -> & ->)| ->]; [exists pre', p', (post' ++ [p]); split; [by rewrite <- app_assoc|done]|]. exists pre, p, []. split; [done|]. unfold spot. fold l. f_equal. lia.
        * intros (pre' & p' & post' & Hs & ->). destruct (app_cons_snoc_inv pre p pre' p' post' Hs) as [(-> & -> & ->)|(post'' & -> & ->)].
          -- right. unfold spot. fold l. f_equal. lia.
          -- left. by exists pre', p', post''.
    - cbn [fst snd app] in *. exists rs. rewrite E. split; [|done]. do 2 f_equal. rewrite H1. apply list_eq. intros i. rewrite (list_lookup_fmap (fun l => weight l evs - weight l ps)). destruct (decide (i < n)).
      + rewrite lookup_replicate_2, lookup_seq_lt by done. cbn. f_equal. rewrite (weight_perm _ _ _ Hps). lia.
      + rewrite !lookup_ge_None_2; [done|rewrite replicate_length; lia|rewrite seq_length; lia].
  Qed.
End rows.

(** ** Copying: every copy writes what the goal holds at its place. *)
Lemma for_each_upto {A S} (f : A -> S -> res S) (l : list A) (P : nat -> S -> Prop) s :
  P 0 s -> (forall k a s, l !! k = Some a -> P k s -> exists s', f a s = Ok s' /\ P (k + 1) s') -> exists s', for_each f l s = Ok s' /\ P (length l) s'.
Proof.
  intros H0 Hs. apply (for_each_prefix f (fun pre s => P (length pre) s) l s H0). intros pre a t [post ->] HP. rewrite app_length. cbn [length]. apply Hs; [|done]. by rewrite list_lookup_middle.
Qed.
Lemma copy_pass_ok (goal adj : list nat) p d : length adj = length goal -> (forall q x, d !! q = Some x -> goal !! (p + q) = Some x) ->
  exists adj', copy_pass (p, d) adj = Ok adj' /\ length adj' = length goal /\ forall i, adj' !! i = if decide (p <= i < p + length d) then goal !! i else adj !! i.
Proof.
  intros Hl Hg. unfold copy_pass. cbn [fst snd].
  destruct (for_each_upto (fun (z : nat * nat) adj => wr adj (p + z.1) z.2) (zip (seq 0 (length d)) d)
    (fun k a => length a = length goal /\ forall i, a !! i = if decide (p <= i < p + k) then goal !! i else adj !! i) adj) as (adj' & E & H1 & H2).
  - split; [done|]. intros i. rewrite decide_False by lia. done.
  - intros k [q x] a Hz [Ha Hi]. apply lookup_zip_with_Some in Hz as (q' & x' & [= -> ->] & Hq & Hx). apply lookup_seq in Hq as [-> Hq]. cbn [fst snd]. rewrite Nat.add_0_l. specialize (Hg k x' Hx).
    rewrite wr_ok by (rewrite Ha; by eapply lookup_lt_Some). eexists. split; [reflexivity|]. split; [by rewrite insert_length|]. intros i. destruct (decide (i = p + k)) as [-> |Hne].
    + rewrite list_lookup_insert by (rewrite Ha; by eapply lookup_lt_Some). rewrite decide_True by lia. done.
    + rewrite list_lookup_insert_ne by done. rewrite Hi. destruct (decide (p <= i < p + k)); [rewrite decide_True by lia; done|rewrite decide_False by lia; done].
  - exists adj'. split; [done|]. split; [done|]. intros i. rewrite H2. rewrite zip_with_length, seq_length, Nat.min_id. done.
Qed.
Lemma copies_ok (goal : list nat) rs adj : length adj = length goal -> (forall p d q x, (p, d) ∈ rs -> d !! q = Some x -> goal !! (p + q) = Some x) ->
  (forall i, i < length goal -> exists p d, (p, d) ∈ rs /\ p <= i < p + length d) -> for_each copy_pass rs adj = Ok goal.
Proof.
  intros Hl Hg Hc. destruct (for_each_inv copy_pass (fun pre a => length a = length goal /\ forall i p d, (p, d) ∈ pre -> p <= i < p + length d -> a !! i = goal !! i) rs [] adj) as (a & E & H1 & H2).
  - split; [done|]. intros i p d H. by apply elem_of_nil in H.
  - intros pre [p d] a [post Hp] [Ha Hi]. cbn [app] in Hp. destruct (copy_pass_ok goal a p d Ha) as (a' & E & Hl' & H').
    { intros q x Hx. eapply Hg; [|done]. rewrite Hp. set_solver. }
    exists a'. split; [done|]. split; [done|]. intros i p' d' Hin Hr. rewrite H'. case_decide as Hd; [done|]. apply elem_of_app in Hin as [Hin|Hin]; [by eapply Hi|]. apply elem_of_list_singleton in Hin. injection Hin as -> ->. done.
  - rewrite E. f_equal. apply list_eq. intros i. destruct (decide (i < length goal)) as [Hi|Hi]; [|rewrite !lookup_ge_None_2 by lia; done]. destruct (Hc i Hi) as (p & d & Hin & Hr). by eapply H2.
Qed.

(** ** Sorting the rows. *)
Definition tidy (junk : nat -> nat) (r : list nat) : list nat := unique (sort r) ++ map junk (seq 0 (length r - length (unique (sort r)))).
Lemma unique_length l : length (unique l) <= length l.
Proof. induction l as [|a l IH]; [done|]. destruct l as [|b l]; [done|]. change (unique (a :: b :: l)) with (if a =? b then unique (b :: l) else a :: unique (b :: l)). destruct (a =? b); cbn [length] in *; lia. Qed.
Lemma tidy_length junk r : length (tidy junk r) = length r.
Proof. unfold tidy. rewrite app_length, map_length, seq_length. pose proof (unique_length (sort r)) as H. rewrite sort_length in H. lia. Qed.
Lemma sort_rows_ok junk offs (rows : list (list nat)) (sizes order : list nat) : offs = 0 :: inclusive_scan 0 (map length rows) -> length sizes = length rows -> order ≡ₚ seq 0 (length rows) ->
  exists g s, for_each (sort_row junk) order ({| crs_offs := offs; crs_adj := concat rows |}, sizes) = Ok (g, s) /\ packed g (map (tidy junk) rows) /\ s = map (fun r => length (unique (sort r))) rows.
Proof.
  intros Ho Hs Hp. set (cur := fun (pre : list nat) => imap (fun i r => if decide (i ∈ pre) then tidy junk r else r) rows).
  assert (Hcl : forall pre, map length (cur pre) = map length rows).
  { intros pre. apply list_eq. intros i. rewrite !list_lookup_fmap. unfold cur. rewrite list_lookup_imap. destruct (rows !! i) as [r|]; [|done]. cbn. case_decide; [by rewrite tidy_length|done]. }
  assert (Hoff : forall pre l, offset (cur pre) l = offset rows l).
  { intros pre l. unfold offset. rewrite <- !firstn_map. by rewrite Hcl. }
  destruct (for_each_inv (sort_row junk) (fun pre (st : crs * list nat) => crs_offs st.1 = offs /\ crs_adj st.1 = concat (cur pre) /\ length st.2 = length rows /\
      forall i r, rows !! i = Some r -> i ∈ pre -> st.2 !! i = Some (length (unique (sort r)))) order [] ({| crs_offs := offs; crs_adj := concat rows |}, sizes)) as ([g s] & E & H1 & H2 & H3 & H4).
  - cbn [fst snd crs_offs crs_adj]. split; [done|]. split; [|split; [done|intros i r _ H; by apply elem_of_nil in H]]. f_equal. unfold cur. apply list_eq. intros i. rewrite list_lookup_imap. by destruct (rows !! i).
  - intros pre l [[o a] s] [post Hpp] (H1 & H2 & H3 & H4). cbn [fst snd crs_offs crs_adj app] in *. subst o a.
    assert (Hnd : NoDup order) by (rewrite Hp; apply NoDup_seq). assert (Hl : l < length rows). { assert (Hi : l ∈ order) by (rewrite Hpp; set_solver). rewrite Hp in Hi. apply elem_of_seq in Hi. lia. }
    assert (Hnew : l ∉ pre). { rewrite Hpp in Hnd. apply NoDup_app in Hnd as (_ & Hnd & _). intros Hi. apply (Hnd l Hi). left. }
    destruct (lookup_lt_is_Some_2 rows l Hl) as [r Hr]. assert (Hcr : cur pre !! l = Some r) by (unfold cur; rewrite list_lookup_imap, Hr; cbn; by rewrite decide_False).
    unfold sort_row. cbn [fst snd]. rewrite (packed_range _ _ (cur pre) l r); [|by rewrite Hcl|done|done]. rewrite bind_ok. cbn [crs_adj crs_offs]. replace (offset (cur pre) l + length r - offset (cur pre) l) with (length r) by lia.
    rewrite concat_slice by done. cbv zeta. rewrite wr_ok by lia. rewrite bind_ok. eexists. split; [reflexivity|]. cbn [fst snd crs_offs crs_adj]. split; [done|]. split; [|split; [by rewrite insert_length|]].
    + fold (tidy junk r). rewrite concat_replace by (done || apply tidy_length). f_equal. apply list_eq. intros i. unfold cur at 2. rewrite list_lookup_imap. destruct (decide (i = l)) as [-> |Hne].
      * rewrite list_lookup_insert by (by eapply lookup_lt_Some). rewrite Hr. cbn. rewrite decide_True by set_solver. done.
      * rewrite list_lookup_insert_ne by done. unfold cur. rewrite list_lookup_imap. destruct (rows !! i) as [r'|]; [|done]. cbn. f_equal. destruct (decide (i ∈ pre)); [rewrite decide_True by set_solver; done|]. rewrite decide_False; [done|]. rewrite elem_of_app, elem_of_list_singleton. tauto.
    + intros i r' Hr' Hi. destruct (decide (i = l)) as [-> |Hne].
      * rewrite list_lookup_insert by lia. assert (r' = r) as -> by congruence. f_equal. pose proof (unique_length (sort r)) as Hu. rewrite sort_length in Hu. lia.
      * rewrite list_lookup_insert_ne by done. apply H4; [done|]. rewrite elem_of_app, elem_of_list_singleton in Hi. tauto.
  - cbn [fst snd app] in *. exists g, s. split; [done|]. assert (Hall : forall i, i < length rows -> i ∈ order) by (intros i Hi; rewrite Hp; apply elem_of_seq; lia). split; [split|].
    + rewrite H1, Ho. do 2 f_equal. rewrite map_map. apply map_ext. intros r. by rewrite tidy_length.
    + rewrite H2. f_equal. apply list_eq. intros i. unfold cur. rewrite list_lookup_imap. change (map (tidy junk) rows) with (tidy junk <$> rows). rewrite list_lookup_fmap. destruct (rows !! i) as [r|] eqn:Er; [|done]. cbn. rewrite decide_True; [done|]. apply Hall. by eapply lookup_lt_Some.
    + apply list_eq. intros i. rewrite (list_lookup_fmap (fun r => length (unique (sort r)))). destruct (rows !! i) as [r|] eqn:Er.
      * cbn. apply H4; [done|]. apply Hall. by eapply lookup_lt_Some.
      * cbn. apply lookup_ge_None_2. rewrite H3. by apply lookup_ge_None_1.
Qed.
