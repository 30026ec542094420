From Verif Require Import Base StdAlgo Parallel_model.
Local Arguments Nat.ltb : simpl never.
Local Arguments Nat.leb : simpl never.
Local Arguments Nat.eqb : simpl never.

Lemma splits_le b e cs : splits b e cs -> b <= e.
Proof. induction 1; lia. Qed.
Lemma splits_inds b e cs : splits b e cs -> concat (map chunk_inds cs) = seq b (e - b).
Proof.
  induction 1 as [b e H|b m e c1 c2 H1 H2 _ IH1 _ IH2].
  - cbn. by rewrite app_nil_r.
  - rewrite map_app, concat_app, IH1, IH2. replace (e - b) with ((m - b) + (e - m)) by lia.
    rewrite seq_app. by replace (b + (m - b)) with m by lia.
Qed.
Lemma concat_insert {A} (ls : list (list A)) t a rest : ls !! t = Some (a :: rest) ->
  concat ls ≡ₚ a :: concat (<[t := rest]> ls).
Proof.
  revert t. induction ls as [|l ls IH]; intros [|t] H; cbn in H; simplify_eq; cbn [insert list_insert concat app]; [done|].
  rewrite (IH t H). rewrite Permutation_app_comm. cbn. constructor. by rewrite Permutation_app_comm.
Qed.
Lemma concat_nil {A} (ls : list (list A)) : Forall (fun l => l = []) ls -> concat ls = [].
Proof. induction 1 as [|l ls -> _ IH]; [done|]. exact IH. Qed.
Lemma interleaves_perm {A} (ls : list (list A)) h : interleaves ls h -> h ≡ₚ concat ls.
Proof.
  induction 1 as [ls H|ls t a rest h Ht _ IH].
  - by rewrite concat_nil.
  - rewrite IH. by rewrite <- concat_insert.
Qed.
Lemma for_schedule_perm n inds : for_schedule n inds -> inds ≡ₚ seq 0 n.
Proof.
  intros (cs & Hs & Hi). apply interleaves_perm in Hi. rewrite Hi, (splits_inds _ _ _ Hs). by rewrite Nat.sub_0_r.
Qed.
Lemma map_lookup_seq {A} (l : list A) : omap (fun i => l !! i) (seq 0 (length l)) = l.
Proof.
  assert (forall pre post : list A, omap (fun p => (pre ++ post) !! p) (seq (length pre) (length post)) = post) as H.
  { intros pre post. revert pre. induction post as [|x post IH]; intros pre; [done|]. cbn [List.length seq omap list_omap].
    rewrite lookup_app_r by lia. rewrite Nat.sub_diag. cbn. f_equal.
    specialize (IH (pre ++ [x])). rewrite <- app_assoc in IH. cbn [app] in IH. rewrite app_length in IH. cbn [List.length] in IH.
    by replace (length pre + 1) with (S (length pre)) in IH by lia. }
  exact (H [] l).
Qed.
Lemma map_res_rd {A} (l : list A) inds : Forall (fun i => i < length l) inds ->
  map_res (fun i => rd l i) inds = Ok (omap (fun i => l !! i) inds).
Proof.
  induction 1 as [|i inds Hi _ IH]; [done|]. cbn [map_res omap list_omap].
  destruct (lookup_lt_is_Some_2 l i Hi) as [x Hx]. rewrite (rd_ok _ _ _ Hx), Hx. cbn. rewrite IH. done.
Qed.
Lemma parallel_for_ok {A} (range : list A) inds : for_schedule (length range) inds ->
  exists calls, parallelFor range inds = Ok calls /\ calls ≡ₚ range.
Proof.
  intros Hs%for_schedule_perm. unfold parallelFor. rewrite map_res_rd.
  - eexists. split; [done|]. rewrite Hs. by rewrite map_lookup_seq.
  - apply Forall_forall. intros i. rewrite Hs. intros ?%elem_of_seq. lia.
Qed.
Lemma transform_writes {A B} (kernel : A -> B) range inds (out : list B) : length out = length range ->
  Forall (fun i => i < length range) inds ->
  exists out', parallelTransform kernel range inds out = Ok out' /\ length out' = length range /\
    forall i, out' !! i = if decide (i ∈ inds) then kernel <$> range !! i else out !! i.
Proof.
  revert out. induction inds as [|j inds IH]; intros out Hl Hi; unfold parallelTransform; cbn [for_each].
  - exists out. split; [done|]. split; [done|]. intros i. rewrite decide_False by (by intros ?%elem_of_nil). done.
  - apply Forall_cons in Hi as [Hj Hi]. destruct (lookup_lt_is_Some_2 range j Hj) as [x Hx].
    rewrite (rd_ok _ _ _ Hx). cbn [mbind res_bind]. rewrite wr_ok by lia. cbn [mbind res_bind].
    destruct (IH (<[j := kernel x]> out)) as (out' & E & Hl' & Hlk); [by rewrite insert_length|done|].
    unfold parallelTransform in E. exists out'. split; [done|]. split; [done|]. intros i. rewrite Hlk.
    destruct (decide (i ∈ inds)), (decide (i ∈ j :: inds)) as [|Hn]; try done.
    + destruct Hn. by right.
    + assert (i = j) as -> by set_solver. rewrite list_lookup_insert by lia. by rewrite Hx.
    + rewrite list_lookup_insert_ne; [done|]. intros ->. apply Hn. by left.
Qed.
Lemma parallel_transform_ok {A B} (kernel : A -> B) range inds (out : list B) : length out = length range ->
  for_schedule (length range) inds -> parallelTransform kernel range inds out = Ok (map kernel range).
Proof.
  intros Hl Hs%for_schedule_perm.
  destruct (transform_writes kernel range inds out Hl) as (out' & -> & Hl' & Hlk).
  { apply Forall_forall. intros i. rewrite Hs. intros ?%elem_of_seq. lia. }
  f_equal. apply list_eq. intros i. rewrite Hlk. change (map kernel range) with (kernel <$> range). rewrite list_lookup_fmap.
  destruct (decide (i ∈ inds)) as [|Hn]; [done|]. rewrite Hs, elem_of_seq in Hn.
  rewrite !lookup_ge_None_2 by lia. done.
Qed.

Section reduce.
  Context {R : Type} (op : R -> R -> R) (id : R).
  Context (Hassoc : forall x y z, op x (op y z) = op (op x y) z) (Hcomm : forall x y, op x y = op y x)
          (Hid : forall x, op id x = x).
  Definition fold (l : list R) : R := foldr op id l.
  Lemma fold_app l1 l2 : fold (l1 ++ l2) = op (fold l1) (fold l2).
  Proof. induction l1 as [|x l1 IH]; cbn; [by rewrite Hid|]. unfold fold in IH. by rewrite IH, Hassoc. Qed.
  Lemma fold_perm l1 l2 : l1 ≡ₚ l2 -> fold l1 = fold l2.
  Proof.
    induction 1 as [|x l1 l2 _ IH|x y l|l1 l2 l3 _ IH1 _ IH2]; unfold fold in *; cbn; [done|by rewrite IH| |congruence].
    rewrite !Hassoc. by rewrite (Hcomm x y).
  Qed.
  Lemma Hidr x : op x id = x.
  Proof. by rewrite Hcomm, Hid. Qed.
  Lemma gen_sum_fold l r : gen_sum op l r -> r = fold l.
  Proof.
    induction 1 as [x|xs l1 l2 a b Hp _ -> _ ->]; cbn; [by rewrite Hidr|]. by rewrite (fold_perm _ _ Hp), fold_app.
  Qed.
  Lemma foldl_fold l : foldl op id l = fold l.
  Proof.
    assert (forall acc, foldl op acc l = op acc (fold l)) as H; [|by rewrite H, Hid].
    induction l as [|x l IH]; intros acc; cbn; [by rewrite Hidr|]. unfold fold in IH. by rewrite IH, <- Hassoc.
  Qed.
  Lemma take_drop_cut {A} (l : list A) b m e : b <= m -> m <= e ->
    take (e - b) (drop b l) = take (m - b) (drop b l) ++ take (e - m) (drop m l).
  Proof.
    intros. replace (e - b) with ((m - b) + (e - m)) by lia.
    rewrite <- take_take_drop, drop_drop. by replace (b + (m - b)) with m by lia.
  Qed.
  Lemma reduces_fold {A} (f : A -> R) range b e r :
    reduces (fun c v v' => transform_reduce op f (take (c.2 - c.1) (drop c.1 range)) v v') id op b e r ->
    b <= e /\ r = fold (map f (take (e - b) (drop b range))).
  Proof.
    induction 1 as [b|b m e r r' _ [Hbm ->] Hme Hf|b m e r1 r2 _ [Hbm ->] _ [Hme ->]].
    - split; [lia|]. by rewrite Nat.sub_diag.
    - split; [lia|]. cbn [fst snd] in Hf. apply gen_sum_fold in Hf. rewrite Hf. cbn.
      change (foldr op id ?l) with (fold l). by rewrite (take_drop_cut _ b m e), map_app, fold_app.
    - split; [lia|]. by rewrite (take_drop_cut _ b m e), map_app, fold_app.
  Qed.
  Lemma reduce_ok {A} (f : A -> R) range r : parallelTransformReduce op f range id r -> r = foldl op id (map f range).
  Proof.
    intros [_ ->]%reduces_fold. rewrite drop_0, Nat.sub_0_r, take_ge by lia. by rewrite foldl_fold.
  Qed.
  Lemma gen_sum_ex l x : exists r, gen_sum op (x :: l) r.
  Proof.
    revert x. induction l as [|y l IH]; intros x; [exists x; constructor|].
    destruct (IH y) as [r Hr]. exists (op x r). eapply (gs_op _ _ [x] (y :: l)); [done|constructor|done].
  Qed.
  Lemma reduce_ex {A} (f : A -> R) (range : list A) : exists r, parallelTransformReduce op f range id r.
  Proof.
    unfold parallelTransformReduce. destruct (gen_sum_ex (map f (take (length range - 0) (drop 0 range))) id) as [r Hr].
    exists r. eapply (rd_more _ _ _ 0 0); [constructor|lia|exact Hr].
  Qed.
  Lemma uv_reduce_ok {A} par (f : A -> R) (u : univec A) r : uv_transformReduce par op f u id r -> r = foldl op id (map f (concat u)).
  Proof.
    intros (parts & Hp & Hr). apply gen_sum_fold in Hr. subst r. cbn. rewrite Hid. rewrite foldl_fold.
    change (foldr op id parts) with (fold parts).
    induction Hp as [|v p u parts Hv _ IH]; [done|]. cbn [concat]. rewrite map_app, fold_app.
    change (fold (p :: parts)) with (op p (fold parts)). rewrite IH. f_equal. destruct par.
    - apply reduce_ok in Hv. by rewrite Hv, foldl_fold.
    - apply gen_sum_fold in Hv. rewrite Hv. cbn. by rewrite Hid.
  Qed.
End reduce.

(** UniVector *)
Lemma uv_size_ok {A} (u : univec A) : uv_size u = length (concat u) /\ (uv_empty u = true <-> concat u = []).
Proof.
  induction u as [|v u [IH1 IH2]]; [done|]. unfold uv_size, uv_empty in *. cbn [map concat forallb]. rewrite sum_cons, app_length. split; [lia|].
  rewrite andb_true_iff, Nat.eqb_eq, IH2. split.
  - intros [Hv ->]. apply nil_length_inv in Hv. by subst.
  - intros H. apply app_eq_nil in H as [-> ->]. done.
Qed.
Lemma uv_visit_par_ok {A} (u : univec A) calls : uv_visit_par u calls -> calls ≡ₚ concat u.
Proof.
  intros (loops & Hl & Hi). rewrite (interleaves_perm _ _ Hi). clear Hi.
  induction Hl as [|v l u loops (inds & Hs & E) _ IH]; [done|]. cbn [concat]. rewrite IH. f_equiv.
  destruct (parallel_for_ok v inds Hs) as (c & E' & Hp). congruence.
Qed.
Lemma uv_at_ok {A} (u : univec A) t i :
  (forall x, concat u !! i = Some x -> exists k, uv_at u t i = Ok (t + k, x) /\ exists v, u !! k = Some v /\ v !! (i - sum (map length (take k u))) = Some x) /\
  (concat u !! i = None -> uv_at u t i = Throw).
Proof.
  revert t i. induction u as [|v u IH]; intros t i; cbn [concat uv_at].
  - split; [done|done].
  - destruct (Nat.ltb_spec i (length v)) as [Hi|Hi].
    + rewrite lookup_app_l by done. split.
      * intros x Hx. exists 0. rewrite (rd_ok _ _ _ Hx). rewrite Nat.add_0_r. split; [done|].
        exists v. split; [done|]. cbn. by rewrite Nat.sub_0_r.
      * intros Hn. apply lookup_ge_None in Hn. lia.
    + rewrite lookup_app_r by done. destruct (IH (S t) (i - length v)) as [IH1 IH2]. split; [|done].
      intros x Hx. destruct (IH1 x Hx) as (k & -> & w & Hw & Hwx). exists (S k).
      split; [by replace (S t + k) with (t + S k) by lia|]. exists w. split; [done|].
      cbn [take map]. rewrite sum_cons. by replace (i - (length v + sum (map length (take k u)))) with (i - length v - sum (map length (take k u))) by lia.
Qed.
Lemma uv_find_ok {A} (p : A -> bool) (u : univec A) : uv_find p u = List.find p (concat u).
Proof.
  induction u as [|v u IH]; [done|]. cbn [uv_find concat]. rewrite IH. clear IH.
  induction v as [|x v IH]; [done|]. cbn. by destruct (p x).
Qed.
