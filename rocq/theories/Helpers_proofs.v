From Verif Require Import Base StdAlgo Helpers_model Helpers_spec.
Local Arguments Nat.ltb : simpl never.
Local Arguments Nat.leb : simpl never.
Local Arguments Nat.eqb : simpl never.

Lemma index_sw {A} (l : list A) cmp : strict_weak cmp l -> strict_weak (index_compare l cmp) (seq 0 (length l)).
Proof.
  intros [H1 H2 H3].
  assert (Hl : forall i, i ∈ seq 0 (length l) -> exists x, l !! i = Some x /\ x ∈ l).
  { intros i Hi%elem_of_seq. destruct (lookup_lt_is_Some_2 l i ltac:(lia)) as [x Hx]. eauto using elem_of_list_lookup_2. }
  split.
  - intros i Hi. destruct (Hl i Hi) as (x & Hx & ?). unfold index_compare. rewrite Hx. auto.
  - intros i j k Hi Hj Hk. destruct (Hl i Hi) as (x & Hx & ?), (Hl j Hj) as (y & Hy & ?), (Hl k Hk) as (z & Hz & ?).
    unfold index_compare. rewrite Hx, Hy, Hz. eauto.
  - intros i j k Hi Hj Hk. destruct (Hl i Hi) as (x & Hx & ?), (Hl j Hj) as (y & Hy & ?), (Hl k Hk) as (z & Hz & ?).
    unfold index_compare. rewrite Hx, Hy, Hz. eauto.
Qed.
Lemma copy_ok {A} (l : list A) perm : perm ≡ₚ seq 0 (length l) ->
  exists out, copyPermuted l perm = Ok out /\ length out = length l /\
    (forall i p, perm !! i = Some p -> out !! i = l !! p) /\ out ≡ₚ l.
Proof.
  intros Hp. assert (Hlen : length perm = length l) by (rewrite Hp; apply seq_length).
  assert (Hex : exists out, copyPermuted l perm = Ok out).
  { unfold copyPermuted. assert (forall ks, Forall (fun k => k < length l) ks -> exists out, map_res (fun k => p ← rd perm k; rd l p) ks = Ok out) as H.
    { induction ks as [|k ks IH]; intros Hk; [by eexists|]. apply Forall_cons in Hk as [Hk Hks].
      destruct (lookup_lt_is_Some_2 perm k ltac:(lia)) as [p Hpk].
      assert (p < length l). { apply elem_of_list_lookup_2 in Hpk. rewrite Hp, elem_of_seq in Hpk. lia. }
      destruct (lookup_lt_is_Some_2 l p ltac:(lia)) as [x Hx].
      destruct (IH Hks) as [out E]. exists (x :: out). cbn [map_res]. rewrite (rd_ok _ _ _ Hpk). cbn. rewrite (rd_ok _ _ _ Hx). cbn. by rewrite E. }
    apply H. apply Forall_forall. intros k Hk%elem_of_seq. lia. }
  destruct Hex as [out E]. exists out. split; [done|].
  assert (Hm : out = omap (fun p => l !! p) perm).
  { unfold copyPermuted in E. clear Hp. revert E.
    assert (Hg : forall n k out, map_res (fun k => p ← rd perm k; rd l p) (seq k n) = Ok out -> out = omap (fun p => l !! p) (take n (drop k perm))).
    { induction n as [|n IH]; intros k o; cbn [seq map_res].
      - intros [= <-]. by rewrite take_0.
      - intros (x & Hx & H)%bind_inv. apply bind_inv in H as (o' & Ho & H). injection H as <-.
        apply bind_inv in Hx as (p & Hpk%rd_inv & Hx%rd_inv).
        rewrite (drop_S _ _ _ Hpk). cbn [take]. rewrite (IH (S k) o' Ho). cbn [omap list_omap]. by rewrite Hx. }
    intros E. apply Hg in E. rewrite drop_0, take_ge in E by lia. done. }
  assert (Hall : Forall (fun p => is_Some (l !! p)) perm).
  { apply Forall_forall. intros p. rewrite Hp. intros ?%elem_of_seq. apply lookup_lt_is_Some_2. lia. }
  assert (Hlk : forall i p, perm !! i = Some p -> out !! i = l !! p).
  { rewrite Hm. clear -Hall. induction perm as [|q perm IH]; intros i p Hi; [done|]. apply Forall_cons in Hall as [[x Hx] Hall].
    cbn [omap list_omap]. rewrite Hx. destruct i as [|i]; cbn in Hi |- *; [simplify_eq; done|]. by apply IH. }
  assert (Hol : length out = length perm).
  { rewrite Hm. clear -Hall. induction perm as [|q perm IH]; [done|]. apply Forall_cons in Hall as [[x Hx] Hall].
    cbn [omap list_omap]. rewrite Hx. cbn [List.length]. f_equal. by apply IH. }
  split; [lia|]. split; [done|].
  rewrite Hm. rewrite Hp. clear. 
  assert (forall pre post : list A, omap (fun p => (pre ++ post) !! p) (seq (length pre) (length post)) = post) as H.
  { intros pre post. revert pre. induction post as [|x post IH]; intros pre; [done|]. cbn [List.length seq omap list_omap].
    rewrite lookup_app_r by lia. rewrite Nat.sub_diag. cbn. f_equal.
    specialize (IH (pre ++ [x])). rewrite <- app_assoc in IH. cbn [app] in IH. rewrite app_length in IH. cbn [List.length] in IH.
    by replace (length pre + 1) with (S (length pre)) in IH by lia. }
  pose proof (H [] l) as H0. cbn [app List.length] in H0. by rewrite H0.
Qed.
Lemma sorting_perm_ok {A} std_sort (l : list A) cmp : sorts_indices std_sort -> strict_weak cmp l ->
  let perm := sortingPermutation std_sort l cmp in
  perm ≡ₚ seq 0 (length l) /\
  exists out, copyPermuted l perm = Ok out /\ out ≡ₚ l /\ ordered cmp out /\
    forall i p, perm !! i = Some p -> out !! i = l !! p.
Proof.
  intros Hs Hw perm. destruct (Hs (index_compare l cmp) (seq 0 (length l)) (index_sw l cmp Hw)) as [Hp Ho].
  fold (sortingPermutation std_sort l cmp) in Hp, Ho. fold perm in Hp, Ho. split; [done|].
  destruct (copy_ok l perm Hp) as (out & E & Hlen & Hlk & Hperm). exists out. split; [done|]. split; [done|]. split; [|done].
  intros i j x y Hij Hx Hy.
  assert (length perm = length l) as Hpl by (rewrite Hp; apply seq_length).
  destruct (lookup_lt_is_Some_2 perm i) as [p Hpi]. { apply lookup_lt_Some in Hx. lia. }
  destruct (lookup_lt_is_Some_2 perm j) as [q Hqj]. { apply lookup_lt_Some in Hy. lia. }
  specialize (Ho i j p q Hij Hpi Hqj). unfold index_compare in Ho.
  rewrite <- (Hlk _ _ Hpi), <- (Hlk _ _ Hqj), Hx, Hy in Ho. done.
Qed.

Lemma find_pos_spec {A} (p : A -> bool) l :
  (forall i x, i < find_pos p l -> l !! i = Some x -> p x = false) /\
  (find_pos p l <= length l) /\
  (find_pos p l < length l -> exists x, l !! find_pos p l = Some x /\ p x = true).
Proof.
  induction l as [|a l (IH1 & IH2 & IH3)]; cbn [find_pos List.length].
  - split; [lia|]. split; lia.
  - destruct (p a) eqn:E.
    + split; [lia|]. split; [lia|]. intros _. by exists a.
    + split; [|split; [lia|]].
      * intros [|i] x Hi Hx; cbn in Hx; simplify_eq; [done|]. apply (IH1 i x ltac:(lia) Hx).
      * intros H. apply IH3. lia.
Qed.
Lemma matching_ok {A B} (pred : A -> B -> bool) pattern mtch i m : mtch !! i = Some m ->
  exists k, matchingPermutation pred pattern mtch !! i = Some k /\
    (forall j x, j < k -> pattern !! j = Some x -> pred x m = false) /\
    (k = length pattern \/ exists x, pattern !! k = Some x /\ pred x m = true).
Proof.
  intros Hm. exists (find_pos (fun el => pred el m) pattern). split.
  { unfold matchingPermutation. change (map ?f mtch) with (f <$> mtch). by rewrite list_lookup_fmap, Hm. }
  destruct (find_pos_spec (fun el => pred el m) pattern) as (H1 & H2 & H3). split; [done|].
  destruct (decide (find_pos (fun el => pred el m) pattern < length pattern)); [right; auto|left; lia].
Qed.
Lemma remove_dup_ok l : StronglySorted lt (sortRemoveDup l) /\ forall x, x ∈ sortRemoveDup l <-> x ∈ l.
Proof.
  unfold sortRemoveDup. split; [apply unique_strict, sort_sorted|]. intros x. by rewrite unique_elem, sort_elem.
Qed.
Lemma unique_length l : length (unique l) <= length l.
Proof.
  induction l as [|a l IH]; [done|]. destruct l as [|b l]; [cbn; lia|].
  change (unique (a :: b :: l)) with (if a =? b then unique (b :: l) else a :: unique (b :: l)).
  destruct (a =? b); cbn [List.length] in *; lia.
Qed.
Lemma unique_copy_ok junk l : getUniqueCopy junk l = sortRemoveDup l /\
  take (sortRemoveDupArray junk l).2 (sortRemoveDupArray junk l).1 = sortRemoveDup l /\
  length (sortRemoveDupArray junk l).1 = length l.
Proof.
  unfold getUniqueCopy, sortRemoveDupArray, sortRemoveDup. cbn [fst snd].
  pose proof (unique_length (sort l)) as H. rewrite sort_length in H.
  assert (Hl : length (unique (sort l) ++ map junk (seq 0 (length l - length (unique (sort l))))) = length l).
  { rewrite app_length, map_length, seq_length. lia. }
  split; [|split; [by rewrite take_app|done]].
  destruct (Nat.eqb_spec (length (unique (sort l))) (length (unique (sort l) ++ map junk (seq 0 (length l - length (unique (sort l))))))) as [E|E].
  - rewrite Hl in E. rewrite E, Nat.sub_diag. cbn. apply app_nil_r.
  - by rewrite take_app.
Qed.
Lemma sorted_unique_sorted l : Sorted Nat.le l -> sortedUniqueElements l = Ok (sortRemoveDup l).
Proof.
  intros Hs. unfold sortedUniqueElements, sortRemoveDup. rewrite sort_id by done. rewrite (proj2 (Nat.leb_le _ _)) by lia.
  by rewrite Nat.sub_diag, app_nil_r.
Qed.

Section maps.
  Context {K : Type} `{EqDecision K}.
  Lemma hm_find_snoc {V} (m : list (K * V)) k v k' : hm_find k m = None ->
    hm_find k' (m ++ [(k, v)]) = if decide (k' = k) then Some v else hm_find k' m.
  Proof.
    induction m as [|[k0 v0] m IH]; cbn [hm_find app]; [done|]. destruct (decide (k = k0)) as [->|Hk]; [done|]. intros Hf.
    destruct (decide (k' = k0)) as [->|]; [|by apply IH]. destruct (decide (k0 = k)); congruence.
  Qed.
  Lemma hm_find_emplace {V} (m : list (K * V)) k v k' :
    hm_find k' (hm_emplace k v m) = match hm_find k' m with Some x => Some x | None => if decide (k' = k) then Some v else None end.
  Proof.
    unfold hm_emplace. destruct (hm_find k m) eqn:E.
    - destruct (hm_find k' m) eqn:E'; [done|]. destruct (decide (k' = k)); congruence.
    - rewrite hm_find_snoc by done. destruct (decide (k' = k)) as [->|]; [by rewrite E|]. by destruct (hm_find k' m).
  Qed.
  Lemma hm_find_None {V} (m : list (K * V)) k : hm_find k m = None <-> k ∉ m.*1.
  Proof.
    induction m as [|[k0 v0] m IH]; cbn [hm_find fmap list_fmap fst]; [split; [intros _ ?%elem_of_nil; done|done]|].
    rewrite elem_of_cons. destruct (decide (k = k0)) as [->|]; [naive_solver|]. rewrite IH. naive_solver.
  Qed.
  Lemma hm_emplace_keys {V} (m : list (K * V)) k v : NoDup m.*1 -> NoDup (hm_emplace k v m).*1.
  Proof.
    intros H. unfold hm_emplace. destruct (hm_find k m) eqn:E; [done|]. rewrite fmap_app. apply NoDup_app.
    split; [done|]. apply hm_find_None in E. split; [|apply NoDup_singleton]. intros x Hx ->%elem_of_list_singleton. done.
  Qed.
  Definition first_at (l : list K) (i : nat) (x : K) : Prop :=
    l !! i = Some x /\ forall j, j < i -> l !! j <> Some x.
  Lemma first_at_ex l x : x ∈ l -> exists i, first_at l i x.
  Proof.
    induction l as [|y l IH]; [intros ?%elem_of_nil; done|]. destruct (decide (x = y)) as [->|Hne].
    - intros _. exists 0. split; [done|]. lia.
    - intros [->|Hx]%elem_of_cons; [done|]. destruct (IH Hx) as (i & Hi & Hj). exists (S i). split; [done|].
      intros [|j] H; cbn; [congruence|]. apply Hj. lia.
  Qed.
  Lemma first_at_inj l i j x : first_at l i x -> first_at l j x -> i = j.
  Proof. intros [H1 H2] [H3 H4]. destruct (Nat.lt_trichotomy i j) as [?|[?|?]]; [|done|]; exfalso; [by eapply H4|by eapply H2]. Qed.
  Lemma index_map_inv values :
    let st := foldl (fun st v => (hm_emplace v st.2 st.1, S st.2)) ([] : list (K * nat), 0) values in
    st.2 = length values /\ NoDup st.1.*1 /\ (forall x, x ∈ st.1.*1 <-> x ∈ values) /\
    forall x i, hm_find x st.1 = Some i <-> first_at values i x.
  Proof.
    induction values as [|v values IH] using rev_ind; cbn zeta.
    - cbn. split; [done|]. split; [apply NoDup_nil_2|]. split; [done|]. intros x i. unfold first_at. rewrite lookup_nil. naive_solver.
    - rewrite foldl_snoc. destruct (foldl _ _ values) as [m n]. cbn [fst snd] in *. destruct IH as (-> & Hnd & Hk & IH).
      rewrite app_length. cbn [List.length]. split; [lia|]. split; [by apply hm_emplace_keys|].
      split.
      { intros x. rewrite elem_of_app, elem_of_list_singleton. destruct (hm_find x (hm_emplace v (length values) m)) as [y|] eqn:E.
        - rewrite hm_find_emplace in E. assert (~ (hm_find x (hm_emplace v (length values) m) = None)) as Hn by (rewrite hm_find_emplace; destruct (hm_find x m), (decide (x = v)); done).
          rewrite hm_find_None in Hn. apply dec_stable in Hn. split; [|done]. intros _.
          destruct (hm_find x m) eqn:E2; [left; rewrite <- Hk; destruct (decide (x ∈ m.*1)) as [|Hc]; [done|]; apply hm_find_None in Hc; congruence|].
          destruct (decide (x = v)); [by right|done].
        - pose proof E as E1. rewrite hm_find_None in E1. rewrite hm_find_emplace in E.
          split; [done|]. intros Hx. exfalso. destruct (hm_find x m) eqn:E2; [done|]. apply hm_find_None in E2. rewrite Hk in E2.
          destruct (decide (x = v)); [done|]. tauto. }
      intros x i. rewrite hm_find_emplace. destruct (hm_find x m) as [i'|] eqn:E.
      + apply IH in E. assert (first_at (values ++ [v]) i' x) as H.
        { destruct E as [Hi Hj]. split; [by apply lookup_app_l_Some|]. intros j Hji. rewrite lookup_app_l; [by apply Hj|].
          apply lookup_lt_Some in Hi. lia. }
        split; [intros [= <-]; done|]. intros H2. f_equal. by eapply first_at_inj.
      + apply hm_find_None in E. rewrite Hk in E.
        destruct (decide (x = v)) as [->|Hne].
        * assert (first_at (values ++ [v]) (length values) v) as H.
          { split; [rewrite lookup_app_r, Nat.sub_diag by lia; done|]. intros j Hj. rewrite lookup_app_l by lia.
            intros ?%elem_of_list_lookup_2. done. }
          split; [intros [= <-]; done|]. intros H2. f_equal. by eapply first_at_inj.
        * split; [done|]. intros [Hi _]. apply elem_of_list_lookup_2 in Hi. rewrite elem_of_app, elem_of_list_singleton in Hi. tauto.
  Qed.
  Lemma index_map_ok (values : list K) (x : K) :
    (forall i, IndexMap_at (make_IndexMap values) x = Ok i <-> (values !! i = Some x /\ forall j, j < i -> values !! j <> Some x)) /\
    (IndexMap_at (make_IndexMap values) x = Throw <-> x ∉ values).
  Proof.
    destruct (index_map_inv values) as (_ & _ & Hk & Hf). unfold IndexMap_at. fold (make_IndexMap values) in Hf, Hk.
    unfold make_IndexMap in *. split.
    - intros i. rewrite <- (Hf x i). destruct (hm_find x _); naive_solver.
    - rewrite <- Hk, <- hm_find_None. destruct (hm_find x _); naive_solver.
  Qed.
  Lemma index_map_size (values : list K) : IndexMap_size (make_IndexMap values) = length (remove_dups values).
  Proof.
    destruct (index_map_inv values) as (_ & Hnd & Hk & Hf). unfold IndexMap_size, make_IndexMap.
    rewrite <- (fmap_length fst). apply Permutation_length. apply NoDup_Permutation; [done|apply NoDup_remove_dups|].
    intros x. by rewrite Hk, elem_of_remove_dups.
  Qed.
  Lemma hm_find_elem {V} (m : list (K * V)) k v : NoDup m.*1 -> hm_find k m = Some v <-> (k, v) ∈ m.
  Proof.
    induction m as [|[k0 v0] m IH]; cbn [hm_find fmap list_fmap fst]; [intros _; rewrite elem_of_nil; naive_solver|].
    intros [H0 Hnd]%NoDup_cons. rewrite elem_of_cons. destruct (decide (k = k0)) as [->|].
    - split; [intros [= ->]; by left|]. intros [[= ->]|H]; [done|]. destruct H0. apply elem_of_list_fmap. by exists (k0, v).
    - rewrite IH by done. naive_solver.
  Qed.
  Lemma invert_ok (m : list (K * K)) : NoDup m.*1 -> NoDup m.*2 ->
    forall k v, hm_find v (invertMap m) = Some k <-> hm_find k m = Some v.
  Proof.
    intros Hn1 Hn2 k v. rewrite (hm_find_elem m k v Hn1).
    assert (H : forall (post pre : list (K * K)), NoDup (pre ++ post).*2 -> forall r, (forall v k, hm_find v r = Some k <-> (k, v) ∈ pre) ->
      forall v k, hm_find v (foldl (fun r kv => hm_emplace kv.2 kv.1 r) r post) = Some k <-> (k, v) ∈ pre ++ post).
    { induction post as [|[k0 v0] post IH]; intros pre Hnd r Hr v' k'; cbn [foldl].
      - rewrite app_nil_r. apply Hr.
      - replace (pre ++ (k0, v0) :: post) with ((pre ++ [(k0, v0)]) ++ post) in * by (by rewrite <- app_assoc).
        apply IH; [done|]. cbn [fst snd]. intros v1 k1. rewrite hm_find_emplace, elem_of_app, elem_of_list_singleton.
        destruct (hm_find v1 r) as [k2|] eqn:E.
        + split; [intros [= ->]; left; by apply Hr|]. intros [H%Hr|[= -> ->]]; [congruence|].
          apply Hr in E. exfalso. rewrite fmap_app in Hnd. apply NoDup_app in Hnd as (Hnd & _).
          rewrite fmap_app in Hnd. apply NoDup_app in Hnd as (_ & Hd & _). apply (Hd v0); [apply elem_of_list_fmap; by exists (k2, v0)|]. by left.
        + destruct (decide (v1 = v0)) as [->|]; [|naive_solver].
          split; [intros [= ->]; by right|]. intros [H%Hr|[= ->]]; [congruence|done]. }
    apply (H m [] Hn2). intros v1 k1. cbn. rewrite elem_of_nil. naive_solver.
  Qed.
End maps.

(** exactIntegerCast *)
Definition std_type (t : ity) : Prop := (i_bits t = 8 \/ i_bits t = 16 \/ i_bits t = 32 \/ i_bits t = 64)%Z.
Lemma cast_lemma from to x : std_type from -> std_type to -> representable (i_signed from) (i_bits from) x ->
  (forall y, exactIntegerCast from to x = Ok y -> y = x /\ representable (i_signed to) (i_bits to) x) /\
  exactIntegerCast from to x <> UB /\
  (representable (i_signed to) (i_bits to) x -> (0 <= x \/ imax from <= imax to)%Z -> exactIntegerCast from to x = Ok x).
Proof.
  destruct from as [sf bf], to as [st bt]. unfold std_type, representable, exactIntegerCast, imin, imax, to_umax, to_imax, to_type, imin. cbn [i_signed i_bits].
  intros Hf Ht Hx.
  destruct Hf as [->|[->|[->| ->]]], Ht as [->|[->|[->| ->]]], sf, st;
    cbn -[Z.modulo Z.add Z.leb Z.ltb Z.sub] in Hx |- *;
    repeat match goal with |- context [Z.ltb ?a ?b] =>
      let v := eval vm_compute in (Z.ltb a b) in change (Z.ltb a b) with v end; cbn [mbind res_bind throwing_assert];
    (split; [|split]); intros;
    repeat match goal with
    | H : context [Z.leb ?a ?b] |- _ => destruct (Z.leb_spec a b); cbn in H
    | |- context [Z.leb ?a ?b] => destruct (Z.leb_spec a b); cbn end;
    try discriminate; try (match goal with H : Ok _ = Ok _ |- _ => injection H as <- end);
    try f_equal; try (Z.div_mod_to_equations; lia).
Qed.
