(** Standard-library algorithms used all over /repo, with the loops of
    libstdc++ (bits/ranges_algo.h, bits/stl_numeric.h).  Not code of /repo;
    the theorems below are the facts the C++ standard documents. *)
From Verif Require Import Base.
From stdpp Require Export sorting.

(** The loop of std::ranges::lower_bound / upper_bound / partition_point:
    halve [first, first + len) depending on the predicate at the middle. *)
Fixpoint bisect (fuel : nat) (p : nat -> bool) (first len : nat) : nat :=
  match fuel with
  | 0 => first
  | S fuel =>
    if len =? 0 then first
    else
      let half := len / 2 in
      let mid := first + half in
      if p mid then bisect fuel p (S mid) (len - half - 1)
      else bisect fuel p first half
  end.
(** std::ranges::lower_bound: index of the first element not less than [x]. *)
Definition lower_bound (l : list nat) (x : nat) : nat :=
  bisect (length l) (fun i => match l !! i with Some a => a <? x | None => false end) 0 (length l).
(** std::ranges::upper_bound: index of the first element greater than [x]. *)
Definition upper_bound (l : list nat) (x : nat) : nat :=
  bisect (length l) (fun i => match l !! i with Some a => a <=? x | None => false end) 0 (length l).
(** std::ranges::binary_search. *)
Definition binary_search (l : list nat) (x : nat) : bool :=
  match l !! lower_bound l x with Some a => a =? x | None => false end.
(** std::ranges::sort on numbers. *)
Definition sort : list nat -> list nat := merge_sort Nat.le.
(** std::inclusive_scan with +; [acc] is the running sum. *)
Fixpoint inclusive_scan (acc : nat) (l : list nat) : list nat :=
  match l with [] => [] | a :: l => (acc + a) :: inclusive_scan (acc + a) l end.
(** std::exclusive_scan with + and initial value [acc]. *)
Fixpoint exclusive_scan (acc : nat) (l : list nat) : list nat :=
  match l with [] => [] | a :: l => acc :: exclusive_scan (acc + a) l end.
(** std::unique: drop elements equal to their predecessor. *)
Fixpoint unique (l : list nat) : list nat :=
  match l with
  | a :: ((b :: _) as l') => if a =? b then unique l' else a :: unique l'
  | l => l
  end.

(** ** Facts *)
Lemma bisect_spec fuel p first len :
  len <= fuel ->
  (forall i j, first <= i -> i <= j -> j < first + len -> p j = true -> p i = true) ->
  first <= bisect fuel p first len <= first + len
  /\ (forall i, first <= i < bisect fuel p first len -> p i = true)
  /\ (forall i, bisect fuel p first len <= i < first + len -> p i = false).
Proof.
  revert first len. induction fuel as [|fuel IH]; intros first len Hf Hm; cbn [bisect].
  - assert (len = 0) by lia. subst. repeat split; intros; lia.
  - destruct (len =? 0) eqn:E; [apply Nat.eqb_eq in E; subst; repeat split; intros; lia|].
    apply Nat.eqb_neq in E.
    assert (Hh : len / 2 < len) by (apply Nat.div_lt; lia).
    set (h := len / 2) in *. destruct (p (first + h)) eqn:Ep.
    + destruct (IH (S (first + h)) (len - h - 1)) as (A & B & C); [lia| |].
      { intros i j ? ? ? ?. apply (Hm i j); try lia; auto. }
      split; [lia|]. split; intros i Hi.
      * destruct (decide (i <= first + h)); [apply (Hm i (first + h)); auto; lia|]. apply B. lia.
      * apply C. lia.
    + destruct (IH first h) as (A & B & C); [lia| |].
      { intros i j ? ? ? ?. apply (Hm i j); try lia; auto. }
      split; [lia|]. split; [exact B|]. intros i Hi.
      destruct (decide (i < first + h)); [apply C; lia|].
      destruct (p i) eqn:Ei; [|reflexivity]. rewrite (Hm (first + h) i) in Ep; try lia; congruence.
Qed.

Lemma sorted_lookup l i j a b :
  Sorted Nat.le l -> l !! i = Some a -> l !! j = Some b -> i <= j -> a <= b.
Proof.
  intros Hs%Sorted_StronglySorted; [|intros ???; lia].
  revert i j. induction Hs as [|x l Hs IH Hx]; intros i j Hi Hj Hij; [discriminate|].
  destruct i as [|i], j as [|j]; cbn in *; simplify_eq; try lia.
  - rewrite Forall_forall in Hx. apply Hx. apply elem_of_list_In, elem_of_list_lookup_2 in Hj || idtac.
    eapply elem_of_list_lookup_2; eauto.
  - eapply IH; eauto. lia.
Qed.
Lemma lower_bound_spec l x :
  Sorted Nat.le l ->
  lower_bound l x <= length l
  /\ (forall i a, l !! i = Some a -> i < lower_bound l x -> a < x)
  /\ (forall i a, l !! i = Some a -> lower_bound l x <= i -> x <= a).
Proof.
  intros Hs. unfold lower_bound.
  set (p := fun i => match l !! i with Some a => a <? x | None => false end).
  destruct (bisect_spec (length l) p 0 (length l)) as (A & B & C); [lia| |].
  - intros i j _ Hij Hj Hp. unfold p in *.
    destruct (l !! j) as [b|] eqn:Ej; [|discriminate].
    destruct (lookup_lt_is_Some_2 l i) as [a Ea]; [lia|]. rewrite Ea.
    pose proof (sorted_lookup l i j a b Hs Ea Ej Hij). apply Nat.ltb_lt in Hp. apply Nat.ltb_lt. lia.
  - split; [lia|]. split; intros i a Ha Hi.
    + specialize (B i ltac:(lia)). unfold p in B. rewrite Ha in B. apply Nat.ltb_lt. exact B.
    + apply lookup_lt_Some in Ha as Hl. specialize (C i ltac:(lia)). unfold p in C.
      rewrite Ha in C. apply Nat.ltb_ge in C. exact C.
Qed.
Lemma upper_bound_spec l x :
  Sorted Nat.le l ->
  upper_bound l x <= length l
  /\ (forall i a, l !! i = Some a -> i < upper_bound l x -> a <= x)
  /\ (forall i a, l !! i = Some a -> upper_bound l x <= i -> x < a).
Proof.
  intros Hs. unfold upper_bound.
  set (p := fun i => match l !! i with Some a => a <=? x | None => false end).
  destruct (bisect_spec (length l) p 0 (length l)) as (A & B & C); [lia| |].
  - intros i j _ Hij Hj Hp. unfold p in *.
    destruct (l !! j) as [b|] eqn:Ej; [|discriminate].
    destruct (lookup_lt_is_Some_2 l i) as [a Ea]; [lia|]. rewrite Ea.
    pose proof (sorted_lookup l i j a b Hs Ea Ej Hij). apply Nat.leb_le in Hp. apply Nat.leb_le. lia.
  - split; [lia|]. split; intros i a Ha Hi.
    + specialize (B i ltac:(lia)). unfold p in B. rewrite Ha in B. apply Nat.leb_le. exact B.
    + apply lookup_lt_Some in Ha as Hl. specialize (C i ltac:(lia)). unfold p in C.
      rewrite Ha in C. apply Nat.leb_gt in C. exact C.
Qed.
Lemma lower_bound_elem l x i :
  Sorted Nat.le l -> NoDup l -> l !! i = Some x -> lower_bound l x = i.
Proof.
  intros Hs Hn Hi. destruct (lower_bound_spec l x Hs) as (A & B & C).
  destruct (decide (i < lower_bound l x)) as [Hlt|Hge].
  - specialize (B i x Hi Hlt). lia.
  - destruct (decide (lower_bound l x = i)); [assumption|]. exfalso.
    apply lookup_lt_Some in Hi as Hl.
    destruct (lookup_lt_is_Some_2 l (lower_bound l x)) as [a Ha]; [lia|].
    pose proof (C _ _ Ha ltac:(lia)).
    pose proof (sorted_lookup _ _ _ _ _ Hs Ha Hi ltac:(lia)).
    assert (a = x) by lia. subst. pose proof (NoDup_lookup _ _ _ _ Hn Ha Hi). lia.
Qed.
Lemma lower_bound_found l x :
  Sorted Nat.le l -> x ∈ l -> l !! lower_bound l x = Some x.
Proof.
  intros Hs Hx. destruct (lower_bound_spec l x Hs) as (A & B & C).
  apply elem_of_list_lookup_1 in Hx. destruct Hx as [i Hi]. apply lookup_lt_Some in Hi as Hl.
  destruct (decide (i < lower_bound l x)) as [Hlt|Hge].
  - specialize (B i x Hi Hlt). lia.
  - destruct (lookup_lt_is_Some_2 l (lower_bound l x)) as [a Ha]; [lia|].
    pose proof (C _ _ Ha ltac:(lia)).
    pose proof (sorted_lookup _ _ _ _ _ Hs Ha Hi ltac:(lia)).
    rewrite Ha. f_equal. lia.
Qed.
Lemma binary_search_spec l x :
  Sorted Nat.le l -> binary_search l x = true <-> x ∈ l.
Proof.
  intros Hs. unfold binary_search. split; intros H.
  - destruct (l !! lower_bound l x) as [a|] eqn:E; [|discriminate].
    apply Nat.eqb_eq in H. subst. eapply elem_of_list_lookup_2; eauto.
  - rewrite lower_bound_found by assumption. apply Nat.eqb_refl.
Qed.

Global Instance nat_le_total : Total Nat.le.
Proof. intros x y. lia. Qed.
Global Instance nat_le_trans : Transitive Nat.le.
Proof. intros x y z. lia. Qed.
Global Instance nat_le_antisym : AntiSymm (=) Nat.le.
Proof. intros x y. lia. Qed.
Lemma sort_sorted l : Sorted Nat.le (sort l).
Proof. apply Sorted_merge_sort. apply _. Qed.
Lemma sort_perm l : sort l ≡ₚ l.
Proof. apply merge_sort_Permutation. Qed.
Lemma sort_elem l x : x ∈ sort l <-> x ∈ l.
Proof. rewrite sort_perm. reflexivity. Qed.
Lemma sort_length l : length (sort l) = length l.
Proof. apply Permutation_length, sort_perm. Qed.
Lemma sort_nodup l : NoDup l -> NoDup (sort l).
Proof. rewrite sort_perm. auto. Qed.
Lemma sort_ext l l' : l ≡ₚ l' -> sort l = sort l'.
Proof.
  intros H. apply (Sorted_unique Nat.le); try apply sort_sorted.
  rewrite !sort_perm. exact H.
Qed.
Lemma sort_id l : Sorted Nat.le l -> sort l = l.
Proof.
  intros H. apply (Sorted_unique Nat.le); [apply sort_sorted|exact H|apply sort_perm].
Qed.

Definition sum (l : list nat) : nat := foldr Nat.add 0 l.
Lemma sum_app l1 l2 : sum (l1 ++ l2) = sum l1 + sum l2.
Proof. induction l1; cbn [sum foldr app]; [reflexivity|]. unfold sum in *. lia. Qed.
Lemma sum_cons a l : sum (a :: l) = a + sum l.
Proof. reflexivity. Qed.
Lemma sum_take_mono l i j : i <= j -> sum (take i l) <= sum (take j l).
Proof.
  intros H. rewrite (Nat.le_add_sub i j H), <- take_take_drop, sum_app. lia.
Qed.
Lemma sum_take_S l i a : l !! i = Some a -> sum (take (S i) l) = sum (take i l) + a.
Proof. intros H. rewrite (take_S_r _ _ _ H), sum_app. cbn. lia. Qed.
Lemma sum_take_all l i : length l <= i -> sum (take i l) = sum l.
Proof. intros H. rewrite take_ge by exact H. reflexivity. Qed.
Lemma sum_take_le l i : sum (take i l) <= sum l.
Proof. rewrite <- (take_drop i l) at 2. rewrite sum_app. lia. Qed.

Lemma inclusive_scan_length acc l : length (inclusive_scan acc l) = length l.
Proof. revert acc. induction l; intros; cbn; auto. Qed.
Lemma inclusive_scan_lookup acc l i a :
  l !! i = Some a -> inclusive_scan acc l !! i = Some (acc + sum (take (S i) l)).
Proof.
  revert acc i. induction l as [|b l IH]; intros acc i H; [discriminate|].
  destruct i as [|i]; cbn in H; cbn [inclusive_scan take lookup list_lookup].
  - injection H as ->. f_equal. rewrite take_0. cbn. lia.
  - rewrite (IH _ _ H). f_equal. rewrite sum_cons. lia.
Qed.
Lemma inclusive_scan_sorted acc l : Sorted Nat.le (inclusive_scan acc l).
Proof.
  apply StronglySorted_Sorted. revert acc. induction l as [|a l IH]; intros acc; cbn; constructor; auto.
  rewrite Forall_forall. intros x Hx. apply elem_of_list_lookup_1 in Hx. destruct Hx as [i Hi].
  pose proof (lookup_lt_Some _ _ _ Hi) as Hl. rewrite inclusive_scan_length in Hl.
  destruct (lookup_lt_is_Some_2 l i Hl) as [b Hb].
  rewrite (inclusive_scan_lookup _ _ _ _ Hb) in Hi. injection Hi as <-. unfold Nat.le. lia.
Qed.
Lemma exclusive_scan_length acc l : length (exclusive_scan acc l) = length l.
Proof. revert acc. induction l; intros; cbn; auto. Qed.
Lemma exclusive_scan_lookup acc l i :
  i < length l -> exclusive_scan acc l !! i = Some (acc + sum (take i l)).
Proof.
  revert acc i. induction l as [|b l IH]; intros acc i H; [cbn in H; lia|].
  destruct i as [|i]; cbn [exclusive_scan lookup list_lookup] in *.
  - f_equal. cbn. lia.
  - cbn in H. rewrite IH by lia. f_equal. cbn [take]. unfold sum. cbn [foldr]. lia.
Qed.

Lemma unique_elem l x : x ∈ unique l <-> x ∈ l.
Proof.
  induction l as [|a l IH]; [reflexivity|]. destruct l as [|b l]; [reflexivity|].
  change (unique (a :: b :: l)) with (if a =? b then unique (b :: l) else a :: unique (b :: l)).
  destruct (a =? b) eqn:E.
  - apply Nat.eqb_eq in E. subst. rewrite IH, !elem_of_cons. tauto.
  - rewrite elem_of_cons, IH, (elem_of_cons (b :: l)). tauto.
Qed.
Lemma unique_strict l : Sorted Nat.le l -> StronglySorted lt (unique l).
Proof.
  intros Hs%Sorted_StronglySorted; [|intros ???; lia].
  induction l as [|a l IH]; [constructor|]. destruct l as [|b l]; [repeat constructor|].
  change (unique (a :: b :: l)) with (if a =? b then unique (b :: l) else a :: unique (b :: l)).
  inversion Hs as [|? ? Hs' Ha]; subst. specialize (IH Hs').
  destruct (a =? b) eqn:E; [exact IH|]. apply Nat.eqb_neq in E.
  constructor; [exact IH|]. rewrite Forall_forall. intros x Hx. rewrite unique_elem in Hx.
  rewrite Forall_forall in Ha. pose proof (Ha b ltac:(left)). unfold Nat.le in *.
  apply elem_of_cons in Hx. destruct Hx as [->|Hx]; [lia|].
  inversion Hs' as [|? ? _ Hb]; subst. rewrite Forall_forall in Hb. specialize (Hb x Hx). unfold Nat.le in *. lia.
Qed.
Lemma strict_nodup l : StronglySorted lt l -> NoDup l.
Proof.
  induction 1 as [|a l H IH Ha]; constructor; [|exact IH].
  intros Hin. rewrite Forall_forall in Ha. specialize (Ha a Hin). lia.
Qed.
Lemma strict_sorted l : StronglySorted lt l -> Sorted Nat.le l.
Proof.
  intros H. apply StronglySorted_Sorted. induction H as [|a l H IH Ha]; constructor; [exact IH|].
  eapply Forall_impl; [exact Ha|]. intros. unfold Nat.le. lia.
Qed.
Lemma sorted_nodup_strict l : Sorted Nat.le l -> NoDup l -> StronglySorted lt l.
Proof.
  intros Hs%Sorted_StronglySorted Hn; [|intros ???; lia].
  induction Hs as [|a l H IH Ha]; constructor; inversion Hn; subst; auto.
  rewrite Forall_forall in *. intros x Hx. specialize (Ha x Hx). unfold Nat.le in Ha.
  destruct (decide (a = x)); [subst; contradiction|lia].
Qed.
Lemma strict_ext l l' : StronglySorted lt l -> StronglySorted lt l' ->
  (forall x, x ∈ l <-> x ∈ l') -> l = l'.
Proof.
  intros H H' E. apply (Sorted_unique Nat.le); [apply strict_sorted; auto..|].
  apply NoDup_Permutation; auto using strict_nodup.
Qed.

Lemma elem_of_concat {A} (ls : list (list A)) x : x ∈ concat ls <-> exists l, x ∈ l /\ l ∈ ls.
Proof.
  induction ls as [|a ls IH]; cbn [concat].
  - rewrite elem_of_nil. split; [tauto|]. intros (l & _ & H). apply elem_of_nil in H. exact H.
  - rewrite elem_of_app, IH. split.
    + intros [H|(l & H & Hl)]; [exists a; split; [exact H|left]|exists l; split; [exact H|right; exact Hl]].
    + intros (l & H & Hl). apply elem_of_cons in Hl. destruct Hl as [->|Hl]; eauto.
Qed.
