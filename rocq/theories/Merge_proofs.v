(** C22: sets of ids, closing gaps in a numbering, and faces. *)
From Verif Require Import Base StdAlgo Ownership_model Elem_model Elem_spec Elem_proofs Mesh_model Mesh_spec Mesh_proofs Build_proofs Prim_spec Prim_proofs Merge_model Merge_spec.
Local Arguments Nat.mul : simpl never.
Local Arguments Nat.add : simpl never.
Local Arguments Nat.sub : simpl never.

Lemma set_difference_cons x a y b : set_difference (x :: a) (y :: b) =
  if x <? y then x :: set_difference a (y :: b) else if y <? x then set_difference (x :: a) b else set_difference a b.
Proof. reflexivity. Qed.
Lemma set_intersection_cons x a y b : set_intersection (x :: a) (y :: b) =
  if x <? y then set_intersection a (y :: b) else if y <? x then set_intersection (x :: a) b else x :: set_intersection a b.
Proof. reflexivity. Qed.
Lemma set_difference_elem a b x : StronglySorted lt a -> StronglySorted lt b -> x ∈ set_difference a b <-> x ∈ a /\ x ∉ b.
Proof.
  revert b. induction a as [|y a IHa]; intros b Ha Hb.
  { destruct b; cbn; rewrite ?elem_of_nil; tauto. }
  inversion Ha as [|? ? Ha' Hya]; subst. rewrite Forall_forall in Hya. induction b as [|z b IHb].
  { cbn. rewrite elem_of_nil. tauto. }
  inversion Hb as [|? ? Hb' Hzb]; subst. pose proof Hzb as Hzb'. rewrite Forall_forall in Hzb'.
  rewrite set_difference_cons. destruct (Nat.ltb_spec y z); [|destruct (Nat.ltb_spec z y)].
  - rewrite elem_of_cons, (IHa (z :: b)) by done. rewrite !elem_of_cons. split; [|tauto].
    intros [-> |[? ?]]; [|tauto]. split; [by left|]. intros [-> |Hx]; [lia|]. apply Hzb' in Hx. lia.
  - etransitivity; [apply IHb; done|]. rewrite !elem_of_cons. split; [|tauto]. intros [Hx Hn]. split; [done|].
    intros [-> |?]; [|done]. destruct Hx as [-> |Hx]; [lia|]. apply Hya in Hx. lia.
  - assert (y = z) as -> by lia. rewrite IHa by done. rewrite !elem_of_cons. split.
    + intros [Hx Hn]. split; [tauto|]. intros [-> |?]; [|done]. apply Hya in Hx. lia.
    + tauto.
Qed.
Lemma set_difference_sorted a b : StronglySorted lt a -> StronglySorted lt b -> StronglySorted lt (set_difference a b).
Proof.
  revert b. induction a as [|y a IHa]; intros b Ha Hb; [by destruct b; cbn; constructor|].
  inversion Ha as [|? ? Ha' Hya]; subst. induction b as [|z b IHb]; [done|].
  inversion Hb as [|? ? Hb' Hzb]; subst. rewrite set_difference_cons. destruct (Nat.ltb_spec y z); [|destruct (Nat.ltb_spec z y)].
  - constructor; [by apply IHa|]. rewrite Forall_forall in Hya |- *. intros x Hx. apply set_difference_elem in Hx as [Hx _]; auto.
  - by apply IHb.
  - by apply IHa.
Qed.
Lemma set_intersection_elem a b x : StronglySorted lt a -> StronglySorted lt b -> x ∈ set_intersection a b <-> x ∈ a /\ x ∈ b.
Proof.
  revert b. induction a as [|y a IHa]; intros b Ha Hb.
  { destruct b; cbn; rewrite ?elem_of_nil; tauto. }
  inversion Ha as [|? ? Ha' Hya]; subst. rewrite Forall_forall in Hya. induction b as [|z b IHb].
  { cbn. rewrite elem_of_nil. tauto. }
  inversion Hb as [|? ? Hb' Hzb]; subst. pose proof Hzb as Hzb'. rewrite Forall_forall in Hzb'.
  rewrite set_intersection_cons. destruct (Nat.ltb_spec y z); [|destruct (Nat.ltb_spec z y)].
  - rewrite (IHa (z :: b)) by done. rewrite !elem_of_cons. split; [tauto|].
    intros [[-> |?] Hx]; [|tauto]. destruct Hx as [-> |Hx]; [lia|]. apply Hzb' in Hx. lia.
  - etransitivity; [apply IHb; done|]. rewrite !elem_of_cons. split; [tauto|]. intros [Hx Hn]. split; [done|].
    destruct Hn as [-> |?]; [|done]. destruct Hx as [-> |Hx]; [lia|]. apply Hya in Hx. lia.
  - assert (y = z) as -> by lia. rewrite elem_of_cons, IHa by done. rewrite !elem_of_cons. split.
    + intros [-> |[Hx Hn]]; tauto.
    + intros [[-> |Hx] [Hn|Hn]]; subst; tauto.
Qed.
Lemma set_intersection_sorted a b : StronglySorted lt a -> StronglySorted lt b -> StronglySorted lt (set_intersection a b).
Proof.
  revert b. induction a as [|y a IHa]; intros b Ha Hb; [by destruct b; cbn; constructor|].
  inversion Ha as [|? ? Ha' Hya]; subst. induction b as [|z b IHb]; [cbn; constructor|].
  inversion Hb as [|? ? Hb' Hzb]; subst. rewrite set_intersection_cons. destruct (Nat.ltb_spec y z); [|destruct (Nat.ltb_spec z y)].
  - by apply IHa.
  - by apply IHb.
  - constructor; [by apply IHa|]. rewrite Forall_forall in Hya |- *. intros x Hx. apply set_intersection_elem in Hx as [Hx _]; auto.
Qed.
(** Splitting a strictly sorted list. *)
Lemma split_perm a b : StronglySorted lt a -> StronglySorted lt b -> set_difference a b ++ List.filter (fun x => bool_decide (x ∈ a)) b ≡ₚ a.
Proof.
  intros Ha Hb. apply NoDup_Permutation.
  - apply NoDup_app. split; [by apply strict_nodup, set_difference_sorted|]. split.
    + intros x Hx Hx'. apply set_difference_elem in Hx as [_ Hx]; [|done|done]. apply elem_of_list_In, filter_In in Hx' as [Hx' _]. by apply elem_of_list_In in Hx'.
    + apply NoDup_ListNoDup, List.NoDup_filter, NoDup_ListNoDup. by apply strict_nodup.
  - by apply strict_nodup.
  - intros x. rewrite elem_of_app, set_difference_elem by done. rewrite !elem_of_list_In, filter_In, <- !elem_of_list_In, bool_decide_eq_true.
    destruct (decide (x ∈ b)); tauto.
Qed.

Lemma filter_elem {A} (p : A -> bool) l x : x ∈ List.filter p l <-> x ∈ l /\ p x = true.
Proof. rewrite !elem_of_list_In. apply filter_In. Qed.
Lemma filter_all {A} (p : A -> bool) l : (forall x, x ∈ l -> p x = true) -> List.filter p l = l.
Proof. induction l as [|a l IH]; intros H; [done|]. cbn [List.filter]. rewrite (H a) by left. rewrite IH; [done|]. intros x Hx. apply H. by right. Qed.
(** Closing the gaps left by [D]. *)
Section gaps.
  Context (D : list nat) (HD : StronglySorted lt D).
  Definition below (i : nat) : nat := length (List.filter (fun d => d <? i) D).
  Lemma lower_bound_below i : lower_bound D i = below i.
  Proof.
    destruct (lower_bound_spec D i (strict_sorted _ HD)) as (H1 & H2 & H3). unfold below.
    rewrite <- (take_drop (lower_bound D i) D) at 2. rewrite List.filter_app, app_length.
    assert (E1 : List.filter (fun d => d <? i) (take (lower_bound D i) D) = take (lower_bound D i) D).
    { apply filter_all. intros d Hd. apply elem_of_list_lookup in Hd as [j Hj]. apply lookup_lt_Some in Hj as Hlt. rewrite take_length in Hlt.
      rewrite lookup_take in Hj by lia. apply Nat.ltb_lt. apply (H2 j d Hj). lia. }
    assert (E2 : List.filter (fun d => d <? i) (drop (lower_bound D i) D) = []).
    { assert (Forall (fun d => (d <? i) = false) (drop (lower_bound D i) D)) as HF.
      { apply Forall_forall. intros d Hd. apply elem_of_list_lookup in Hd as [j Hj]. rewrite lookup_drop in Hj. apply Nat.ltb_ge. apply (H3 _ d Hj). lia. }
      induction HF as [|d l Hd HF IH]; [done|]. cbn [List.filter]. by rewrite Hd. }
    rewrite E1, E2, take_length. cbn [List.length]. lia.
  Qed.
  Lemma below_S i : below (S i) = below i + (if bool_decide (i ∈ D) then 1 else 0).
  Proof.
    clear - HD. unfold below. induction HD as [|d l Hl IH Hd]; [cbn; case_bool_decide as H; [by apply elem_of_nil in H|lia]|]. rewrite Forall_forall in Hd. cbn [List.filter].
    destruct (Nat.ltb_spec d (S i)), (Nat.ltb_spec d i); cbn [List.length]; rewrite ?IH by done.
    - case_bool_decide as H1; case_bool_decide as H2; rewrite ?elem_of_cons in *; try lia; exfalso; [tauto|]. destruct H2 as [-> |?]; [lia|done].
    - assert (d = i) as -> by lia. rewrite (bool_decide_eq_true_2 (i ∈ i :: l)) by left. rewrite bool_decide_eq_false_2; [lia|]. intros H1. apply Hd in H1. lia.
    - lia.
    - case_bool_decide as H1; case_bool_decide as H2; rewrite ?elem_of_cons in *; try lia; exfalso; [tauto|]. destruct H2 as [-> |?]; [lia|done].
  Qed.
  Lemma below_le i : below i <= i.
  Proof. induction i as [|i IH]; [|rewrite below_S; case_bool_decide; lia]. unfold below. clear. induction D as [|d l IH]; [done|]. exact IH. Qed.
  Lemma close_gaps K : map (fun i => i - lower_bound D i) (List.filter (fun i => negb (bool_decide (i ∈ D))) (seq 0 K)) = seq 0 (K - below K).
  Proof.
    induction K as [|K IH]; [done|]. rewrite seq_S, List.filter_app, map_app, IH. cbn [List.filter]. rewrite below_S. pose proof (below_le K). rewrite Nat.add_0_l.
    destruct (bool_decide (K ∈ D)); cbn [negb map].
    - rewrite app_nil_r. f_equal. lia.
    - rewrite lower_bound_below, Nat.add_0_r. replace (S K - below K) with (S (K - below K)) by lia. by rewrite seq_S.
  Qed.
  Lemma gap_mono i j : i < j -> i ∉ D -> i - lower_bound D i < j - lower_bound D j.
  Proof.
    intros Hij Hi. rewrite !lower_bound_below. assert (H : below (S i) = below i) by (rewrite below_S, bool_decide_eq_false_2; [lia|done]).
    assert (Hk : forall k, S i + k - below (S i + k) >= S i - below (S i)).
    { induction k as [|k IH]; [rewrite Nat.add_0_r; lia|]. rewrite Nat.add_succ_r, below_S. pose proof (below_le (S i + k)). case_bool_decide; lia. }
    specialize (Hk (j - S i)). replace (S i + (j - S i)) with j in Hk by lia. pose proof (below_le i). lia.
  Qed.
  Lemma below_all K : (forall d, d ∈ D -> d < K) -> below K = length D.
  Proof. intros H. unfold below. rewrite filter_all; [done|]. intros d Hd. by apply Nat.ltb_lt, H. Qed.
End gaps.
Lemma filter_gap (D ids kept : list nat) K : NoDup ids -> ids ≡ₚ seq 0 K -> kept ++ D ≡ₚ ids -> kept ≡ₚ List.filter (fun i => negb (bool_decide (i ∈ D))) (seq 0 K).
Proof.
  intros Hnd Hids Hk. rewrite <- Hk in Hnd. apply NoDup_app in Hnd as (H1 & H2 & H3). apply NoDup_Permutation; [done|apply NoDup_ListNoDup, List.NoDup_filter, NoDup_ListNoDup, NoDup_seq|].
  intros x. rewrite filter_elem. assert (Hx : x ∈ seq 0 K <-> x ∈ kept \/ x ∈ D) by (rewrite <- Hids, <- Hk, elem_of_app; done).
  rewrite Hx, negb_true_iff, bool_decide_eq_false. split; [|tauto]. intros Hx'. split; [tauto|]. by apply H2.
Qed.

(** Faces. *)
Section faces.
  Context {V : Type}.
  Notation el := (element V).
  Lemma map_nodes_some (mm : dmap nat) ns ns' : NoDup mm.*1 -> map_nodes mm ns = Some ns' <-> Forall2 (fun a b => (a, b) ∈ mm) ns ns'.
  Proof.
    intros Hnd. revert ns'. induction ns as [|n ns IH]; intros ns'; cbn [map_nodes].
    - split; [intros [= <-]; constructor|]. intros H. by inversion H.
    - destruct (dm_find n mm) as [n'|] eqn:E.
      + apply dm_find_elem in E. destruct (map_nodes mm ns) as [l|].
        * split; [intros [= <-]; constructor; [done|by apply IH]|]. intros H. inversion H as [|? b ? l' Hb Hl]; subst.
          apply IH in Hl as [= ->]. f_equal. f_equal. apply (elem_dm_find _ _ _ Hnd) in E, Hb. congruence.
        * split; [done|]. intros H. inversion H as [|? b ? l' Hb Hl]; subst. by apply IH in Hl.
      + split; [done|]. intros H. inversion H as [|? b ? l' Hb Hl]; subst. apply (elem_dm_find _ _ _ Hnd) in Hb. congruence.
  Qed.
  Lemma forall2_perm_l {A B} (R : A -> B -> Prop) l l' k : Forall2 R l k -> l ≡ₚ l' -> exists k', Forall2 R l' k' /\ k ≡ₚ k'.
  Proof.
    intros HF Hp. revert k HF. induction Hp as [|a l l' Hp IH|a b l|l1 l2 l3 H1 IH1 H2 IH2]; intros k HF.
    - inversion HF; subst. by exists [].
    - inversion HF as [|? c ? k0 Hc Hk]; subst. destruct (IH _ Hk) as (k' & HF' & Hp'). exists (c :: k'). split; [by constructor|by rewrite Hp'].
    - inversion HF as [|? c ? k0 Hc Hk]; subst. inversion Hk as [|? c' ? k1 Hc' Hk']; subst. exists (c' :: c :: k1). split; [by repeat constructor|constructor].
    - destruct (IH1 _ HF) as (k2 & HF2 & Hp2). destruct (IH2 _ HF2) as (k3 & HF3 & Hp3). exists k3. split; [done|by rewrite Hp2].
  Qed.
  Lemma to_delete (mm : dmap nat) ex inc f1 f2 : NoDup mm.*1 ->
    (f1 ∈ (getFacesToDelete ex inc mm).1 <-> exists f ns, f ∈ inc /\ Forall2 (fun a b => (a, b) ∈ mm) f ns /\ f1 = sort ns /\ f1 ∈ ex) /\
    (f2 ∈ (getFacesToDelete ex inc mm).2 <-> f2 ∈ inc /\ exists ns, Forall2 (fun a b => (a, b) ∈ mm) f2 ns /\ sort ns ∈ ex).
  Proof.
    intros Hnd. unfold getFacesToDelete. induction inc as [|f inc [IH1 IH2]]; cbn [foldr].
    - cbn. rewrite !elem_of_nil. split; (split; [done|]); [intros (f & ns & H & _); by apply elem_of_nil in H|by intros [[] _]].
    - destruct (map_nodes mm f) as [ns|] eqn:E.
      + apply map_nodes_some in E; [|done]. assert (Hu : forall ns', Forall2 (fun a b => (a, b) ∈ mm) f ns' -> ns' = ns).
        { intros ns' H. apply map_nodes_some in E, H; [|done|done]. congruence. }
        case_bool_decide as Hin; cbn [fst snd]; rewrite ?elem_of_cons, IH1, IH2; split.
        * split; [intros [-> |(f' & ns' & H & H')]; [exists f, ns; split; [left|done]|exists f', ns'; split; [by right|done]]|].
          intros (f' & ns' & H & HF & Hs & Hx). apply elem_of_cons in H as [-> |H]; [left; by rewrite (Hu _ HF) in Hs|right; by exists f', ns'].
        * split; [intros [-> |[H H']]; [split; [by left|by exists ns]|split; [by right|done]]|].
          intros [[-> |H] H']; [by left|by right].
        * split; [intros (f' & ns' & H & H'); exists f', ns'; split; [by right|done]|].
          intros (f' & ns' & H & HF & Hs & Hx). apply elem_of_cons in H as [-> |H]; [rewrite (Hu _ HF) in Hs; by subst|by exists f', ns'].
        * split; [intros [H H']; split; [by right|done]|]. intros [[-> |H] (ns' & HF & Hs)]; [rewrite (Hu _ HF) in Hs; done|split; [done|by exists ns']].
      + assert (Hu : forall ns', ~ Forall2 (fun a b => (a, b) ∈ mm) f ns') by (intros ns' H; apply map_nodes_some in H; [congruence|done]).
        rewrite IH1, IH2. split.
        * split; [intros (f' & ns' & H & H'); exists f', ns'; split; [by right|done]|].
          intros (f' & ns' & H & HF & Hs & Hx). apply elem_of_cons in H as [-> |H]; [by destruct (Hu ns')|by exists f', ns'].
        * rewrite elem_of_cons. split; [intros [H H']; split; [by right|done]|]. intros [[-> |H] (ns' & HF & Hs)]; [by destruct (Hu ns')|split; [done|by exists ns']].
  Qed.
  Lemma perm_sort (a b : list nat) : sort a = sort b <-> a ≡ₚ b.
  Proof. split; [|apply sort_ext]. intros H. rewrite <- (sort_perm a), <- (sort_perm b). by rewrite H. Qed.
End faces.
