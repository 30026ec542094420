(** C42: the index computation. *)
From Verif Require Import Base StdAlgo Elem_model Elem_spec Elem_proofs Mesh_model Mesh_spec Mesh_proofs Partition_model LocalView_model Periodic_proofs Sparsity_proofs Cond_model Cond_spec.
From stdpp Require sorting.
Local Arguments Nat.mul : simpl never.
Local Arguments Nat.add : simpl never.
Local Arguments Nat.sub : simpl never.

(** ** Lists. *)
Lemma filter_at {A} (f : A -> bool) l1 w l2 : f w = true -> List.filter f (l1 ++ w :: l2) !! length (List.filter f l1) = Some w.
Proof. intros H. rewrite List.filter_app. cbn [List.filter]. rewrite H. by rewrite list_lookup_middle. Qed.
Lemma filter_len_snoc {A} (f : A -> bool) l w : length (List.filter f (l ++ [w])) = if f w then S (length (List.filter f l)) else length (List.filter f l).
Proof. rewrite List.filter_app, app_length. cbn [List.filter]. destruct (f w); cbn [length]; lia. Qed.
Lemma filter_map {A B} (f : B -> bool) (h : A -> B) l : List.filter f (map h l) = map h (List.filter (fun a => f (h a)) l).
Proof. induction l as [|a l IH]; [done|]. cbn. destruct (f (h a)); cbn; by rewrite IH. Qed.
Lemma filter_prod (f h : nat -> bool) l1 l2 : List.filter (fun w => f w.1 && h w.2) (list_prod l1 l2) = list_prod (List.filter f l1) (List.filter h l2).
Proof.
  induction l1 as [|a l1 IH]; [done|]. cbn [list_prod List.filter]. rewrite List.filter_app, IH, filter_map. cbn [fst snd]. destruct (f a) eqn:E; cbn [andb list_prod]; [done|].
  replace (List.filter (fun _ => false) l2) with (@nil nat) by (clear; induction l2 as [|? ? IH2]; [done|exact IH2]). done.
Qed.
Lemma prod_app {A B} (l1 l2 : list A) (l : list B) : list_prod (l1 ++ l2) l = list_prod l1 l ++ list_prod l2 l.
Proof. induction l1 as [|a l1 IH]; [done|]. cbn. by rewrite IH, app_assoc. Qed.
Lemma elem_of_prod {A B} (l1 : list A) (l2 : list B) w : w ∈ list_prod l1 l2 <-> w.1 ∈ l1 /\ w.2 ∈ l2.
Proof. destruct w as [a b]. rewrite !elem_of_list_In. apply in_prod_iff. Qed.
Lemma filter_and {A} (f h : A -> bool) l : List.filter f (List.filter h l) = List.filter (fun a => h a && f a) l.
Proof. induction l as [|a l IH]; [done|]. cbn. destruct (h a); cbn; [destruct (f a)|]; by rewrite IH. Qed.
Lemma filter_true {A} (f : A -> bool) l : (forall a, a ∈ l -> f a = true) -> List.filter f l = l.
Proof. induction l as [|a l IH]; intros H; [done|]. cbn. rewrite (H a) by left. f_equal. apply IH. intros x Hx. apply H. by right. Qed.
Lemma elem_of_filter' {A} (f : A -> bool) l a : a ∈ List.filter f l <-> a ∈ l /\ f a = true.
Proof. rewrite !elem_of_list_In. apply filter_In. Qed.
(** Positions of the elements with [f]. *)
Definition at_pos {A} (f : A -> bool) (l : list A) (k : nat) : bool := match l !! k with Some a => f a | None => false end.
Lemma pos_length {A} (f : A -> bool) (l : list A) : length (List.filter (at_pos f l) (seq 0 (length l))) = length (List.filter f l).
Proof.
  induction l as [|a l IH] using rev_ind; [done|]. rewrite app_length. cbn [length]. rewrite Nat.add_1_r, seq_S, List.filter_app, app_length, Nat.add_0_l. rewrite filter_len_snoc.
  assert (E : List.filter (at_pos f (l ++ [a])) (seq 0 (length l)) = List.filter (at_pos f l) (seq 0 (length l))).
  { apply List.filter_ext_in. intros k Hk%elem_of_list_In%elem_of_seq. unfold at_pos. by rewrite lookup_app_l by lia. }
  rewrite E, IH. cbn [List.filter]. unfold at_pos. rewrite list_lookup_middle by done. destruct (f a); cbn [length]; lia.
Qed.
Lemma lex_sorted l1 l2 : StronglySorted lt l1 -> StronglySorted lt l2 -> StronglySorted lex (list_prod l1 l2).
Proof.
  intros H1 H2. induction l1 as [|a l1 IH]; [constructor|]. apply StronglySorted_inv in H1 as [H1 Ha]. cbn [list_prod]. rewrite Forall_forall in Ha.
  assert (Hx : forall l, StronglySorted lt l -> StronglySorted lex (map (fun y => (a, y)) l ++ list_prod l1 l2)).
  { induction l as [|b l IHl]; intros Hl; [by apply IH|]. apply StronglySorted_inv in Hl as [Hl Hb]. cbn. constructor; [by apply IHl|]. rewrite Forall_forall in Hb. rewrite Forall_forall. intros [x y] Hw. apply elem_of_app in Hw as [Hw|Hw].
    - apply (elem_of_list_fmap (fun y => (a, y))) in Hw as (y' & [= -> ->] & Hy). right. split; [done|]. by apply Hb.
    - apply elem_of_prod in Hw as [Hw _]. left. by apply Ha. }
  by apply Hx.
Qed.
Lemma sorted_filter_lex (f : nat * nat -> bool) l : StronglySorted lex l -> StronglySorted lex (List.filter f l).
Proof.
  induction 1 as [|a l Hs IH Hf]; [constructor|]. cbn. destruct (f a); [|done]. constructor; [done|]. rewrite Forall_forall in *. intros x Hx. apply elem_of_filter' in Hx as [Hx _]. by apply Hf.
Qed.
Lemma lex_nodup l : StronglySorted lex l -> NoDup l.
Proof. induction 1 as [|a l Hs IH Hf]; constructor; [|done]. intros Hi. rewrite Forall_forall in Hf. specialize (Hf a Hi). unfold lex in Hf. lia. Qed.
Lemma lex_ext l l' : StronglySorted lex l -> StronglySorted lex l' -> (forall w, w ∈ l <-> w ∈ l') -> l = l'.
Proof.
  intros H H' E. assert (AntiSymm eq lex) by (intros [a b] [a' b'] Hx Hy; unfold lex in *; cbn in *; lia).
  apply (sorting.StronglySorted_unique lex); [done|done|]. apply NoDup_Permutation; [by apply lex_nodup..|done].
Qed.

(** ** Boundary and interior nodes. *)
Lemma on_bnd_iff t O i : i < nodes_per_element t O -> on_bnd t O i = true <-> exists side, on_side t O side i.
Proof.
  intros Hi. unfold on_bnd, on_side. cbv zeta. split.
  - intros H. destruct t; rewrite ?orb_true_iff, ?Nat.eqb_eq in H; destruct H as [H|H].
    + destruct H as [[H|H]|[H|H]]; [by exists 4|by exists 5|by exists 2|by exists 3].
    + destruct H as [H|H]; [by exists 0|by exists 1].
    + destruct H as [H|H]; [by exists 2|by exists 3].
    + destruct H as [H|H]; [by exists 0|by exists 1].
    + by exists 0.
    + by exists 1.
  - intros (side & _ & H). destruct t; rewrite ?orb_true_iff, ?Nat.eqb_eq; do 6 (destruct side as [|side]; [tauto|]); done.
Qed.
Lemma bnd_filter t O : boundary_node_inds t O = List.filter (on_bnd t O) (seq 0 (nodes_per_element t O)).
Proof.
  destruct (boundary_inds_ok t O) as [Hs Hb]. apply strict_ext; [done|apply sorted_filter, sorted_seq|]. intros i. rewrite Hb, elem_of_filter', elem_of_seq. split.
  - intros (side & Hi). assert (i < nodes_per_element t O) by apply Hi. split; [lia|]. apply on_bnd_iff; [done|]. by exists side.
  - intros [Hi H]. apply on_bnd_iff in H; [done|lia].
Qed.
Lemma int_filter t O : internal_node_inds t O = List.filter (fun i => negb (on_bnd t O i)) (seq 0 (nodes_per_element t O)).
Proof.
  destruct (internal_ok t O) as [Hs Hb]. apply strict_ext; [done|apply sorted_filter, sorted_seq|]. intros i. rewrite Hb, elem_of_filter', elem_of_seq, negb_true_iff. split.
  - intros (Hi & Hn). split; [lia|]. destruct (on_bnd t O i) eqn:E; [|done]. apply on_bnd_iff in E; [by destruct Hn|done].
  - intros [Hi H]. split; [lia|]. intros Hs'. apply on_bnd_iff in Hs'; [congruence|lia].
Qed.
Lemma last_bnd t O : 0 < nodes_per_element t O /\ on_bnd t O (nodes_per_element t O - 1) = true.
Proof.
  assert (Hm : forall k, 0 < k -> (k * (O + 1) - 1) `mod` (O + 1) = O).
  { intros k Hk. replace (k * (O + 1) - 1) with (O + (k - 1) * (O + 1)) by nia. rewrite Nat.mod_add by lia. apply Nat.mod_small. lia. }
  unfold on_bnd, grid_x. destruct t; cbn [nodes_per_element]; cbv zeta.
  - split; [nia|]. rewrite Hm by nia. by rewrite Nat.eqb_refl, orb_true_r.
  - split; [nia|]. rewrite Hm by nia. by rewrite Nat.eqb_refl, orb_true_r.
  - split; [lia|]. replace (O + 1 - 1) with (1 * (O + 1) - 1) by lia. rewrite Hm by lia. by rewrite Nat.eqb_refl, orb_true_r.
Qed.
Lemma inds_to_bmp_ok D inds : (forall i, i ∈ inds -> i < D) -> inds_to_bmp D inds = Ok (map (fun i => bool_decide (i ∈ inds)) (seq 0 D)).
Proof.
  intros Hi. destruct (for_each_prefix (fun i (v : list bool) => wr v i true) (fun pre v => v = map (fun i => bool_decide (i ∈ pre)) (seq 0 D)) inds (replicate D false)) as (v & E & ->); [| |done].
  - apply list_eq. intros k. rewrite (list_lookup_fmap (fun i => bool_decide (i ∈ []))). destruct (decide (k < D)); [rewrite lookup_replicate_2, lookup_seq_lt by done; cbn; by rewrite bool_decide_eq_false_2 by apply not_elem_of_nil|].
    rewrite !lookup_ge_None_2; [done|rewrite seq_length; lia|rewrite replicate_length; lia].
  - intros pre i v [post E] ->. assert (i < D) by (apply Hi; rewrite E; set_solver). rewrite wr_ok by (by rewrite map_length, seq_length). eexists. split; [reflexivity|]. apply list_eq. intros k. rewrite (list_lookup_fmap (fun i0 => bool_decide (i0 ∈ pre ++ [i]))).
    destruct (decide (k < D)); [|rewrite !lookup_ge_None_2; [done|rewrite seq_length; lia|rewrite insert_length, map_length, seq_length; lia]]. rewrite lookup_seq_lt by done. cbn [fmap option_fmap option_map]. rewrite Nat.add_0_l. destruct (decide (k = i)) as [-> |Hne].
    + rewrite list_lookup_insert by (by rewrite map_length, seq_length). by rewrite bool_decide_eq_true_2 by set_solver.
    + rewrite list_lookup_insert_ne by done. rewrite (list_lookup_fmap (fun i0 => bool_decide (i0 ∈ pre))), lookup_seq_lt by done. cbn [fmap option_fmap option_map]. rewrite Nat.add_0_l. f_equal. apply bool_decide_ext. set_solver.
Qed.
