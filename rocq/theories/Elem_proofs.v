From Verif Require Import Base StdAlgo Elem_model Elem_spec.
From Coq Require Import Arith.
Local Arguments Nat.ltb : simpl never.
Local Arguments Nat.leb : simpl never.
Local Arguments Nat.eqb : simpl never.
Local Arguments Nat.mul : simpl never.
Local Arguments Nat.add : simpl never.
Local Arguments Nat.div : simpl never.
Local Arguments Nat.modulo : simpl never.

(** Ascending lists described by a strictly increasing function. *)
Lemma sorted_seq b n : StronglySorted lt (seq b n).
Proof.
  revert b. induction n as [|n IH]; intros b; cbn; constructor; [apply IH|]. apply Forall_forall. intros x ?%elem_of_seq. lia.
Qed.
Lemma sorted_map (f : nat -> nat) l : (forall x y, x ∈ l -> y ∈ l -> x < y -> f x < f y) -> StronglySorted lt l -> StronglySorted lt (map f l).
Proof.
  intros Hf H. induction H as [|x l Hs IH Hx]; cbn; constructor.
  - apply IH. intros a b Ha Hb. apply Hf; by right.
  - apply Forall_forall. intros y Hy. apply elem_of_list_In, in_map_iff in Hy as (z & <- & Hz). apply elem_of_list_In in Hz.
    apply Hf; [by left|by right|]. by apply (proj1 (Forall_forall _ _) Hx).
Qed.
Lemma sorted_app l1 l2 : StronglySorted lt l1 -> StronglySorted lt l2 -> (forall x y, x ∈ l1 -> y ∈ l2 -> x < y) -> StronglySorted lt (l1 ++ l2).
Proof.
  intros H H2 Hc. induction H as [|x l Hs IH Hx]; cbn; [done|]. constructor.
  - apply IH. intros a b Ha Hb. apply Hc; [by right|done].
  - apply Forall_app. split; [done|]. apply Forall_forall. intros y Hy. apply Hc; [by left|done].
Qed.
(** Two nested loops with values f i j ascending lexicographically. *)
Definition nest (f : nat -> nat -> nat) (l1 l2 : list nat) : list nat := concat (map (fun i => map (fun j => f i j) l2) l1).
Lemma nest_elem f l1 l2 x : x ∈ nest f l1 l2 <-> exists i j, i ∈ l1 /\ j ∈ l2 /\ x = f i j.
Proof.
  unfold nest. rewrite elem_of_concat. split.
  - intros (l & Hx & Hl). apply elem_of_list_In, in_map_iff in Hl as (i & <- & Hi).
    apply elem_of_list_In, in_map_iff in Hx as (j & <- & Hj). exists i, j. by rewrite !elem_of_list_In.
  - intros (i & j & Hi & Hj & ->). exists (map (fun j => f i j) l2). split.
    + apply elem_of_list_In, in_map_iff. exists j. by rewrite <- elem_of_list_In.
    + apply elem_of_list_In, in_map_iff. exists i. by rewrite <- elem_of_list_In.
Qed.
Lemma nest_length f l1 l2 : length (nest f l1 l2) = length l1 * length l2.
Proof. unfold nest. induction l1 as [|i l1 IH]; cbn [map concat List.length]; [done|]. rewrite app_length, map_length, IH. lia. Qed.
Lemma nest_sorted f l1 l2 : StronglySorted lt l1 -> StronglySorted lt l2 ->
  (forall i j j', i ∈ l1 -> j ∈ l2 -> j' ∈ l2 -> j < j' -> f i j < f i j') ->
  (forall i i' j j', i ∈ l1 -> i' ∈ l1 -> j ∈ l2 -> j' ∈ l2 -> i < i' -> f i j < f i' j') ->
  StronglySorted lt (nest f l1 l2).
Proof.
  intros H1 H2 Hj Hi. induction H1 as [|i l1 Hs IH Hx]; unfold nest; cbn [map concat]; [constructor|].
  apply sorted_app.
  - apply sorted_map; [|done]. intros a b Ha Hb. apply Hj; [by left|done|done].
  - apply IH; [intros a b c Ha; apply Hj; by right|]. intros a b c d Ha Hb. apply Hi; by right.
  - intros x y Hxx Hy. apply elem_of_list_In, in_map_iff in Hxx as (j & <- & Hjj). apply elem_of_list_In in Hjj.
    change (concat _) with (nest f l1 l2) in Hy. apply nest_elem in Hy as (i' & j' & Hi' & Hj' & ->).
    apply Hi; [by left|by right|done|done|]. by apply (proj1 (Forall_forall _ _) Hx).
Qed.
Lemma loop2_map f n : map (fun ij : nat * nat => f ij.1 ij.2) (loop2 n) = nest f (seq 0 n) (seq 0 n).
Proof.
  unfold loop2, nest. induction (seq 0 n) as [|i l IH] at 2 4; [done|]. cbn [map concat]. rewrite map_app, map_map, IH. done.
Qed.
Lemma loop2_length n : length (loop2 n) = n * n.
Proof.
  rewrite <- (map_length (fun ij : nat * nat => (fun i j => i) ij.1 ij.2)), (loop2_map (fun i j => i)), nest_length, seq_length. done.
Qed.

(** Grid coordinates. *)
Lemma grid_of O x y z : x <= O -> y <= O -> let i := z * ((O + 1) * (O + 1)) + y * (O + 1) + x in
  grid_x O i = x /\ grid_y O i = y /\ grid_z O i = z.
Proof.
  intros Hx Hy. cbv zeta. unfold grid_x, grid_y, grid_z.
  assert (H1 : (z * ((O + 1) * (O + 1)) + y * (O + 1) + x) = x + (z * (O + 1) + y) * (O + 1)) by ring.
  split; [|split].
  - rewrite H1, Nat.mod_add by lia. apply Nat.mod_small. lia.
  - rewrite H1, Nat.div_add by lia. rewrite Nat.div_small by lia. rewrite Nat.add_0_l, (Nat.add_comm (z * (O + 1)) y), Nat.mod_add by lia. apply Nat.mod_small. lia.
  - rewrite H1, <- Nat.div_div by lia. rewrite Nat.div_add by lia. rewrite (Nat.div_small x) by lia. rewrite Nat.add_0_l, (Nat.add_comm (z * (O + 1)) y), Nat.div_add by lia.
    rewrite Nat.div_small by lia. lia.
Qed.
Lemma grid_decomp O i : i = grid_z O i * ((O + 1) * (O + 1)) + grid_y O i * (O + 1) + grid_x O i /\ grid_x O i <= O /\ grid_y O i <= O.
Proof.
  unfold grid_x, grid_y, grid_z. rewrite <- Nat.div_div by lia.
  pose proof (Nat.div_mod i (O + 1) ltac:(lia)). pose proof (Nat.div_mod (i / (O + 1)) (O + 1) ltac:(lia)).
  pose proof (Nat.mod_upper_bound i (O + 1) ltac:(lia)). pose proof (Nat.mod_upper_bound (i / (O + 1)) (O + 1) ltac:(lia)).
  split; [|lia]. set (q := i / (O + 1)) in *. set (r := q / (O + 1)) in *. nia.
Qed.
Lemma grid_z_bound O i : i < (O + 1) * (O + 1) * (O + 1) <-> grid_z O i <= O.
Proof.
  unfold grid_z. split.
  - intros H. assert (i / ((O + 1) * (O + 1)) < O + 1); [|lia]. apply Nat.div_lt_upper_bound; lia.
  - intros H. pose proof (Nat.div_mod i ((O + 1) * (O + 1)) ltac:(lia)). pose proof (Nat.mod_upper_bound i ((O + 1) * (O + 1)) ltac:(lia)). nia.
Qed.
Lemma grid_quad O i : i < (O + 1) * (O + 1) <-> grid_z O i = 0.
Proof. unfold grid_z. split; [apply Nat.div_small|]. intros H. apply Nat.div_small_iff in H; lia. Qed.
Lemma grid_line O i : i < O + 1 <-> grid_z O i = 0 /\ grid_y O i = 0.
Proof.
  destruct (grid_decomp O i) as (H & Hx & Hy). split.
  - intros Hi. split; [apply grid_quad; nia|]. unfold grid_y. rewrite (Nat.div_small i) by done. apply Nat.mod_small. lia.
  - intros [H1 H2]. rewrite H1, H2 in H. lia.
Qed.

(** Lists described by the coordinates. *)
Lemma side_table_ok t O side l : boundary_table t O !! side = Some l ->
  StronglySorted lt l /\ (forall i, i ∈ l <-> on_side t O side i).
Proof.
  destruct t; cbn [boundary_table].
  - unfold hex_table. set (n := O + 1). rewrite loop2_length.
    assert (Hb : map (fun ij : nat * nat => ij.1 * (n * n) + ij.2) (loop2 n) = nest (fun i j => i * (n * n) + j) (seq 0 n) (seq 0 n)) by apply (loop2_map (fun i j => i * (n * n) + j)).
    assert (Hl : map (fun ij : nat * nat => ij.1 * (n * n) + ij.2 * n) (loop2 n) = nest (fun i j => i * (n * n) + j * n) (seq 0 n) (seq 0 n)) by apply (loop2_map (fun i j => i * (n * n) + j * n)).
    rewrite Hb, Hl. clear Hb Hl.
    assert (Sb : StronglySorted lt (nest (fun i j => i * (n * n) + j) (seq 0 n) (seq 0 n))).
    { apply nest_sorted; [apply sorted_seq|apply sorted_seq|intros; lia|]. intros i i' j j' _ _ Hj Hj' Hi. apply elem_of_seq in Hj, Hj'. nia. }
    assert (Sl : StronglySorted lt (nest (fun i j => i * (n * n) + j * n) (seq 0 n) (seq 0 n))).
    { apply nest_sorted; [apply sorted_seq|apply sorted_seq|intros i j j' _ _ _ ?; nia|]. intros i i' j j' _ _ Hj Hj' Hi. apply elem_of_seq in Hj, Hj'. nia. }
    assert (Ss : forall c l, StronglySorted lt l -> StronglySorted lt (map (fun x => x + c) l)).
    { intros c l' H. apply sorted_map; [|done]. intros; lia. }
    assert (Em : forall c l i, i ∈ map (fun x => x + c) l <-> c <= i /\ i - c ∈ l).
    { intros c l' i. rewrite elem_of_list_In, in_map_iff. split.
      - intros (x & <- & Hx). split; [lia|]. replace (x + c - c) with x by lia. by apply elem_of_list_In.
      - intros [Hc Hx]. exists (i - c). split; [lia|]. by apply elem_of_list_In. }
    unfold on_side. cbn [nodes_per_element]. fold n.
    destruct side as [|[|[|[|[|[|side]]]]]]; cbn [lookup list_lookup]; intros [= <-]; (split; [auto using sorted_seq|]); intros i; rewrite ?Em.
    + rewrite elem_of_seq. unfold n. rewrite grid_z_bound. pose proof (grid_quad O i). lia.
    + rewrite elem_of_seq. unfold n. rewrite grid_z_bound. destruct (grid_decomp O i) as (H & Hx & Hy).
      replace (O + 1 - 1) with O by lia. split.
      * intros [H1 H2]. assert (grid_z O i = O); [|lia]. apply Nat.le_antisymm; [|].
        -- apply grid_z_bound. nia.
        -- destruct (Nat.le_gt_cases O (grid_z O i)); [done|]. nia.
      * intros [_ Hz]. rewrite Hz in H. nia.
    + rewrite nest_elem. unfold n. rewrite grid_z_bound. split.
      * intros (z & x & Hz & Hx & ->). apply elem_of_seq in Hz, Hx. destruct (grid_of O x 0 z) as (G1 & G2 & G3); [lia|lia|].
        rewrite Nat.mul_0_l, Nat.add_0_r in G1, G2, G3. rewrite G2, G3. lia.
      * intros [Hz Hy]. destruct (grid_decomp O i) as (H & Hx & _). rewrite Hy in H. exists (grid_z O i), (grid_x O i).
        rewrite !elem_of_seq. lia.
    + rewrite nest_elem. unfold n. rewrite grid_z_bound. replace (O + 1 - 1) with O by lia. split.
      * intros (Hc & z & x & Hz & Hx & E). apply elem_of_seq in Hz, Hx. destruct (grid_of O x O z) as (G1 & G2 & G3); [lia|lia|].
        replace i with (z * ((O + 1) * (O + 1)) + O * (O + 1) + x) by lia. rewrite G2, G3. lia.
      * intros [Hz Hy]. destruct (grid_decomp O i) as (H & Hx & _). rewrite Hy in H. split; [lia|]. exists (grid_z O i), (grid_x O i).
        rewrite !elem_of_seq. lia.
    + rewrite nest_elem. unfold n. rewrite grid_z_bound. split.
      * intros (z & y & Hz & Hy & ->). apply elem_of_seq in Hz, Hy. destruct (grid_of O 0 y z) as (G1 & G2 & G3); [lia|lia|].
        rewrite Nat.add_0_r in G1, G2, G3. rewrite G1, G3. lia.
      * intros [Hz Hx]. destruct (grid_decomp O i) as (H & _ & Hy). rewrite Hx in H. exists (grid_z O i), (grid_y O i).
        rewrite !elem_of_seq. lia.
    + rewrite nest_elem. unfold n. rewrite grid_z_bound. replace (O + 1 - 1) with O by lia. split.
      * intros (Hc & z & y & Hz & Hy & E). apply elem_of_seq in Hz, Hy. destruct (grid_of O O y z) as (G1 & G2 & G3); [lia|lia|].
        replace i with (z * ((O + 1) * (O + 1)) + y * (O + 1) + O) by lia. rewrite G1, G3. lia.
      * intros [Hz Hx]. destruct (grid_decomp O i) as (H & _ & Hy). rewrite Hx in H. split; [lia|]. exists (grid_z O i), (grid_y O i).
        rewrite !elem_of_seq. lia.
  - unfold quad_table. set (n := O + 1).
    assert (Sl : StronglySorted lt (map (fun i => i * n) (seq 0 n))) by (apply sorted_map; [intros; nia|apply sorted_seq]).
    assert (Ss : forall c l, StronglySorted lt l -> StronglySorted lt (map (fun x => x + c) l)).
    { intros c l' H. apply sorted_map; [|done]. intros; lia. }
    assert (Em : forall c l i, i ∈ map (fun x => x + c) l <-> c <= i /\ i - c ∈ l).
    { intros c l' i. rewrite elem_of_list_In, in_map_iff. split.
      - intros (x & <- & Hx). split; [lia|]. replace (x + c - c) with x by lia. by apply elem_of_list_In.
      - intros [Hc Hx]. exists (i - c). split; [lia|]. by apply elem_of_list_In. }
    assert (El : forall i, i ∈ map (fun i => i * n) (seq 0 n) <-> exists k, k < n /\ i = k * n).
    { intros i. rewrite elem_of_list_In, in_map_iff. split.
      - intros (x & <- & Hx). apply elem_of_list_In, elem_of_seq in Hx. exists x. split; [lia|done].
      - intros (k & Hk & ->). exists k. split; [done|]. apply elem_of_list_In, elem_of_seq. lia. }
    unfold on_side. cbn [nodes_per_element]. fold n.
    destruct side as [|[|[|[|side]]]]; cbn [lookup list_lookup]; intros [= <-]; (split; [auto using sorted_seq|]); intros i; rewrite ?Em, ?El, ?elem_of_seq; unfold n in *.
    + pose proof (grid_line O i). rewrite grid_quad. pose proof (grid_quad O i). lia.
    + rewrite grid_quad. destruct (grid_decomp O i) as (H & Hx & Hy). pose proof (grid_quad O i) as Hq. replace (O + 1 - 1) with O by lia. split.
      * intros [H1 H2]. assert (grid_z O i = 0) as Hz by (apply Hq; nia). rewrite Hz in H. split; [done|]. nia.
      * intros [Hz Hyo]. rewrite Hz, Hyo in H. lia.
    + rewrite grid_quad. destruct (grid_decomp O i) as (H & Hx & Hy). split.
      * intros (k & Hk & ->). destruct (grid_of O 0 k 0) as (G1 & G2 & G3); [lia|lia|].
        rewrite Nat.mul_0_l, Nat.add_0_l, Nat.add_0_r in G1, G2, G3. rewrite G1, G3. done.
      * intros [Hz Hxo]. rewrite Hz, Hxo in H. exists (grid_y O i). lia.
    + rewrite grid_quad. destruct (grid_decomp O i) as (H & Hx & Hy). replace (O + 1 - 1) with O by lia. split.
      * intros (Hc & k & Hk & E). destruct (grid_of O O k 0) as (G1 & G2 & G3); [lia|lia|].
        rewrite Nat.mul_0_l, Nat.add_0_l in G1, G2, G3. replace i with (k * (O + 1) + O) by lia. rewrite G1, G3. done.
      * intros [Hz Hxo]. rewrite Hz, Hxo in H. split; [lia|]. exists (grid_y O i). lia.
  - unfold on_side. cbn [nodes_per_element]. destruct side as [|[|side]]; cbn [lookup list_lookup]; intros [= <-]; (split; [repeat constructor|]); intros i; rewrite elem_of_list_singleton.
    + unfold grid_x. split; [intros ->; rewrite Nat.mod_small; lia|]. intros [H1 H2]. rewrite Nat.mod_small in H2; lia.
    + unfold grid_x. split; [intros ->; rewrite Nat.mod_small; lia|]. intros [H1 H2]. rewrite Nat.mod_small in H2; lia.
Qed.
Lemma table_length t O : length (boundary_table t O) = n_sides t.
Proof. by destruct t. Qed.
Lemma side_length t O side l : boundary_table t O !! side = Some l -> length l = (O + 1) ^ (native_dim t - 1).
Proof.
  destruct t; cbn [boundary_table native_dim].
  - unfold hex_table. replace ((O + 1) ^ (3 - 1)) with ((O + 1) * (O + 1)) by (cbn; lia).
    destruct side as [|[|[|[|[|[|side]]]]]]; cbn [lookup list_lookup]; intros [= <-]; rewrite ?map_length, ?seq_length; apply loop2_length.
  - unfold quad_table. replace ((O + 1) ^ (2 - 1)) with (O + 1) by (cbn; lia).
    destruct side as [|[|[|[|side]]]]; cbn [lookup list_lookup]; intros [= <-]; by rewrite ?map_length, ?seq_length.
  - destruct side as [|[|side]]; cbn [lookup list_lookup]; by intros [= <-].
Qed.
Lemma boundary_inds_ok t O : StronglySorted lt (boundary_node_inds t O) /\
  (forall i, i ∈ boundary_node_inds t O <-> exists side, on_side t O side i).
Proof.
  unfold boundary_node_inds, getBoundaryInds. split; [apply unique_strict, sort_sorted|].
  intros i. rewrite unique_elem, sort_elem, elem_of_concat. split.
  - intros (l & Hi & Hl). apply elem_of_list_lookup in Hl as [s Hs]. exists s. by apply (side_table_ok t O s l Hs).
  - intros (s & Hs). destruct (lookup_lt_is_Some_2 (boundary_table t O) s) as [l Hl].
    { rewrite table_length. destruct Hs as [_ Hs]. destruct t, s as [|[|[|[|[|[|s]]]]]]; cbn [n_sides]; try lia; done. }
    exists l. split; [by apply (side_table_ok t O s l Hl)|by eapply elem_of_list_lookup_2].
Qed.
Lemma sorted_filter (p : nat -> bool) l : StronglySorted lt l -> StronglySorted lt (List.filter p l).
Proof.
  induction 1 as [|x l Hs IH Hx]; cbn; [constructor|]. destruct (p x); [|done]. constructor; [done|].
  apply Forall_forall. intros y Hy. apply elem_of_list_In, filter_In in Hy as [Hy _]. apply elem_of_list_In in Hy.
  by apply (proj1 (Forall_forall _ _) Hx).
Qed.
Lemma internal_ok t O : StronglySorted lt (internal_node_inds t O) /\
  (forall i, i ∈ internal_node_inds t O <-> i < nodes_per_element t O /\ ~ exists side, on_side t O side i).
Proof.
  destruct (boundary_inds_ok t O) as [Hs Hb]. unfold internal_node_inds. split; [apply sorted_filter, sorted_seq|].
  intros i. rewrite (elem_of_list_In (List.filter _ _)), filter_In, <- (elem_of_list_In (seq _ _)), elem_of_seq, negb_true_iff, <- Hb.
  pose proof (binary_search_spec (boundary_node_inds t O) i (strict_sorted _ Hs)) as H.
  destruct (binary_search (boundary_node_inds t O) i); naive_solver lia.
Qed.
Lemma not_on_side t O i : i < nodes_per_element t O -> (~ exists side, on_side t O side i) <->
  match t with
  | Hex => (0 < grid_x O i < O) /\ (0 < grid_y O i < O) /\ (0 < grid_z O i < O)
  | Quad => (0 < grid_x O i < O) /\ (0 < grid_y O i < O)
  | Line => 0 < grid_x O i < O
  end.
Proof.
  intros Hi. destruct (grid_decomp O i) as (_ & Hx & Hy). split.
  - intros Hn. destruct t; cbn [nodes_per_element] in Hi.
    + apply grid_z_bound in Hi as Hz.
      assert (grid_z O i <> 0) by (intros E; apply Hn; exists 0; done). assert (grid_z O i <> O) by (intros E; apply Hn; exists 1; done).
      assert (grid_y O i <> 0) by (intros E; apply Hn; exists 2; done). assert (grid_y O i <> O) by (intros E; apply Hn; exists 3; done).
      assert (grid_x O i <> 0) by (intros E; apply Hn; exists 4; done). assert (grid_x O i <> O) by (intros E; apply Hn; exists 5; done). lia.
    + assert (grid_y O i <> 0) by (intros E; apply Hn; exists 0; done). assert (grid_y O i <> O) by (intros E; apply Hn; exists 1; done).
      assert (grid_x O i <> 0) by (intros E; apply Hn; exists 2; done). assert (grid_x O i <> O) by (intros E; apply Hn; exists 3; done). lia.
    + assert (grid_x O i <> 0) by (intros E; apply Hn; exists 0; done). assert (grid_x O i <> O) by (intros E; apply Hn; exists 1; done). lia.
  - intros H (s & _ & Hs). destruct t, s as [|[|[|[|[|[|s]]]]]]; try lia; done.
Qed.
Lemma internal_count t O : length (internal_node_inds t O) = (O - 1) ^ native_dim t.
Proof.
  destruct (internal_ok t O) as [Hs He].
  set (I := seq 1 (O - 1)).
  assert (HI : forall k, k ∈ I <-> 0 < k < O) by (intros k; unfold I; rewrite elem_of_seq; lia).
  assert (SI : StronglySorted lt I) by apply sorted_seq.
  assert (LI : length I = O - 1) by apply seq_length.
  destruct t.
  - set (E := nest (fun z yx => z * ((O + 1) * (O + 1)) + yx) I (nest (fun y x => y * (O + 1) + x) I I)).
    assert (internal_node_inds Hex O = E) as ->.
    { apply strict_ext; [done| |].
      - apply nest_sorted; [done| |intros; lia|].
        + apply nest_sorted; [done|done|intros; lia|]. intros y y' x x' _ _ Hx Hx' Hy. apply HI in Hx, Hx'. nia.
        + intros z z' a a' _ _ Ha Ha' Hz. apply nest_elem in Ha as (y & x & Hy & Hx & ->), Ha' as (y' & x' & Hy' & Hx' & ->).
          apply HI in Hy, Hx, Hy', Hx'. nia.
      - intros i. rewrite He. split.
        + intros [Hi Hn]. apply not_on_side in Hn as (Hx & Hy & Hz); [|done]. destruct (grid_decomp O i) as (H & _).
          apply nest_elem. exists (grid_z O i), (grid_y O i * (O + 1) + grid_x O i). rewrite HI, nest_elem. split; [done|]. split; [|lia].
          exists (grid_y O i), (grid_x O i). by rewrite !HI.
        + intros Hi. apply nest_elem in Hi as (z & yx & Hz & Hyx & ->). apply nest_elem in Hyx as (y & x & Hy & Hx & ->).
          apply HI in Hz, Hy, Hx. rewrite Nat.add_assoc. destruct (grid_of O x y z) as (G1 & G2 & G3); [lia|lia|].
          assert (Hb : z * ((O + 1) * (O + 1)) + y * (O + 1) + x < nodes_per_element Hex O) by (cbn [nodes_per_element]; apply grid_z_bound; lia).
          split; [done|]. apply not_on_side; [done|]. cbv beta iota. rewrite G1, G2, G3. lia. }
    unfold E. rewrite !nest_length, LI. cbn [native_dim Nat.pow]. lia.
  - set (E := nest (fun y x => y * (O + 1) + x) I I).
    assert (internal_node_inds Quad O = E) as ->.
    { apply strict_ext; [done| |].
      - apply nest_sorted; [done|done|intros; lia|]. intros y y' x x' _ _ Hx Hx' Hy. apply HI in Hx, Hx'. nia.
      - intros i. rewrite He. split.
        + intros [Hi Hn]. apply not_on_side in Hn as (Hx & Hy); [|done]. destruct (grid_decomp O i) as (H & _).
          cbn [nodes_per_element] in Hi. apply grid_quad in Hi. rewrite Hi in H.
          apply nest_elem. exists (grid_y O i), (grid_x O i). rewrite !HI. lia.
        + intros Hi. apply nest_elem in Hi as (y & x & Hy & Hx & ->). apply HI in Hy, Hx.
          destruct (grid_of O x y 0) as (G1 & G2 & G3); [lia|lia|]. rewrite Nat.mul_0_l, Nat.add_0_l in G1, G2, G3.
          assert (Hb : y * (O + 1) + x < nodes_per_element Quad O) by (cbn [nodes_per_element]; by apply grid_quad).
          split; [done|]. apply not_on_side; [done|]. cbv beta iota. rewrite G1, G2. lia. }
    unfold E. rewrite !nest_length, LI. cbn [native_dim Nat.pow]. lia.
  - assert (internal_node_inds Line O = I) as ->.
    { apply strict_ext; [done|done|]. intros i. rewrite He, HI. split.
      - intros [Hi Hn]. apply not_on_side in Hn as Hx; [|done]. cbn in Hi. unfold grid_x in Hx. rewrite Nat.mod_small in Hx; lia.
      - intros Hi. assert (i < nodes_per_element Line O) by (cbn; lia). split; [done|]. apply not_on_side; [done|]. unfold grid_x. rewrite Nat.mod_small; lia. }
    rewrite LI. cbn [native_dim Nat.pow]. lia.
Qed.
(** Reference locations *)
Lemma concat_lookup_uniform {A B} (g : A -> list B) (l : list A) n q r a : (forall x, length (g x) = n) -> r < n ->
  l !! q = Some a -> concat (map g l) !! (q * n + r) = g a !! r.
Proof.
  intros Hn Hr. revert q. induction l as [|x l IH]; intros [|q] H; cbn in H; simplify_eq; cbn [map concat].
  - rewrite lookup_app_l by (rewrite Hn; lia). by rewrite Nat.mul_0_l.
  - rewrite lookup_app_r by (rewrite Hn; lia). rewrite Hn. replace (S q * n + r - n) with (q * n + r) by lia. by apply IH.
Qed.
Lemma concat_length_uniform {A B} (g : A -> list B) (l : list A) n : (forall x, length (g x) = n) -> length (concat (map g l)) = length l * n.
Proof. intros Hn. induction l as [|x l IH]; cbn [map concat List.length]; [done|]. rewrite app_length, Hn, IH. lia. Qed.
Lemma map_lookup {A B} (f : A -> B) l i : map f l !! i = f <$> l !! i.
Proof. change (map f l) with (f <$> l). apply list_lookup_fmap. Qed.
Lemma locations_length {A} t O (absc : list A) : length absc = O + 1 -> length (node_locations t absc) = nodes_per_element t O.
Proof.
  intros Hl. destruct t; cbn [node_locations nodes_per_element].
  - rewrite (concat_length_uniform _ _ ((O + 1) * (O + 1))); [lia|]. intros z.
    rewrite (concat_length_uniform _ _ (O + 1)); [lia|]. intros y. rewrite map_length. done.
  - rewrite (concat_length_uniform _ _ (O + 1)); [lia|]. intros y. rewrite map_length. done.
  - by rewrite map_length.
Qed.
Lemma locations_ok {A} t O (absc : list A) i : length absc = O + 1 -> i < nodes_per_element t O ->
  exists x y z, absc !! grid_x O i = Some x /\ absc !! grid_y O i = Some y /\ (t = Hex -> absc !! grid_z O i = Some z) /\
    node_locations t absc !! i = Some (take (native_dim t) [x; y; z]).
Proof.
  intros Hl Hi. destruct (grid_decomp O i) as (E & Hx & Hy).
  destruct (lookup_lt_is_Some_2 absc (grid_x O i) ltac:(lia)) as [x Ex]. destruct (lookup_lt_is_Some_2 absc (grid_y O i) ltac:(lia)) as [y Ey].
  assert (Hrow : forall (h : A -> list A), map h absc !! grid_x O i = Some (h x)) by (intros h; by rewrite map_lookup, Ex).
  destruct t; cbn [nodes_per_element] in Hi.
  - apply grid_z_bound in Hi. destruct (lookup_lt_is_Some_2 absc (grid_z O i) ltac:(lia)) as [z Ez]. exists x, y, z.
    split; [done|]. split; [done|]. split; [done|]. cbn [node_locations]. rewrite E at 1. rewrite <- Nat.add_assoc.
    rewrite (concat_lookup_uniform _ _ ((O + 1) * (O + 1)) _ _ z); [| |nia|done].
    + rewrite (concat_lookup_uniform _ _ (O + 1) _ _ y); [apply Hrow| |lia|done]. intros ?. by rewrite map_length.
    + intros ?. rewrite (concat_length_uniform _ _ (O + 1)); [lia|]. intros ?. by rewrite map_length.
  - apply grid_quad in Hi. rewrite Hi, Nat.mul_0_l, Nat.add_0_l in E. exists x, y, x. split; [done|]. split; [done|]. split; [done|].
    cbn [node_locations]. rewrite E at 1. rewrite (concat_lookup_uniform _ _ (O + 1) _ _ y); [apply Hrow| |lia|done]. intros ?. by rewrite map_length.
  - apply grid_line in Hi as [Hz Hy0]. rewrite Hz, Hy0, !Nat.mul_0_l, !Nat.add_0_l in E. exists x, y, x. split; [done|]. split; [done|]. split; [done|].
    cbn [node_locations]. rewrite E at 1. apply Hrow.
Qed.
