(** Proofs for C64: the nodes owned by a mesh that was read. *)
From Coq Require Import QArith Lqa.
From Verif Require Import Base StdAlgo Elem_model Mesh_model Mesh_proofs Gmsh_model Gmsh_spec Gmsh_proofs.
Local Open Scope nat_scope.

Lemma places t (mirror : bool) j place : (mirror = true -> t = Quad) -> lex_place t !! j = Some place -> exists i, gmsh_place t !! i = Some (if mirror then rev place else place).
Proof.
  intros Hm Hj. destruct t; [destruct mirror; [discriminate (Hm eq_refl)|]| |destruct mirror; [discriminate (Hm eq_refl)|]].
  - destruct j as [|[|[|[|[|[|[|[|j]]]]]]]]; try discriminate Hj; injection Hj as <-; [by exists 0|by exists 1|by exists 3|by exists 2|by exists 4|by exists 5|by exists 7|by exists 6].
  - destruct j as [|[|[|[|j]]]]; try discriminate Hj; injection Hj as <-; destruct mirror; cbn [rev app]; [by exists 0|by exists 0|by exists 3|by exists 1|by exists 1|by exists 3|by exists 2|by exists 2].
  - destruct j as [|[|j]]; try discriminate Hj; injection Hj as <-; [by exists 0|by exists 1].
Qed.
Lemma lex_nodup t : NoDup (lex_place t).
Proof. destruct t; apply (bool_decide_unpack _); by vm_compute. Qed.
Lemma lex_length t : length (lex_place t) = length (gmsh_place t).
Proof. by destruct t. Qed.
Lemma imported_nodes t data e : imported t data e -> length data = length (gmsh_place t) -> forall n, n ∈ el_nodes e <-> n ∈ data.*1.
Proof.
  intros (_ & _ & L1 & _ & mirror & Hm & H) HL n. split.
  - intros Hn. apply elem_of_list_lookup in Hn as [j Hj]. destruct (lookup_lt_is_Some_2 (lex_place t) j) as [place Hp]; [rewrite lex_length, <- HL, <- L1; by eapply lookup_lt_Some|].
    destruct (places t mirror j place ltac:(intros ->; by apply Hm) Hp) as [i Hi]. destruct (lookup_lt_is_Some_2 data i) as [[n' p] Hd]; [rewrite HL; by eapply lookup_lt_Some|].
    destruct (H i _ n' p Hi Hd) as (j' & Hj' & Hn' & _). assert (j' = j) as ->.
    { eapply (NoDup_lookup (lex_place t)); [apply lex_nodup|exact Hj'|]. destruct mirror; [by rewrite rev_involutive|done]. }
    assert (n' = n) as -> by congruence. apply elem_of_list_fmap. exists (n, p). split; [done|by eapply elem_of_list_lookup_2].
  - intros Hn. apply elem_of_list_fmap in Hn as ([n' p] & -> & Hd). apply elem_of_list_lookup in Hd as [i Hi]. destruct (lookup_lt_is_Some_2 (gmsh_place t) i) as [place Hp]; [rewrite <- HL; by eapply lookup_lt_Some|]. destruct (H i place n' p Hp Hi) as (j & _ & Hj & _). by eapply elem_of_list_lookup_2.
Qed.
Lemma foldl_min l : forall a, (a = 0 \/ 0 ∈ l) -> foldl Nat.min a l = 0.
Proof. induction l as [|x l IH]; intros a [-> |H]; cbn [foldl]; [done|by apply elem_of_nil in H|apply IH; by left|]. apply IH. apply elem_of_cons in H as [<- |H]; [left; lia|by right]. Qed.

Lemma all_elems_elem (m : dmap (domain pt3)) e : StronglySorted lt m.*1 -> e ∈ all_elems m <-> exists k d v, (k, d) ∈ m /\ v ∈ d_els d /\ e ∈ v.
Proof.
  intros Hs. unfold all_elems, visit_elems. rewrite elem_of_concat. split.
  - intros (l & He & Hl). apply (elem_of_list_fmap (fun id => match dm_find id m with Some d => concat (d_els d) | None => [] end)) in Hl as (k & -> & Hk). destruct (dm_find k m) as [d|] eqn:E; [|by apply elem_of_nil in He]. apply elem_of_concat in He as (v & Hv & Hd). exists k, d, v. split; [by apply dm_find_elem|done].
  - intros (k & d & v & Hk & Hv & He). exists (concat (d_els d)). split; [apply elem_of_concat; by exists v|]. apply (elem_of_list_fmap (fun id => match dm_find id m with Some d => concat (d_els d) | None => [] end)). exists k. rewrite (proj2 (dm_find_iff k d m Hs) Hk). split; [done|]. apply elem_of_list_fmap. by exists (k, d).
Qed.
Theorem owned_nodes f m : valid_file f -> mesh_right f m -> (forall tag, tag ∈ map fst (file_nodes f) -> exists b tags, (b, tags) ∈ file_elements f /\ tag ∈ tags) ->
  initial_ownership m = (0, length (file_nodes f)).
Proof.
  intros (_ & _ & _ & _ & _ & _ & Hnd & Hblk & _) (Hs & Hk & Hm) Hused.
  assert (Hblock : forall b tags, (b, tags) ∈ file_elements f -> b ∈ gf_blocks f /\ length tags = length (gmsh_place (eb_type b))).
  { intros b tags H. unfold file_elements in H. apply elem_of_concat in H as (y & H & Hy). apply (elem_of_list_fmap (fun b => map (fun x => (b, x.2)) (eb_els b))) in Hy as (b' & -> & Hb'). apply (elem_of_list_fmap (fun x => (b', x.2))) in H as (x & E & Hx). injection E as -> ->. split; [done|]. by apply Hblk. }
  assert (Hslot : forall s x, slots [1] !! s = Some x -> exists t, x = (t, 1)) by (intros [|[|[|s]]] x E; try discriminate E; injection E as <-; eauto).
  set (ns := concat (map el_nodes (all_elems m))).
  assert (Hin : forall n, n ∈ ns <-> n < length (file_nodes f)).
  { intros n. unfold ns. rewrite elem_of_concat. split.
    - intros (l & Hn & Hl). apply (elem_of_list_fmap el_nodes) in Hl as (e & -> & He). apply all_elems_elem in He as (k & d & v & Hkd & Hv & He); [|done]. destruct (Hm k d Hkd) as (HL & _ & Hvs). apply elem_of_list_lookup in Hv as [s Hsv].
      destruct (lookup_lt_is_Some_2 (slots [1]) s) as [x Hx]; [rewrite <- HL; by eapply lookup_lt_Some|]. destruct (Hslot s x Hx) as [t ->]. destruct (Hvs s t v Hx Hsv) as (_ & Hr & _). destruct (Hr e He) as (_ & b & tags & data & Hf & Ht & _ & Hd & Himp).
      assert (HLd : length data = length (gmsh_place t)). { rewrite <- (Forall2_length _ _ _ Hd), <- Ht. apply Hblock. by eapply elem_of_list_lookup_2. }
      apply (imported_nodes t data e Himp HLd) in Hn. apply elem_of_list_fmap in Hn as (x & -> & Hx'). apply elem_of_list_lookup in Hx' as [i Hi]. destruct (Forall2_lookup_r _ _ _ _ _ Hd Hi) as (tag & _ & Hni). unfold node_is in Hni. by eapply lookup_lt_Some.
    - intros Hn. destruct (lookup_lt_is_Some_2 _ _ Hn) as [[tag p] Hp]. destruct (Hused tag) as (b & tags & Hbt & Htag); [apply (elem_of_list_fmap fst); exists (tag, p); split; [done|by eapply elem_of_list_lookup_2]|].
      destruct (Hblock b tags Hbt) as [Hb _]. destruct (Hblk b Hb) as [[k Hg] _]. apply elem_of_list_lookup in Hbt as [i Hi].
      assert (Hkk : k ∈ m.*1) by (apply Hk; by exists b). apply elem_of_list_fmap in Hkk as ([k' d] & -> & Hkd). cbn [fst] in *. destruct (Hm k' d Hkd) as (HL & _ & Hvs).
      assert (exists s, slots [1] !! s = Some (eb_type b, 1)) as [s Hs'] by (destruct (eb_type b); [by exists 0|by exists 1|by exists 2]).
      destruct (lookup_lt_is_Some_2 (d_els d) s) as [v Hv]; [rewrite HL; by eapply lookup_lt_Some|]. destruct (Hvs s _ v Hs' Hv) as (_ & Hr & Hex). destruct (Hex i b tags Hi eq_refl Hg) as (e & He & Hid). destruct (Hr e He) as (_ & b' & tags' & data & Hf & Ht & _ & Hd & Himp). rewrite Hid in Hf. assert (b' = b) as -> by congruence. assert (tags' = tags) as -> by congruence.
      exists (el_nodes e). split; [|apply (elem_of_list_fmap el_nodes); exists e; split; [done|]; apply all_elems_elem; [done|]; exists k', d, v; split; [done|]; split; [by eapply elem_of_list_lookup_2|done]].
      apply (imported_nodes (eb_type b) data e Himp); [rewrite <- (Forall2_length _ _ _ Hd); apply (Hblock b); by eapply elem_of_list_lookup_2|]. apply elem_of_list_lookup in Htag as [q Hq]. destruct (Forall2_lookup_l _ _ _ _ _ Hd Hq) as (x & Hx & Hni). apply elem_of_list_fmap. exists x. split; [|by eapply elem_of_list_lookup_2].
      unfold node_is in Hni. eapply (NoDup_lookup (map fst (file_nodes f))); [done|rewrite (list_lookup_fmap fst), Hp; done|]. by rewrite (list_lookup_fmap fst), Hni. }
  assert (Hperm : remove_dups ns ≡ₚ seq 0 (length (file_nodes f))).
  { apply NoDup_Permutation; [apply NoDup_remove_dups|apply NoDup_seq|]. intros n. rewrite elem_of_remove_dups, Hin, elem_of_seq. lia. }
  unfold initial_ownership. cbv zeta. fold ns. f_equal.
  - destruct (remove_dups ns) as [|n l] eqn:E; [done|]. apply foldl_min. assert (Hlen := Permutation_length Hperm). rewrite seq_length in Hlen. cbn [length] in Hlen. assert (H0 : 0 ∈ n :: l) by (rewrite Hperm; apply elem_of_seq; lia). apply elem_of_cons in H0 as [H0|H0]; [by left|by right].
  - rewrite Hperm. apply seq_length.
Qed.
