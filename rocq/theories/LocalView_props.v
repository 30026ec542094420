(** C35, C36, C62, C63: local element views, element reordering, node order, local mesh view. *)
From Verif Require Import Base StdAlgo Ownership_model Ownership_proofs Elem_model Elem_spec Elem_proofs Mesh_model Mesh_spec Merge_proofs LocalView_model LocalView_spec LocalView_proofs LocalView2_proofs LocalView3_proofs.

(** C35.  Construction never has undefined behaviour and succeeds iff the interior nodes
    are consecutive (needed when there are at least two) and the sides exist; the
    node list is then reproduced, and a side reports the last boundary given for it. *)
Theorem local_view_exact {V} (own : ownership) (e : element V) (sides : list (nat * nat)) :
  typed_el e -> good_own own -> NoDup (el_nodes e) -> Forall (known own) (el_nodes e) ->
  make_view own e sides <> UB /\
  ((exists lv, make_view own e sides = Ok lv) <->
   (1 < length (internal_node_inds (el_type e) (el_order e)) -> interior_consecutive own e) /\ forall x, x ∈ sides -> x.1 < n_sides (el_type e)) /\
  forall lv, make_view own e sides = Ok lv ->
    (exists ls, getLocalNodes lv = Ok ls /\ Forall2 (local_index own) (el_nodes e) ls) /\
    lv_type lv = el_type e /\ lv_order lv = el_order e /\ lv_verts lv = el_verts e /\
    StronglySorted lt (getBoundaries lv).*1 /\ (forall s b, (s, b) ∈ getBoundaries lv <-> last_entry sides s b) /\
    (hasBoundaries lv = true <-> exists s b, (s, b) ∈ getBoundaries lv).
Proof.
  intros Ht Hg Hn Hk. destruct (view_exists own e sides Ht Hg Hn Hk) as [H1 H2]. split; [done|]. split; [done|]. intros lv E. destruct (view_ok own e sides Ht Hg Hn Hk lv E) as (E1 & E2 & E3 & E4 & _ & E5).
  split; [eexists; split; [done|by apply map_known_local]|]. split; [done|]. split; [done|]. split; [done|]. split; [apply get_boundaries_sorted|]. split; [done|].
  rewrite has_boundaries_iff. destruct (getBoundaries lv) as [|[s b] l]; [|split; [intros _; exists s, b; left|done]]. split; [done|]. intros (s & b & H). by apply elem_of_nil in H.
Qed.

(** A quad of order 3: nodes 5, 6, 9, 10 are interior. *)
Definition ex_own : ownership := {| so_begin := 100; so_end := 112; so_shared := [3; 7; 200; 201] |}.
Definition ex_quad : element nat := mk_el Quad 3 [100; 101; 102; 103; 104; 108; 109; 105; 106; 110; 111; 107; 3; 7; 200; 201] [0; 1; 2; 3] 9.
Example local_view_example :
  typed_el ex_quad /\ good_own ex_own /\ NoDup (el_nodes ex_quad) /\ Forall (known ex_own) (el_nodes ex_quad) /\
  (lv ← make_view ex_own ex_quad [(1, 40); (3, 41); (1, 42)]; ls ← getLocalNodes lv; Ok (lv_nodes lv, ls, getBoundaries lv)) =
  Ok ([0; 1; 2; 3; 4; 5; 6; 7; 12; 13; 14; 15; 8], [0; 1; 2; 3; 4; 8; 9; 5; 6; 10; 11; 7; 12; 13; 14; 15], [(1, 42); (3, 41)]).
Proof.
  split; [done|]. split; [|split; [apply (bool_decide_unpack _); by vm_compute|split; [|by vm_compute]]].
  - split; [repeat (constructor; [|repeat (constructor; [lia|]); constructor]); constructor|]. intros n Hn. cbn in *. rewrite !elem_of_cons, elem_of_nil in Hn. lia.
  - unfold known. cbn [so_begin so_end so_shared ex_own el_nodes ex_quad]. repeat (constructor; [first [left; lia|right; rewrite !elem_of_cons; tauto]|]). constructor.
Qed.

(** Without distinct nodes the check of the constructor is too weak: local indices 5, 5, 7
    are sorted and span 3, but are not consecutive; the second node is reported wrongly. *)
Theorem local_view_repeated_refuted : exists (own : ownership) (e : element nat) lv ls,
  typed_el e /\ good_own own /\ Forall (known own) (el_nodes e) /\
  make_view own e [] = Ok lv /\ getLocalNodes lv = Ok ls /\ ~ Forall2 (local_index own) (el_nodes e) ls.
Proof.
  exists {| so_begin := 0; so_end := 8; so_shared := [] |}, (mk_el Line 4 [0; 5; 5; 7; 1] [0; 0] 0). eexists. eexists.
  split; [done|]. split; [split; [constructor|]; intros n Hn; by apply elem_of_nil in Hn|]. split; [unfold known; cbn; repeat (constructor; [left; lia|]); constructor|]. split; [by vm_compute|]. split; [by vm_compute|].
  intros H. inversion H as [|? ? ? ? _ H1]; subst. inversion H1 as [|? ? ? ? _ H2]; subst. inversion H2 as [|? ? ? ? H3 _]; subst. unfold local_index in H3. by vm_compute in H3.
Qed.

(** C36.  Whatever the cache holds, in whatever order the hash tables are traversed:
    the elements are permuted.  The bound keeps the 32-bit sums of node degrees below
    their maximum, which marks finished elements. *)
Theorem reorder_is_permutation {A} (shuf : list (nat * nat) -> list (nat * nat)) (max_unsigned : nat)
    (nodes_of : A -> res (list nat)) (elements : list A) (els : list (list nat)) (cache : list (nat * nat)) :
  (forall l, shuf l ≡ₚ l) -> map_res nodes_of elements = Ok els -> Forall (fun ns => length ns * length els < max_unsigned) els ->
  exists r cache', reorderByAdjacency shuf max_unsigned nodes_of elements cache = Ok (r, cache') /\ r ≡ₚ elements.
Proof. intros Hs. by apply reorder_ok. Qed.
(** The adjacency rows used: the elements containing a node, ascending. *)
Theorem node_rows_are_incidence els n row : node_rows els !! n = Some row ->
  StronglySorted lt row /\ forall i, i ∈ row <-> exists ns, els !! i = Some ns /\ n ∈ ns.
Proof. intros H. destruct (node_rows_ok els n) as [_ HR]. destruct (HR row H) as (H1 & H2 & _). done. Qed.

Example reorder_example :
  reorderByAdjacency (@rev _) 1000 Ok [[0; 1]; [4; 5]; [2; 3]; [1; 2]; [3; 4]; [7; 8]] [(3, 9); (77, 5)] =
  Ok ([[3; 4]; [4; 5]; [2; 3]; [1; 2]; [0; 1]; [7; 8]], [(3, 1); (2, 2); (1, 4); (0, 4); (7, 8); (8, 8)]).
Proof. by vm_compute. Qed.

(** C62.  The node order is a permutation of the local nodes with the owned nodes first,
    the shared ones last, and each element's interior nodes (of the elements of the greatest dimension)
    side by side. *)
Theorem node_order_groups_interiors {V} (orders : list nat) (m : mesh V) (order : list nat) :
  valid_doms orders (m_domains m) -> so_begin (m_own m) <= so_end (m_own m) -> computeNodeOrder m = Ok order ->
  exists first, order = first ++ so_shared (m_own m) /\ NoDup first /\ (forall n, n ∈ first <-> so_begin (m_own m) <= n < so_end (m_own m)) /\
    forall id d e, (id, d) ∈ m_domains m -> in_domain (m_domains m) id e -> (forall id' d', (id', d') ∈ m_domains m -> exists k, d_dim d' = Some k /\ k <= native_dim (el_type e)) ->
      interior_grouped order e.
Proof.
  intros [Hs Hv] Hb H. apply order_ok in H as (vec & others & -> & HP & HI). exists (others ++ vec). split; [by rewrite app_assoc|]. split; [rewrite HP; apply NoDup_ListNoDup, seq_NoDup|]. split.
  - intros n. rewrite HP, elem_of_seq. unfold numOwned. lia.
  - intros id d e _ (d' & v & Hd & Hvv & He) Hmax.
    assert (Hdim : d_dim d' = Some (native_dim (el_type e))) by (pose proof (proj1 (Forall_forall _ _) Hv _ Hd) as [_ HD]; by apply (HD v)).
    assert (HM : getMaxDim (m_domains m) = native_dim (el_type e)).
    { unfold getMaxDim. apply Nat.le_antisymm.
      - revert Hmax. clear. induction (m_domains m) as [|[i dd] l IH]; intros H; cbn; [lia|]. destruct (H i dd) as (k & E & Hk); [left|]. rewrite E. cbn. apply Nat.max_lub; [done|]. apply IH. intros. eapply H. by right.
      - apply max_ge. apply (elem_of_list_fmap (fun d0 : nat * domain V => default 255 (d_dim d0.2))). exists (id, d'). cbn. by rewrite Hdim. }
    destruct (HI id d' e Hd) as (pre & ns & post & En & Ev); [by rewrite Hdim, HM|apply elem_of_concat; by exists v|].
    destruct (internal_ok (el_type e) (el_order e)) as [HsI HeI]. exists (internal_node_inds (el_type e) (el_order e)), (length others + length pre). split; [done|]. split; [done|]. intros k i n Hk Hn. pose proof (internal_read e ns En k i n Hk Hn) as Hr.
    rewrite Ev, lookup_app_r by lia. replace (length others + length pre + k - length others) with (length pre + k) by lia. rewrite <- !app_assoc, lookup_app_r by lia. replace (length pre + k - length pre) with k by lia. apply lookup_app_l_Some. done.
Qed.
Definition ex_order_mesh : mesh nat := mk_mesh [(1, mk_dom [[]; []; [mk_el Line 3 [12; 10; 15; 3] [0; 0] 0; mk_el Line 3 [3; 11; 14; 13] [0; 0] 1]] (Some 1))] {| so_begin := 10; so_end := 16; so_shared := [3] |} [].
Example node_order_example : valid_doms [3] (m_domains ex_order_mesh) /\ computeNodeOrder ex_order_mesh = Ok [12; 13; 10; 15; 11; 14; 3].
Proof.
  split; [|by vm_compute]. split; [by repeat constructor|]. constructor; [|constructor]. split.
  - repeat (constructor; [by repeat constructor|]). constructor.
  - intros v e Hv He. cbn in *. rewrite !elem_of_cons, elem_of_nil in Hv. destruct Hv as [->|[->|[->|[]]]]; [by apply elem_of_nil in He..|]. rewrite !elem_of_cons, elem_of_nil in He. by destruct He as [->|[->|[]]].
Qed.

(** C63.  The local view of a mesh: every non-boundary domain of the part has exactly
    one view per element, with the element's nodes as local indices of the full mesh, its vertices and
    the boundaries its sides lie on. *)
Theorem local_mesh_view_complete {V} (shuf : list (nat * nat) -> list (nat * nat)) (max_unsigned : nat) (orders : list nat) (part full : mesh V) :
  (forall l, shuf l ≡ₚ l) -> valid_doms orders (m_domains part) -> unique_ids (m_domains part) -> valid_bnds part -> good_own (m_own full) ->
  (forall id d v e, (id, d) ∈ m_domains part -> id ∉ (m_bnds part).*1 -> v ∈ d_els d -> e ∈ v -> viewable (m_own full) e /\ length (el_nodes e) * length v < max_unsigned) ->
  exists mv, make_mview shuf max_unsigned part full = Ok mv /\
    StronglySorted lt (mv_domains mv).*1 /\ (forall id, id ∈ (mv_domains mv).*1 <-> id ∈ (m_domains part).*1 /\ id ∉ (m_bnds part).*1) /\
    (forall id d ws, (id, d) ∈ m_domains part -> (id, ws) ∈ mv_domains mv -> Forall2 (vec_view part (m_own full)) (d_els d) ws) /\
    mv_dims mv = map (fun d => (d.1, d_dim d.2)) (m_domains part) /\
    (* the owned nodes of the part come first in the full mesh: [isOwned] recognises them *)
    (so_begin (m_own part) = so_begin (m_own full) -> so_begin (m_own part) <= so_end (m_own part) <= so_end (m_own full) ->
     forall n i, local_index (m_own full) n i -> i < mv_owned_limit mv <-> so_begin (m_own part) <= n < so_end (m_own part)).
Proof.
  intros Hs Hd Hi Hb Ho Hv. destruct (mview_ok shuf Hs max_unsigned orders part full Hd Hi Hb Ho Hv) as (mv & E & Edim & Ek & Hdom & Hlim). exists mv. split; [done|].
  assert (HS : StronglySorted lt (mv_domains mv).*1) by (rewrite Ek; apply sorted_filter, Hd). split; [done|].
  assert (Hk : forall id, id ∈ (mv_domains mv).*1 <-> id ∈ (m_domains part).*1 /\ id ∉ (m_bnds part).*1). { intros id. rewrite Ek, filter_elem, negb_true_iff, bool_decide_eq_false. done. } split; [done|]. split; [|split; [done|]].
  - intros id d ws H1 H2. destruct (Hdom id d H1) as (ws' & H3 & H4); [apply (Hk id); by apply (elem_of_list_fmap_1 fst) in H2|]. assert (ws = ws') as ->; [|done].
    apply strict_nodup in HS. apply elem_of_list_lookup in H2 as [i Hi2]. apply elem_of_list_lookup in H3 as [j Hj3]. assert (i = j). { apply (NoDup_lookup _ i j id HS); by rewrite list_lookup_fmap, ?Hi2, ?Hj3. } congruence.
  - intros Eb [Hle1 Hle2] n i HL. rewrite Hlim. pose proof HL as HL'. unfold local_index in HL'. apply lookup_app_Some in HL'. rewrite seq_length in HL'. unfold numOwned. destruct (Nat.eqb_spec (so_end (m_own part) - so_begin (m_own part)) 0) as [E0|E0].
    + split; lia.
    + unfold getLocalIndex. rewrite (proj2 (isOwned_spec _ _)) by lia. destruct HL' as [HL'|[Hi' HL']].
      * apply lookup_seq in HL' as [-> Hlt]. lia.
      * destruct Ho as [_ Ho]. pose proof (Ho n (elem_of_list_lookup_2 _ _ _ HL')). lia.
Qed.

Definition ex_line (ns : list nat) (id : nat) : element nat := mk_el Line 1 ns [0; 0] id.
Definition ex_part : mesh nat := mk_mesh [(1, mk_dom [[]; []; [ex_line [0; 1] 0; ex_line [2; 3] 1; ex_line [1; 2] 2]] (Some 1))]
  {| so_begin := 0; so_end := 3; so_shared := [3] |} [(5, [(ex_line [0; 1] 0, 0)]); (6, [(ex_line [2; 3] 1, 1)])].
Example local_mesh_view_example : exists mv, make_mview (@rev _) 1000 ex_part ex_part = Ok mv /\ mv_owned_limit mv = 3 /\
  map (fun d : nat * list (list (lview nat)) => (d.1, map (map (fun v => (lv_nodes v, getBoundaries v))) d.2)) (mv_domains mv) = [(1, [[]; []; [([0; 1], [(0, 5)]); ([1; 2], []); ([2; 3], [(1, 6)])]])].
Proof. eexists. split; [by vm_compute|]. split; by vm_compute. Qed.
Example local_mesh_view_hyps : valid_doms [1] (m_domains ex_part) /\ unique_ids (m_domains ex_part) /\ valid_bnds ex_part /\ good_own (m_own ex_part) /\
  (forall id d v e, (id, d) ∈ m_domains ex_part -> id ∉ (m_bnds ex_part).*1 -> v ∈ d_els d -> e ∈ v -> viewable (m_own ex_part) e /\ length (el_nodes e) * length v < 1000).
Proof.
  assert (HE : forall id d v e, (id, d) ∈ m_domains ex_part -> v ∈ d_els d -> e ∈ v -> id = 1 /\ length v = 3 /\ (e = ex_line [0; 1] 0 \/ e = ex_line [2; 3] 1 \/ e = ex_line [1; 2] 2)).
  { intros id d v e Hd Hv He. cbn in Hd. apply elem_of_list_singleton in Hd as [= -> ->]. cbn in Hv. rewrite !elem_of_cons, elem_of_nil in Hv. destruct Hv as [->|[->|[->|[]]]]; [by apply elem_of_nil in He..|]. rewrite !elem_of_cons, elem_of_nil in He. split; [done|]. split; [done|]. tauto. }
  split; [|split; [|split; [|split]]].
  - split; [by repeat constructor|]. constructor; [|constructor]. split; [repeat (constructor; [by repeat constructor|]); constructor|]. intros v e Hv He. destruct (HE 1 _ v e (elem_of_list_here _ _) Hv He) as (_ & _ & [->|[->| ->]]); done.
  - intros e1 e2 (i1 & d1 & v1 & H1 & H2 & H3) (i2 & d2 & v2 & H4 & H5 & H6) E. destruct (HE _ _ _ _ H1 H2 H3) as (_ & _ & Ha). destruct (HE _ _ _ _ H4 H5 H6) as (_ & _ & Hb). destruct Ha as [->|[->| ->]], Hb as [->|[->| ->]]; done.
  - split; [by repeat constructor|]. intros b vs e s Hb Hv. cbn in Hb. rewrite !elem_of_cons, elem_of_nil in Hb. destruct Hb as [[= -> ->]|[[= -> ->]|[]]]; apply elem_of_list_singleton in Hv as [= -> ->]; (split; [exists 1; eexists; eexists; split; [left|]; split; [right; right; left|rewrite !elem_of_cons; tauto]|cbn; lia]).
  - split; [by repeat constructor|]. intros n Hn. cbn in *. apply elem_of_list_singleton in Hn as ->. lia.
  - intros id d v e Hd _ Hv He. destruct (HE id d v e Hd Hv He) as (_ & -> & [->|[->| ->]]); (split; [|cbn; lia]); (split; [apply (bool_decide_unpack _); by vm_compute|split; [|intros Hl; vm_compute in Hl; lia]]); unfold known; cbn; repeat (constructor; [first [left; lia|right; left]|]); constructor.
Qed.

Print Assumptions local_view_exact.
Print Assumptions local_view_repeated_refuted.
Print Assumptions reorder_is_permutation.
Print Assumptions node_rows_are_incidence.
Print Assumptions node_order_groups_interiors.
Print Assumptions local_mesh_view_complete.
