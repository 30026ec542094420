(** C35: proofs about LocalElementView. *)
From Verif Require Import Base StdAlgo Ownership_model Ownership_proofs Elem_model Elem_spec Elem_proofs Mesh_model Mesh_spec LocalView_model LocalView_spec.
Local Arguments Nat.mul : simpl never.
Local Arguments Nat.add : simpl never.
Local Arguments Nat.sub : simpl never.

Lemma local_index_fun own n i : good_own own -> local_index own n i -> getLocalIndex own n = i.
Proof.
  intros [Hs Hd] H. unfold local_index in H. unfold getLocalIndex, numOwned. apply lookup_app_Some in H. rewrite seq_length in H. destruct H as [H|[Hl H]].
  - apply lookup_seq in H as [-> Hi]. rewrite (proj2 (isOwned_spec _ _)); lia.
  - destruct (isOwned own n) eqn:E; [apply isOwned_spec in E; by destruct (Hd n (elem_of_list_lookup_2 _ _ _ H))|].
    pose proof (lower_bound_found _ n (strict_sorted _ Hs) (elem_of_list_lookup_2 _ _ _ H)) as HL.
    pose proof (NoDup_lookup _ _ _ _ (strict_nodup _ Hs) HL H). lia.
Qed.
Lemma known_local own n : good_own own -> known own n -> local_index own n (getLocalIndex own n).
Proof.
  intros Hg [H|H].
  - unfold local_index, getLocalIndex. rewrite (proj2 (isOwned_spec _ _) H), lookup_app_l by (rewrite seq_length; lia). apply lookup_seq. lia.
  - apply elem_of_list_lookup in H as [j Hj]. assert (HL : local_index own n (so_end own - so_begin own + j)).
    { unfold local_index. rewrite lookup_app_r by (rewrite seq_length; lia). rewrite seq_length. by replace (so_end own - so_begin own + j - (so_end own - so_begin own)) with j by lia. }
    by rewrite (local_index_fun own n _ Hg HL).
Qed.
Lemma local_inj own n n' : good_own own -> known own n -> known own n' -> getLocalIndex own n = getLocalIndex own n' -> n = n'.
Proof. intros Hg H H' E. apply (known_local own) in H, H'; [|done..]. unfold local_index in *. rewrite E in H. congruence. Qed.

Lemma is_sorted_iff l : is_sorted l = true <-> Sorted Nat.le l.
Proof.
  induction l as [|a [|b l] IH]; [by split; constructor..|]. change (is_sorted (a :: b :: l)) with ((a <=? b) && is_sorted (b :: l)). rewrite andb_true_iff, IH, Nat.leb_le. split.
  - intros [H1 H2]. constructor; [done|by constructor].
  - intros H. inversion H as [|? ? H1 H2]; subst. inversion H2; subst. done.
Qed.
Lemma strict_ge l a k b : StronglySorted lt (a :: l) -> (a :: l) !! k = Some b -> a + k <= b.
Proof.
  revert a k. induction l as [|c l IH]; intros a [|k] Hs H; try done; [injection H as <-; lia|injection H as <-; lia|]. cbn in H. inversion Hs as [|? ? Hs' Hf]; subst. apply IH in H; [|done]. inversion Hf; subst. lia.
Qed.
Lemma strict_span l a b : StronglySorted lt (a :: l) -> (a :: l) !! length l = Some b -> b = a + length l -> a :: l = seq a (S (length l)).
Proof.
  revert a. induction l as [|c l IH]; intros a Hs H Hb; [done|]. inversion Hs as [|? ? Hs' Hf]; subst. inversion Hf; subst. cbn [length] in *. cbn in H. pose proof (strict_ge _ _ _ _ Hs' H).
  assert (Ec : c = a + 1) by lia. rewrite seq_S_front || idtac. change (seq a (S (S (length l)))) with (a :: seq (S a) (S (length l))). f_equal. rewrite (IH c); [by rewrite Ec, Nat.add_1_r|done|done|lia].
Qed.
Lemma sorted_le_nodup_strict l : Sorted Nat.le l -> NoDup l -> StronglySorted lt l.
Proof. intros H1 H2. by apply sorted_nodup_strict. Qed.

(** Scattered writes. *)
Lemma scatter_ok {A} (l : list (nat * A)) (r : list A) : (forall x, x ∈ l -> x.1 < length r) -> 
  for_each (fun x r => wr r x.1 x.2) l r = Ok (foldl (fun r x => <[x.1 := x.2]> r) r l).
Proof.
  revert r. induction l as [|x l IH]; intros r H; [done|]. cbn [for_each foldl]. rewrite wr_ok by (apply H; left). rewrite bind_ok. apply IH. intros y Hy. rewrite insert_length. apply H. by right.
Qed.
Lemma scatter_length {A} (l : list (nat * A)) (r : list A) : length (foldl (fun r x => <[x.1 := x.2]> r) r l) = length r.
Proof. revert r. induction l as [|x l IH]; intros r; [done|]. cbn [foldl]. by rewrite IH, insert_length. Qed.
Lemma scatter_other {A} (l : list (nat * A)) (r : list A) i : i ∉ l.*1 -> foldl (fun r x => <[x.1 := x.2]> r) r l !! i = r !! i.
Proof.
  revert r. induction l as [|x l IH]; intros r H; [done|]. cbn [foldl]. cbn in H. apply not_elem_of_cons in H as [H1 H2]. rewrite IH by done. by apply list_lookup_insert_ne.
Qed.
Lemma scatter_lookup {A} (l : list (nat * A)) (r : list A) i a : NoDup l.*1 -> (i, a) ∈ l -> i < length r -> foldl (fun r x => <[x.1 := x.2]> r) r l !! i = Some a.
Proof.
  revert r. induction l as [|x l IH]; intros r Hn H Hi; [by apply elem_of_nil in H|]. cbn [foldl]. cbn in Hn. apply NoDup_cons in Hn as [Hx Hn]. apply elem_of_cons in H as [<-|H].
  - rewrite scatter_other by done. by apply list_lookup_insert.
  - apply IH; [done..|by rewrite insert_length].
Qed.
Lemma counter_loop (l : list nat) (r : list nat) lid : (forall x, x ∈ l -> x < length r) ->
  exists r', for_each (fun dest (st : nat * list nat) => r ← wr st.2 dest st.1; Ok (st.1 + 1, r)) l (lid, r) = Ok r' /\ r'.2 = foldl (fun r x => <[x.1 := x.2]> r) r (zip l (seq lid (length l))).
Proof.
  revert lid r. induction l as [|x l IH]; intros lid r H; [by exists (lid, r)|]. cbn [for_each fst snd]. rewrite wr_ok by (apply H; left). rewrite !bind_ok.
  destruct (IH (lid + 1) (<[x := lid]> r)) as (r' & E & Er); [intros y Hy; rewrite insert_length; apply H; by right|]. exists r'. split; [exact E|]. rewrite Er. cbn [length seq zip zip_with foldl fst snd]. by rewrite Nat.add_1_r.
Qed.

Section view.
  Context {V : Type}.
  Notation el := (element V).
  Lemma read_nodes (e : el) inds : (forall i, i ∈ inds -> i < length (el_nodes e)) -> map_res (rd (el_nodes e)) inds = Ok (map (fun i => nth i (el_nodes e) 0) inds).
  Proof.
    intros H. apply map_res_ok. intros i Hi. apply rd_ok. destruct (lookup_lt_is_Some_2 (el_nodes e) i (H i Hi)) as [n Hn]. by rewrite Hn, (nth_lookup_Some _ _ _ _ Hn).
  Qed.
  Lemma bnd_lt t O i : i ∈ boundary_node_inds t O -> i < nodes_per_element t O.
  Proof. intros H. apply boundary_inds_ok in H as (s & H & _). done. Qed.
  Lemma int_lt t O i : i ∈ internal_node_inds t O -> i < nodes_per_element t O.
  Proof. intros H. by apply internal_ok in H as [H _]. Qed.
  (** The [sides] loop. *)
  Notation side_loop := (for_each (fun (sb : nat * nat) s => if sb.1 <? length s then Ok (<[sb.1 := Some sb.2]> s) else Throw)).
  Lemma side_loop_ok sides (s : list (option nat)) : (forall x, x ∈ sides -> x.1 < length s) ->
    side_loop sides s = Ok (foldl (fun s x => <[x.1 := x.2]> s) s (map (fun x => (x.1, Some x.2)) sides)).
  Proof.
    revert s. induction sides as [|x l IH]; intros s H; [done|]. cbn [for_each map foldl fst snd]. assert (Hx : x.1 < length s) by (apply H; left). apply Nat.ltb_lt in Hx. rewrite Hx, bind_ok. apply IH. intros y Hy. rewrite insert_length. apply H. by right.
  Qed.
  Lemma side_loop_throw sides (s : list (option nat)) x : x ∈ sides -> ~ x.1 < length s -> side_loop sides s = Throw.
  Proof.
    revert s. induction sides as [|y l IH]; intros s H Hx; [by apply elem_of_nil in H|]. cbn [for_each]. destruct (Nat.ltb_spec (y.1) (length s)); [|done]. rewrite bind_ok. apply elem_of_cons in H as [-> |H]; [done|]. apply IH; [done|by rewrite insert_length].
  Qed.
  (** What the view stores when it is built. *)
  Definition stored_nodes (own : ownership) (e : el) : list nat :=
    let t := el_type e in let O := el_order e in
    if optimize_internal t O then map (fun i => getLocalIndex own (nth i (el_nodes e) 0)) (boundary_node_inds t O) ++ [getLocalIndex own (nth (nth 0 (internal_node_inds t O) 0) (el_nodes e) 0)]
    else map (getLocalIndex own) (el_nodes e).
  Definition stored_sides (e : el) (sides : list (nat * nat)) : list (option nat) :=
    foldl (fun s x => <[x.1 := x.2]> s) (replicate (n_sides (el_type e)) None) (map (fun x => (x.1, Some x.2)) sides).
  Definition consec_check (own : ownership) (e : el) : bool :=
    let l := map (fun i => getLocalIndex own (nth i (el_nodes e) 0)) (internal_node_inds (el_type e) (el_order e)) in
    is_sorted l && (nth 0 l 0 + length l - 1 =? nth (length l - 1) l 0).
  Lemma make_view_eq own (e : el) sides : typed_el e ->
    make_view own e sides = if optimize_internal (el_type e) (el_order e) && negb (consec_check own e) then Throw
      else if forallb (fun x : nat * nat => x.1 <? n_sides (el_type e)) sides then Ok (mk_lv (el_type e) (el_order e) (stored_nodes own e) (el_verts e) (stored_sides e sides)) else Throw.
  Proof.
    intros [Hn _]. unfold make_view, stored_nodes, consec_check. cbv zeta. set (t := el_type e) in *. set (O := el_order e) in *.
    assert (HS : forall P : res (list nat), (forall x, P = Ok x -> (nodes ← P; m_sides ← side_loop sides (replicate (n_sides t) None); Ok (mk_lv t O nodes (el_verts e) m_sides)) =
        if forallb (fun x : nat * nat => x.1 <? n_sides t) sides then Ok (mk_lv t O x (el_verts e) (stored_sides e sides)) else Throw)).
    { intros P x ->. rewrite bind_ok. destruct (forallb _ sides) eqn:E.
      - rewrite forallb_forall in E. rewrite side_loop_ok; [by rewrite bind_ok|]. intros y Hy. rewrite replicate_length. apply elem_of_list_In, E in Hy. by apply Nat.ltb_lt.
      - assert (Hx : exists x, x ∈ sides /\ ~ x.1 < n_sides t).
        { clear -E. induction sides as [|y l IH]; [done|]. cbn in E. apply andb_false_iff in E as [E|E]; [apply Nat.ltb_ge in E; exists y; split; [left|lia]|]. destruct (IH E) as (z & ? & ?). exists z. split; [by right|done]. }
        destruct Hx as (z & Hz & Hlt). by rewrite (side_loop_throw _ _ z) by (rewrite ?replicate_length; done). }
    destruct (optimize_internal t O) eqn:Eo; cbn [andb].
    - rewrite !read_nodes by (intros i Hi; rewrite Hn; ((by apply bnd_lt) || (by apply int_lt))). rewrite !bind_ok. rewrite !map_map.
      set (l := map (fun i => getLocalIndex own (nth i (el_nodes e) 0)) (internal_node_inds t O)). unfold optimize_internal in Eo. apply Nat.ltb_lt in Eo. assert (Hl : length l = length (internal_node_inds t O)) by apply map_length.
      rewrite (rd_ok l 0 (nth 0 l 0)) by (destruct (lookup_lt_is_Some_2 l 0) as [y Hy]; [lia|]; by rewrite Hy, (nth_lookup_Some _ _ _ _ Hy)). rewrite bind_ok.
      rewrite (rd_ok l (length l - 1) (nth (length l - 1) l 0)) by (destruct (lookup_lt_is_Some_2 l (length l - 1)) as [y Hy]; [lia|]; by rewrite Hy, (nth_lookup_Some _ _ _ _ Hy)). rewrite bind_ok.
      destruct (is_sorted l && (nth 0 l 0 + length l - 1 =? nth (length l - 1) l 0)); cbn [negb]; [|done]. change (throwing_assert true) with (Ok tt). rewrite bind_ok.
      rewrite (HS (Ok (map (fun i => getLocalIndex own (nth i (el_nodes e) 0)) (boundary_node_inds t O) ++ [nth 0 l 0])) _ eq_refl). 
      assert (El : nth 0 l 0 = getLocalIndex own (nth (nth 0 (internal_node_inds t O) 0) (el_nodes e) 0)) by (unfold l; destruct (internal_node_inds t O); [cbn in Eo; lia|done]). by rewrite El.
    - by rewrite (HS (Ok (map (getLocalIndex own) (el_nodes e))) _ eq_refl).
  Qed.
  (** Consecutive local indices. *)
  Lemma consec_iff own (e : el) : typed_el e -> good_own own -> NoDup (el_nodes e) -> Forall (known own) (el_nodes e) -> 1 <= length (internal_node_inds (el_type e) (el_order e)) ->
    consec_check own e = true <-> exists a, map (fun i => getLocalIndex own (nth i (el_nodes e) 0)) (internal_node_inds (el_type e) (el_order e)) = seq a (length (internal_node_inds (el_type e) (el_order e))).
  Proof.
    intros [Hn _] Hg Hnd Hk H1. unfold consec_check. cbv zeta. set (inds := internal_node_inds (el_type e) (el_order e)) in *. set (l := map _ inds).
    assert (Hl : length l = length inds) by apply map_length. rewrite andb_true_iff, is_sorted_iff, Nat.eqb_eq, <- Hl. split.
    - intros [Hs Hc]. assert (HN : NoDup l).
      { unfold l. apply NoDup_fmap_2_strong; [|apply strict_nodup, internal_ok]. intros i j Hi Hj E. apply int_lt in Hi, Hj. rewrite <- Hn in Hi, Hj. destruct (lookup_lt_is_Some_2 _ _ Hi) as [x Hx]. destruct (lookup_lt_is_Some_2 _ _ Hj) as [y Hy].
        rewrite (nth_lookup_Some _ _ _ _ Hx), (nth_lookup_Some _ _ _ _ Hy) in E. apply local_inj in E; [|done|by eapply Forall_lookup_1..]. subst y. by eapply NoDup_lookup. }
      pose proof (sorted_le_nodup_strict _ Hs HN) as HS. clearbody l. destruct l as [|a l']; [cbn in Hl; lia|]. exists a. cbn [length]. apply (strict_span l' a (a + length l')); [exact HS| |reflexivity].
      cbn [length nth] in Hc. destruct (lookup_lt_is_Some_2 (a :: l') (length l')) as [y Hy]; [cbn; lia|]. rewrite Hy. f_equal. replace (S (length l') - 1) with (length l') in Hc by lia. change (match length l' with 0 => a | S m => nth m l' 0 end) with (nth (length l') (a :: l') 0) in Hc. rewrite (nth_lookup_Some _ _ _ _ Hy) in Hc. lia.
    - intros [a E]. rewrite E. split; [|rewrite seq_length, !seq_nth; lia]. apply strict_sorted, sorted_seq.
  Qed.
  Lemma consec_spec own (e : el) : typed_el e -> good_own own -> NoDup (el_nodes e) -> Forall (known own) (el_nodes e) -> 1 <= length (internal_node_inds (el_type e) (el_order e)) ->
    consec_check own e = true <-> interior_consecutive own e.
  Proof.
    intros Ht Hg Hnd Hk H1. rewrite consec_iff by done. destruct Ht as [Hn _]. destruct (internal_ok (el_type e) (el_order e)) as [Hs Hi]. split.
    - intros [a E]. exists (internal_node_inds (el_type e) (el_order e)), a. split; [done|]. split; [done|]. intros k i n Hk1 Hni.
      assert (HL : map (fun i => getLocalIndex own (nth i (el_nodes e) 0)) (internal_node_inds (el_type e) (el_order e)) !! k = Some (getLocalIndex own n)) by (rewrite map_lookup, Hk1; cbn; by rewrite (nth_lookup_Some _ _ _ _ Hni)).
      rewrite E in HL. apply lookup_seq in HL as [HL _]. rewrite <- HL. apply known_local; [done|]. by eapply Forall_lookup_1.
    - intros (inds & a & Hs' & Hi' & HC). assert (inds = internal_node_inds (el_type e) (el_order e)) as -> by (apply strict_ext; [done..|]; intros i; rewrite Hi, Hi'; done).
      exists a. apply list_eq. intros k. rewrite map_lookup. destruct (internal_node_inds (el_type e) (el_order e) !! k) as [i|] eqn:Ek; cbn.
      + symmetry. pose proof (int_lt _ _ _ (elem_of_list_lookup_2 _ _ _ Ek)) as Hlt. rewrite <- Hn in Hlt. destruct (lookup_lt_is_Some_2 _ _ Hlt) as [n Hni]. rewrite (nth_lookup_Some _ _ _ _ Hni). apply lookup_seq. split; [|by eapply lookup_lt_Some].
        by apply local_index_fun, (HC k i n).
      + symmetry. apply lookup_ge_None_2. rewrite seq_length. by apply lookup_ge_None_1.
  Qed.
  Lemma zip_fst_idx {A} (l : list A) : (zip (seq 0 (length l)) l).*1 = seq 0 (length l).
  Proof. apply fst_zip. by rewrite seq_length. Qed.
  Lemma get_nodes_ok own (e : el) (vs : list V) ss : typed_el e -> (optimize_internal (el_type e) (el_order e) = true -> exists a, map (fun i => getLocalIndex own (nth i (el_nodes e) 0)) (internal_node_inds (el_type e) (el_order e)) = seq a (length (internal_node_inds (el_type e) (el_order e)))) ->
    getLocalNodes (mk_lv (el_type e) (el_order e) (stored_nodes own e) vs ss) = Ok (map (getLocalIndex own) (el_nodes e)).
  Proof.
    intros [Hn _] Hc. unfold getLocalNodes, stored_nodes. cbn [lv_type lv_order lv_nodes]. set (t := el_type e) in *. set (O := el_order e) in *. destruct (optimize_internal t O) eqn:Eo; [|done].
    destruct (Hc eq_refl) as [a Ea]. clear Hc. set (B := boundary_node_inds t O) in *. set (I := internal_node_inds t O) in *. set (L := fun i => getLocalIndex own (nth i (el_nodes e) 0)) in *.
    assert (HI : 1 < length I) by (unfold optimize_internal in Eo; by apply Nat.ltb_lt). assert (E0 : getLocalIndex own (nth (nth 0 I 0) (el_nodes e) 0) = a).
    { destruct I as [|i I']; [cbn in HI; lia|]. cbn [map length seq] in Ea. injection Ea as Ea _. exact Ea. } rewrite E0. set (stored := map L B ++ [a]).
    assert (E1 : for_each (fun (id : nat * nat) r => n ← rd stored id.1; wr r id.2 n) (zip (seq 0 (length B)) B) (replicate (nodes_per_element t O) 0) = for_each (fun x r => wr r x.1 x.2) (map (fun i => (i, L i)) B) (replicate (nodes_per_element t O) 0)).
    { generalize (replicate (nodes_per_element t O) 0). assert (Hpre : forall pre suf, B = pre ++ suf -> forall r, for_each (fun (id : nat * nat) r => n ← rd stored id.1; wr r id.2 n) (zip (seq (length pre) (length suf)) suf) r = for_each (fun x r => wr r x.1 x.2) (map (fun i => (i, L i)) suf) r); [|intros r; apply (Hpre [] B eq_refl r)].
      intros pre suf. revert pre. induction suf as [|b suf IH]; intros pre EB r; [done|]. cbn [length seq zip zip_with for_each map fst snd]. rewrite (rd_ok stored (length pre) (L b)).
      - rewrite bind_ok. destruct (wr r b (L b)) as [r'| |]; [|done..]. rewrite !bind_ok. replace (S (length pre)) with (length (pre ++ [b])) by (rewrite app_length; cbn; lia). apply IH. by rewrite <- app_assoc.
      - unfold stored. rewrite EB, lookup_app_l by (rewrite map_length, app_length; cbn [length]; lia). rewrite map_lookup, list_lookup_middle by done. done. }
    rewrite E1. clear E1. rewrite scatter_ok by (intros x Hx; apply (elem_of_list_fmap (fun i => (i, L i))) in Hx as (i & -> & Hi); cbn [fst]; rewrite replicate_length; by apply bnd_lt). rewrite bind_ok.
    assert (Hlast : stored !! (length stored - 1) = Some a). { unfold stored. rewrite app_length, Nat.add_sub. cbn [length]. by apply list_lookup_middle. }
    rewrite (rd_ok _ _ _ Hlast), bind_ok. set (r1 := foldl _ _ _). assert (Hr1 : length r1 = nodes_per_element t O) by (unfold r1; by rewrite scatter_length, replicate_length).
    destruct (counter_loop I r1 a) as (r' & E & Er); [intros x Hx; rewrite Hr1; by apply int_lt|]. rewrite E, bind_ok, Er. f_equal. rewrite <- Ea. apply list_eq. intros i.
    assert (HzI : (zip I (map L I)).*1 = I) by (apply fst_zip; by rewrite map_length).
    destruct (decide (i < nodes_per_element t O)) as [Hlt|Hge].
    - assert (Hm : map (getLocalIndex own) (el_nodes e) !! i = Some (L i)). { rewrite map_lookup. rewrite <- Hn in Hlt. destruct (lookup_lt_is_Some_2 _ _ Hlt) as [n Hni]. rewrite Hni. cbn. unfold L. by rewrite (nth_lookup_Some _ _ _ _ Hni). }
      rewrite Hm. destruct (decide (i ∈ I)) as [Hin|Hin].
      + apply scatter_lookup; [rewrite HzI; apply strict_nodup, internal_ok| |by rewrite Hr1]. apply elem_of_list_lookup in Hin as [k Hk]. apply (elem_of_list_lookup_2 _ k). rewrite lookup_zip_with, map_lookup, Hk. done.
      + rewrite scatter_other by (rewrite HzI; done). unfold r1. assert (HB : i ∈ B). { apply boundary_inds_ok. destruct (decide (i ∈ B)) as [HB|HB]; [by apply boundary_inds_ok|]. exfalso. apply Hin. apply internal_ok. split; [done|]. intros H. apply HB. by apply boundary_inds_ok. }
        apply scatter_lookup; [|by apply (elem_of_list_fmap_1 (fun i => (i, L i)))|by rewrite replicate_length]. assert (EB : (map (fun i => (i, L i)) B).*1 = B) by (change (map fst (map (fun i => (i, L i)) B) = B); rewrite map_map; apply map_id). rewrite EB. apply strict_nodup, boundary_inds_ok.
    - rewrite !lookup_ge_None_2; [done|rewrite map_length; lia|rewrite scatter_length; lia].
  Qed.
  Lemma stored_sides_lookup (e : el) sides s b : (forall x, x ∈ sides -> x.1 < n_sides (el_type e)) -> stored_sides e sides !! s = Some (Some b) <-> last_entry sides s b.
  Proof.
    unfold stored_sides. revert s b. induction sides as [|x sides IH] using rev_ind; intros s b H.
    - cbn. split; [intros Hr; apply lookup_replicate in Hr as [? _]; done|]. intros (pre & post & E & _). by destruct pre.
    - rewrite map_app, foldl_app. cbn [map foldl fst snd]. set (r := foldl _ _ _). assert (Hr : length r = n_sides (el_type e)) by (unfold r; by rewrite scatter_length, replicate_length).
      assert (Hx : x.1 < n_sides (el_type e)) by (apply H, elem_of_app; right; left). destruct (decide (s = x.1)) as [-> |Hne].
      + rewrite list_lookup_insert by lia. split.
        * intros [= <-]. exists sides, []. destruct x. split; [done|]. cbn. apply not_elem_of_nil.
        * intros (pre & post & E & Hp). destruct post as [|y post _] using rev_ind; [apply app_inj_tail in E as [_ ->]; done|]. rewrite app_comm_cons, app_assoc in E. apply app_inj_tail in E as [_ <-]. exfalso. apply Hp. rewrite fmap_app. apply elem_of_app. right. left.
      + rewrite list_lookup_insert_ne by done. unfold r. rewrite IH by (intros y Hy; apply H, elem_of_app; by left). split.
        * intros (pre & post & -> & Hp). exists pre, (post ++ [x]). split; [by rewrite <- app_assoc|]. rewrite fmap_app. intros Hi. apply elem_of_app in Hi as [Hi|Hi]; [done|]. by apply elem_of_list_singleton in Hi.
        * intros (pre & post & E & Hp). destruct post as [|y post _] using rev_ind; [apply app_inj_tail in E as [_ ->]; done|]. rewrite app_comm_cons, app_assoc in E. apply app_inj_tail in E as [-> ->]. exists pre, post. split; [done|]. intros Hi. apply Hp. rewrite fmap_app. apply elem_of_app. by left.
  Qed.
  Lemma get_boundaries_elem (lv : lview V) s b : (s, b) ∈ getBoundaries lv <-> lv_sides lv !! s = Some (Some b).
  Proof.
    unfold getBoundaries. rewrite elem_of_list_omap. split.
    - intros ([k o] & Hx & Ho). cbn in Ho. destruct o as [b'|]; [|done]. injection Ho as -> ->. apply elem_of_list_lookup in Hx as [i Hi]. apply lookup_zip_with_Some in Hi as (k & o & [= -> <-] & Hk & Ho). apply lookup_seq in Hk as [-> _]. done.
    - intros H. exists (s, Some b). split; [|done]. apply (elem_of_list_lookup_2 _ s). apply lookup_zip_with_Some. exists s, (Some b). split; [done|]. split; [|done]. apply lookup_seq. split; [done|]. by eapply lookup_lt_Some.
  Qed.
  Lemma get_boundaries_sorted (lv : lview V) : StronglySorted lt (getBoundaries lv).*1.
  Proof.
    unfold getBoundaries. generalize 0. induction (lv_sides lv) as [|o l IH]; intros k; [constructor|]. cbn [length seq zip zip_with omap list_omap]. destruct o as [b|]; cbn; [|apply IH]. constructor; [apply IH|].
    apply Forall_forall. intros x Hx. apply elem_of_list_fmap in Hx as ([y c] & -> & Hy). apply elem_of_list_omap in Hy as ([z o] & Hz & Ho). cbn in Ho. destruct o; [|done]. injection Ho as -> ->. apply elem_of_zip_l in Hz. apply elem_of_seq in Hz. cbn. lia.
  Qed.
  Lemma has_boundaries_iff (lv : lview V) : hasBoundaries lv = true <-> getBoundaries lv <> [].
  Proof.
    unfold hasBoundaries. rewrite existsb_exists. split.
    - intros ([b|] & Hin & Hf); [clear Hf|done]. apply elem_of_list_In, elem_of_list_lookup in Hin as [s Hs]. apply get_boundaries_elem in Hs. intros E. rewrite E in Hs. by apply elem_of_nil in Hs.
    - intros H. destruct (getBoundaries lv) as [|[s b] r] eqn:E; [done|]. assert (Hin : (s, b) ∈ getBoundaries lv) by (rewrite E; left). apply get_boundaries_elem in Hin. exists (Some b). split; [|done]. apply elem_of_list_In. by eapply elem_of_list_lookup_2.
  Qed.
End view.
