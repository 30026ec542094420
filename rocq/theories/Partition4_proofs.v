From Verif Require Import Base StdAlgo Ownership_model Elem_model Elem_spec Elem_proofs Mesh_model Mesh_spec Mesh_proofs Helpers_model Helpers_spec Helpers_proofs Partition_model Partition_spec Partition1_proofs Partition2_proofs Partition3_proofs.
Local Arguments Nat.mul : simpl never.
Local Arguments Nat.add : simpl never.
Local Arguments Nat.sub : simpl never.

(** ** Numbering *)
Lemma number_app a b st : number_owned (a ++ b) st = number_owned b (number_owned a st).
Proof. unfold number_owned. by rewrite foldl_app. Qed.
Lemma number_all (vecs : list (list nat * list nat)) st : foldl (fun st (v : list nat * list nat) => number_owned v.1 st) st vecs = number_owned (concat vecs.*1) st.
Proof. revert st. induction vecs as [|v vecs IH]; intros st; [done|]. cbn [foldl fmap list_fmap concat]. rewrite IH, number_app. done. Qed.
Lemma number_nodup l mp k : NoDup l -> (forall x, x ∈ l -> hm_find x mp = None) -> number_owned l (mp, k) = (mp ++ zip l (seq k (length l)), k + length l).
Proof.
  revert mp k. induction l as [|x l IH]; intros mp k Hnd Hf; [cbn; by rewrite app_nil_r, Nat.add_0_r|]. apply NoDup_cons in Hnd as [Hx Hnd].
  unfold number_owned. cbn [foldl fst snd]. change (foldl _ ?s l) with (number_owned l s). unfold hm_emplace. rewrite (Hf x) by left.
  rewrite IH; [|done|].
  - cbn [List.length seq zip zip_with]. rewrite <- app_assoc. cbn [app]. replace (k + 1) with (S k) by lia. f_equal. lia.
  - intros y Hy. rewrite hm_find_snoc by (apply Hf; left). rewrite decide_False by (intros ->; done). apply Hf. by right.
Qed.
Definition num (C : list nat) (x : nat) : nat := default 0 (pos_of x C).
Lemma pos_of_nth (C : list nat) i x : NoDup C -> C !! i = Some x -> pos_of x C = Some i.
Proof.
  intros Hnd Hi. destruct (pos_of_some x C) as (j & Hj & Hlk); [by eapply elem_of_list_lookup_2|]. rewrite Hj. f_equal. by eapply NoDup_lookup.
Qed.
Lemma hm_find_zip (C : list nat) k x : hm_find x (zip C (seq k (length C))) = (fun i => k + i) <$> pos_of x C.
Proof.
  revert k. induction C as [|y C IH]; intros k; [done|]. cbn [List.length seq zip zip_with hm_find pos_of]. destruct (decide (x = y)) as [->|]; [cbn; f_equal; lia|].
  rewrite IH. destruct (pos_of x C); [|done]. cbn. f_equal. lia.
Qed.
Lemma num_ok C : NoDup C -> forall x, x ∈ C -> C !! num C x = Some x /\ num C x < length C.
Proof.
  intros Hnd x Hx. unfold num. destruct (pos_of_some x C Hx) as (i & Hi & Hlk). rewrite Hi. change (default 0 (Some i)) with i. split; [done|by eapply lookup_lt_Some].
Qed.
Lemma num_lookup C i x : NoDup C -> C !! i = Some x -> num C x = i.
Proof. intros Hnd Hi. unfold num. by rewrite (pos_of_nth C i x Hnd Hi). Qed.
Lemma owned_ranges (vecs : list (list nat * list nat)) out k :
  foldl (fun st (v : list nat * list nat) => (st.1 ++ [seq st.2 (length v.1)], st.2 + length v.1)) (out, k) vecs =
  (out ++ imap (fun p v => seq (k + length (concat (take p vecs.*1))) (length v.1)) vecs, k + length (concat vecs.*1)).
Proof.
  revert out k. induction vecs as [|v vecs IH]; intros out k; [cbn; by rewrite app_nil_r, Nat.add_0_r|]. cbn [foldl fst snd]. rewrite IH. cbn [imap fmap list_fmap concat take List.length].
  rewrite <- app_assoc. cbn [app]. f_equal; [f_equal; f_equal; [f_equal; lia|]|rewrite app_length; lia].
  apply imap_ext. intros i w _. cbn [compose]. cbn [take concat fmap list_fmap]. rewrite app_length. f_equal. lia.
Qed.
Lemma concat_take_lookup {A} (ls : list (list A)) p l i a : ls !! p = Some l -> l !! i = Some a -> concat ls !! (length (concat (take p ls)) + i) = Some a.
Proof.
  revert p. induction ls as [|k ls IH]; intros p Hp Hi; [done|]. destruct p as [|p]; cbn [take concat List.length].
  - cbn in Hp. injection Hp as ->. rewrite Nat.add_0_l. by apply lookup_app_l_Some.
  - rewrite app_length, lookup_app_r by lia. replace (length k + length (concat (take p ls)) + i - length k) with (length (concat (take p ls)) + i) by lia. by apply IH.
Qed.
Lemma side_of_reindex {V} f (b e : element V) s : side_of b e s -> side_of (reindex_el f b) (reindex_el f e) s.
Proof.
  intros (inds & ns & H1 & H2 & H3 & H4 & H5). exists inds, (map f ns). split; [done|]. split; [done|]. split; [|split; [|done]].
  - change (map f ns) with (f <$> ns). rewrite Forall2_fmap_r. eapply Forall2_impl; [exact H3|]. intros i n Hi. cbn [reindex_el el_nodes].
    change (map f (el_nodes e)) with (f <$> el_nodes e). by rewrite list_lookup_fmap, Hi.
  - cbn [reindex_el el_nodes]. by apply Permutation_map.
Qed.

Section reindex.
  Context {V : Type} (orders : list nat) (f : nat -> nat).
  Notation el := (element V).
  Notation doms := (dmap (domain V)).
  Definition rdoms (dm : doms) : doms := map (fun d : nat * domain V => (d.1, reindex_domain f d.2)) dm.
  Lemma rdoms_keys dm : (rdoms dm).*1 = dm.*1.
  Proof. unfold rdoms. change (map ?g dm) with (g <$> dm). rewrite <- list_fmap_compose. done. Qed.
  Lemma rdoms_in dm id d : (id, d) ∈ rdoms dm <-> exists d', (id, d') ∈ dm /\ d = reindex_domain f d'.
  Proof.
    unfold rdoms. rewrite (elem_of_list_fmap (fun d : nat * domain V => (d.1, reindex_domain f d.2))). split.
    - intros ([id' d'] & [= -> ->] & H). eauto.
    - intros (d' & H & ->). by exists (id, d').
  Qed.
  Lemma rdom_vec (d : domain V) v : v ∈ d_els (reindex_domain f d) <-> exists v', v' ∈ d_els d /\ v = map (reindex_el f) v'.
  Proof. unfold reindex_domain. cbn [d_els]. rewrite (elem_of_list_fmap (map (reindex_el f))). naive_solver. Qed.
  Lemma rdoms_in_domain dm id e : in_domain (rdoms dm) id e <-> exists e', in_domain dm id e' /\ e = reindex_el f e'.
  Proof.
    unfold in_domain. split.
    - intros (d & v & Hd & Hv & He). apply rdoms_in in Hd as (d' & Hd & ->). apply rdom_vec in Hv as (v' & Hv & ->). apply (elem_of_list_fmap (reindex_el f)) in He as (e' & -> & He).
      exists e'. split; [|done]. exists d', v'. done.
    - intros (e' & (d & v & Hd & Hv & He) & ->). exists (reindex_domain f d), (map (reindex_el f) v). split; [apply rdoms_in; eauto|]. split; [apply rdom_vec; eauto|].
      by apply (elem_of_list_fmap_1 (reindex_el f)).
  Qed.
  Lemma rdoms_node dm n : is_node (rdoms dm) n <-> exists n', is_node dm n' /\ n = f n'.
  Proof.
    unfold is_node, is_elem. split.
    - intros (e & (id & He) & Hn). apply rdoms_in_domain in He as (e' & He & ->). cbn [reindex_el el_nodes] in Hn. apply (elem_of_list_fmap f) in Hn as (n' & -> & Hn'). exists n'. split; [|done]. eauto.
    - intros (n' & (e & (id & He) & Hn) & ->). exists (reindex_el f e). split; [exists id; apply rdoms_in_domain; eauto|]. by apply (elem_of_list_fmap_1 f).
  Qed.
  Lemma rdoms_valid dm : valid_doms orders dm -> valid_doms orders (rdoms dm).
  Proof.
    intros [Hs HF]. split; [by rewrite rdoms_keys|]. apply Forall_forall. intros [id d] Hin. apply rdoms_in in Hin as (d' & Hin & ->). cbn [snd].
    rewrite Forall_forall in HF. destruct (HF _ Hin) as [Ht Hd]. cbn [snd] in *. split.
    - unfold typed_domain, reindex_domain in *. cbn [d_els]. change (map (map (reindex_el f)) (d_els d')) with (map (reindex_el f) <$> d_els d'). rewrite Forall2_fmap_r.
      eapply Forall2_impl; [exact Ht|]. intros s v Hv. cbn. apply Forall_fmap. eapply Forall_impl; [exact Hv|]. intros e [He Hte]. cbn. split; [done|].
      destruct Hte as [H1 H2]. split; [|done]. cbn. by rewrite map_length.
    - intros v e Hv He. apply rdom_vec in Hv as (v' & Hv & ->). apply (elem_of_list_fmap (reindex_el f)) in He as (e' & -> & He). cbn. by eapply Hd.
  Qed.
  Lemma rdoms_dom_elems dm id : dom_elems (rdoms dm) id = map (reindex_el f) (dom_elems dm id).
  Proof.
    unfold dom_elems, rdoms. induction dm as [|[k d] dm IH]; [done|]. cbn [map concat fst snd]. rewrite IH, map_app. f_equal. destruct (k =? id); [|done].
    unfold reindex_domain. cbn [d_els]. by rewrite concat_map.
  Qed.
  Lemma renumber_ok mp dm : (forall n, is_node dm n -> hm_find n mp = Some (f n)) -> map_res (renumber_domain mp) dm = Ok (rdoms dm).
  Proof.
    intros H. unfold rdoms. apply map_res_ok. intros [id d] Hin. unfold renumber_domain. cbn [fst snd].
    rewrite (map_res_ok _ (map (reindex_el f))); [done|]. intros v Hv. apply map_res_ok. intros e He. unfold renumber_elem.
    rewrite (map_res_ok _ f); [done|]. intros n Hn. unfold at_map. rewrite H; [done|]. exists e. split; [|done]. exists id, d, v. done.
  Qed.
End reindex.

(** ** Counting over the parts *)
Lemma Permutation_refl' {A} (l l' : list A) : l = l' -> l ≡ₚ l'.
Proof. by intros ->. Qed.
Lemma parts_perm {V} (L : list (nat * nat * element V)) n id : (forall x, x ∈ L -> x.1.1 < n) ->
  concat (map (fun p => sel p id L) (seq 0 n)) ≡ₚ map snd (List.filter (fun x => x.1.2 =? id) L).
Proof.
  intros H. assert (E : forall ps, NoDup ps -> (forall x, x ∈ L -> x.1.1 ∈ ps) -> concat (map (fun p => sel p id L) ps) ≡ₚ map snd (List.filter (fun x => x.1.2 =? id) L)).
  2:{ apply E; [apply NoDup_seq|]. intros x Hx. apply elem_of_seq. apply H in Hx. lia. }
  clear H n. intros ps Hnd H.
  transitivity (map snd (concat (map (fun p => List.filter (fun x : nat * nat * element V => x.1.1 =? p) (List.filter (fun x => x.1.2 =? id) L)) ps))).
  { apply Permutation_refl'. unfold sel. rewrite concat_map, map_map. f_equal. apply map_ext. intros p. f_equal.
    clear. induction L as [|x L IH]; [done|]. cbn [List.filter]. destruct (x.1.1 =? p) eqn:E1, (x.1.2 =? id) eqn:E2; cbn [andb List.filter]; rewrite ?E1, ?E2, <- ?IH; done. }
  apply Permutation_map. apply (pick_perm (fun p (x : nat * nat * element V) => x.1.1 =? p)).
  intros x Hx. apply filter_elem in Hx as [Hx _]. apply (unique_filter _ ps x.1.1); [done|by apply H|apply Nat.eqb_refl|]. intros j _ Hj. apply Nat.eqb_eq in Hj. done.
Qed.
Lemma dom_elems_visit {V} (m : dmap (domain V)) id : StronglySorted lt m.*1 -> dom_elems m id = visit_elems m [id].
Proof.
  intros Hsrt. unfold visit_elems. cbn [map concat]. rewrite app_nil_r. unfold dom_elems. induction m as [|[k d] dm IH]; [done|]. cbn [map concat dm_find fst snd].
  inversion Hsrt as [|? ? Hs1 Hs2]; subst. rewrite Nat.eqb_sym. destruct (Nat.eqb_spec id k) as [->|Hne]; [|by apply IH].
  assert (E : concat (map (fun p0 : nat * domain V => if p0.1 =? k then concat (d_els p0.2) else []) dm) = []); [|by rewrite E, app_nil_r].
  clear IH Hs1 Hsrt. induction dm as [|[k' d'] dm IH]; [done|]. cbn in Hs2. apply Forall_cons in Hs2 as [Hk Hs2]. cbn [map concat fst snd].
  destruct (Nat.eqb_spec k' k); [lia|]. cbn [app]. by apply IH.
Qed.
Lemma dom_pushes_id {V} (m : dmap (domain V)) epart ids id : NoDup ids -> StronglySorted lt m.*1 -> length epart = length (visit_elems m ids) ->
  map snd (List.filter (fun x => x.1.2 =? id) (dom_pushes m epart ids)) = if decide (id ∈ ids) then visit_elems m [id] else [].
Proof.
  intros Hnd Hs Hl. unfold dom_pushes. assert (HlT : length epart = length (dom_tasks m ids)) by (by rewrite Hl, <- dom_tasks_snd, map_length).
  transitivity (map snd (List.filter (fun x => x.1 =? id) (dom_tasks m ids))).
  { clear -HlT. revert epart HlT. induction (dom_tasks m ids) as [|x T IH]; intros [|p epart] Hl; try done. cbn [zip_with List.filter fst snd]. destruct (x.1 =? id); cbn [map snd]; rewrite IH; auto. }
  case_decide as E.
  - unfold dom_tasks. rewrite (pick_block (fun id => map (pair id) (visit_elems m [id])) ids (fun id x => x.1 =? id) id Hnd E).
    + rewrite map_map. apply map_id.
    + intros b' x _ Hx. apply (elem_of_list_fmap (pair b')) in Hx as (e & -> & _). done.
  - rewrite filter_none; [done|]. intros [i e] Hx. unfold dom_tasks in Hx. apply elem_of_concat in Hx as (k & Hx & Hk). apply (elem_of_list_fmap (fun id => map (pair id) (visit_elems m [id]))) in Hk as (b & -> & Hb).
    apply (elem_of_list_fmap (pair b)) in Hx as (e' & [= -> ->] & _). apply Nat.eqb_neq. cbn. by intros ->.
Qed.
Lemma sublist_concat_filter {A B} (g : A -> list B) (f : A -> bool) l : concat (map g (List.filter f l)) `sublist_of` concat (map g l).
Proof.
  induction l as [|a l IH]; [done|]. cbn [List.filter]. destruct (f a); cbn [map concat].
  - by apply sublist_app.
  - by apply sublist_inserts_l.
Qed.
