From Verif Require Import Base StdAlgo Ownership_model Elem_model Elem_spec Elem_proofs Mesh_model Mesh_spec Mesh_proofs MeshSerial_proofs Helpers_model Helpers_spec Helpers_proofs Partition_model Partition_spec Partition1_proofs.
Local Arguments Nat.mul : simpl never.
Local Arguments Nat.add : simpl never.
Local Arguments Nat.sub : simpl never.

Lemma for_each_nested {A B S} (f : A -> B -> S -> res S) (g : A -> list B) l s :
  for_each (fun a => for_each (f a) (g a)) l s = for_each (fun x => f x.1 x.2) (concat (map (fun a => map (pair a) (g a)) l)) s.
Proof.
  revert s. induction l as [|a l IH]; intros s; [done|]. cbn [for_each map concat]. rewrite for_each_app.
  assert (for_each (f a) (g a) s = for_each (fun x => f x.1 x.2) (map (pair a) (g a)) s) as <-.
  { clear IH. revert s. induction (g a) as [|b bs IH]; intros s; [done|]. cbn [for_each map fst snd]. destruct (f a b s); [|done|done]. rewrite !bind_ok. apply IH. }
  destruct (for_each (f a) (g a) s); [|done|done]. rewrite !bind_ok. apply IH.
Qed.
Lemma dm_find_set {A} k (a : A) (m : dmap A) j : StronglySorted lt m.*1 -> dm_find j (dm_set k a m) = if j =? k then Some a else dm_find j m.
Proof.
  intros Hs. pose proof (dm_set_sorted k a m Hs) as Hs'. destruct (Nat.eqb_spec j k) as [->|Hne].
  - apply dm_find_iff; [done|]. apply dm_set_elem; auto.
  - destruct (dm_find j m) as [b|] eqn:E.
    + apply dm_find_iff; [done|]. apply dm_set_elem; [done|]. right. split; [done|]. by apply dm_find_elem.
    + apply dm_find_none. rewrite dm_set_keys. apply dm_find_none in E. naive_solver.
Qed.

Section parts.
  Context {V : Type} (orders : list nat) (Hord : NoDup orders).
  Notation el := (element V).
  Notation doms := (dmap (domain V)).
  Notation slot e := (el_type e, el_order e).
  Definition d_of (es : list el) : domain V :=
    mk_dom (map (fun s => List.filter (fun e => bool_decide (slot e = s)) es) (slots orders)) (match es with [] => None | e :: _ => Some (native_dim (el_type e)) end).
  Lemma d_of_nil : d_of [] = empty_domain orders.
  Proof. done. Qed.
  Lemma d_of_push es (e : el) : slot e ∈ slots orders -> (forall e', e' ∈ es -> native_dim (el_type e') = native_dim (el_type e)) ->
    pushToDomain orders (d_of es) e = Ok (d_of (es ++ [e])).
  Proof.
    intros Hsl Hd. unfold pushToDomain. assert (Hdim : default (native_dim (el_type e)) (d_dim (d_of es)) = native_dim (el_type e)).
    { unfold d_of. cbn [d_dim]. destruct es as [|e' es]; [done|]. apply Hd. left. }
    rewrite Hdim, Nat.eqb_refl. change (throwing_assert true) with (Ok tt). rewrite bind_ok.
    destruct (pos_of_some (slot e) (slots orders) Hsl) as (i & -> & Hi). unfold d_of at 1 2. cbn [d_els].
    set (F := fun es s => List.filter (fun e : el => bool_decide (slot e = s)) es).
    change (map (fun s => List.filter (fun e : el => bool_decide (slot e = s)) es) (slots orders)) with (F es <$> slots orders).
    rewrite (rd_ok _ i (F es (slot e))). 2:{ by rewrite list_lookup_fmap, Hi. }
    rewrite bind_ok. f_equal. unfold d_of. f_equal.
    2:{ destruct es as [|e' es]; [done|]. cbn [app]. f_equal. symmetry. apply Hd. left. }
    change (map (fun s => List.filter (fun e0 : el => bool_decide (slot e0 = s)) (es ++ [e])) (slots orders)) with (F (es ++ [e]) <$> slots orders).
    apply list_eq. intros j. destruct (decide (i = j)) as [<-|Hne].
    - rewrite list_lookup_insert by (rewrite fmap_length; by eapply lookup_lt_Some). rewrite list_lookup_fmap, Hi. cbn. f_equal. unfold F.
      rewrite List.filter_app. f_equal. cbn. by rewrite bool_decide_true.
    - rewrite list_lookup_insert_ne by done. rewrite !list_lookup_fmap. destruct (slots orders !! j) as [s|] eqn:Hj; [|done]. cbn. f_equal. unfold F.
      rewrite List.filter_app. cbn. rewrite bool_decide_false; [by rewrite app_nil_r|]. intros <-. apply Hne.
      eapply NoDup_lookup; [apply slots_nodup, Hord|done|done].
  Qed.
  Lemma d_of_elem es (e : el) : (forall e, e ∈ es -> slot e ∈ slots orders) -> (exists v, v ∈ d_els (d_of es) /\ e ∈ v) <-> e ∈ es.
  Proof.
    intros Hs. unfold d_of. cbn [d_els]. split.
    - intros (v & Hv & He). apply (elem_of_list_fmap (fun s => List.filter (fun e : el => bool_decide (slot e = s)) es)) in Hv as (s & -> & _).
      apply elem_of_list_In, filter_In in He as [He _]. by apply elem_of_list_In.
    - intros He. exists (List.filter (fun e0 : el => bool_decide (slot e0 = slot e)) es). split.
      + apply (elem_of_list_fmap (fun s => List.filter (fun e : el => bool_decide (slot e = s)) es)). exists (slot e). split; [done|auto].
      + apply elem_of_list_In, filter_In. split; [by apply elem_of_list_In|]. by apply bool_decide_eq_true.
  Qed.
  Lemma filter_slots_perm (es : list el) sl : NoDup sl -> (forall e, e ∈ es -> slot e ∈ sl) ->
    concat (map (fun s => List.filter (fun e : el => bool_decide (slot e = s)) es) sl) ≡ₚ es.
  Proof.
    intros Hnd. induction es as [|e es IH]; intros H.
    - clear. induction sl as [|s sl IH]; [done|]. cbn. done.
    - assert (Hes : forall e, e ∈ es -> slot e ∈ sl) by (intros; apply H; by right). specialize (IH Hes).
      etransitivity; [|apply Permutation_cons; [done|exact IH]]. assert (He : slot e ∈ sl) by (apply H; left). clear IH Hes H.
      induction sl as [|s sl IH]; [by apply elem_of_nil in He|]. apply NoDup_cons in Hnd as [Hn Hnd]. cbn [map concat List.filter].
      apply elem_of_cons in He as [He|He].
      + rewrite bool_decide_true by done. cbn [app]. constructor. f_equiv. clear IH. induction sl as [|s' sl IH]; [done|]. cbn [map concat List.filter].
        apply not_elem_of_cons in Hn as [Hn1 Hn]. apply NoDup_cons in Hnd as [_ Hnd]. rewrite bool_decide_false by congruence. f_equiv. by apply IH.
      + rewrite bool_decide_false by (intros <-; done). rewrite (IH Hnd He). by rewrite Permutation_middle.
  Qed.
  Lemma d_of_perm es : (forall e : el, e ∈ es -> slot e ∈ slots orders) -> concat (d_els (d_of es)) ≡ₚ es.
  Proof. intros H. unfold d_of. cbn [d_els]. apply filter_slots_perm; [apply slots_nodup, Hord|done]. Qed.

  (** The parts as functions of the list of insertions (part, domain, element). *)
  Definition sel (p id : nat) (ps : list (nat * nat * el)) : list el :=
    map snd (List.filter (fun x => (x.1.1 =? p) && (x.1.2 =? id)) ps).
  Lemma sel_elem p id ps e : e ∈ sel p id ps <-> (p, id, e) ∈ ps.
  Proof.
    unfold sel. rewrite (elem_of_list_fmap snd). split.
    - intros ([[p' id'] e'] & -> & H). apply elem_of_list_In, filter_In in H as [H Hb]. cbn [fst snd] in *.
      apply andb_prop in Hb as [H1%Nat.eqb_eq H2%Nat.eqb_eq]. subst. by apply elem_of_list_In.
    - intros H. exists (p, id, e). split; [done|]. apply elem_of_list_In, filter_In. split; [by apply elem_of_list_In|]. cbn. by rewrite !Nat.eqb_refl.
  Qed.
  Lemma sel_app p id ps ps' : sel p id (ps ++ ps') = sel p id ps ++ sel p id ps'.
  Proof. unfold sel. by rewrite List.filter_app, map_app. Qed.
  Definition rep (n : nat) (ps : list (nat * nat * el)) (maps : list doms) : Prop :=
    length maps = n /\ forall p dm, maps !! p = Some dm -> StronglySorted lt dm.*1 /\
      forall id, dm_find id dm = match sel p id ps with [] => None | _ => Some (d_of (sel p id ps)) end.
  Lemma rep_empty n : rep n [] (repeat [] n).
  Proof.
    split; [apply repeat_length|]. intros p dm H. assert (dm = []) as ->. { apply elem_of_list_lookup_2, elem_of_list_In, repeat_spec in H. done. }
    split; [constructor|]. done.
  Qed.
  Lemma rep_push oob n ps maps p id (e : el) : rep n ps maps -> p < n -> slot e ∈ slots orders ->
    (forall e', e' ∈ sel p id ps -> native_dim (el_type e') = native_dim (el_type e)) ->
    exists maps', push_part orders oob p id e maps = Ok maps' /\ rep n (ps ++ [(p, id, e)]) maps'.
  Proof.
    intros [Hl Hr] Hp Hs Hd. unfold push_part. rewrite <- Hl in Hp. apply lookup_lt_is_Some_2 in Hp as [dm Hdm]. rewrite Hdm. destruct (Hr p dm Hdm) as [Hsrt Hf].
    assert (Hdef : default (empty_domain orders) (dm_find id dm) = d_of (sel p id ps)). { rewrite Hf. destruct (sel p id ps); done. }
    rewrite Hdef, d_of_push by done. rewrite bind_ok. eexists. split; [done|]. split; [by rewrite insert_length|].
    assert (Hs1 : forall p' id', sel p' id' [(p, id, e)] = if (p =? p') && (id =? id') then [e] else []).
    { intros p' id'. unfold sel. cbn [List.filter fst snd]. destruct ((p =? p') && (id =? id')); done. }
    intros p' dm' Hdm'. destruct (decide (p = p')) as [<-|Hne].
    - rewrite list_lookup_insert in Hdm' by (by eapply lookup_lt_Some). injection Hdm' as <-. split; [by apply dm_set_sorted|].
      intros id'. rewrite dm_find_set by done. rewrite sel_app, Hs1, Nat.eqb_refl. cbn [andb]. rewrite (Nat.eqb_sym id id'). destruct (Nat.eqb_spec id' id) as [->|Hne].
      + destruct (sel p id ps); done.
      + rewrite app_nil_r. apply Hf.
    - rewrite list_lookup_insert_ne in Hdm' by done. destruct (Hr p' dm' Hdm') as [Hs2 Hf2]. split; [done|]. intros id'. rewrite sel_app, Hs1.
      destruct (Nat.eqb_spec p p') as [|_]; [done|]. cbn [andb]. rewrite app_nil_r. apply Hf2.
  Qed.
  (** A sequence of insertions. *)
  Lemma rep_perm n ps ps' maps : rep n ps maps -> ps = ps' -> rep n ps' maps.
  Proof. by intros ? <-. Qed.

  Lemma rep_in n ps maps p dm id e : rep n ps maps -> (forall x, x ∈ ps -> slot x.2 ∈ slots orders) -> maps !! p = Some dm ->
    in_domain dm id e <-> (p, id, e) ∈ ps.
  Proof.
    intros [_ Hr] Hs Hdm. destruct (Hr p dm Hdm) as [Hsrt Hf]. unfold in_domain.
    assert (Hsel : forall e, e ∈ sel p id ps -> slot e ∈ slots orders). { intros e' He'. apply sel_elem in He'. by apply (Hs (p, id, e')). }
    rewrite <- sel_elem, <- (d_of_elem _ _ Hsel). split.
    - intros (d & v & Hd & Hv & He). apply (dm_find_iff _ _ _ Hsrt) in Hd. rewrite Hf in Hd. exists v. destruct (sel p id ps) as [|]; [done|].
      injection Hd as <-. done.
    - intros (v & Hv & He). exists (d_of (sel p id ps)), v. split; [|done]. apply dm_find_iff; [done|]. rewrite Hf.
      destruct (sel p id ps) eqn:E; [|done]. exfalso. assert (Hin : e ∈ @nil el) by (apply (d_of_elem [] e); [intros ? Hx; by apply elem_of_nil in Hx|eauto]). by apply elem_of_nil in Hin.
  Qed.
  Lemma rep_valid n ps maps p dm : rep n ps maps -> (forall x, x ∈ ps -> slot x.2 ∈ slots orders /\ typed_el x.2) ->
    (forall x y, x ∈ ps -> y ∈ ps -> x.1 = y.1 -> native_dim (el_type x.2) = native_dim (el_type y.2)) ->
    maps !! p = Some dm -> valid_doms orders dm.
  Proof.
    intros [_ Hr] Hs Hd Hdm. destruct (Hr p dm Hdm) as [Hsrt Hf]. split; [done|]. apply Forall_forall. intros [id d] Hin.
    apply (dm_find_iff _ _ _ Hsrt) in Hin. rewrite Hf in Hin. cbn [snd].
    assert (Hd' : d = d_of (sel p id ps)) by (destruct (sel p id ps); [done|by injection Hin]). clear Hin. subst d.
    assert (Hsel : forall e, e ∈ sel p id ps -> slot e ∈ slots orders /\ typed_el e). { intros e' He'. apply sel_elem in He'. by apply (Hs (p, id, e')). }
    split.
    - unfold typed_domain, d_of. cbn [d_els]. change (map ?f ?l) with (f <$> l). rewrite Forall2_fmap_r. apply Forall_Forall2_diag, Forall_forall. intros s _.
      apply Forall_forall. intros e He. apply elem_of_list_In, filter_In in He as [He Hb]. apply bool_decide_eq_true in Hb. split; [done|]. by apply Hsel, elem_of_list_In.
    - intros v e Hv He. assert (Hin : e ∈ sel p id ps). { apply d_of_elem; [intros; by apply Hsel|eauto]. }
      unfold d_of. cbn [d_dim]. destruct (sel p id ps) as [|e0 es] eqn:E; [by apply elem_of_nil in Hin|]. f_equal.
      apply (Hd (p, id, e0) (p, id, e)); [| |done]; apply sel_elem; rewrite E; [left|done].
  Qed.
  Lemma rep_concat n ps maps p dm : rep n ps maps -> (forall x, x ∈ ps -> slot x.2 ∈ slots orders) -> maps !! p = Some dm ->
    forall id, dom_elems dm id ≡ₚ sel p id ps.
  Proof.
    intros [_ Hr] Hs Hdm id. destruct (Hr p dm Hdm) as [Hsrt Hf].
    assert (Hsel : forall e, e ∈ sel p id ps -> slot e ∈ slots orders). { intros e' He'. apply sel_elem in He'. by apply (Hs (p, id, e')). }
    assert (Hde : dom_elems dm id = match dm_find id dm with Some d => concat (d_els d) | None => [] end).
    { clear Hf Hr Hdm. unfold dom_elems. induction dm as [|[k d] dm IH]; [done|]. cbn [map concat dm_find fst snd].
      inversion Hsrt as [|? ? Hs1 Hs2]; subst. rewrite Nat.eqb_sym. destruct (Nat.eqb_spec id k) as [->|Hne]; [|by apply IH].
      assert (E : concat (map (fun p0 : nat * domain V => if p0.1 =? k then concat (d_els p0.2) else []) dm) = []); [|by rewrite E, app_nil_r].
      clear IH Hs1 Hsrt. induction dm as [|[k' d'] dm IH]; [done|]. cbn in Hs2. apply Forall_cons in Hs2 as [Hk Hs2]. cbn [map concat fst snd].
      destruct (Nat.eqb_spec k' k); [lia|]. cbn [app]. by apply IH. }
    rewrite Hde, Hf. pose proof (d_of_perm _ Hsel) as Hp. destruct (sel p id ps); done.
  Qed.
End parts.

Lemma filter_perm' {A} (f : A -> bool) l l' : l ≡ₚ l' -> List.filter f l ≡ₚ List.filter f l'.
Proof.
  induction 1 as [|a l l' _ IH|a b l|l1 l2 l3 _ IH1 _ IH2]; [done| | |by rewrite IH1].
  - cbn. destruct (f a); [by constructor|done].
  - cbn. destruct (f a), (f b); try done. apply Permutation_swap.
Qed.
Lemma zip_snoc {A B C} (f : A -> B -> C) (l : list A) (k : list B) a b : l !! length k = Some a -> zip_with f l (k ++ [b]) = zip_with f l k ++ [f a b].
Proof.
  revert k. induction l as [|x l IH]; intros k H; [done|]. destruct k as [|y k]; cbn in *.
  - injection H as ->. by destruct l.
  - f_equal. by apply IH.
Qed.
(** [c] values of [i] pick each element. *)
Lemma pick_sum {A} (P : nat -> A -> bool) ids (es : list A) :
  length (concat (map (fun id => List.filter (P id) es) ids)) = sum (map (fun e => length (List.filter (fun id => P id e) ids)) es).
Proof.
  induction es as [|e es IH].
  - cbn. induction ids; [done|]. cbn. done.
  - cbn [map]. rewrite sum_cons, <- IH. clear IH. induction ids as [|i ids IH]; [done|]. cbn [map concat List.filter] in IH |- *. rewrite !app_length, IH.
    destruct (P i e); cbn [List.length]; lia.
Qed.
Lemma pick_perm {A} (P : nat -> A -> bool) ids (es : list A) : (forall e, e ∈ es -> length (List.filter (fun id => P id e) ids) = 1) ->
  concat (map (fun id => List.filter (P id) es) ids) ≡ₚ es.
Proof.
  induction es as [|e es IH]; intros H.
  - clear. induction ids; [done|]. cbn. done.
  - specialize (IH (fun e' He' => H e' (elem_of_list_further _ _ _ He'))). etransitivity; [|apply Permutation_cons; [done|exact IH]].
    specialize (H e (elem_of_list_here _ _)). clear IH. revert H.
    assert (G : forall k, length (List.filter (fun id => P id e) ids) = k ->
      concat (map (fun id => List.filter (P id) (e :: es)) ids) ≡ₚ repeat e k ++ concat (map (fun id => List.filter (P id) es) ids)); [|intros H; by rewrite (G _ H)].
    induction ids as [|i ids IH]; intros k; cbn [List.filter map concat] in *; [intros <-; done|]. destruct (P i e); cbn [List.length].
    + intros <-. rewrite (IH _ eq_refl). cbn [repeat app]. constructor. rewrite !app_assoc. f_equiv. apply Permutation_app_comm.
    + intros <-. rewrite (IH _ eq_refl). rewrite !app_assoc. f_equiv. apply Permutation_app_comm.
Qed.
Lemma unique_filter (P : nat -> bool) ids i : NoDup ids -> i ∈ ids -> P i = true -> (forall j, j ∈ ids -> P j = true -> j = i) -> length (List.filter P ids) = 1.
Proof.
  intros Hnd. induction ids as [|a ids IH]; intros Hi Hp Hu; [by apply elem_of_nil in Hi|]. apply NoDup_cons in Hnd as [Ha Hnd]. cbn [List.filter].
  apply elem_of_cons in Hi as [<-|Hi].
  - rewrite Hp. cbn [List.length]. f_equal. clear IH. assert (E : List.filter P ids = []); [|by rewrite E].
    assert (Hn : forall j, j ∈ ids -> P j = false). { intros j Hj. destruct (P j) eqn:E; [|done]. assert (j = i) as -> by (apply Hu; [by right|done]). done. }
    clear -Hn. induction ids as [|a ids IH]; [done|]. cbn. rewrite (Hn a) by left. apply IH. intros j Hj. apply Hn. by right.
  - destruct (P a) eqn:E.
    + assert (a = i) as -> by (apply Hu; [left|done]). done.
    + apply IH; [done|done|done|]. intros j Hj. apply Hu. by right.
Qed.

Section assign.
  Context {V : Type} (orders : list nat) (Hord : NoDup orders) (m : dmap (domain V)) (Hv : valid_doms orders m).
  Notation el := (element V).
  Notation doms := (dmap (domain V)).
  Notation slot e := (el_type e, el_order e).
  Lemma Hndm : NoDup m.*1.
  Proof. apply strict_nodup, Hv. Qed.
  Lemma in_slots id (e : el) : in_domain m id e -> slot e ∈ slots orders.
  Proof.
    intros (d & v & Hd & Hvv & He). destruct Hv as [_ HF]. rewrite Forall_forall in HF. destruct (HF _ Hd) as [Ht _]. cbn [snd] in Ht.
    apply elem_of_list_lookup in Hvv as [i Hi]. destruct (Forall2_lookup_r _ _ _ _ _ Ht Hi) as (s & Hs & Hall). rewrite Forall_forall in Hall.
    destruct (Hall e He) as [-> _]. by eapply elem_of_list_lookup_2.
  Qed.
  Lemma same_dim id (e e' : el) : in_domain m id e -> in_domain m id e' -> native_dim (el_type e) = native_dim (el_type e').
  Proof.
    intros H H'. destruct (in_domain_typed orders m id e Hv H) as (_ & d & Hd & Hdim). destruct (in_domain_typed orders m id e' Hv H') as (_ & d' & Hd' & Hdim').
    assert (d = d') as <-; [|congruence]. apply (elem_dm_find _ _ _ Hndm) in Hd. apply (elem_dm_find _ _ _ Hndm) in Hd'. congruence.
  Qed.
  Lemma visit1 id (e : el) : e ∈ visit_elems m [id] <-> in_domain m id e.
  Proof. rewrite visit_elem by apply Hndm. setoid_rewrite elem_of_list_singleton. naive_solver. Qed.
  Lemma visit_concat1 ids : visit_elems m ids = concat (map (fun id => visit_elems m [id]) ids).
  Proof. unfold visit_elems. induction ids as [|id ids IH]; [done|]. cbn [map concat]. by rewrite IH, app_nil_r. Qed.

  Definition dom_tasks (ids : list nat) : list (nat * el) := concat (map (fun id => map (pair id) (visit_elems m [id])) ids).
  Lemma dom_tasks_snd ids : map snd (dom_tasks ids) = visit_elems m ids.
  Proof.
    rewrite visit_concat1. unfold dom_tasks. induction ids as [|id ids IH]; [done|]. cbn [map concat]. rewrite map_app, IH. f_equal. rewrite map_map. apply map_id.
  Qed.
  Lemma dom_tasks_elem ids x : x ∈ dom_tasks ids <-> x.1 ∈ ids /\ in_domain m x.1 x.2.
  Proof.
    unfold dom_tasks. rewrite elem_of_concat. split.
    - intros (l & Hx & Hl). apply (elem_of_list_fmap (fun id => map (pair id) (visit_elems m [id]))) in Hl as (id & -> & Hid).
      apply (elem_of_list_fmap (pair id)) in Hx as (e & -> & He). cbn. split; [done|]. by apply visit1.
    - intros [Hid Hin]. destruct x as [id e]. cbn in *. exists (map (pair id) (visit_elems m [id])). split; [apply (elem_of_list_fmap (pair id)); exists e; split; [done|by apply visit1]|].
      apply (elem_of_list_fmap (fun id => map (pair id) (visit_elems m [id]))). eauto.
  Qed.
  Definition dom_pushes (epart ids : list nat) : list (nat * nat * el) := zip_with (fun p x => (p, x.1, x.2)) epart (dom_tasks ids).
  Lemma dom_pushes_elem epart ids x : length epart = length (visit_elems m ids) -> x ∈ dom_pushes epart ids <->
    exists k, epart !! k = Some x.1.1 /\ dom_tasks ids !! k = Some (x.1.2, x.2).
  Proof.
    intros Hl. unfold dom_pushes. rewrite elem_of_list_lookup. split.
    - intros [k Hk]. apply lookup_zip_with_Some in Hk as (p & y & -> & Hp & Hy). exists k. cbn. split; [done|]. by destruct y.
    - intros (k & Hp & Hy). exists k. apply lookup_zip_with_Some. eexists _, _. split; [|split; [exact Hp|exact Hy]]. by destruct x as [[? ?] ?].
  Qed.
  Lemma domain_maps_ok n epart ids : length epart = length (visit_elems m ids) -> Forall (fun p => p < n) epart ->
    exists maps, makeDomainMaps orders m n epart ids = Ok maps /\ rep orders n (dom_pushes epart ids) maps.
  Proof.
    intros Hlen Hlt. unfold makeDomainMaps. rewrite (for_each_nested (fun id (e : el) st => p ← at_ epart st.2; maps ← push_part orders Throw p id e st.1; Ok (maps, st.2 + 1))).
    fold (dom_tasks ids).
    assert (HlT : length (dom_tasks ids) = length epart) by (rewrite Hlen, <- dom_tasks_snd; by rewrite map_length).
    destruct (for_each_inv (fun (x : nat * el) (st : list doms * nat) => p ← at_ epart st.2; maps ← push_part orders Throw p x.1 x.2 st.1; Ok (maps, st.2 + 1))
      (fun pre st => st.2 = length pre /\ rep orders n (zip_with (fun p x => (p, x.1, x.2)) epart pre) st.1) (dom_tasks ids) [] (repeat [] n, 0)) as ([maps k] & Hst & _ & Hr).
    - split; [done|]. cbn [fst]. replace (zip_with _ epart []) with (@nil (nat * nat * el)) by (by destruct epart). apply rep_empty.
    - intros pre [id e] [maps k] (post & Heq) [Hk Hr]. cbn [fst snd app] in *. subst k.
      assert (Hin : (id, e) ∈ dom_tasks ids) by (rewrite Heq, elem_of_app; right; left).
      assert (Hpre : forall x, x ∈ pre -> x ∈ dom_tasks ids) by (intros x Hx; rewrite Heq, elem_of_app; by left).
      assert (Hlp : length pre < length epart) by (rewrite <- HlT, Heq, app_length; cbn; lia).
      destruct (lookup_lt_is_Some_2 _ _ Hlp) as [p Hp]. unfold at_. rewrite Hp, bind_ok. apply dom_tasks_elem in Hin as [Hid Hin]. cbn [fst snd] in *.
      destruct (rep_push orders Hord Throw n _ maps p id e Hr) as (maps' & Hm & Hr').
      + rewrite Forall_forall in Hlt. apply Hlt. by eapply elem_of_list_lookup_2.
      + by eapply in_slots.
      + intros e' He'. apply sel_elem in He'. apply elem_of_list_lookup in He' as [j Hj]. apply lookup_zip_with_Some in Hj as (q & y & [= -> -> ->] & _ & Hy).
        apply elem_of_list_lookup_2, Hpre, dom_tasks_elem in Hy as [_ Hy]. by eapply same_dim.
      + rewrite Hm, bind_ok. eexists. split; [done|]. cbn [fst snd]. split; [rewrite app_length; cbn; lia|]. by rewrite (zip_snoc _ _ _ p).
    - cbn [app] in *. rewrite Hst, bind_ok. by exists maps.
  Qed.

  (** Attaching the boundary elements. *)
  Definition attached_in (id : nat) (b e : el) (s : nat) : Prop :=
    in_domain m id e /\ native_dim (el_type e) = native_dim (el_type b) + 1 /\ side_of b e s.
  Lemma find_dom_ok (b : el) id :
    (findDomainElement m b [id] = Ok None /\ forall e s, ~ attached_in id b e s) \/ exists e s, findDomainElement m b [id] = Ok (Some (e, s)) /\ attached_in id b e s.
  Proof.
    unfold findDomainElement. set (f := fun e : el => _).
    assert (Hf : forall e, e ∈ visit_elems m [id] -> (f e = Ok None /\ forall s, ~ attached_in id b e s) \/ exists s, f e = Ok (Some (e, s)) /\ attached_in id b e s).
    { intros e He. apply visit1 in He. destruct (in_domain_typed orders m id e Hv He) as [Ht _]. unfold f.
      destruct (Nat.eqb_spec (native_dim (el_type e)) (native_dim (el_type b) + 1)) as [Hd|Hd].
      - destruct (match_ok e b Ht) as [[-> Hn]|(s & -> & Hs)].
        + left. split; [done|]. intros s (_ & _ & Hx). by apply (Hn s).
        + right. exists s. split; [done|]. done.
      - left. split; [done|]. intros s (_ & Hx & _). done. }
    destruct (find_res_total f (visit_elems m [id])) as [[Hr Hn]|(e & [e' s] & Hr & He & Hfe)].
    - intros e He. destruct (Hf e He) as [[-> _]|(s & -> & _)]; eauto.
    - left. split; [done|]. intros e s Ha. assert (He : e ∈ visit_elems m [id]) by (apply visit1, Ha). destruct (Hf e He) as [[_ H]|(s' & H & _)]; [by apply (H s)|].
      rewrite (Hn e He) in H. done.
    - right. destruct (Hf e He) as [[H _]|(s' & H & Ha)]; [congruence|]. rewrite H in Hfe. injection Hfe as <- <-. exists e, s'. done.
  Qed.
  Definition part_of (ids epart : list nat) (e : el) (p : nat) : Prop := exists k, visit_elems m ids !! k = Some e /\ epart !! k = Some p.
  Lemma lookup_part_ok std_sort ids epart : sorts_indices std_sort -> NoDup (map el_id (visit_elems m ids)) -> length epart = length (visit_elems m ids) ->
    let els := map el_id (visit_elems m ids) in let perm := sortingPermutation std_sort els Nat.ltb in
    exists sid sep, copyPermuted els perm = Ok sid /\ copyPermuted epart perm = Ok sep /\
      forall e p, part_of ids epart e p -> lookup_el_part sid sep (el_id e) = Ok p.
  Proof.
    intros Hs Hnd Hlen els perm. destruct (sorting_perm_ok std_sort els Nat.ltb Hs) as (Hperm & sid & Hsid & Hsp & Hso & Hsl).
    { split; intros; rewrite ?Nat.ltb_lt, ?Nat.ltb_ge in *; try lia. }
    fold perm in Hperm, Hsid, Hsl. assert (Hl2 : length els = length epart) by (unfold els; by rewrite map_length).
    destruct (Helpers_proofs.copy_ok epart perm) as (sep & Hsep & Hlsep & Hsepl & _); [by rewrite <- Hl2|].
    exists sid, sep. split; [done|]. split; [done|]. intros e p (k & Hk & Hp). unfold lookup_el_part.
    assert (Hke : els !! k = Some (el_id e)). { unfold els. change (map ?f ?l) with (f <$> l). by rewrite list_lookup_fmap, Hk. }
    assert (Hkp : k ∈ perm). { rewrite Hperm. apply elem_of_seq. apply lookup_lt_Some in Hke. lia. }
    apply elem_of_list_lookup in Hkp as [i Hi]. pose proof (Hsl i k Hi) as Hi'. rewrite Hke in Hi'.
    assert (Hlb : lower_bound sid (el_id e) = i).
    { assert (Hst : StronglySorted lt sid).
      { apply sorted_nodup_strict; [|by rewrite Hsp]. clear -Hso. induction sid as [|a sid IH]; constructor.
        - apply IH. intros i j x y Hij Hx Hy. apply (Hso (S i) (S j)); [lia|done|done].
        - destruct sid as [|y sid]; constructor. pose proof (Hso 0 1 a y ltac:(lia) eq_refl eq_refl) as H. apply Nat.ltb_ge in H. exact H. }
      apply lower_bound_elem; [by apply strict_sorted|by apply strict_nodup|done]. }
    rewrite Hlb. unfold at_. pose proof (Hsepl i k Hi) as Hpp. rewrite Hp in Hpp. by rewrite Hpp.
  Qed.

  Definition bdim (b : nat) : nat := match dm_find b m with Some d => default 0 (d_dim d) | None => 0 end.
  Definition tasks_of (b : nat) : list (nat * nat * el) :=
    concat (map (fun id => map (fun e => (b, id, e)) (visit_elems m [b])) (ids_of_dim m (bdim b + 1))).
  Lemma tasks_ok B : (forall b, b ∈ B -> b ∈ m.*1) -> parents_exist m B -> boundary_tasks m B = Ok (concat (map tasks_of B)).
  Proof.
    intros HB Hp. unfold boundary_tasks. rewrite (map_res_ok _ tasks_of); [done|]. intros b Hb.
    specialize (HB b Hb). apply elem_of_list_fmap in HB as ([b' d] & -> & Hd). cbn [fst] in *. destruct (Hp b' d Hb Hd) as (dim & Hdim & id' & d' & Hid' & Hdim').
    unfold tasks_of, bdim. rewrite (elem_dm_find _ _ _ Hndm Hd), bind_ok, Hdim, bind_ok. change (default 0 (Some dim)) with dim.
    assert (Hin : id' ∈ ids_of_dim m (dim + 1)) by (apply ids_of_dim_elem; eauto). destruct (ids_of_dim m (dim + 1)); [by apply elem_of_nil in Hin|done].
  Qed.
  Lemma bdim_ok b (e : el) : in_domain m b e -> bdim b = native_dim (el_type e).
  Proof.
    intros H. destruct (in_domain_typed orders m b e Hv H) as (_ & d & Hd & Hdim). unfold bdim. by rewrite (elem_dm_find _ _ _ Hndm Hd), Hdim.
  Qed.
  Lemma tasks_elem b t : t ∈ tasks_of b <-> t.1.1 = b /\ in_domain m b t.2 /\ exists d, (t.1.2, d) ∈ m /\ d_dim d = Some (native_dim (el_type t.2) + 1).
  Proof.
    unfold tasks_of. rewrite elem_of_concat. split.
    - intros (l & Ht & Hl). apply (elem_of_list_fmap (fun id => map (fun e => (b, id, e)) (visit_elems m [b]))) in Hl as (id & -> & Hid).
      apply (elem_of_list_fmap (fun e => (b, id, e))) in Ht as (e & -> & He). cbn [fst snd]. apply visit1 in He. split; [done|]. split; [done|].
      apply ids_of_dim_elem in Hid. by rewrite (bdim_ok b e He) in Hid.
    - destruct t as [[b' id] e]. cbn [fst snd]. intros (-> & He & Hd). exists (map (fun e => (b, id, e)) (visit_elems m [b])). split.
      + apply (elem_of_list_fmap (fun e => (b, id, e))). exists e. split; [done|]. by apply visit1.
      + apply (elem_of_list_fmap (fun id => map (fun e => (b, id, e)) (visit_elems m [b]))). exists id. split; [done|]. apply ids_of_dim_elem. by rewrite (bdim_ok b e He).
  Qed.
  Lemma attached_dim id b (e : el) s : attached_in id b e s -> exists d, (id, d) ∈ m /\ d_dim d = Some (native_dim (el_type b) + 1).
  Proof.
    intros (Hin & Hd & _). destruct (in_domain_typed orders m id e Hv Hin) as (_ & d & Hd' & Hdim). exists d. split; [done|]. by rewrite Hdim, Hd.
  Qed.
  Context (ids epart : list nat) (n : nat) (Hlen : length epart = length (visit_elems m ids)) (Hlt : Forall (fun p => p < n) epart)
          (Hid : NoDup (map el_id (visit_elems m ids))).
  (** The insertion a task makes. *)
  Definition outcome (sid sep : list nat) (t : nat * nat * el) : option (nat * nat * el) :=
    match findDomainElement m t.2 [t.1.2] with
    | Ok (Some (de, _)) => match lookup_el_part sid sep (el_id de) with Ok p => Some (p, t.1.1, t.2) | _ => None end
    | _ => None
    end.
  Section fix_sorted.
  Context (sid sep : list nat) (Hlook : forall e p, part_of ids epart e p -> lookup_el_part sid sep (el_id e) = Ok p).
  Lemma part_of_total id (e : el) : in_domain m id e -> id ∈ ids -> exists p, part_of ids epart e p /\ p < n.
  Proof.
    intros He Hi. assert (Hin : e ∈ visit_elems m ids) by (apply visit_elem; [apply Hndm|eauto]). apply elem_of_list_lookup in Hin as [k Hk].
    destruct (lookup_lt_is_Some_2 epart k) as [p Hp]; [rewrite Hlen; by eapply lookup_lt_Some|]. exists p. split; [by exists k|].
    rewrite Forall_forall in Hlt. apply Hlt. by eapply elem_of_list_lookup_2.
  Qed.
  Lemma outcome_ok t : t.1.2 ∈ ids ->
    (outcome sid sep t = None /\ findDomainElement m t.2 [t.1.2] = Ok None /\ forall e s, ~ attached_in t.1.2 t.2 e s) \/
    exists e s p, outcome sid sep t = Some (p, t.1.1, t.2) /\ findDomainElement m t.2 [t.1.2] = Ok (Some (e, s)) /\ attached_in t.1.2 t.2 e s /\ part_of ids epart e p /\ p < n /\
      lookup_el_part sid sep (el_id e) = Ok p.
  Proof.
    intros Ht. unfold outcome. destruct (find_dom_ok t.2 t.1.2) as [[-> Hn]|(e & s & -> & Ha)]; [by left|]. right.
    destruct (part_of_total t.1.2 e (proj1 Ha) Ht) as (p & Hp & Hpn). exists e, s, p. rewrite (Hlook e p Hp). eauto 10.
  Qed.
  Lemma attach_loop ps maps ts : rep orders n ps maps -> (forall x, x ∈ ps -> in_domain m x.1.2 x.2) ->
    (forall t, t ∈ ts -> t.1.2 ∈ ids /\ in_domain m t.1.1 t.2) ->
    exists maps', for_each (fun (t : nat * nat * el) (st : list doms * nat) => let '(b, id, e) := t in
                     r ← findDomainElement m e [id];
                     match r with
                     | Some (dom_el, _) => p ← lookup_el_part sid sep (el_id dom_el);
                                           maps ← push_part orders UB p b e st.1; Ok (maps, st.2 + 1)
                     | None => Ok st
                     end) ts (maps, 0) = Ok (maps', length (omap (outcome sid sep) ts)) /\ rep orders n (ps ++ omap (outcome sid sep) ts) maps'.
  Proof.
    intros Hr Hps Hts. set (f := fun (t : nat * nat * el) (st : list doms * nat) => _).
    destruct (for_each_inv f (fun pre st => rep orders n (ps ++ omap (outcome sid sep) pre) st.1 /\ st.2 = length (omap (outcome sid sep) pre)) ts [] (maps, 0)) as ([maps' k] & Hst & Hr' & Hk).
    - split; [|done]. cbn [omap list_omap fst]. by rewrite app_nil_r.
    - intros pre t st (post & Heq) [Hr1 Hk]. cbn [app] in Heq. assert (Ht : t ∈ ts) by (rewrite Heq, elem_of_app; right; left).
      destruct (Hts t Ht) as [Htid Hin]. rewrite omap_app. cbn [omap list_omap].
      destruct (outcome_ok t Htid) as [(Ho & Hf & _)|(e & s & p & Ho & Hf & _ & _ & Hp & Hlk)]; rewrite Ho; destruct t as [[b id] be]; unfold f; cbn [fst snd] in *.
      + rewrite Hf, bind_ok. exists st. split; [done|]. by rewrite app_nil_r.
      + rewrite Hf, bind_ok, Hlk, bind_ok. destruct (rep_push orders Hord UB n _ st.1 p b be Hr1 Hp) as (maps1 & Hm1 & Hr2).
        * by eapply in_slots.
        * intros e' He'. apply sel_elem, elem_of_app in He' as [He'|He'].
          -- apply Hps in He'. cbn in He'. by eapply same_dim.
          -- apply elem_of_list_omap in He' as (t' & Ht' & Ho'). assert (Ht2 : t' ∈ ts) by (rewrite Heq, elem_of_app; by left).
             destruct (Hts t' Ht2) as [Htid' Hin']. destruct (outcome_ok t' Htid') as [(Ho2 & _)|(? & ? & ? & Ho2 & _)]; rewrite Ho' in Ho2; [done|].
             injection Ho2 as _ -> ->. by eapply same_dim.
        * rewrite Hm1, bind_ok. eexists. split; [done|]. cbn [fst snd]. rewrite app_assoc. split; [done|]. rewrite app_length, Hk. cbn. lia.
    - cbn [app fst snd] in *. exists maps'. rewrite Hst. by subst k.
  Qed.
  Definition P (b id : nat) (e : el) : bool := bool_decide (is_Some (outcome sid sep (b, id, e))).
  Lemma outcome_tasks b l (es : list el) : (forall id, id ∈ l -> id ∈ ids) ->
    map snd (omap (outcome sid sep) (concat (map (fun id => map (fun e => (b, id, e)) es) l))) = concat (map (fun id => List.filter (P b id) es) l).
  Proof.
    induction l as [|id l IH]; intros Hl; [done|]. cbn [map concat]. rewrite omap_app, map_app, IH by (intros i Hi; apply Hl; by right). f_equal.
    assert (Hi : id ∈ ids) by (apply Hl; left). clear IH Hl. induction es as [|e es IH]; [done|]. cbn [map List.filter].
    change (omap (outcome sid sep) ((b, id, e) :: map (fun e => (b, id, e)) es)) with
      (match outcome sid sep (b, id, e) with Some x => x :: omap (outcome sid sep) (map (fun e => (b, id, e)) es) | None => omap (outcome sid sep) (map (fun e => (b, id, e)) es) end).
    unfold P at 1. destruct (outcome_ok (b, id, e) Hi) as [(Ho & _)|(? & ? & ? & Ho & _)]; rewrite Ho.
    - rewrite bool_decide_false by (by intros [? ?]). done.
    - rewrite bool_decide_true by (by eexists). cbn [map snd]. by rewrite IH.
  Qed.
  Lemma P_iff b id (e : el) : id ∈ ids -> P b id e = true <-> exists e' s, attached_in id e e' s.
  Proof.
    intros Hi. unfold P. rewrite bool_decide_eq_true. destruct (outcome_ok (b, id, e) Hi) as [(Ho & _ & Hn)|(e' & s & p & Ho & _ & Ha & _)]; rewrite Ho; cbn [fst snd] in *.
    - split; [by intros [? ?]|]. intros (e' & s & Ha). by destruct (Hn e' s).
    - split; [|by eexists]. intros _. eauto.
  Qed.
  End fix_sorted.

  Context (B : list nat) (HBnd : NoDup B) (HB : forall b, b ∈ B -> b ∈ m.*1) (Hpe : parents_exist m B)
    (Hpar : forall b d id d' dim, b ∈ B -> (b, d) ∈ m -> d_dim d = Some dim -> (id, d') ∈ m -> d_dim d' = Some (dim + 1) -> id ∈ ids).
  Lemma parent_ids b : b ∈ B -> NoDup (ids_of_dim m (bdim b + 1)) /\ (forall id, id ∈ ids_of_dim m (bdim b + 1) -> id ∈ ids) .
  Proof.
    intros Hb. split.
    - unfold ids_of_dim. pose proof Hndm as Hnd. clear -Hnd. induction m as [|[k d] l IH]; [constructor|]. cbn in Hnd. apply NoDup_cons in Hnd as [Hk Hnd]. cbn [List.filter snd].
      destruct (bool_decide _); [|by apply IH]. cbn [map fst]. constructor; [|by apply IH]. intros Hin. apply Hk. apply elem_of_list_fmap in Hin as ([k' d'] & -> & Hin).
      apply elem_of_list_In, filter_In in Hin as [Hin _]. apply elem_of_list_fmap. exists (k', d'). split; [done|]. by apply elem_of_list_In.
    - intros id Hi. apply ids_of_dim_elem in Hi as (d' & Hd' & Hdim'). pose proof (HB b Hb) as Hm. apply elem_of_list_fmap in Hm as ([b' d] & -> & Hd). cbn [fst] in *.
      destruct (Hpe b' d Hb Hd) as (dim & Hdim & _). eapply Hpar; [exact Hb|exact Hd|exact Hdim|exact Hd'|]. unfold bdim in Hdim'. rewrite (elem_dm_find _ _ _ Hndm Hd), Hdim in Hdim'. done.
  Qed.
  Lemma tasks_ids t : t ∈ concat (map tasks_of B) -> t.1.2 ∈ ids /\ in_domain m t.1.1 t.2 /\ t.1.1 ∈ B.
  Proof.
    intros Ht. apply elem_of_concat in Ht as (l & Ht & Hl). apply (elem_of_list_fmap tasks_of) in Hl as (b & -> & Hb).
    apply tasks_elem in Ht as (<- & Hin & d & Hd & Hdim). split; [|done]. apply (parent_ids t.1.1 Hb). apply ids_of_dim_elem. exists d. by rewrite (bdim_ok _ _ Hin).
  Qed.
  (** How many domains offer an element the side of which [e] is. *)
  Definition offers (e : el) (k : nat) : Prop := exists l, NoDup l /\ length l = k /\ forall id, id ∈ l <-> exists e' s, attached_in id e e' s.
  Lemma offers_filter sid sep b (e : el) : (forall e p, part_of ids epart e p -> lookup_el_part sid sep (el_id e) = Ok p) -> b ∈ B -> in_domain m b e ->
    forall k, offers e k <-> length (List.filter (fun id => P sid sep b id e) (ids_of_dim m (bdim b + 1))) = k.
  Proof.
    intros Hlook Hb He k. destruct (parent_ids b Hb) as [Hnd Hsub]. set (l := List.filter (fun id => P sid sep b id e) (ids_of_dim m (bdim b + 1))).
    assert (Hl : NoDup l) by (by apply NoDup_ListNoDup, List.NoDup_filter, NoDup_ListNoDup).
    assert (Hle : forall id, id ∈ l <-> exists e' s, attached_in id e e' s).
    { intros id. unfold l. rewrite elem_of_list_In, filter_In, <- elem_of_list_In. split.
      - intros [Hi Hp]. by apply (P_iff sid sep Hlook) in Hp; [|apply Hsub].
      - intros (e' & s & Ha). assert (Hi : id ∈ ids_of_dim m (bdim b + 1)). { apply ids_of_dim_elem. rewrite (bdim_ok b e He). by eapply attached_dim. }
        split; [done|]. apply (P_iff sid sep Hlook); [by apply Hsub|eauto]. }
    split.
    - intros (l' & Hnd' & <- & Hl'). apply Permutation_length, NoDup_Permutation; [done|done|]. intros id. by rewrite Hle, Hl'.
    - intros Hk. exists l. done.
  Qed.
  Lemma offers_fun (e : el) k k' : offers e k -> offers e k' -> k = k'.
  Proof. intros (l & Hn & <- & Hl) (l' & Hn' & <- & Hl'). apply Permutation_length, NoDup_Permutation; [done|done|]. intros id. by rewrite Hl, Hl'. Qed.

  Lemma filter_concat {A} (f : A -> bool) (ls : list (list A)) : List.filter f (concat ls) = concat (map (List.filter f) ls).
  Proof. induction ls as [|l ls IH]; [done|]. cbn [concat map]. by rewrite List.filter_app, IH. Qed.
  Lemma omap_concat {A C} (f : A -> option C) (ls : list (list A)) : omap f (concat ls) = concat (map (omap f) ls).
  Proof. induction ls as [|l ls IH]; [done|]. cbn [concat map]. by rewrite omap_app, IH. Qed.
  Lemma filter_all {A} (f : A -> bool) l : (forall a, a ∈ l -> f a = true) -> List.filter f l = l.
  Proof. induction l as [|a l IH]; intros H; [done|]. cbn. rewrite (H a) by left. f_equal. apply IH. intros b Hb. apply H. by right. Qed.
  Lemma filter_none {A} (f : A -> bool) l : (forall a, a ∈ l -> f a = false) -> List.filter f l = [].
  Proof. induction l as [|a l IH]; intros H; [done|]. cbn. rewrite (H a) by left. apply IH. intros b Hb. apply H. by right. Qed.
  Lemma pick_block {A} (g : nat -> list A) l (f : nat -> A -> bool) b : NoDup l -> b ∈ l -> (forall b' x, b' ∈ l -> x ∈ g b' -> f b x = (b' =? b)) ->
    List.filter (f b) (concat (map g l)) = g b.
  Proof.
    intros Hnd Hb Hf. induction l as [|a l IH]; [by apply elem_of_nil in Hb|]. apply NoDup_cons in Hnd as [Ha Hnd]. cbn [map concat]. rewrite List.filter_app.
    apply elem_of_cons in Hb as [<-|Hb].
    - rewrite filter_all. 2:{ intros x Hx. rewrite (Hf b x ltac:(left) Hx). apply Nat.eqb_refl. }
      rewrite filter_none; [by rewrite app_nil_r|]. intros x Hx. apply elem_of_concat in Hx as (k & Hx & Hk). apply (elem_of_list_fmap g) in Hk as (b' & -> & Hb').
      rewrite (Hf b' x ltac:(by right) Hx). apply Nat.eqb_neq. intros ->. done.
    - rewrite (filter_none (f b) (g a)). 2:{ intros x Hx. rewrite (Hf a x ltac:(left) Hx). apply Nat.eqb_neq. intros ->. done. }
      cbn [app]. apply IH; [done|done|]. intros b' x Hb' Hx. apply Hf; [by right|done].
  Qed.
  Definition bcounts (c : el -> nat) : nat := sum (map c (visit_elems m B)).
  Lemma assign_gen std_sort sched ps maps (c : el -> nat) : sorts_indices std_sort -> (forall l, sched l ≡ₚ l) ->
    rep orders n ps maps -> (forall x, x ∈ ps -> in_domain m x.1.2 x.2) -> (forall b e, b ∈ B -> in_domain m b e -> offers e (c e)) ->
    if bcounts c =? length (visit_elems m B)
    then exists bps maps', assignBoundaryElements orders std_sort sched m epart maps ids B = Ok maps' /\ rep orders n (ps ++ bps) maps' /\
      (forall x, x ∈ bps -> x.1.2 ∈ B /\ in_domain m x.1.2 x.2 /\ exists id e s, id ∈ ids /\ attached_in id x.2 e s /\ part_of ids epart e x.1.1 /\ x.1.1 < n) /\
      ((forall b e, b ∈ B -> in_domain m b e -> c e = 1) -> forall b, b ∈ B -> map snd (List.filter (fun x => x.1.2 =? b) bps) ≡ₚ visit_elems m [b])
    else assignBoundaryElements orders std_sort sched m epart maps ids B = Throw.
  Proof.
    intros Hss Hsched Hr Hps Hc. unfold assignBoundaryElements. destruct (lookup_part_ok std_sort ids epart Hss Hid Hlen) as (sid & sep & -> & -> & Hlook).
    rewrite !bind_ok. rewrite tasks_ok by done. rewrite bind_ok. set (T := concat (map tasks_of B)).
    destruct (attach_loop sid sep Hlook ps maps (sched T) Hr Hps) as (maps' & -> & Hr').
    { intros t Ht. rewrite Hsched in Ht. apply tasks_ids in Ht as (? & ? & _). done. }
    rewrite bind_ok. cbn [fst snd]. set (bps := omap (outcome sid sep) (sched T)) in *.
    assert (Hbps : bps ≡ₚ omap (outcome sid sep) T) by (unfold bps; by rewrite Hsched).
    assert (HoT : omap (outcome sid sep) T = concat (map (fun b => omap (outcome sid sep) (tasks_of b)) B)) by (unfold T; by rewrite omap_concat, map_map).
    assert (Hblock : forall b, b ∈ B -> map snd (omap (outcome sid sep) (tasks_of b)) = concat (map (fun id => List.filter (P sid sep b id) (visit_elems m [b])) (ids_of_dim m (bdim b + 1)))).
    { intros b Hb. unfold tasks_of. apply outcome_tasks; [done|]. apply (parent_ids b Hb). }
    assert (Hcf : forall b e, b ∈ B -> e ∈ visit_elems m [b] -> length (List.filter (fun id => P sid sep b id e) (ids_of_dim m (bdim b + 1))) = c e).
    { intros b e Hb He. apply visit1 in He. apply (offers_filter sid sep b e Hlook Hb He). by apply (Hc b). }
    assert (Hcount : length bps = bcounts c).
    { rewrite (Permutation_length Hbps), HoT. unfold bcounts. rewrite visit_concat1. clear Hbps HoT bps Hr' T Hps Hr.
      assert (Hsub : forall b, b ∈ B -> b ∈ B) by done. revert Hsub. generalize B at 1 3 4. intros l. induction l as [|b l IH]; intros Hsub; [done|].
      cbn [map concat]. rewrite app_length, map_app, sum_app, IH by (intros; apply Hsub; by right). f_equal.
      assert (Hb : b ∈ B) by (apply Hsub; left). rewrite <- (map_length snd), Hblock by done. rewrite pick_sum. f_equal. apply map_ext_in. intros e He. apply Hcf; [done|by apply elem_of_list_In]. }
    rewrite Hcount. destruct (Nat.eqb_spec (bcounts c) (length (visit_elems m B))) as [_|_]; [|done].
    change (throwing_assert true) with (Ok tt). rewrite bind_ok. exists bps, maps'. split; [done|]. split; [done|]. split.
    - intros x Hx. rewrite Hbps in Hx. apply elem_of_list_omap in Hx as (t & Ht & Ho). pose proof (tasks_ids t Ht) as (Htid & Hin & Hb).
      destruct (outcome_ok sid sep Hlook t Htid) as [(Ho2 & _)|(e & s & p & Ho2 & _ & Ha & Hpo & Hpn & _)]; [congruence|]. rewrite Ho2 in Ho. injection Ho as <-. cbn [fst snd].
      split; [done|]. split; [done|]. exists t.1.2, e, s. done.
    - intros H1 b Hb. rewrite (Permutation_map snd (filter_perm' (fun x : nat * nat * el => x.1.2 =? b) _ _ Hbps)), HoT.
      rewrite (pick_block (fun b => omap (outcome sid sep) (tasks_of b)) B (fun b (x : nat * nat * el) => x.1.2 =? b) b HBnd Hb).
      + rewrite Hblock by done. apply pick_perm. intros e He. rewrite Hcf by done. apply (H1 b); [done|]. by apply visit1.
      + intros b' x Hb' Hx. apply elem_of_list_omap in Hx as (t & Ht & Ho). apply tasks_elem in Ht as Ht'. destruct Ht' as (Htb & _).
        assert (HtT : t ∈ T). { apply elem_of_concat. exists (tasks_of b'). split; [done|]. by apply (elem_of_list_fmap_1 tasks_of). }
        apply tasks_ids in HtT as (Htid & _). destruct (outcome_ok sid sep Hlook t Htid) as [(Ho2 & _)|(? & ? & ? & Ho2 & _)]; [congruence|].
        rewrite Ho2 in Ho. injection Ho as <-. cbn [fst snd]. by rewrite Htb.
  Qed.
End assign.
