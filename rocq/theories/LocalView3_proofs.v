(** The local mesh view and the node order. *)
From Verif Require Import Base StdAlgo Ownership_model Ownership_proofs Elem_model Elem_spec Elem_proofs Mesh_model Mesh_spec Mesh_proofs Merge_proofs LocalView_model LocalView_spec LocalView_proofs LocalView2_proofs.
Local Arguments Nat.mul : simpl never.
Local Arguments Nat.add : simpl never.
Local Arguments Nat.sub : simpl never.

(** ** The sides of an element *)
Lemma last_entry_app l l' s b : last_entry (l ++ l') s b <-> last_entry l' s b \/ (s ∉ l'.*1 /\ last_entry l s b).
Proof.
  split.
  - intros (pre & post & E & Hn). apply app_eq_app in E as [k [[E1 E2]|[E1 E2]]].
    + destruct k as [|x k]; [cbn in E2; left; exists [], post; by rewrite <- E2|]. cbn in E2. injection E2 as <- ->. right. rewrite fmap_app in Hn. apply not_elem_of_app in Hn as [Hn1 Hn2]. split; [done|]. by exists pre, k.
    + left. exists k, post. split; [done|done].
  - intros [(pre & post & -> & Hn)|(Hn & pre & post & -> & Hn')].
    + exists (l ++ pre), post. by rewrite <- app_assoc.
    + exists pre, (post ++ l'). rewrite <- app_assoc. split; [done|]. rewrite fmap_app. apply not_elem_of_app. done.
Qed.
Lemma last_entry_const l s b b0 : (forall x, x ∈ l -> x.2 = b0) -> last_entry l s b <-> b = b0 /\ s ∈ l.*1.
Proof.
  intros H. split.
  - intros (pre & post & -> & _). assert (Hin : (s, b) ∈ pre ++ (s, b) :: post) by (apply elem_of_app; right; left). split; [by apply (H _ Hin)|]. by apply (elem_of_list_fmap_1 fst) in Hin.
  - intros [-> Hs]. induction l as [|x l IH] using rev_ind; [by apply elem_of_nil in Hs|]. apply last_entry_app. destruct x as [s' b']. assert (b' = b0) as -> by (apply (H (s', b')), elem_of_app; right; left). destruct (decide (s' = s)) as [->|Hne].
    + left. exists [], []. split; [done|]. apply not_elem_of_nil.
    + right. rewrite fmap_app in Hs. split; [intros Hi; by apply elem_of_list_singleton in Hi|]. apply IH; [intros; apply H, elem_of_app; by left|]. apply elem_of_app in Hs as [Hs|Hs]; [done|]. by apply elem_of_list_singleton in Hs.
Qed.
Section sides.
  Context {V : Type}.
  Notation el := (element V).
  Definition bnd_sides (id : nat) (b : nat * list (el * nat)) : list (nat * nat) := map (fun v => (v.2, b.1)) (List.filter (fun v => el_id v.1 =? id) b.2).
  Lemma side_inner id b (vs : list (el * nat)) m : default [] (dm_find id (foldl (fun r (v : el * nat) => hm_upd (el_id v.1) [] (fun l => l ++ [(v.2, b)]) r) m vs)) = default [] (dm_find id m) ++ bnd_sides id (b, vs).
  Proof.
    revert m. induction vs as [|v vs IH]; intros m; cbn [foldl]; [cbn; by rewrite app_nil_r|]. rewrite IH, hm_upd_find. unfold bnd_sides. cbn [snd fst List.filter]. destruct (Nat.eqb_spec id (el_id v.1)) as [E|E].
    - rewrite <- E, Nat.eqb_refl. change (default [] (Some ?y)) with y. by rewrite <- app_assoc.
    - destruct (Nat.eqb_spec (el_id v.1) id); [congruence|done].
  Qed.
  Lemma side_map_find id (m : mesh V) : default [] (dm_find id (side_map m)) = concat (map (bnd_sides id) (m_bnds m)).
  Proof.
    unfold side_map. assert (HG : forall bs r, default [] (dm_find id (foldl (fun r (b : nat * list (el * nat)) => foldl (fun r (v : el * nat) => hm_upd (el_id v.1) [] (fun l => l ++ [(v.2, b.1)]) r) r b.2) r bs)) = default [] (dm_find id r) ++ concat (map (bnd_sides id) bs)); [|apply HG].
    induction bs as [|[b vs] bs IH]; intros r; cbn [foldl map concat]; [by rewrite app_nil_r|]. rewrite IH, app_assoc. f_equal. cbn [fst snd]. apply side_inner.
  Qed.
  Lemma bnd_sides_elem id b vs s : s ∈ (bnd_sides id (b, vs)).*1 <-> exists e : el, (e, s) ∈ vs /\ el_id e = id.
  Proof.
    unfold bnd_sides. cbn [fst snd]. rewrite elem_of_list_fmap. split.
    - intros ([s' b'] & -> & Hin). apply (elem_of_list_fmap (fun v : el * nat => (v.2, b))) in Hin as ([e s] & [= -> ->] & Hin). apply filter_elem in Hin as [Hin E]. exists e. split; [done|]. by apply Nat.eqb_eq.
    - intros (e & Hin & E). exists (s, b). split; [done|]. apply (elem_of_list_fmap (fun v : el * nat => (v.2, b))). exists (e, s). split; [done|]. apply filter_elem. split; [done|]. by apply Nat.eqb_eq.
  Qed.
  Lemma last_entry_bnds id (bs : dmap (list (el * nat))) s b : StronglySorted lt bs.*1 ->
    last_entry (concat (map (bnd_sides id) bs)) s b <-> (exists vs e, (b, vs) ∈ bs /\ (e, s) ∈ vs /\ el_id e = id) /\ forall b', (exists vs e, (b', vs) ∈ bs /\ (e, s) ∈ vs /\ el_id e = id) -> b' <= b.
  Proof.
    induction bs as [|[b0 vs0] bs IH] using rev_ind; intros Hs.
    - cbn. split; [intros (pre & post & E & _); by destruct pre|]. intros [(vs & e & H & _) _]. by apply elem_of_nil in H.
    - rewrite map_app, concat_app. cbn [map concat]. rewrite app_nil_r, last_entry_app. rewrite (last_entry_const _ s b b0) by (intros x Hx; unfold bnd_sides in Hx; apply (elem_of_list_fmap (fun v : el * nat => (v.2, b0))) in Hx as (v & -> & _); done).
      rewrite bnd_sides_elem. rewrite fmap_app in Hs. cbn in Hs. assert (Hs1 : StronglySorted lt bs.*1). { clear -Hs. induction bs.*1 as [|x l IH]; [constructor|]. cbn in Hs. inversion Hs as [|? ? Hs' Hf]; subst. constructor; [by apply IH|]. by apply Forall_app in Hf as [? _]. }
      assert (Hlt : forall b1 vs, (b1, vs) ∈ bs -> b1 < b0). { intros b1 vs Hin. apply (elem_of_list_fmap_1 fst) in Hin. cbn in Hin. revert Hs Hin. generalize (bs.*1). clear. induction l as [|x l IH]; intros Hs Hin; [by apply elem_of_nil in Hin|]. cbn in Hs. inversion Hs as [|? ? Hs' Hf]; subst. apply elem_of_cons in Hin as [->|Hin]; [|by apply IH]. apply Forall_app in Hf as [_ Hf]. by inversion Hf. }
      rewrite IH by done. split.
      + intros [[-> (e & Hin & E)]|[Hno [(vs & e & H1 & H2 & H3) Hmax]]].
        * split; [exists vs0, e; split; [apply elem_of_app; right; left|done]|]. intros b' (vs & e' & H & _). apply elem_of_app in H as [H|H]; [apply Hlt in H; lia|]. apply elem_of_list_singleton in H as [= -> _]. done.
        * split; [exists vs, e; split; [apply elem_of_app; by left|done]|]. intros b' (vs' & e' & H & H'). apply elem_of_app in H as [H|H]; [apply Hmax; by exists vs', e'|]. apply elem_of_list_singleton in H as [= -> ->]. destruct Hno. by exists e'.
      + intros [(vs & e & H1 & H2 & H3) Hmax]. apply elem_of_app in H1 as [H1|H1].
        * right. split; [|split; [by exists vs, e|]].
          -- intros (e' & Hin & E). assert (b0 <= b) by (apply Hmax; exists vs0, e'; split; [apply elem_of_app; right; left|done]). apply Hlt in H1. lia.
          -- intros b' (vs' & e' & Ha & Hb). apply Hmax. exists vs', e'. split; [apply elem_of_app; by left|done].
        * apply elem_of_list_singleton in H1 as [= -> ->]. left. split; [done|]. by exists e.
  Qed.
End sides.

(** ** Views of a whole mesh *)
Section mview.
  Context {V : Type}.
  Notation el := (element V).
  Lemma map_known_local own ns : good_own own -> Forall (known own) ns -> Forall2 (local_index own) ns (map (getLocalIndex own) ns).
  Proof. intros Hg. induction 1; constructor; [by apply known_local|done]. Qed.
  Lemma view_ok own (e : el) sides : typed_el e -> good_own own -> NoDup (el_nodes e) -> Forall (known own) (el_nodes e) ->
    forall lv, make_view own e sides = Ok lv -> getLocalNodes lv = Ok (map (getLocalIndex own) (el_nodes e)) /\
      lv_type lv = el_type e /\ lv_order lv = el_order e /\ lv_verts lv = el_verts e /\ (forall x, x ∈ sides -> x.1 < n_sides (el_type e)) /\ (forall s b, (s, b) ∈ getBoundaries lv <-> last_entry sides s b).
  Proof.
    intros Ht Hg Hn Hk lv. rewrite make_view_eq by done. destruct (optimize_internal (el_type e) (el_order e) && negb (consec_check own e)) eqn:E1; [done|]. destruct (forallb _ sides) eqn:E2; [|done]. intros [= <-]. cbn [lv_type lv_order lv_verts].
    assert (HS : forall x, x ∈ sides -> x.1 < n_sides (el_type e)). { rewrite forallb_forall in E2. intros x Hx. apply elem_of_list_In, E2 in Hx. by apply Nat.ltb_lt. }
    split; [|split; [done|split; [done|split; [done|split; [done|]]]]].
    - apply get_nodes_ok; [done|]. intros Eo. rewrite Eo in E1. cbn in E1. apply negb_false_iff in E1. apply consec_iff in E1; [done..|]. unfold optimize_internal in Eo. apply Nat.ltb_lt in Eo. lia.
    - intros s b. rewrite get_boundaries_elem. cbn [lv_sides]. by apply stored_sides_lookup.
  Qed.
  Lemma view_exists own (e : el) sides : typed_el e -> good_own own -> NoDup (el_nodes e) -> Forall (known own) (el_nodes e) ->
    make_view own e sides <> UB /\ ((exists lv, make_view own e sides = Ok lv) <-> (1 < length (internal_node_inds (el_type e) (el_order e)) -> interior_consecutive own e) /\ forall x, x ∈ sides -> x.1 < n_sides (el_type e)).
  Proof.
    intros Ht Hg Hn Hk. rewrite make_view_eq by done. split; [by repeat case_match|]. unfold optimize_internal. destruct (Nat.ltb_spec 1 (length (internal_node_inds (el_type e) (el_order e)))) as [Hl|Hl]; cbn [andb].
    - rewrite <- consec_spec by (done || lia). destruct (consec_check own e); cbn [negb].
      + destruct (forallb _ sides) eqn:E2.
        * rewrite forallb_forall in E2. split; [|eauto]. intros _. split; [done|]. intros x Hx. apply elem_of_list_In, E2 in Hx. by apply Nat.ltb_lt.
        * split; [by intros [? ?]|]. intros [_ H]. assert (forallb (fun x : nat * nat => x.1 <? n_sides (el_type e)) sides = true); [|congruence]. apply forallb_forall. intros x Hx. apply Nat.ltb_lt, H. by apply elem_of_list_In.
      + split; [by intros [? ?]|]. intros [H _]. by specialize (H Hl).
    - destruct (forallb _ sides) eqn:E2.
      + rewrite forallb_forall in E2. split; [|eauto]. intros _. split; [lia|]. intros x Hx. apply elem_of_list_In, E2 in Hx. by apply Nat.ltb_lt.
      + split; [by intros [? ?]|]. intros [_ H]. assert (forallb (fun x : nat * nat => x.1 <? n_sides (el_type e)) sides = true); [|congruence]. apply forallb_forall. intros x Hx. apply Nat.ltb_lt, H. by apply elem_of_list_In.
  Qed.
  Context (shuf : list (nat * nat) -> list (nat * nat)) (Hshuf : forall l, shuf l ≡ₚ l) (maxu : nat).
  Context (orders : list nat) (part full : mesh V).
  Context (Hdoms : valid_doms orders (m_domains part)) (Hids : unique_ids (m_domains part)) (Hbnds : valid_bnds part) (Hown : good_own (m_own full)).
  Notation viewable := (viewable (m_own full)).
  Lemma to_local (e : el) : is_elem (m_domains part) e -> viewable e -> typed_el e -> exists lv, element_to_local part full e = Ok lv /\ getLocalNodes lv = Ok (map (getLocalIndex (m_own full)) (el_nodes e)) /\ represents part (m_own full) e lv.
  Proof using Hids Hbnds Hown.
    intros He (Hn & Hk & Hc) Ht. unfold element_to_local. rewrite side_map_find. destruct Hbnds as [Hs Hv]. set (sides := concat (map (bnd_sides (el_id e)) (m_bnds part))).
    assert (HS : forall x, x ∈ sides -> x.1 < n_sides (el_type e)).
    { intros [s b] Hx. unfold sides in Hx. apply elem_of_concat in Hx as (l & Hx & Hl). apply (elem_of_list_fmap (bnd_sides (el_id e))) in Hl as ([b' vs] & -> & Hin). apply (elem_of_list_fmap_1 fst), bnd_sides_elem in Hx as (e' & Hx & E). cbn in Hx. cbn [fst].
      destruct (Hv b' vs e' s Hin Hx) as ((id & d & v & H) & Hlt). rewrite <- (Hids e' e); [done| |done|done]. exists id, d, v. done. }
    destruct (view_exists (m_own full) e sides Ht Hown Hn Hk) as [_ HX]. destruct (proj2 HX (conj Hc HS)) as [lv Elv]. exists lv. split; [done|]. destruct (view_ok (m_own full) e sides Ht Hown Hn Hk lv Elv) as (H1 & H2 & H3 & H4 & _ & H5). split; [done|].
    split; [done|]. split; [done|]. split; [done|]. split; [eexists; split; [done|by apply map_known_local]|]. split; [apply get_boundaries_sorted|]. intros s b. rewrite H5. unfold sides. rewrite last_entry_bnds by done. done.
  Qed.
  Lemma vec_ok (v : list el) c : (forall e, e ∈ v -> is_elem (m_domains part) e /\ viewable e /\ typed_el e /\ length (el_nodes e) * length v < maxu) ->
    exists w c', make_vec_view shuf maxu part full v c = Ok (w, c') /\ exists w0, w ≡ₚ w0 /\ Forall2 (represents part (m_own full)) v w0.
  Proof using Hshuf Hids Hbnds Hown.
    intros H. assert (HM : exists w0, map_res (element_to_local part full) v = Ok w0 /\ Forall2 (represents part (m_own full)) v w0 /\ map_res getLocalNodes w0 = Ok (map (fun e => map (getLocalIndex (m_own full)) (el_nodes e)) v)).
    { assert (H' : forall e, e ∈ v -> is_elem (m_domains part) e /\ viewable e /\ typed_el e) by (intros e He; destruct (H e He) as (? & ? & ? & _); done). clear H. induction v as [|e v IH]; [by exists []|].
      destruct IH as (w0 & E1 & F & E2); [intros; apply H'; by right|]. destruct (H' e) as (Ha & Hb & Hc); [left|]. destruct (to_local e Ha Hb Hc) as (lv & El & En & Hr). exists (lv :: w0). cbn [map_res map]. rewrite El, bind_ok, E1, bind_ok, En, bind_ok, E2. split; [done|]. split; [by constructor|done]. }
    destruct HM as (w0 & E1 & F & E2). unfold make_vec_view. destruct v as [|e v]; [inversion F; subst; exists [], c; split; [done|]; by exists []|]. rewrite E1, bind_ok.
    destruct (reorder_ok shuf Hshuf maxu getLocalNodes w0 _ c E2) as (r & c' & Er & HP).
    - apply Forall_forall. intros ns Hns. apply (elem_of_list_fmap (fun e => map (getLocalIndex (m_own full)) (el_nodes e))) in Hns as (e' & -> & He'). rewrite !map_length. by apply H.
    - exists r, c'. split; [done|]. by exists w0.
  Qed.
  Notation shown := (fun id => id ∉ (m_bnds part).*1).
  Context (Hviews : forall id d v e, (id, d) ∈ m_domains part -> shown id -> v ∈ d_els d -> e ∈ v -> viewable e /\ length (el_nodes e) * length v < maxu).
  Notation vec_view := (vec_view part (m_own full)).
  Lemma dom_ok id d c : (id, d) ∈ m_domains part -> shown id -> exists ws c', for_each (fun v (r : list (list (lview V)) * list (nat * nat)) => vc ← make_vec_view shuf maxu part full v r.2; Ok (r.1 ++ [vc.1], vc.2)) (d_els d) ([], c) = Ok (ws, c') /\ Forall2 vec_view (d_els d) ws.
  Proof using Hshuf Hids Hbnds Hown Hdoms Hviews.
    intros Hd Hs. assert (HG : forall vs, (forall v, v ∈ vs -> v ∈ d_els d) -> forall acc c, exists ws c', for_each (fun v (r : list (list (lview V)) * list (nat * nat)) => vc ← make_vec_view shuf maxu part full v r.2; Ok (r.1 ++ [vc.1], vc.2)) vs (acc, c) = Ok (acc ++ ws, c') /\ Forall2 vec_view vs ws).
    { induction vs as [|v vs IH]; intros Hvs acc c0; [exists [], c0; by rewrite app_nil_r|]. cbn [for_each snd fst]. destruct (vec_ok v c0) as (w & c1 & Ew & Hw).
      - intros e He. assert (Hv : v ∈ d_els d) by (apply Hvs; left). split; [by exists id, d, v|]. destruct (Hviews id d v e Hd Hs Hv He) as [H1 H2]. split; [done|]. split; [|done].
        destruct Hdoms as [_ HF]. pose proof (proj1 (Forall_forall _ _) HF _ Hd) as [HT _]. cbn in HT. apply elem_of_list_lookup in Hv as [i Hi]. destruct (Forall2_lookup_r _ _ _ _ _ HT Hi) as (s & _ & Hf). by apply (proj1 (Forall_forall _ _) Hf e He).
      - rewrite Ew, !bind_ok. cbn [fst snd]. destruct (IH ltac:(intros; apply Hvs; by right) (acc ++ [w]) c1) as (ws & c2 & E & F). exists (w :: ws), c2. rewrite E, <- app_assoc. split; [done|]. by constructor. }
    apply (HG (d_els d) (fun _ H => H) [] c).
  Qed.
  Lemma dm_set_end {A} k (a : A) m : Forall (fun x => x.1 < k) m -> dm_set k a m = m ++ [(k, a)].
  Proof using. induction 1 as [|[k' a'] m Hk Hm IH]; [done|]. cbn in Hk. cbn [dm_set app]. destruct (Nat.ltb_spec k k'); [lia|]. destruct (Nat.eqb_spec k k'); [lia|]. by rewrite IH. Qed.
  Lemma search_bnds id : binary_search (m_bnds part).*1 id = bool_decide (id ∈ (m_bnds part).*1).
  Proof using Hbnds.
    destruct Hbnds as [Hs _]. pose proof (binary_search_spec _ id (strict_sorted _ Hs)) as H. clear -H. destruct (binary_search _ _); case_bool_decide; naive_solver.
  Qed.
  Lemma mview_ok : exists mv, make_mview shuf maxu part full = Ok mv /\ mv_dims mv = map (fun d => (d.1, d_dim d.2)) (m_domains part) /\
    (mv_domains mv).*1 = List.filter (fun id => negb (bool_decide (id ∈ (m_bnds part).*1))) (m_domains part).*1 /\
    (forall id d, (id, d) ∈ m_domains part -> shown id -> exists ws, (id, ws) ∈ mv_domains mv /\ Forall2 vec_view (d_els d) ws) /\
    mv_owned_limit mv = (if numOwned (m_own part) =? 0 then 0 else getLocalIndex (m_own full) (so_end (m_own part) - 1) + 1).
  Proof using Hshuf Hids Hbnds Hown Hdoms Hviews.
    unfold make_mview. cbv zeta. set (owned := seq (so_begin (m_own part)) (numOwned (m_own part))). assert (El : match owned with [] => Ok 0 | _ => b ← rd owned (length owned - 1); Ok (getLocalIndex (m_own full) b + 1) end = Ok (if numOwned (m_own part) =? 0 then 0 else getLocalIndex (m_own full) (so_end (m_own part) - 1) + 1)).
    { unfold owned. clear owned. destruct (numOwned (m_own part)) as [|k] eqn:Ek; [done|]. cbn [seq]. change (so_begin (m_own part) :: seq (S (so_begin (m_own part))) k) with (seq (so_begin (m_own part)) (S k)). rewrite seq_length. replace (S k - 1) with k by lia.
      rewrite (rd_ok _ k (so_begin (m_own part) + k)) by (apply lookup_seq; lia). rewrite bind_ok. unfold numOwned in Ek. replace (so_begin (m_own part) + k) with (so_end (m_own part) - 1) by lia. done. }
    rewrite El, bind_ok. set (body := fun (d : nat * domain V) (st : dmap (list (list (lview V))) * list (nat * nat)) =>
           if binary_search (m_bnds part).*1 d.1 then Ok st
           else
             r ← for_each (fun v (r : list (list (lview V)) * list (nat * nat)) => vc ← make_vec_view shuf maxu part full v r.2; Ok (r.1 ++ [vc.1], vc.2)) (d_els d.2) ([], st.2);
             Ok (dm_set d.1 r.1 st.1, r.2)).
    assert (HG : forall ds, (forall x, x ∈ ds -> x ∈ m_domains part) -> StronglySorted lt ds.*1 -> forall acc c, Forall (fun x => Forall (fun y => x.1 < y) ds.*1) acc ->
      exists ws c', for_each body ds (acc, c) = Ok (acc ++ ws, c') /\ ws.*1 = List.filter (fun id => negb (bool_decide (id ∈ (m_bnds part).*1))) ds.*1 /\
        (forall id d, (id, d) ∈ ds -> shown id -> exists w, (id, w) ∈ ws /\ Forall2 vec_view (d_els d) w)).
    { induction ds as [|[id d] ds IH]; intros Hin Hs acc c Hacc.
      - exists [], c. rewrite app_nil_r. split; [done|]. split; [done|]. intros id d H. by apply elem_of_nil in H.
      - cbn in Hs. inversion Hs as [|? ? Hs' Hf]; subst. cbn [for_each]. unfold body at 2. cbn [fst snd]. rewrite search_bnds. case_bool_decide as Hb.
        + rewrite bind_ok. destruct (IH ltac:(intros; apply Hin; by right) Hs' acc c) as (ws & c' & E & Hk & Hv).
          { eapply Forall_impl; [exact Hacc|]. intros x Hx. cbn in Hx. by inversion Hx. }
          exists ws, c'. split; [done|]. split; [cbn [fmap list_fmap List.filter fst]; rewrite (bool_decide_eq_true_2 _ Hb); done|]. intros id' d' Hd' Hsh. apply elem_of_cons in Hd' as [[= -> ->]|Hd']; [done|]. by apply Hv.
        + destruct (dom_ok id d c) as (w & c1 & Ew & Hw); [apply Hin; left|done|]. rewrite Ew, !bind_ok. cbn [fst snd]. rewrite dm_set_end.
          2:{ eapply Forall_impl; [exact Hacc|]. intros x Hx. cbn in Hx. by inversion Hx. }
          destruct (IH ltac:(intros; apply Hin; by right) Hs' (acc ++ [(id, w)]) c1) as (ws & c' & E & Hk & Hv).
          { apply Forall_app. split; [eapply Forall_impl; [exact Hacc|]; intros x Hx; cbn in Hx; by inversion Hx|]. by constructor. }
          exists ((id, w) :: ws), c'. rewrite E, <- app_assoc. split; [done|]. split; [cbn [fmap list_fmap List.filter fst]; rewrite (bool_decide_eq_false_2 _ Hb); cbn [negb]; f_equal; exact Hk|].
          intros id' d' Hd' Hsh. apply elem_of_cons in Hd' as [[= -> ->]|Hd']; [exists w; split; [left|done]|]. destruct (Hv id' d' Hd' Hsh) as (w' & ? & ?). exists w'. split; [by right|done]. }
    destruct (HG (m_domains part) (fun _ H => H) (proj1 Hdoms) [] []) as (ws & c' & E & Hk & Hv); [constructor|]. rewrite E, bind_ok. cbn [fst snd app]. eexists. split; [done|]. cbn [mv_dims mv_domains mv_owned_limit]. done.
  Qed.
End mview.

(** ** computeNodeOrder *)
Section order.
  Context {V : Type}.
  Notation el := (element V).
  Lemma mark_inv (e : el) vec vec' : mark_internal_nodes e vec = Ok vec' -> NoDup vec -> exists ns, getInternalNodes e = Ok ns /\ vec' = vec ++ ns /\ NoDup vec'.
  Proof.
    unfold mark_internal_nodes. intros H Hn. apply bind_inv in H as (ns & Ens & H). exists ns. split; [done|]. clear Ens. revert vec H Hn. induction ns as [|n ns IH]; intros vec H Hn; cbn [for_each] in H.
    - injection H as <-. by rewrite app_nil_r.
    - destruct (bool_decide (n ∈ vec)) eqn:E; [done|]. change (throwing_assert (negb false)) with (Ok tt) in H. rewrite !bind_ok in H. apply bool_decide_eq_false in E. apply IH in H as [-> Hn'].
      + rewrite <- app_assoc in *. done.
      + apply NoDup_app. split; [done|]. split; [|apply NoDup_singleton]. intros x Hx Hy. by apply elem_of_list_singleton in Hy as ->.
  Qed.
  Lemma marks_inv (es : list el) vec vec' : for_each mark_internal_nodes es vec = Ok vec' -> NoDup vec -> NoDup vec' /\ (exists r, vec' = vec ++ r) /\ forall e, e ∈ es -> exists pre ns post, getInternalNodes e = Ok ns /\ vec' = pre ++ ns ++ post.
  Proof.
    revert vec. induction es as [|e es IH]; intros vec H Hn; cbn [for_each] in H.
    - injection H as <-. split; [done|]. split; [exists []; by rewrite app_nil_r|]. intros e He. by apply elem_of_nil in He.
    - apply bind_inv in H as (v1 & H1 & H). apply mark_inv in H1 as (ns & En & -> & Hn1); [|done]. apply IH in H as (Hn' & [r ->] & H); [|done]. split; [done|]. split; [exists (ns ++ r); by rewrite app_assoc|].
      intros e' He'. apply elem_of_cons in He' as [->|He']; [|by apply H]. exists vec, ns, r. by rewrite app_assoc.
  Qed.
  Definition mark_domains (md : nat) := fun (d : nat * domain V) vec => if default 255 (d_dim d.2) =? md then for_each mark_internal_nodes (concat (d_els d.2)) vec else Ok vec.
  Lemma mark_domains_inv md (ds : dmap (domain V)) vec vec' : for_each (mark_domains md) ds vec = Ok vec' -> NoDup vec -> NoDup vec' /\ (exists r, vec' = vec ++ r) /\
    forall id d e, (id, d) ∈ ds -> default 255 (d_dim d) = md -> e ∈ concat (d_els d) -> exists pre ns post, getInternalNodes e = Ok ns /\ vec' = pre ++ ns ++ post.
  Proof.
    revert vec. induction ds as [|[id d] ds IH]; intros vec H Hn; cbn [for_each] in H.
    - injection H as <-. split; [done|]. split; [exists []; by rewrite app_nil_r|]. intros i d e He. by apply elem_of_nil in He.
    - apply bind_inv in H as (v1 & H1 & H). unfold mark_domains in H1. cbn [snd] in H1. destruct (Nat.eqb_spec (default 255 (d_dim d)) md) as [Ed|Ed].
      + apply marks_inv in H1 as (Hn1 & [r1 ->] & H1); [|done]. apply IH in H as (Hn' & [r ->] & H); [|done]. split; [done|]. split; [exists (r1 ++ r); by rewrite app_assoc|].
        intros id' d' e Hin Hd He. apply elem_of_cons in Hin as [[= -> ->]|Hin]; [|by eapply H]. destruct (H1 e He) as (pre & ns & post & En & E). exists pre, ns, (post ++ r). split; [done|]. rewrite E, <- !app_assoc. done.
      + injection H1 as <-. apply IH in H as (Hn' & Hr & H); [|done]. split; [done|]. split; [done|]. intros id' d' e Hin Hd He. apply elem_of_cons in Hin as [[= -> ->]|Hin]; [done|]. by eapply H.
  Qed.
  Lemma filter_neg_perm (p : nat -> bool) l : l ≡ₚ List.filter (fun x => negb (p x)) l ++ List.filter p l.
  Proof. induction l as [|a l IH]; [done|]. cbn. destruct (p a); cbn; [rewrite <- Permutation_middle|]; by constructor. Qed.
  Lemma order_ok (m : mesh V) order : computeNodeOrder m = Ok order ->
    exists vec others, order = others ++ vec ++ so_shared (m_own m) /\ others ++ vec ≡ₚ seq (so_begin (m_own m)) (numOwned (m_own m)) /\ forall id d e, (id, d) ∈ m_domains m -> default 255 (d_dim d) = getMaxDim (m_domains m) -> e ∈ concat (d_els d) -> exists pre ns post, getInternalNodes e = Ok ns /\ vec = pre ++ ns ++ post.
  Proof.
    unfold computeNodeOrder. intros H. cbv zeta in H. apply bind_inv in H as (vec & Hv & H). apply (mark_domains_inv (getMaxDim (m_domains m)) (m_domains m) []) in Hv as (Hn & _ & Hv); [|constructor].
    set (own := m_own m) in *. set (owned := seq _ _) in *. destruct (Nat.eqb_spec (length (List.filter (fun n => negb (bool_decide (n ∈ vec))) owned) + length vec + length (so_shared own)) (localSize own)) as [E|E]; [|done].
    change (throwing_assert true) with (Ok tt) in H. rewrite bind_ok in H. injection H as <-. exists vec, (List.filter (fun n => negb (bool_decide (n ∈ vec))) owned). split; [done|]. split; [|done].
    rewrite (filter_neg_perm (fun n => bool_decide (n ∈ vec)) owned) at 2. apply Permutation_app_head. symmetry. assert (Hnd : NoDup (List.filter (fun n => bool_decide (n ∈ vec)) owned)) by (apply NoDup_ListNoDup, List.NoDup_filter, seq_NoDup).
    apply submseteq_Permutation_length_eq.
    - pose proof (Permutation_length (filter_neg_perm (fun n => bool_decide (n ∈ vec)) owned)) as HL. rewrite app_length in HL. unfold owned in HL at 1. rewrite seq_length in HL. unfold localSize in E. lia.
    - apply NoDup_submseteq; [done|]. intros x Hx. apply filter_elem in Hx as [_ Hx]. by apply bool_decide_eq_true in Hx.
  Qed.
  Lemma internal_read (e : el) ns : getInternalNodes e = Ok ns -> forall k i n, internal_node_inds (el_type e) (el_order e) !! k = Some i -> el_nodes e !! i = Some n -> ns !! k = Some n.
  Proof.
    intros H k i n Hk Hn. apply map_res_inv in H. destruct (Forall2_lookup_l _ _ _ _ _ H Hk) as (n' & Hn' & E). apply rd_inv in E. rewrite Hn'. congruence.
  Qed.
End order.
