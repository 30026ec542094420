From Verif Require Import Base StdAlgo Ownership_model Elem_model Elem_spec Elem_proofs Mesh_model Mesh_spec Mesh_proofs MeshSerial_proofs Helpers_model Helpers_spec Helpers_proofs Partition_model Partition_spec Partition1_proofs Partition2_proofs Partition3_proofs Partition4_proofs Merge_model Merge_proofs Merge2_proofs Merge3_proofs Split_model Split_spec.
Local Arguments Nat.mul : simpl never.
Local Arguments Nat.add : simpl never.
Local Arguments Nat.sub : simpl never.

Lemma filter_comm {A} (f g : A -> bool) l : List.filter f (List.filter g l) = List.filter g (List.filter f l).
Proof. induction l as [|a l IH]; [done|]. cbn. destruct (g a) eqn:Eg, (f a) eqn:Ef; cbn; rewrite ?Eg, ?Ef, ?IH; done. Qed.
Lemma filter_sorted (l : list nat) (R : nat -> nat -> Prop) f : StronglySorted R l -> StronglySorted R (List.filter f l).
Proof.
  induction 1 as [|a l Hs IH Hf]; [constructor|]. cbn. destruct (f a); [|done]. constructor; [done|]. apply Forall_forall. intros b Hb.
  apply filter_elem in Hb as [Hb _]. rewrite Forall_forall in Hf. auto.
Qed.
Lemma map_filter_sorted {A} (k : A -> nat) (l : list A) f : StronglySorted lt (map k l) -> StronglySorted lt (map k (List.filter f l)).
Proof.
  induction l as [|a l IH]; [done|]. cbn. intros H. inversion H as [|? ? Hs Hf]; subst. destruct (f a); [|by apply IH]. cbn. constructor; [by apply IH|].
  apply Forall_forall. intros b Hb. apply (elem_of_list_fmap k) in Hb as (c & -> & Hc). apply filter_elem in Hc as [Hc _]. rewrite Forall_forall in Hf.
  apply Hf. by apply (elem_of_list_fmap_1 k).
Qed.

Section d_of.
  Context {V : Type} (orders : list nat) (Hord : NoDup orders).
  Notation el := (element V).
  Notation slot e := (el_type e, el_order e).
  Lemma slot_filter sl (els : list (list el)) : NoDup sl -> Forall2 (fun s v => Forall (fun e => slot e = s) v) sl els ->
    map (fun s => List.filter (fun e : el => bool_decide (slot e = s)) (concat els)) sl = els.
  Proof.
    intros Hnd HF. induction HF as [|s v sl els Hv HF IH]; [done|]. apply NoDup_cons in Hnd as [Hs Hnd]. cbn [map concat].
    assert (H1 : forall f : el -> bool, (forall e, e ∈ v -> f e = true) -> List.filter f v = v).
    { clear. intros f. induction v as [|e v IH]; intros H; [done|]. cbn. rewrite (H e) by left. f_equal. apply IH. intros; apply H. by right. }
    assert (H0 : forall (f : el -> bool) l, (forall e, e ∈ l -> f e = false) -> List.filter f l = []).
    { clear. intros f l. induction l as [|e l IH]; intros H; [done|]. cbn. rewrite (H e) by left. apply IH. intros; apply H. by right. }
    rewrite Forall_forall in Hv. f_equal.
    - rewrite List.filter_app, H1 by (intros e He; apply bool_decide_eq_true; auto). rewrite H0; [apply app_nil_r|]. intros e He. apply bool_decide_eq_false. intros Hse.
      apply elem_of_concat in He as (w & He & Hw). apply elem_of_list_lookup in Hw as [i Hi]. destruct (Forall2_lookup_r _ _ _ _ _ HF Hi) as (s' & Hs' & Hw).
      rewrite Forall_forall in Hw. apply Hs. rewrite <- Hse, (Hw e He). by eapply elem_of_list_lookup_2.
    - transitivity (map (fun s => List.filter (fun e : el => bool_decide (slot e = s)) (concat els)) sl); [|by apply IH]. apply map_ext_in. intros s' Hs'. apply elem_of_list_In in Hs'. rewrite List.filter_app, H0; [done|]. intros e He. apply bool_decide_eq_false.
      rewrite (Hv e He). by intros ->.
  Qed.
  Lemma d_of_filter (d : domain V) f : typed_domain orders d -> d_els (d_of orders (List.filter f (concat (d_els d)))) = map (List.filter f) (d_els d).
  Proof.
    intros Ht. unfold d_of. cbn [d_els]. assert (HF : Forall2 (fun s v => Forall (fun e : el => slot e = s) v) (slots orders) (d_els d)).
    { eapply Forall2_impl; [exact Ht|]. intros s v Hv. eapply Forall_impl; [exact Hv|]. by intros e [He _]. }
    transitivity (map (List.filter f) (map (fun s => List.filter (fun e : el => bool_decide (slot e = s)) (concat (d_els d))) (slots orders))).
    2:{ f_equal. apply slot_filter; [apply slots_nodup, Hord|done]. }
    rewrite map_map. apply map_ext. intros s. apply filter_comm.
  Qed.
  Lemma concat_filter (f : el -> bool) ls : concat (map (List.filter f) ls) = List.filter f (concat ls).
  Proof. induction ls as [|l ls IH]; [done|]. cbn. by rewrite List.filter_app, IH. Qed.
  Lemma rep_pushes n ps ps0 maps : rep orders n ps0 maps -> (forall x, x ∈ ps -> x.1.1 < n /\ slot x.2 ∈ slots orders) ->
    (forall x y, x ∈ ps0 ++ ps -> y ∈ ps0 ++ ps -> x.1 = y.1 -> native_dim (el_type x.2) = native_dim (el_type y.2)) ->
    exists maps', for_each (fun (x : nat * nat * el) maps => push_part orders UB x.1.1 x.1.2 x.2 maps) ps maps = Ok maps' /\ rep orders n (ps0 ++ ps) maps'.
  Proof.
    revert ps0 maps. induction ps as [|[[q id] e] ps IH]; intros ps0 maps Hr Hs Hd; [exists maps; by rewrite app_nil_r|]. cbn [for_each fst snd].
    destruct (Hs (q, id, e) ltac:(left)) as [H1 H2]. destruct (rep_push orders Hord UB n ps0 maps q id e Hr H1 H2) as (m1 & -> & Hr1).
    { intros e' He'. apply sel_elem in He'. apply (Hd (q, id, e') (q, id, e)); [| |done]; apply elem_of_app; [by left|right; left]. }
    rewrite bind_ok. destruct (IH (ps0 ++ [(q, id, e)]) m1 Hr1) as (m2 & Hm2 & Hr2).
    - intros x Hx. apply Hs. by right.
    - intros x y. rewrite <- !app_assoc. apply Hd.
    - exists m2. split; [done|]. by rewrite <- app_assoc in Hr2.
  Qed.
End d_of.

Section split.
  Context {V : Type} (orders : list nat) (x : mesh V) (Hx : splittable orders x) (p : element V -> bool).
  Notation el := (element V).
  Notation doms := (dmap (domain V)).
  Notation m := (m_domains x).
  Notation B := (m_bnds x).*1.
  Notation slot e := (el_type e, el_order e).
  Definition nonb : list nat := set_difference m.*1 B.
  Lemma nonb_elem id : id ∈ nonb <-> id ∈ m.*1 /\ id ∉ B.
  Proof. apply set_difference_elem; [apply Hx|apply Hx]. Qed.
  Definition h1 (e : el) : nat := if p e then 0 else 1.
  Definition tag (h : el -> nat) (y : nat * el) : nat * nat * el := (h y.2, y.1, y.2).
  Lemma sel_tag h q id ids : NoDup ids -> sel q id (map (tag h) (dom_tasks m ids)) = if decide (id ∈ ids) then List.filter (fun e => h e =? q) (visit_elems m [id]) else [].
  Proof.
    assert (H1 : forall l, sel q id (map (tag h) (map (pair id) l)) = List.filter (fun e => h e =? q) l).
    { intros l. unfold sel. induction l as [|e l IH]; [done|]. cbn [map List.filter tag fst snd]. rewrite Nat.eqb_refl, andb_true_r. destruct (h e =? q); [cbn [map snd]; by rewrite IH|done]. }
    assert (H0 : forall i l, i <> id -> sel q id (map (tag h) (map (pair i) l)) = []).
    { intros i l Hi. unfold sel. induction l as [|e l IH]; [done|]. cbn [map List.filter tag fst snd]. destruct (Nat.eqb_spec i id); [done|]. rewrite andb_false_r. done. }
    induction ids as [|i ids IH]; intros Hnd; [done|]. apply NoDup_cons in Hnd as [Hi Hnd]. unfold dom_tasks. cbn [map concat]. fold (dom_tasks m ids).
    rewrite map_app, sel_app, IH by done. destruct (decide (i = id)) as [->|Hne].
    - rewrite H1. rewrite decide_False by done. rewrite decide_True by left. apply app_nil_r.
    - rewrite (H0 i _ Hne). cbn [app]. destruct (decide (id ∈ ids)) as [Hin|Hin]; [rewrite decide_True by (by right); done|].
      rewrite decide_False; [done|]. rewrite elem_of_cons. naive_solver.
  Qed.

  Lemma phase1 T maps ids : for_each (fun (y : nat * el) st => if p y.2
          then maps ← push_part orders UB 0 y.1 y.2 st.1; Ok (maps, el_id y.2 :: st.2)
          else maps ← push_part orders UB 1 y.1 y.2 st.1; Ok (maps, st.2)) T (maps, ids) =
    maps' ← for_each (fun (y : nat * nat * el) maps => push_part orders UB y.1.1 y.1.2 y.2 maps) (map (tag h1) T) maps;
    Ok (maps', rev (map el_id (List.filter p (map snd T))) ++ ids).
  Proof.
    revert maps ids. induction T as [|[id e] T IH]; intros maps ids; [done|]. cbn [for_each map tag fst snd List.filter]. change (h1 e) with (if p e then 0 else 1). destruct (p e).
    - destruct (push_part orders UB 0 id e maps); [|done|done]. rewrite !bind_ok. rewrite IH. cbn [map rev]. rewrite <- app_assoc. done.
    - destruct (push_part orders UB 1 id e maps); [|done|done]. rewrite !bind_ok. by rewrite IH.
  Qed.

  Definition true_ids : list nat := rev (map el_id (List.filter p (map snd (dom_tasks m nonb)))) ++ [].
  Lemma true_ids_elem e id : id ∉ B -> in_domain m id e -> el_id e ∈ true_ids <-> p e = true.
  Proof.
    intros Hid Hin. unfold true_ids. rewrite app_nil_r, elem_of_list_In, <- in_rev, <- elem_of_list_In, (elem_of_list_fmap el_id).
    setoid_rewrite filter_elem. setoid_rewrite (elem_of_list_fmap snd). setoid_rewrite (dom_tasks_elem orders m (sp_valid _ _ Hx)). split.
    - intros (e' & Heq & ((id' & e'') & -> & (Hid' & Hin')) & Hp). cbn [fst snd] in *. rewrite (sp_ids _ _ Hx e e''); [done|by exists id|by exists id'|done].
    - intros Hp. exists e. split; [done|]. split; [|done]. exists (id, e). split; [done|]. cbn [fst snd]. split; [|done]. apply nonb_elem. split; [|done].
      destruct Hin as (d & v & Hd & _). by apply (elem_of_list_fmap_1 fst) in Hd.
  Qed.

  Lemma view_side id vs e s : (id, vs) ∈ m_bnds x -> (e, s) ∈ vs -> exists b, in_domain m id b /\ attached m b e s.
  Proof.
    intros Hid Hv. destruct (sp_views _ _ Hx id vs Hid) as (bs & Hp & HF). apply elem_of_list_lookup in Hv as [i Hi].
    destruct (Forall2_lookup_r _ _ _ _ _ HF Hi) as (b & Hb & Ha). exists b. split; [|done]. apply elem_of_list_lookup_2 in Hb. rewrite Hp, dom_elems_visit in Hb by apply Hx.
    by apply (visit1 orders m (sp_valid _ _ Hx)).
  Qed.
  Lemma view_in v : v ∈ concat (m_bnds x).*2 <-> exists id vs, (id, vs) ∈ m_bnds x /\ v ∈ vs.
  Proof.
    rewrite elem_of_concat. split.
    - intros (l & Hv & Hl). apply elem_of_list_fmap in Hl as ([id vs] & -> & Hl). by exists id, vs.
    - intros (id & vs & Hid & Hv). exists vs. split; [done|]. by apply (elem_of_list_fmap_1 snd) in Hid.
  Qed.
  Lemma sides_ok : exists sides, map_res (fun v => ns ← side_view_nodes v; Ok (sort ns))
              (List.filter (fun v : el * nat => bool_decide (el_id v.1 ∈ true_ids)) (concat (m_bnds x).*2)) = Ok sides /\
     forall b : el, sort (el_nodes b) ∈ sides <-> viewed_from x p b.
  Proof.
    set (vs := List.filter _ _).
    assert (Hvs : forall e s, (e, s) ∈ vs <-> exists id l, (id, l) ∈ m_bnds x /\ (e, s) ∈ l /\ p e = true).
    { intros e s. unfold vs. rewrite filter_elem, view_in, bool_decide_eq_true. cbn [fst]. split.
      - intros [(id & l & Hid & Hl) Ht]. exists id, l. split; [done|]. split; [done|]. destruct (sp_parents _ _ Hx id l e s Hid Hl) as (id' & Hn & Hin).
        by apply (true_ids_elem e id').
      - intros (id & l & Hid & Hl & Hp). split; [by exists id, l|]. destruct (sp_parents _ _ Hx id l e s Hid Hl) as (id' & Hn & Hin). by apply (true_ids_elem e id'). }
    clearbody vs.
    assert (Hok : forall e s, (e, s) ∈ vs -> exists ns, side_view_nodes (e, s) = Ok ns /\ forall b, side_of b e s <-> el_nodes b ≡ₚ ns).
    { intros e s H. apply Hvs in H as (id & l & Hid & Hl & _). destruct (view_side id l e s Hid Hl) as (b0 & _ & _ & _ & Hb0).
      destruct (side_view_ok b0 e s Hb0) as (ns & Hns & Hp). exists ns. split; [done|]. intros b. split.
      - intros Hb. destruct (side_view_ok b e s Hb) as (ns' & Hns' & Hp'). rewrite Hns in Hns'. injection Hns' as <-. by symmetry.
      - intros Hb. destruct Hb0 as (inds & ns' & H1 & H2 & H3 & H4 & H5). exists inds, ns'. split; [done|]. split; [done|]. split; [done|]. split; [|done]. by rewrite Hb, Hp. }
    destruct (map_res_total (fun v : el * nat => ns ← side_view_nodes v; Ok (sort ns)) vs) as [sides Hs].
    { intros [e s] H. destruct (Hok e s H) as (ns & -> & _). by exists (sort ns). }
    exists sides. split; [done|]. apply map_res_inv in Hs. intros b. unfold viewed_from. split.
    - intros Hb. apply elem_of_list_lookup in Hb as [i Hi]. destruct (Forall2_lookup_r _ _ _ _ _ Hs Hi) as ([e s] & Hv & Heq). apply elem_of_list_lookup_2 in Hv.
      destruct (Hok e s Hv) as (ns & Hns & Hb). rewrite Hns, bind_ok in Heq. injection Heq as Heq. apply Hvs in Hv as (id & l & Hid & Hl & Hp). exists id, l, e, s. split; [done|].
      split; [done|]. split; [done|]. apply Hb. transitivity (sort (el_nodes b)); [symmetry; apply sort_perm|]. rewrite <- Heq. apply sort_perm.
    - intros (id & l & e & s & Hid & Hl & Hp & Hb). assert (Hv : (e, s) ∈ vs) by (apply Hvs; by exists id, l). apply elem_of_list_lookup in Hv as [i Hi].
      destruct (Forall2_lookup_l _ _ _ _ _ Hs Hi) as (sn & Hsn & Heq). destruct (Hok e s ltac:(by eapply elem_of_list_lookup_2)) as (ns & Hns & Hb').
      rewrite Hns, bind_ok in Heq. injection Heq as <-. apply Hb' in Hb. rewrite (sort_ext _ _ Hb). by eapply elem_of_list_lookup_2.
  Qed.

  Section maps.
    Context (sides : list (list nat)).
    Definition keep (id : nat) (e : el) : bool := if bool_decide (id ∈ B) then bool_decide (sort (el_nodes e) ∈ sides) else p e.
    Definition h2 (e : el) : nat := if bool_decide (sort (el_nodes e) ∈ sides) then 0 else 1.
    Definition pushes : list (nat * nat * el) := map (tag h1) (dom_tasks m nonb) ++ map (tag h2) (dom_tasks m B).
    Definition which (id : nat) (e : el) : nat := if keep id e then 0 else 1.
    Lemma keys_of id e : in_domain m id e -> id ∈ m.*1.
    Proof. intros (d & v & Hd & _). by apply (elem_of_list_fmap_1 fst) in Hd. Qed.
    Lemma tag_elem h ids q id e : (q, id, e) ∈ map (tag h) (dom_tasks m ids) <-> id ∈ ids /\ in_domain m id e /\ q = h e.
    Proof.
      rewrite (elem_of_list_fmap (tag h)). split.
      - intros ([id' e'] & Heq & H). unfold tag in Heq. cbn [fst snd] in Heq. injection Heq as -> -> ->. apply (dom_tasks_elem orders m (sp_valid _ _ Hx)) in H as [H1 H2]. done.
      - intros (H1 & H2 & ->). exists (id, e). split; [unfold tag; reflexivity|]. by apply (dom_tasks_elem orders m (sp_valid _ _ Hx)).
    Qed.
    Lemma pushes_elem q id e : (q, id, e) ∈ pushes <-> in_domain m id e /\ q = which id e.
    Proof.
      unfold pushes. rewrite elem_of_app, !tag_elem, nonb_elem. unfold which, keep, h1, h2. destruct (decide (id ∈ B)) as [Hb|Hb].
      - rewrite (bool_decide_true (id ∈ B)) by done. split; [intros [[[_ ?] _]|(_ & ? & ?)]; done|]. intros [? ?]. by right.
      - rewrite (bool_decide_false (id ∈ B)) by done. split; [intros [(_ & ? & ?)|[? _]]; done|]. intros [H1 H2]. left. split; [|done]. split; [by eapply keys_of|done].
    Qed.
    Lemma Bnodup : NoDup B.
    Proof. apply strict_nodup, Hx. Qed.
    Lemma sel_pushes q id : sel q id pushes = List.filter (fun e => which id e =? q) (visit_elems m [id]).
    Proof.
      unfold pushes. rewrite sel_app, !sel_tag by (apply Bnodup || (apply strict_nodup, set_difference_sorted; apply Hx)).
      destruct (decide (id ∈ B)) as [Hb|Hb].
      - rewrite decide_False by (rewrite nonb_elem; tauto). cbn [app]. apply filter_ext. intros e. unfold which, keep, h2. by rewrite (bool_decide_true (id ∈ B)) by done.
      - rewrite app_nil_r. destruct (decide (id ∈ nonb)) as [Hn|Hn].
        + apply filter_ext. intros e. unfold which, keep, h1. by rewrite (bool_decide_false (id ∈ B)) by done.
        + unfold visit_elems. cbn [map concat]. assert (E : dm_find id m = None) by (apply dm_find_none; rewrite nonb_elem in Hn; tauto). rewrite E. done.
    Qed.
    Lemma pushes_slot y : y ∈ pushes -> slot y.2 ∈ slots orders /\ typed_el y.2.
    Proof.
      destruct y as [[q id] e]. intros [H _]%pushes_elem. cbn [snd]. split; [by eapply (in_slots orders m), H; apply Hx|].
      by destruct (in_domain_typed orders m id e (sp_valid _ _ Hx) H).
    Qed.
    Lemma pushes_dim y z : y ∈ pushes -> z ∈ pushes -> y.1 = z.1 -> native_dim (el_type y.2) = native_dim (el_type z.2).
    Proof.
      destruct y as [[q id] e], z as [[q' id'] e']. intros [H _]%pushes_elem [H' _]%pushes_elem [= -> ->]. cbn [snd]. eapply same_dim; [apply Hx|exact H|exact H'].
    Qed.
    Lemma rep_half maps q dm : rep orders 2 pushes maps -> maps !! q = Some dm ->
      valid_doms orders dm /\ (forall id, dom_elems dm id = List.filter (fun e => which id e =? q) (dom_elems m id)) /\
      (forall id e, in_domain dm id e <-> in_domain m id e /\ which id e = q) /\ (ascending m -> ascending dm) /\
      (forall id d, (id, d) ∈ dm -> exists e, in_domain dm id e /\ d_dim d = Some (native_dim (el_type e))).
    Proof.
      intros Hr Hdm. assert (Hv : valid_doms orders dm). { eapply rep_valid; [exact Hr|exact pushes_slot|exact pushes_dim|exact Hdm]. }
      assert (Hin : forall id e, in_domain dm id e <-> in_domain m id e /\ which id e = q).
      { intros id e. rewrite (rep_in orders 2 pushes maps q dm id e Hr (fun y Hy => proj1 (pushes_slot y Hy)) Hdm), pushes_elem. naive_solver. }
      assert (Hord : NoDup orders) by apply Hx. assert (Hsm : StronglySorted lt m.*1) by apply Hx.
      destruct Hr as [_ Hr]. destruct (Hr q dm Hdm) as [Hsrt Hf]. assert (HF : forall id, exists d, typed_domain orders d /\ concat (d_els d) = visit_elems m [id] /\ forall d0, (id, d0) ∈ m -> d0 = d).
      { intros id. destruct (dm_find id m) as [d|] eqn:E.
        - exists d. split; [|split].
          + destruct (sp_valid _ _ Hx) as [_ HF]. rewrite Forall_forall in HF. by destruct (HF _ (dm_find_elem _ _ _ E)).
          + unfold visit_elems. cbn [map concat]. rewrite E. by rewrite app_nil_r.
          + intros d0 Hd0. apply (dm_find_iff _ _ _ Hsm) in Hd0. congruence.
        - exists (empty_domain orders). split; [|split].
          + unfold typed_domain, empty_domain. cbn [d_els]. change (map ?f ?l) with (f <$> l). rewrite Forall2_fmap_r. apply Forall_Forall2_diag, Forall_forall. by intros; constructor.
          + unfold visit_elems. cbn [map concat]. rewrite E. unfold empty_domain. cbn [d_els]. clear. induction (slots orders); done.
          + intros d0 Hd0. apply (dm_find_iff _ _ _ Hsm) in Hd0. congruence. }
      split; [done|]. split; [|split; [done|split]].
      - intros id. rewrite !dom_elems_visit by done. unfold visit_elems at 1. cbn [map concat]. rewrite app_nil_r. rewrite Hf, sel_pushes.
        destruct (HF id) as (d & Ht & Hd & _). rewrite <- Hd. pose proof (d_of_filter orders Hord d (fun e => which id e =? q) Ht) as Hdf.
        destruct (List.filter (fun e => which id e =? q) (concat (d_els d))) as [|e0 es] eqn:E; [done|]. rewrite Hdf, concat_filter. done.
      - intros Ha id d v Hd Hvv. apply (dm_find_iff _ _ _ Hsrt) in Hd. rewrite Hf, sel_pushes in Hd. destruct (HF id) as (d0 & Ht & Hd0 & Hm0). rewrite <- Hd0 in Hd.
        assert (Hd' : d = d_of orders (List.filter (fun e => which id e =? q) (concat (d_els d0)))) by (destruct (List.filter (fun e => which id e =? q) (concat (d_els d0))); [done|by injection Hd as ->]).
        subst d. rewrite d_of_filter in Hvv by done. apply (elem_of_list_fmap (List.filter (fun e => which id e =? q))) in Hvv as (v0 & -> & Hv0). apply map_filter_sorted.
        destruct (dm_find id m) as [d1|] eqn:E.
        + rewrite (Hm0 d1) in E by (by apply dm_find_elem). apply (Ha id d0 v0); [by apply dm_find_elem|done].
        + exfalso. assert (Hn : concat (d_els d0) = []). { rewrite Hd0. unfold visit_elems. cbn [map concat]. by rewrite E. }
          rewrite Hn in Hd. done.
      - intros id d Hd. pose proof Hd as Hd1. apply (dm_find_iff _ _ _ Hsrt) in Hd. rewrite Hf in Hd. destruct (sel q id pushes) as [|e es] eqn:E; [done|]. injection Hd as <-.
        exists e. split; [|done]. apply Hin. assert (Hp : (q, id, e) ∈ pushes) by (apply sel_elem; rewrite E; left). apply pushes_elem in Hp as [Hp ->]. done.
    Qed.
  End maps.
  Lemma maps_ok : exists sides t f, makeSplitMaps orders x p = Ok [t; f] /\ rep orders 2 (pushes sides) [t; f] /\
    forall b : el, sort (el_nodes b) ∈ sides <-> viewed_from x p b.
  Proof.
    destruct sides_ok as (sides & Hs & Hiff). unfold makeSplitMaps. fold nonb.
    rewrite (for_each_nested (fun id (e : el) st => if p e then maps ← push_part orders UB 0 id e st.1; Ok (maps, el_id e :: st.2) else maps ← push_part orders UB 1 id e st.1; Ok (maps, st.2))).
    fold (dom_tasks m nonb). rewrite phase1.
    destruct (rep_pushes orders (sp_orders _ _ Hx) 2 (map (tag h1) (dom_tasks m nonb)) [] (repeat [] 2)) as (maps1 & Hm1 & Hr1).
    { apply rep_empty. }
    { intros y Hy. assert (Hy' : y ∈ pushes sides) by (apply elem_of_app; by left). split; [|by apply (pushes_slot sides)].
      destruct y as [[q id] e]. apply tag_elem in Hy as (_ & _ & ->). cbn [fst]. unfold h1. destruct (p e); lia. }
    { intros y z Hy Hz. apply (pushes_dim sides); apply elem_of_app; by left. }
    rewrite Hm1, !bind_ok. cbn [fst snd]. fold true_ids. unfold assignBoundaryElements. rewrite Hs, bind_ok.
    rewrite (for_each_nested (fun id (e : el) maps => push_part orders UB (if bool_decide (sort (el_nodes e) ∈ sides) then 0 else 1) id e maps)).
    fold (dom_tasks m B).
    assert (Ht : forall T maps, for_each (fun (y : nat * el) maps => push_part orders UB (if bool_decide (sort (el_nodes y.2) ∈ sides) then 0 else 1) y.1 y.2 maps) T maps =
      for_each (fun (y : nat * nat * el) maps => push_part orders UB y.1.1 y.1.2 y.2 maps) (map (tag (h2 sides)) T) maps).
    { induction T as [|y T IH]; intros maps; [done|]. cbn [for_each map tag fst snd]. unfold h2 at 1. destruct (push_part orders UB _ _ _ maps); [|done|done]. rewrite !bind_ok. apply IH. }
    rewrite Ht. clear Ht. cbn [app] in Hr1.
    destruct (rep_pushes orders (sp_orders _ _ Hx) 2 (map (tag (h2 sides)) (dom_tasks m B)) _ maps1 Hr1) as (maps2 & Hm2 & Hr2).
    { intros y Hy. assert (Hy' : y ∈ pushes sides) by (apply elem_of_app; by right). split; [|by apply (pushes_slot sides)].
      destruct y as [[q id] e]. apply tag_elem in Hy as (_ & _ & ->). cbn [fst]. unfold h2. destruct (bool_decide _); lia. }
    { intros y z Hy Hz. by apply (pushes_dim sides). }
    rewrite Hm2. destruct Hr2 as [Hlen Hr2]. destruct maps2 as [|t [|f [|]]]; try done. exists sides, t, f. split; [done|]. split; [|done]. by split.
  Qed.

  Lemma attach sides q dm : (forall b : el, sort (el_nodes b) ∈ sides <-> viewed_from x p b) ->
    (forall id e, in_domain dm id e <-> in_domain m id e /\ which sides id e = q) -> q < 2 ->
    forall id b, id ∈ B -> in_domain dm id b -> exists e s, attached dm b e s.
  Proof.
    intros Hs Hin Hq id b Hid Hb. apply Hin in Hb as [Hb Hk]. unfold which, keep in Hk. rewrite (bool_decide_true (id ∈ B)) in Hk by done.
    assert (Hput : forall id' e, id' ∉ B -> in_domain m id' e -> (if p e then 0 else 1) = q -> is_elem dm e).
    { intros id' e Hn He Hpe. exists id'. apply Hin. split; [done|]. unfold which, keep. by rewrite (bool_decide_false (id' ∈ B)) by done. }
    destruct (decide (sort (el_nodes b) ∈ sides)) as [Hin'|Hin'].
    - rewrite bool_decide_true in Hk by done. apply Hs in Hin' as (id1 & vs & e & s & Hv & Hes & Hpe & Hsd). exists e, s.
      destruct (sp_parents _ _ Hx id1 vs e s Hv Hes) as (id' & Hn & He). destruct (view_side id1 vs e s Hv Hes) as (b1 & Hb1 & _ & Hd1 & Hs1).
      split; [apply (Hput id' e); [done|done|by rewrite Hpe]|]. split; [|done]. rewrite Hd1. f_equal. apply (sp_dims _ _ Hx id1 id b1 b); [|done|done|done|].
      + by apply (elem_of_list_fmap_1 fst) in Hv.
      + destruct (side_view_ok b e s Hsd) as (ns & Hns & Hp). destruct (side_view_ok b1 e s Hs1) as (ns1 & Hns1 & Hp1). rewrite Hns in Hns1. injection Hns1 as <-. by rewrite <- Hp, <- Hp1.
    - rewrite bool_decide_false in Hk by done. apply elem_of_list_fmap in Hid as ([id0 vs] & -> & Hv). cbn [fst] in *. destruct (sp_views _ _ Hx id0 vs Hv) as (bs & Hp & HF).
      assert (Hbs : b ∈ bs). { rewrite Hp, dom_elems_visit by apply Hx. by apply (visit1 orders m (sp_valid _ _ Hx)). }
      apply elem_of_list_lookup in Hbs as [i Hi]. destruct (Forall2_lookup_l _ _ _ _ _ HF Hi) as ([e s] & Hes & Ha). cbn [fst snd] in Ha. exists e, s.
      apply elem_of_list_lookup_2 in Hes. destruct (sp_parents _ _ Hx id0 vs e s Hv Hes) as (id' & Hn & He). destruct Ha as (_ & Hd & Hsd). split; [|done].
      apply (Hput id' e); [done|done|]. destruct (p e) eqn:Hpe; [|done]. exfalso. apply Hin', Hs. exists id0, vs, e, s. done.
  Qed.
  Lemma half_ok sched shuffle sides maps q dm : (forall l, sched l ≡ₚ l) -> (forall l, shuffle l ≡ₚ l) ->
    (forall b : el, sort (el_nodes b) ∈ sides <-> viewed_from x p b) -> rep orders 2 (pushes sides) maps -> maps !! q = Some dm ->
    exists y, makeHalf sched shuffle x dm = Ok y /\ half_of orders x (fun id e => which sides id e =? q) y.
  Proof.
    intros Hsc Hsh Hs Hr Hdm. assert (Hq : q < 2). { apply lookup_lt_Some in Hdm. destruct Hr as [<- _]. done. }
    destruct (rep_half sides maps q dm Hr Hdm) as (Hv & Hel & Hin & Hasc & Hdim). assert (Hnd : NoDup dm.*1) by (apply strict_nodup, Hv).
    pose proof (attach sides q dm Hs Hin Hq) as Hatt.
    assert (Hpar : forall ids, (forall id, id ∈ ids -> id ∈ B) -> parents_exist dm ids).
    { intros ids Hids id d Hid Hd. destruct (Hdim id d Hd) as (b & Hb & Hdd). exists (native_dim (el_type b)). split; [done|].
      destruct (Hatt id b (Hids id Hid) Hb) as (e & s & (id' & He) & Hde & _). destruct (in_domain_typed orders dm id' e Hv He) as (_ & d' & Hd' & Hdd'). exists id', d'.
      split; [done|]. by rewrite Hdd', Hde. }
    unfold makeHalf. set (ow := remove_dups _).
    assert (How : forall i, i ∈ ow <-> is_node dm i /\ owned x i).
    { intros i. unfold ow. rewrite elem_of_remove_dups, Merge_proofs.filter_elem, elem_of_concat. unfold is_node, owned, isOwned. rewrite andb_true_iff, Nat.leb_le, Nat.ltb_lt.
      split; intros [H1 H2]; (split; [|done]).
      - destruct H1 as (l & Hi & Hl). apply (elem_of_list_fmap el_nodes) in Hl as (e & -> & He). exists e. split; [|done]. by apply all_elems_elem.
      - destruct H1 as (e & He & Hi). exists (el_nodes e). split; [done|]. apply (elem_of_list_fmap_1 el_nodes). by apply all_elems_elem. }
    assert (Hown : NoDup ow) by apply NoDup_remove_dups. clearbody ow.
    pose proof (mesh2_ok orders sched shuffle dm (list_min ow) (length ow) B Hv Hsc Hsh) as Hm2.
    destruct (init_ok orders sched dm B Hv Hsc) as [(r & Hi & H1 & H2 & H3)|[_ (id & Hid & Hth)]].
    2:{ exfalso. destruct (proj2 (views_ok_iff orders sched dm [id] Hv Hsc)) as [vs Hvs]; [|congruence]. split.
        - apply Hpar. intros i Hi. apply elem_of_list_singleton in Hi as ->. done.
        - intros b Hb. apply (visit1 orders dm Hv) in Hb. by apply (Hatt id). }
    rewrite Hi in Hm2. destruct Hm2 as (so & Hm & Hb & He & Hss & Hsi). rewrite Hm. eexists. split; [done|]. split; cbn [m_domains m_own m_bnds]; [done|done|done|done| | |].
    - intros id vs Hvs. pose proof (H3 id vs Hvs) as Hmk. pose proof (views_ok orders sched dm [id] Hv Hsc) as Hok. cbv zeta in Hok. rewrite Hmk in Hok.
      destruct Hok as [(views & bs & [= <-] & Hbs & HF & _)|[? _]]; [|done]. exists bs. split; [|done]. by rewrite dom_elems_visit by apply Hv.
    - split; [done|]. intros i. rewrite Hsi. unfold owned. cbn [m_own]. by rewrite Hb, He.
    - exists ow. split; [done|]. split; [done|]. rewrite Hb, He. split; [done|]. split; [apply list_min_elem|]. intros i Hiow. by apply list_min_le.
  Qed.
  Lemma split_ok sched shuffle : (forall l, sched l ≡ₚ l) -> (forall l, shuffle l ≡ₚ l) ->
    exists t f kp, splitMeshPartition orders sched shuffle x p = Ok (t, f) /\ half_of orders x kp t /\ half_of orders x (fun id e => negb (kp id e)) f /\
      (forall id e, id ∉ B -> kp id e = p e) /\ (forall id b, id ∈ B -> kp id b = true <-> viewed_from x p b).
  Proof.
    intros Hsc Hsh. destruct maps_ok as (sides & t & f & Hm & Hr & Hs). unfold splitMeshPartition. rewrite Hm, bind_ok.
    destruct (half_ok sched shuffle sides [t; f] 0 t Hsc Hsh Hs Hr eq_refl) as (yt & -> & Ht). rewrite bind_ok.
    destruct (half_ok sched shuffle sides [t; f] 1 f Hsc Hsh Hs Hr eq_refl) as (yf & -> & Hf). rewrite bind_ok.
    exists yt, yf, (keep sides). split; [done|].
    assert (Hext : forall k k' y, (forall id e, k id e = k' id e) -> half_of orders x k y -> half_of orders x k' y).
    { intros k k' y Hk [A1 A2 A3 A4 A5 A6 A7]. split; auto. intros id. rewrite A2. apply filter_ext. auto. }
    split; [|split; [|split]].
    - eapply Hext, Ht. intros id e. unfold which. by destruct (keep sides id e).
    - eapply Hext, Hf. intros id e. unfold which. by destruct (keep sides id e).
    - intros id e Hid. unfold keep. by rewrite (bool_decide_false (id ∈ B)).
    - intros id b Hid. unfold keep. rewrite (bool_decide_true (id ∈ B)) by done. by rewrite bool_decide_eq_true.
  Qed.
End split.
