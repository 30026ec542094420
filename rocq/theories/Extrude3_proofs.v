From Verif Require Import Base StdAlgo Ownership_model Elem_model Elem_spec Elem_proofs Mesh_model Mesh_spec Mesh_proofs
  Prim_model Prim_spec Build_proofs Prim_proofs Square_proofs Extrude_model Extrude_spec Extrude_proofs Extrude2_proofs.
Local Arguments Nat.mul : simpl never.
Local Arguments Nat.add : simpl never.
Local Arguments Nat.sub : simpl never.
Local Arguments Nat.div : simpl never.
Local Arguments Nat.modulo : simpl never.

Lemma nodup_concat_in {A} (ls : list (list A)) l : NoDup (concat ls) -> l ∈ ls -> NoDup l.
Proof.
  induction ls as [|x ls IH]; intros H Hl; [by apply elem_of_nil in Hl|]. cbn [concat] in H. apply NoDup_app in H as (H1 & _ & H2).
  apply elem_of_cons in Hl as [-> |Hl]; [done|]. by apply IH.
Qed.
Lemma nodup_concat_same {A B} (g : A -> list B) l a b x : NoDup (concat (map g l)) -> a ∈ l -> b ∈ l -> x ∈ g a -> x ∈ g b -> a = b.
Proof.
  induction l as [|c l IH]; intros H Ha Hb Hxa Hxb; [by apply elem_of_nil in Ha|]. cbn [map concat] in H. apply NoDup_app in H as (_ & H1 & H2).
  assert (Hin : forall d, d ∈ l -> x ∈ g d -> x ∈ concat (map g l)). { intros d Hd Hx. apply elem_of_concat. exists (g d). split; [done|]. apply (elem_of_list_fmap g). by exists d. }
  apply elem_of_cons in Ha as [Ea|Ha]; apply elem_of_cons in Hb as [Eb|Hb].
  - congruence.
  - subst c. exfalso. apply (H1 x Hxa). by apply (Hin b).
  - subst c. exfalso. apply (H1 x Hxb). by apply (Hin a).
  - by apply IH.
Qed.

(** The part of a node list that lies in layer [k]. *)
Section layers.
  Context (N : nat).
  Definition lay (k : nat) (ns : list nat) : list nat := map (fun x => x `mod` N) (List.filter (fun x => x / N =? k) ns).
  Lemma lay_app k a b : lay k (a ++ b) = lay k a ++ lay k b.
  Proof. unfold lay. induction a as [|x a IH]; [done|]. cbn [app List.filter]. destruct (x / N =? k); cbn [map app]; by rewrite IH. Qed.
  Lemma lay_perm k a b : a ≡ₚ b -> lay k a ≡ₚ lay k b.
  Proof.
    unfold lay. induction 1 as [|x a b _ IH|x y a|a b c _ IH1 _ IH2]; [done| | |by rewrite IH1].
    - cbn [List.filter]. destruct (x / N =? k); cbn [map]; by rewrite IH.
    - cbn [List.filter]. destruct (x / N =? k), (y / N =? k); cbn [map]; try done. by constructor.
  Qed.
  Lemma lay_shift k l ns : (forall n, n ∈ ns -> n < N) -> lay k (shift N l ns) = if decide (k = l) then ns else [].
  Proof.
    unfold lay, shift. induction ns as [|n ns IH]; intros H; [by destruct (decide _)|]. cbn [map List.filter].
    assert (Hn : n < N) by (apply H; left). specialize (IH (fun x Hx => H x (elem_of_list_further _ _ _ Hx))).
    replace ((l * N + n) / N) with l by (apply (Nat.div_unique _ _ _ n); lia).
    destruct (Nat.eqb_spec l k) as [->|Hne].
    - rewrite decide_True by done. cbn [map]. rewrite IH, decide_True by done. f_equal. symmetry. apply (Nat.mod_unique _ _ k); lia.
    - rewrite decide_False by congruence. by rewrite IH, decide_False by congruence.
  Qed.
  Lemma shift_inj l l' a b : a <> [] -> (forall n, n ∈ a -> n < N) -> (forall n, n ∈ b -> n < N) -> shift N l a ≡ₚ shift N l' b -> l = l' /\ a ≡ₚ b.
  Proof.
    intros Hne Ha Hb Hp. apply (lay_perm l) in Hp. rewrite !lay_shift in Hp by done. rewrite decide_True in Hp by done.
    destruct (decide (l = l')) as [->|_]; [done|]. apply Permutation_nil_r in Hp; done.
  Qed.
  Lemma shift2_inj l l' a b : a <> [] -> (forall n, n ∈ a -> n < N) -> (forall n, n ∈ b -> n < N) ->
    shift N l a ++ shift N (l + 1) a ≡ₚ shift N l' b ++ shift N (l' + 1) b -> l = l' /\ a ≡ₚ b.
  Proof.
    intros Hne Ha Hb Hp. pose proof (lay_perm l _ _ Hp) as H1. pose proof (lay_perm (l + 1) _ _ Hp) as H2.
    rewrite !lay_app, !lay_shift in H1, H2 by done.
    destruct (decide (l = l)); [|done]. destruct (decide (l = l + 1)); [lia|]. destruct (decide (l + 1 = l)); [lia|]. destruct (decide (l + 1 = l + 1)); [|done].
    rewrite app_nil_r in H1. cbn [app] in H2. destruct (decide (l = l')) as [El|].
    - split; [done|]. destruct (decide (l = l' + 1)); [lia|]. by rewrite app_nil_r in H1.
    - exfalso. destruct (decide (l + 1 = l' + 1)); [lia|]. destruct (decide (l = l' + 1)).
      + destruct (decide (l + 1 = l')); [lia|]. cbn [app] in H2. apply Permutation_nil_r in H2; done.
      + cbn [app] in H1. apply Permutation_nil_r in H1; done.
  Qed.
  Lemma shift_mixed l l' a b : a <> [] -> b <> [] -> (forall n, n ∈ a -> n < N) -> (forall n, n ∈ b -> n < N) ->
    shift N l a ≡ₚ shift N l' b ++ shift N (l' + 1) b -> False.
  Proof.
    intros Hna Hnb Ha Hb Hp. pose proof (lay_perm l' _ _ Hp) as H1. pose proof (lay_perm (l' + 1) _ _ Hp) as H2.
    rewrite !lay_app, !lay_shift in H1, H2 by done.
    destruct (decide (l' = l')); [|done]. destruct (decide (l' = l' + 1)); [lia|]. destruct (decide (l' + 1 = l')); [lia|]. destruct (decide (l' + 1 = l' + 1)); [|done].
    rewrite app_nil_r in H1. cbn [app] in H2. destruct (decide (l' = l)).
    - destruct (decide (l' + 1 = l)); [lia|]. apply Permutation_nil_l in H2; done.
    - apply Permutation_nil_l in H1; done.
  Qed.
End layers.

Section extrude.
  Context {C : Type}.
  Notation pt := (C * C * C)%type.
  Notation el := (element pt).
  Context (m : dmap (domain pt)) (N : nat) (bnds : list nat) (zs : list C) (z0 : C) (ib fr : nat)
    (HP : plane_mesh m N bnds) (Hz : 1 < length zs) (Hib : ib ∉ m.*1) (Hfr : fr ∉ m.*1)
    (st : build pt) (Hb : built (dim_of m) (cmds m N zs z0 ib fr) st).
  Notation L := (length zs - 1).
  Notation tags := (tags m zs).
  Notation item_of := (item_of N zs z0 ib fr).
  Context (dom : nat) (Hdom : dom ∈ m.*1) (Hc : conforming m dom bnds) (Hq : forall e, in_domain m dom e -> el_type e = Quad)
    (Hnd : NoDup (all_elems m)) (Hun : forall e1 e2, is_elem m e1 -> is_elem m e2 -> el_nodes e1 ≡ₚ el_nodes e2 -> e1 = e2).
  Lemma els_nodup id : id ∈ m.*1 -> NoDup (els m id).
  Proof.
    intros Hid. unfold els, visit_elems. cbn [map concat]. rewrite app_nil_r. unfold all_elems, visit_elems in Hnd.
    apply (nodup_concat_in _ _ Hnd). apply (elem_of_list_fmap (fun id => match dm_find id m with Some d => concat (d_els d) | None => [] end)). by exists id.
  Qed.
  Lemma one_domain id1 id2 e : in_domain m id1 e -> in_domain m id2 e -> id1 = id2.
  Proof.
    intros H1 H2. pose proof (in_keys m _ _ H1) as K1. pose proof (in_keys m _ _ H2) as K2.
    apply (els_elem m N bnds HP) in H1, H2. unfold els, visit_elems in H1, H2. cbn [map concat] in H1, H2. rewrite app_nil_r in H1, H2.
    unfold all_elems, visit_elems in Hnd. by apply (nodup_concat_same _ _ _ _ e Hnd K1 K2).
  Qed.
  Lemma tags_nodup : NoDup tags.
  Proof.
    unfold Extrude_proofs.tags. apply nodup_concat_map; [apply strict_nodup, (pm_valid _ _ _ HP)| |].
    - intros id Hid. pose proof (els_nodup id Hid) as He. apply NoDup_app. split; [|split].
      + unfold tags_ext. apply nodup_concat_map; [done| |].
        * intros e _. apply NoDup_fmap_2_strong; [intros a b _ _ H; by injection H|apply NoDup_seq].
        * intros a b x _ _ Ha Hbb. apply (elem_of_list_fmap (fun l => (id, a, Layer l))) in Ha as (l & -> & _). apply (elem_of_list_fmap (fun l => (id, b, Layer l))) in Hbb as (l' & H & _). by injection H.
      + intros [[i e] k] H1 H2. unfold tags_ext in H1. apply elem_of_concat in H1 as (w & Hw & Hw2). apply (elem_of_list_fmap (fun e => map (fun l => (id, e, Layer l)) (seq 0 L))) in Hw2 as (e1 & -> & _).
        apply (elem_of_list_fmap (fun l => (id, e1, Layer l))) in Hw as (l & Heq & _). injection Heq as -> -> ->.
        unfold tags_bf in H2. apply elem_of_concat in H2 as (w & Hw & Hw2). apply (elem_of_list_fmap (fun e => match el_type e with Line => [] | _ => [(id, e, Back); (id, e, Front)] end)) in Hw2 as (e2 & -> & _).
        destruct (el_type e2); rewrite ?elem_of_cons, ?elem_of_nil in Hw; try done; destruct Hw as [H|[H|[]]]; discriminate H.
      + unfold tags_bf. apply nodup_concat_map; [done| |].
        * intros e _. destruct (el_type e); try apply NoDup_nil_2; (apply NoDup_cons; split; [intros Hx; apply elem_of_list_singleton in Hx; discriminate|apply NoDup_singleton]).
        * intros a b x _ _ Ha Hbb. assert (Hx : forall c : el, x ∈ (match el_type c with Line => [] | _ => [(id, c, Back); (id, c, Front)] end) -> x.1.2 = c).
          { intros c Hx. destruct (el_type c); rewrite ?elem_of_cons, ?elem_of_nil in Hx; try done; by destruct Hx as [-> |[-> |[]]]. }
          by rewrite <- (Hx a Ha), <- (Hx b Hbb).
    - intros a b [[i e] k] _ _ Ha Hbb. assert (Hid : forall j, (i, e, k) ∈ tags_ext m zs j ++ tags_bf m j -> i = j).
      { intros j Hj. apply elem_of_app in Hj as [Hj|Hj]; apply elem_of_concat in Hj as (w & Hw & Hw2).
        - apply (elem_of_list_fmap (fun e => map (fun l => (j, e, Layer l)) (seq 0 L))) in Hw2 as (e1 & -> & _). apply (elem_of_list_fmap (fun l => (j, e1, Layer l))) in Hw as (l & Heq & _). by injection Heq.
        - apply (elem_of_list_fmap (fun e => match el_type e with Line => [] | _ => [(j, e, Back); (j, e, Front)] end)) in Hw2 as (e2 & -> & _).
          destruct (el_type e2); rewrite ?elem_of_cons, ?elem_of_nil in Hw; try done; destruct Hw as [H|[H|[]]]; by injection H. }
      by rewrite <- (Hid a Ha), <- (Hid b Hbb).
  Qed.
  Lemma tag_pos k k' t : tags !! k = Some t -> tags !! k' = Some t -> k = k'.
  Proof. intros H1 H2. eapply NoDup_lookup; [exact tags_nodup|done|done]. Qed.

  (** Elements of the domain with a given side; boundary elements with given nodes. *)
  Definition ext_at (e : el) (l k : nat) : el := it_el (item_of (dom, e, Layer l)) k.
  Lemma dom_cases e' : in_domain st.1 dom e' <-> exists e l k, tags !! k = Some (dom, e, Layer l) /\ in_domain m dom e /\ l < L /\ e' = ext_at e l k.
  Proof.
    rewrite (elems_tag m N zs z0 ib fr st Hb). split.
    - intros (k & [[i e] kd] & Hk & Hi & ->). pose proof Hk as Ht. apply elem_of_list_lookup_2, (tags_elem m N bnds zs HP Hz) in Ht as [Hd Hkd].
      destruct kd as [l| |]; cbn [item_of it_dom] in Hi.
      + subst i. by exists e, l, k.
      + exfalso. apply Hib. by rewrite Hi.
      + exfalso. apply Hfr. by rewrite Hi.
    - intros (e & l & k & Hk & Hd & Hl & ->). by exists k, (dom, e, Layer l).
  Qed.
  Lemma ext_at_sides e l k s ns : in_domain m dom e -> side_nodes (ext_at e l k) s ns <->
    (s = 0 /\ ns ≡ₚ shift N l (el_nodes e)) \/ (s = 1 /\ ns ≡ₚ shift N (l + 1) (el_nodes e)) \/
      exists s0 ns0, s = s0 + 2 /\ side_nodes e s0 ns0 /\ ns ≡ₚ shift N l ns0 ++ shift N (l + 1) ns0.
  Proof.
    intros He. pose proof (Hq e He) as Ht. destruct (quad_of m N bnds HP dom e He) as (_ & Ho & Hn); [by rewrite Ht|].
    apply ext_sides; try done. unfold ext_at. cbn [it_el el_type item_of it_type]. by rewrite Ht.
  Qed.
  Lemma side_sub (e : el) s ns n : side_nodes e s ns -> n ∈ ns -> n ∈ el_nodes e.
  Proof.
    intros (_ & inds & _ & _ & Hf) Hn. apply elem_of_list_lookup in Hn as [i Hi]. destruct (Forall2_lookup_r _ _ _ _ _ Hf Hi) as (j & _ & Hj). by eapply elem_of_list_lookup_2.
  Qed.
  Lemma side_some e s ns : in_domain m dom e -> side_nodes e s ns -> ns <> [].
  Proof.
    intros He Hs ->. pose proof (Hq e He) as Ht. destruct (quad_of m N bnds HP dom e He) as (_ & Ho & Hn); [by rewrite Ht|]. destruct (length4 _ Hn) as (a & b & c & d & E).
    apply (quad_sides _ _ _ _ _ _ _ Ht Ho E) in Hs as (n0 & Hn0 & Hp). apply Permutation_nil_l in Hp. subst n0.
    destruct s as [|[|[|[|s]]]]; cbn in Hn0; try done.
  Qed.
  Lemma lt_nodes id e : in_domain m id e -> forall n, n ∈ el_nodes e -> n < N.
  Proof. intros He n. by apply (node_lt m N bnds HP id). Qed.
  Lemma lt_side e s ns : in_domain m dom e -> side_nodes e s ns -> forall n, n ∈ ns -> n < N.
  Proof. intros He Hs n Hn. apply (lt_nodes dom e He). by eapply side_sub. Qed.
  Lemma nodes_some id e : in_domain m id e -> el_nodes e <> [].
  Proof.
    intros He E. destruct (typed_in m N bnds HP id e He) as (Ho & [Hn _] & _). rewrite E, Ho in Hn. destruct (el_type e); done.
  Qed.
  (** has_side in the extruded mesh. *)
  Lemma ext_has_face l e es : in_domain m dom e ->
    has_side st.1 dom (shift N l (el_nodes e)) es <-> exists l' k, tags !! k = Some (dom, e, Layer l') /\ l' < L /\ es.1 = ext_at e l' k /\
      ((es.2 = 0 /\ l' = l) \/ (es.2 = 1 /\ l' + 1 = l)).
  Proof.
    destruct es as [e' s]. intros He. unfold has_side. cbn [fst snd]. split.
    - intros [Hd (ns & Hs & Hp)]. apply dom_cases in Hd as (e1 & l1 & k & Hk & He1 & Hl1 & ->). apply ext_at_sides in Hs; [|done].
      assert (He1' := lt_nodes _ _ He1). assert (He' := lt_nodes _ _ He).
      assert (Heq : forall x, shift N x (el_nodes e1) ≡ₚ shift N l (el_nodes e) -> x = l /\ e1 = e).
      { intros x Hx. apply shift_inj in Hx as [-> Hx]; [|by eapply nodes_some|done|done]. split; [done|]. apply Hun; [by exists dom|by exists dom|done]. }
      destruct Hs as [[-> Hs]|[[-> Hs]|(s0 & n0 & -> & Hs0 & Hs)]].
      + destruct (Heq l1) as [-> ->]; [by rewrite <- Hs|]. exists l, k. by repeat split; try left.
      + destruct (Heq (l1 + 1)) as [Hl ->]; [by rewrite <- Hs|]. exists l1, k. by repeat split; try right.
      + exfalso. eapply (shift_mixed N l l1 (el_nodes e) n0); [by eapply nodes_some|by eapply side_some|done|by eapply lt_side|]. by rewrite <- Hp.
    - intros (l' & k & Hk & Hl' & -> & Hs). split; [apply dom_cases; by exists e, l', k|]. exists (shift N l (el_nodes e)). split; [|done].
      apply ext_at_sides; [done|]. destruct Hs as [[-> ->]|[-> <-]]; [by left|by right; left].
  Qed.
  Lemma ext_has_lateral l e s0 ns0 es : in_domain m dom e -> side_nodes e s0 ns0 ->
    has_side st.1 dom (shift N l ns0 ++ shift N (l + 1) ns0) es <-> exists e1 s1 k, tags !! k = Some (dom, e1, Layer l) /\ l < L /\
      es.1 = ext_at e1 l k /\ es.2 = s1 + 2 /\ has_side m dom ns0 (e1, s1).
  Proof.
    destruct es as [e' s]. intros He Hs0. unfold has_side. cbn [fst snd]. split.
    - intros [Hd (ns & Hs & Hp)]. apply dom_cases in Hd as (e1 & l1 & k & Hk & He1 & Hl1 & ->). apply ext_at_sides in Hs; [|done].
      assert (He1' := lt_nodes _ _ He1). assert (He' := lt_nodes _ _ He).
      destruct Hs as [[-> Hs]|[[-> Hs]|(s1 & n1 & -> & Hs1 & Hs)]].
      + exfalso. eapply (shift_mixed N l1 l (el_nodes e1) ns0); [by eapply nodes_some|exact (side_some _ _ _ He Hs0)|done|exact (lt_side _ _ _ He Hs0)|]. by rewrite <- Hs.
      + exfalso. eapply (shift_mixed N (l1 + 1) l (el_nodes e1) ns0); [by eapply nodes_some|exact (side_some _ _ _ He Hs0)|done|exact (lt_side _ _ _ He Hs0)|]. by rewrite <- Hs.
      + destruct (shift2_inj N l1 l n1 ns0) as [-> Hn]; [exact (side_some _ _ _ He1 Hs1)|exact (lt_side _ _ _ He1 Hs1)|exact (lt_side _ _ _ He Hs0)|by rewrite <- Hs|].
        exists e1, s1, k. split; [done|]. split; [done|]. split; [done|]. split; [done|]. split; [done|]. by exists n1.
    - intros (e1 & s1 & k & Hk & Hl & -> & -> & He1 & ns & Hns & Hp). split; [apply dom_cases; by exists e1, l, k|].
      exists (shift N l ns ++ shift N (l + 1) ns). split; [|unfold shift; by rewrite Hp]. apply ext_at_sides; [done|]. right; right. by exists s1, ns.
  Qed.
  (** has_bnd in the extruded mesh. *)
  Lemma flat_bnd id e : id ∈ bnds -> in_domain m id e -> el_type e = Line.
  Proof.
    intros Hid He. destruct (pm_bnd _ _ _ HP id e Hid He) as (p & s & (ip & Hp) & Hdim & _).
    destruct (pm_flat _ _ _ HP e) as [H1|H1]; [by exists id|done|]. destruct (pm_flat _ _ _ HP p) as [H2|H2]; [by exists ip| |]; rewrite H1, H2 in Hdim; cbn in Hdim; lia.
  Qed.
  Lemma ext_has_bnd_face l e b : in_domain m dom e ->
    has_bnd st.1 (bnds ++ [ib; fr]) (shift N l (el_nodes e)) b <->
      (l = 0 /\ exists k, tags !! k = Some (dom, e, Back) /\ b = it_el (item_of (dom, e, Back)) k) \/
      (l = L /\ exists k, tags !! k = Some (dom, e, Front) /\ b = it_el (item_of (dom, e, Front)) k).
  Proof.
    intros He. unfold has_bnd. assert (He' := lt_nodes _ _ He). split.
    - intros [(id & Hid & Hd) Hp]. destruct (bnd_cases m N bnds zs z0 ib fr HP Hz Hib Hfr st Hb id b Hid Hd) as (k & [[i e1] kd] & Hk & -> & Hi & Hd1 & Hkd).
      assert (He1' := lt_nodes _ _ Hd1). pose proof (nodes_some _ _ Hd1) as Hne1. pose proof (nodes_some _ _ He) as Hne.
      destruct kd as [l1| |]; cbn [it_el el_nodes item_of it_nodes] in Hp.
      + exfalso. by apply (shift_mixed N l l1 (el_nodes e) (el_nodes e1)).
      + apply shift_inj in Hp as [<- Hp]; [|done|done|done]. assert (e1 = e) as -> by (apply Hun; [by exists i|by exists dom|done]).
        rewrite (one_domain i dom e Hd1 He) in Hk |- *. left. split; [done|]. by exists k.
      + apply shift_inj in Hp as [<- Hp]; [|done|done|done]. assert (e1 = e) as -> by (apply Hun; [by exists i|by exists dom|done]).
        rewrite (one_domain i dom e Hd1 He) in Hk |- *. right. split; [done|]. by exists k.
    - intros [(-> & k & Hk & ->)|(-> & k & Hk & ->)].
      + split; [|done]. exists ib. split; [apply elem_of_app; right; left|]. apply (elems_tag m N zs z0 ib fr st Hb). by exists k, (dom, e, Back).
      + split; [|done]. exists fr. split; [apply elem_of_app; right; right; left|]. apply (elems_tag m N zs z0 ib fr st Hb). by exists k, (dom, e, Front).
  Qed.
  Lemma ext_has_bnd_lateral l e s0 ns0 b : in_domain m dom e -> side_nodes e s0 ns0 -> l < L ->
    has_bnd st.1 (bnds ++ [ib; fr]) (shift N l ns0 ++ shift N (l + 1) ns0) b <->
      exists id b0 k, id ∈ bnds /\ in_domain m id b0 /\ el_nodes b0 ≡ₚ ns0 /\ tags !! k = Some (id, b0, Layer l) /\ b = it_el (item_of (id, b0, Layer l)) k.
  Proof.
    intros He Hs0 Hl. unfold has_bnd. assert (He' := lt_nodes _ _ He). pose proof (side_some _ _ _ He Hs0) as Hne. pose proof (lt_side _ _ _ He Hs0) as Hlt. split.
    - intros [(id & Hid & Hd) Hp]. destruct (bnd_cases m N bnds zs z0 ib fr HP Hz Hib Hfr st Hb id b Hid Hd) as (k & [[i e1] kd] & Hk & -> & Hi & Hd1 & Hkd).
      assert (He1' := lt_nodes _ _ Hd1). pose proof (nodes_some _ _ Hd1) as Hne1. destruct kd as [l1| |]; cbn [it_el el_nodes item_of it_nodes] in Hp.
      + destruct Hkd as (-> & Hbn & Hl1). apply shift2_inj in Hp as [-> Hp]; [|done|done|done]. by exists id, e1, k.
      + exfalso. by apply (shift_mixed N 0 l (el_nodes e1) ns0).
      + exfalso. by apply (shift_mixed N L l (el_nodes e1) ns0).
    - intros (id & b0 & k & Hid & Hd & Hp & Hk & ->). split.
      + exists id. split; [apply elem_of_app; by left|]. apply (elems_tag m N zs z0 ib fr st Hb). by exists k, (id, b0, Layer l).
      + cbn [it_el el_nodes item_of it_nodes]. unfold shift. by rewrite Hp.
  Qed.
  Lemma tag_at t : t ∈ tags -> exists k, tags !! k = Some t.
  Proof. apply elem_of_list_lookup_1. Qed.
  Lemma has_side_perm (mm : dmap (domain pt)) d ns ns' es : ns ≡ₚ ns' -> has_side mm d ns es <-> has_side mm d ns' es.
  Proof. intros Hp. unfold has_side. split; intros [H (n & H1 & H2)]; (split; [done|]); exists n; (split; [done|]); by rewrite H2. Qed.
  Lemma has_bnd_perm (mm : dmap (domain pt)) d ns ns' b : ns ≡ₚ ns' -> has_bnd mm d ns b <-> has_bnd mm d ns' b.
  Proof. intros Hp. unfold has_bnd. split; intros [H H1]; (split; [done|]); by rewrite H1. Qed.
  Lemma conf_perm (mm : dmap (domain pt)) d bs (e' : el) s ns ns' : ns ≡ₚ ns' ->
      ((exists es', es' <> (e', s) /\ has_side mm d ns' es' /\ forall x, has_side mm d ns' x -> x = (e', s) \/ x = es') /\
       (forall b, ~ has_bnd mm bs ns' b)) \/
      ((forall x, has_side mm d ns' x -> x = (e', s)) /\
       (exists b, has_bnd mm bs ns' b /\ forall b', has_bnd mm bs ns' b' -> b' = b)) ->
      ((exists es', es' <> (e', s) /\ has_side mm d ns es' /\ forall x, has_side mm d ns x -> x = (e', s) \/ x = es') /\
       (forall b, ~ has_bnd mm bs ns b)) \/
      ((forall x, has_side mm d ns x -> x = (e', s)) /\
       (exists b, has_bnd mm bs ns b /\ forall b', has_bnd mm bs ns b' -> b' = b)).
  Proof.
    intros Hp. assert (H1 := fun x => has_side_perm mm d ns ns' x Hp). assert (H2 := fun b => has_bnd_perm mm bs ns ns' b Hp).
    intros [((es & Hne & Hs & Hu) & Hnb)|(Hu & b & Hbb & Hub)].
    - left. split; [exists es; split; [done|]; split; [by apply H1|intros x Hx; by apply Hu, H1]|]. intros b Hbb. by apply (Hnb b), H2.
    - right. split; [intros x Hx; by apply Hu, H1|]. exists b. split; [by apply H2|]. intros b' Hb'. by apply Hub, H2.
  Qed.
  Lemma ext_conforming : conforming st.1 dom (bnds ++ [ib; fr]).
  Proof.
    intros e' s ns He' Hs. apply dom_cases in He' as (e & l & k & Hk & He & Hl & ->). apply ext_at_sides in Hs; [|done]. pose proof (Hq e He) as Ht.
    destruct Hs as [[-> Hp]|[[-> Hp]|(s0 & ns0 & -> & Hs0 & Hp)]]; eapply conf_perm; try exact Hp.
    - destruct (decide (l = 0)) as [-> |Hl0].
      + right. split.
        * intros [x sx] Hx. apply ext_has_face in Hx as (l' & k' & Hk' & Hl' & Hx & Hsx); [|done]. cbn [fst snd] in Hx, Hsx. destruct Hsx as [[-> ->]|[_ Hc0]]; [|lia].
          rewrite Hx. by rewrite (tag_pos _ _ _ Hk Hk').
        * destruct (tag_at (dom, e, Back)) as [kb Hkb]; [apply (tags_elem m N bnds zs HP Hz); split; [done|by rewrite Ht]|].
          exists (it_el (item_of (dom, e, Back)) kb). split; [apply ext_has_bnd_face; [done|]; left; split; [done|by exists kb]|].
          intros b Hbb. apply ext_has_bnd_face in Hbb as [(_ & k2 & Hk2 & ->)|(Hc0 & _)]; [|lia|done]. by rewrite (tag_pos _ _ _ Hk2 Hkb).
      + left. split.
        * destruct (tag_at (dom, e, Layer (l - 1))) as [kp Hkp]; [apply (tags_elem m N bnds zs HP Hz); split; [done|lia]|].
          exists (ext_at e (l - 1) kp, 1). split; [intros [=]|]. split; [apply ext_has_face; [done|]; exists (l - 1), kp; cbn [fst snd]; split; [done|]; split; [lia|]; split; [done|right; lia]|].
          intros [x sx] Hx. apply ext_has_face in Hx as (l' & k' & Hk' & Hl' & Hx & Hsx); [|done]. cbn [fst snd] in Hx, Hsx. rewrite Hx. destruct Hsx as [[-> ->]|[-> Hl1]].
          -- left. by rewrite (tag_pos _ _ _ Hk Hk').
          -- right. assert (l' = l - 1) as -> by lia. by rewrite (tag_pos _ _ _ Hkp Hk').
        * intros b Hbb. apply ext_has_bnd_face in Hbb as [(Hc0 & _)|(Hc0 & _)]; [lia|lia|done].
    - destruct (decide (l + 1 = L)) as [HL|HL].
      + right. split.
        * intros [x sx] Hx. apply ext_has_face in Hx as (l' & k' & Hk' & Hl' & Hx & Hsx); [|done]. cbn [fst snd] in Hx, Hsx. destruct Hsx as [[_ Hc0]|[-> Hc0]]; [lia|].
          assert (l' = l) as -> by lia. rewrite Hx. by rewrite (tag_pos _ _ _ Hk Hk').
        * destruct (tag_at (dom, e, Front)) as [kb Hkb]; [apply (tags_elem m N bnds zs HP Hz); split; [done|by rewrite Ht]|].
          exists (it_el (item_of (dom, e, Front)) kb). split; [apply ext_has_bnd_face; [done|]; right; split; [done|by exists kb]|].
          intros b Hbb. apply ext_has_bnd_face in Hbb as [(Hc0 & _)|(_ & k2 & Hk2 & ->)]; [lia| |done]. by rewrite (tag_pos _ _ _ Hk2 Hkb).
      + left. split.
        * destruct (tag_at (dom, e, Layer (l + 1))) as [kp Hkp]; [apply (tags_elem m N bnds zs HP Hz); split; [done|lia]|].
          exists (ext_at e (l + 1) kp, 0). split; [intros [=]|]. split; [apply ext_has_face; [done|]; exists (l + 1), kp; cbn [fst snd]; split; [done|]; split; [lia|]; split; [done|left; lia]|].
          intros [x sx] Hx. apply ext_has_face in Hx as (l' & k' & Hk' & Hl' & Hx & Hsx); [|done]. cbn [fst snd] in Hx, Hsx. rewrite Hx. destruct Hsx as [[-> ->]|[-> Hl1]].
          -- right. by rewrite (tag_pos _ _ _ Hkp Hk').
          -- left. assert (l' = l) as -> by lia. by rewrite (tag_pos _ _ _ Hk Hk').
        * intros b Hbb. apply ext_has_bnd_face in Hbb as [(Hc0 & _)|(Hc0 & _)]; [lia|lia|done].
    - destruct (Hc e s0 ns0 He Hs0) as [((es & Hne & Hss & Hu) & Hnb)|(Hu & b0 & Hb0 & Hub)].
      + left. split.
        * destruct es as [e1 s1]. pose proof (proj1 Hss) as He1. cbn [fst] in He1.
          destruct (tag_at (dom, e1, Layer l)) as [kp Hkp]; [apply (tags_elem m N bnds zs HP Hz); split; done|].
          exists (ext_at e1 l kp, s1 + 2). split.
          -- intros H. pose proof (f_equal (fun p : el * nat => el_id p.1) H) as He2. pose proof (f_equal snd H) as Hs2. cbn [snd] in Hs2. assert (kp = k) as -> by exact He2. clear H He2. rewrite Hk in Hkp. injection Hkp as ->. apply Hne. f_equal. lia.
          -- split; [apply (ext_has_lateral l e s0 ns0); [done|done|]; exists e1, s1, kp; by cbn [fst snd]|].
             intros [x sx] Hx. apply (ext_has_lateral l e s0 ns0) in Hx as (e2 & s2 & k2 & Hk2 & _ & Hx & Hsx & Hx2); [|done|done]. cbn [fst snd] in Hx, Hsx. subst x sx.
             destruct (Hu _ Hx2) as [H|H]; injection H as -> ->; [left; by rewrite (tag_pos _ _ _ Hk Hk2)|right; by rewrite (tag_pos _ _ _ Hkp Hk2)].
        * intros b Hbb. apply (ext_has_bnd_lateral l e s0) in Hbb as (id & b0 & kb & Hid & Hdb & Hpb & _); [|done|done|done]. apply (Hnb b0). split; [by exists id|done].
      + right. split.
        * intros [x sx] Hx. apply (ext_has_lateral l e s0 ns0) in Hx as (e2 & s2 & k2 & Hk2 & _ & Hx & Hsx & Hx2); [|done|done]. cbn [fst snd] in Hx, Hsx. subst x sx.
          pose proof (Hu _ Hx2) as H. injection H as -> ->. by rewrite (tag_pos _ _ _ Hk Hk2).
        * destruct Hb0 as [(id & Hid & Hdb) Hpb]. destruct (tag_at (id, b0, Layer l)) as [kb Hkb]; [apply (tags_elem m N bnds zs HP Hz); split; done|].
          exists (it_el (item_of (id, b0, Layer l)) kb). split; [apply (ext_has_bnd_lateral l e s0); [done|done|done|]; by exists id, b0, kb|].
          intros b Hbb. apply (ext_has_bnd_lateral l e s0) in Hbb as (id2 & b2 & k2 & Hid2 & Hdb2 & Hpb2 & Hk2 & ->); [|done|done|done].
          assert (b2 = b0) as -> by (apply Hub; split; [by exists id2|done]). rewrite (one_domain _ _ _ Hdb2 Hdb) in Hk2 |- *. by rewrite (tag_pos _ _ _ Hk2 Hkb).
  Qed.
  Lemma ext_bnd_attached : boundary_attached m dom bnds -> (forall id e, in_domain m id e -> el_type e = Quad -> id = dom) ->
    boundary_attached st.1 dom (bnds ++ [ib; fr]).
  Proof.
    intros Hba Hqd id b Hid Hd. destruct (bnd_cases m N bnds zs z0 ib fr HP Hz Hib Hfr st Hb id b Hid Hd) as (k & [[i e1] kd] & Hk & -> & Hi & Hd1 & Hkd).
    destruct kd as [l1| |]; cbn [it_el el_nodes item_of it_nodes].
    - destruct Hkd as (-> & Hbn & Hl1). destruct (Hba _ _ Hbn Hd1) as ([e s] & [He (ns & Hs & Hp)] & Hu). cbn [fst snd] in He, Hs.
      destruct (tag_at (dom, e, Layer l1)) as [ke Hke]; [apply (tags_elem m N bnds zs HP Hz); split; done|].
      assert (Hpp : shift N l1 (el_nodes e1) ++ shift N (l1 + 1) (el_nodes e1) ≡ₚ shift N l1 ns ++ shift N (l1 + 1) ns) by (unfold shift; by rewrite Hp).
      exists (ext_at e l1 ke, s + 2). split.
      + apply (has_side_perm _ _ _ _ _ Hpp). apply (ext_has_lateral l1 e s ns); [done|done|]. exists e, s, ke. cbn [fst snd]. repeat split; try done. by exists ns.
      + intros [x sx] Hx. apply (has_side_perm _ _ _ _ _ Hpp) in Hx. apply (ext_has_lateral l1 e s ns) in Hx as (e2 & s2 & k2 & Hk2 & _ & Hx & Hsx & Hx2); [|done|done]. cbn [fst snd] in Hx, Hsx. subst x sx.
        apply (has_side_perm _ _ _ _ _ Hp) in Hx2. pose proof (Hu _ Hx2) as H. injection H as -> ->. by rewrite (tag_pos _ _ _ Hke Hk2).
    - assert (i = dom) as -> by (eapply Hqd; [done|]; eapply (quad_of m N bnds HP i e1 Hd1); naive_solver).
      destruct (tag_at (dom, e1, Layer 0)) as [ke Hke]; [apply (tags_elem m N bnds zs HP Hz); split; [done|lia]|].
      exists (ext_at e1 0 ke, 0). split; [apply ext_has_face; [done|]; exists 0, ke; cbn [fst snd]; repeat split; [done|lia|by left]|].
      intros [x sx] Hx. apply ext_has_face in Hx as (l' & k' & Hk' & Hl' & Hx & Hsx); [|done]. cbn [fst snd] in Hx, Hsx. destruct Hsx as [[-> ->]|[_ Hc0]]; [|lia].
      rewrite Hx. by rewrite (tag_pos _ _ _ Hke Hk').
    - assert (i = dom) as -> by (eapply Hqd; [done|]; eapply (quad_of m N bnds HP i e1 Hd1); naive_solver).
      destruct (tag_at (dom, e1, Layer (L - 1))) as [ke Hke]; [apply (tags_elem m N bnds zs HP Hz); split; [done|lia]|].
      exists (ext_at e1 (L - 1) ke, 1). split; [apply ext_has_face; [done|]; exists (L - 1), ke; cbn [fst snd]; repeat split; [done|lia|right; lia]|].
      intros [x sx] Hx. apply ext_has_face in Hx as (l' & k' & Hk' & Hl' & Hx & Hsx); [|done]. cbn [fst snd] in Hx, Hsx. destruct Hsx as [[_ Hc0]|[-> Hc0]]; [lia|].
      assert (l' = L - 1) as -> by lia. rewrite Hx. by rewrite (tag_pos _ _ _ Hke Hk').
  Qed.
End extrude.
