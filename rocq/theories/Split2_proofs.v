From Verif Require Import Base StdAlgo Ownership_model Elem_model Elem_spec Elem_proofs Mesh_model Mesh_spec Mesh_proofs MeshSerial_proofs Partition_model Partition_spec Partition2_proofs Partition4_proofs Merge_model Merge3_proofs Split_model Split_spec Split_proofs.
Local Arguments Nat.mul : simpl never.
Local Arguments Nat.add : simpl never.
Local Arguments Nat.sub : simpl never.

Section made.
  Context {V : Type} (o : nat) (sched : list (element V) -> list (element V)) (shuffle : list nat -> list nat) (m : dmap (domain V)) (b n : nat) (ids : list nat) (x : mesh V).
  Context (Ho : 1 <= o) (Hv : valid_doms [o] m) (Hu : unique_ids m) (Hsc : forall l, sched l ≡ₚ l) (Hsh : forall l, shuffle l ≡ₚ l).
  Context (Hx : make_mesh2 sched shuffle m b n ids = Ok x).
  Context (Hpar : forall id d id' d' k, id ∈ ids -> (id, d) ∈ m -> d_dim d = Some k -> (id', d') ∈ m -> d_dim d' = Some (k + 1) -> id' ∉ ids).
  Lemma made_parts : m_domains x = m /\ StronglySorted lt (m_bnds x).*1 /\ (forall id, id ∈ (m_bnds x).*1 <-> id ∈ ids) /\
    forall id vs, (id, vs) ∈ m_bnds x -> makeBoundaryElementViews sched m [id] = Ok vs.
  Proof.
    pose proof (mesh2_ok [o] sched shuffle m b n ids Hv Hsc Hsh) as Hm.
    destruct (init_ok [o] sched m ids Hv Hsc) as [(r & Hr & H1 & H2 & H3)|[Hr _]]; rewrite Hr in Hm; [|congruence].
    destruct Hm as (so & Hm & _). rewrite Hm in Hx. injection Hx as <-. done.
  Qed.
  Lemma dim_by_size id id' e e' : in_domain m id e -> in_domain m id' e' -> length (el_nodes e) = length (el_nodes e') -> native_dim (el_type e) = native_dim (el_type e').
  Proof.
    intros H H' Hl. destruct (in_domain_typed [o] m id e Hv H) as ([Ht _] & _). destruct (in_domain_typed [o] m id' e' Hv H') as ([Ht' _] & _).
    pose proof (in_slots [o] m Hv id e H) as Hs. pose proof (in_slots [o] m Hv id' e' H') as Hs'. rewrite Ht, Ht' in Hl.
    assert (Heo : forall f : element V, (el_type f, el_order f) ∈ slots [o] -> el_order f = o).
    { intros f Hf. unfold slots in Hf. cbn in Hf. rewrite !elem_of_cons, elem_of_nil in Hf. naive_solver. }
    rewrite (Heo e Hs), (Heo e' Hs') in Hl. clear -Hl Ho. unfold nodes_per_element in Hl. destruct (el_type e), (el_type e'); (done || nia).
  Qed.
  (** Each view is that of its boundary element. *)
  Lemma put_views id vs : makeBoundaryElementViews sched m [id] = Ok vs ->
    exists bs, bs ≡ₚ visit_elems m [id] /\ Forall2 (fun b v => put_bnd_el_view m b = Ok (Some v)) bs vs.
  Proof.
    unfold makeBoundaryElementViews. intros H. apply bind_inv in H as (u & _ & H). apply bind_inv in H as (views & Hv' & H). apply map_res_inv in Hv'.
    exists (sched (visit_elems m [id])). split; [apply Hsc|]. destruct (forallb _ views) eqn:Ef; [|done]. cbn in H. injection H as <-.
    revert Ef. induction Hv' as [|b' v bs vs' Hb _ IH]; intros Ef; [constructor|]. cbn in Ef. apply andb_true_iff in Ef as [Hs Ef]. destruct v as [v|]; [|done].
    cbn. constructor; [done|]. by apply IH.
  Qed.
  Lemma view_unique id1 vs1 id2 vs2 (v1 v2 : element V * nat) c : (id1, vs1) ∈ m_bnds x -> (id2, vs2) ∈ m_bnds x -> v1 ∈ vs1 -> v2 ∈ vs2 ->
    side_of c v1.1 v1.2 -> side_of c v2.1 v2.2 -> v1 = v2.
  Proof.
    destruct made_parts as (_ & _ & _ & Hmk).
    assert (Hsh' : forall id vs v, (id, vs) ∈ m_bnds x -> v ∈ vs -> side_of c v.1 v.2 -> exists c', is_elem m c' /\ put_bnd_el_view m c' = Ok (Some v) /\ el_nodes c' ≡ₚ el_nodes c).
    { intros id vs [e s] Hid Hvs Hs. destruct (put_views id vs (Hmk id vs Hid)) as (bs & Hbs & HF). apply elem_of_list_lookup in Hvs as [i Hi].
      destruct (Forall2_lookup_r _ _ _ _ _ HF Hi) as (c' & Hc' & Hp). exists c'. apply elem_of_list_lookup_2 in Hc'. rewrite Hbs in Hc'. apply (visit1 [o] m Hv) in Hc'.
      split; [by exists id|]. split; [done|]. destruct (put_ok [o] m c' Hv) as [(e' & s' & Hp' & Ha)|[[Hp'|Hp'] _]]; [|congruence|congruence].
      rewrite Hp in Hp'. injection Hp' as <- <-. destruct Ha as (_ & _ & Ha). destruct (side_view_ok c e s Hs) as (ns & Hns & Hpn). destruct (side_view_ok c' e s Ha) as (ns' & Hns' & Hpn').
      rewrite Hns in Hns'. injection Hns' as <-. by rewrite <- Hpn, <- Hpn'. }
    intros Hi1 Hi2 Hv1 Hv2 Hs1 Hs2. destruct (Hsh' id1 vs1 v1 Hi1 Hv1 Hs1) as (c1 & (j1 & Hc1) & Hp1 & Hn1). destruct (Hsh' id2 vs2 v2 Hi2 Hv2 Hs2) as (c2 & (j2 & Hc2) & Hp2 & Hn2).
    assert (Hn : el_nodes c1 ≡ₚ el_nodes c2) by (by rewrite Hn1). assert (Hd : native_dim (el_type c1) = native_dim (el_type c2)) by (eapply dim_by_size; [done|done|by rewrite Hn]).
    unfold put_bnd_el_view in Hp1, Hp2. rewrite (sort_ext _ _ Hn), Hd in Hp1. rewrite Hp1 in Hp2. by injection Hp2.
  Qed.
  Lemma made_splittable : splittable [o] x.
  Proof.
    destruct made_parts as (Hm & Hk & Hids & Hmk).
    assert (Hvs : forall id vs, (id, vs) ∈ m_bnds x -> exists bs, bs ≡ₚ dom_elems (m_domains x) id /\ Forall2 (fun b v => attached (m_domains x) b v.1 v.2) bs vs).
    { intros id vs Hid. destruct (views_ok [o] sched m [id] Hv Hsc) as [(views & bs & Hr & Hbs & HF & _)|[Hr _]]; cbv zeta in Hr; rewrite (Hmk id vs Hid) in Hr; [|done].
      injection Hr as ->. exists bs. rewrite Hm. split; [|done]. by rewrite dom_elems_visit by apply Hv. }
    split; [repeat constructor; intros H; by apply elem_of_nil in H|by rewrite Hm|by rewrite Hm|done|done| |].
    - intros id vs e s Hid He. destruct (Hvs id vs Hid) as (bs & Hbs & HF). apply elem_of_list_lookup in He as [i Hi].
      destruct (Forall2_lookup_r _ _ _ _ _ HF Hi) as (c & Hc & (id' & He') & Hd & _). cbn [fst snd] in *. exists id'. split; [|done]. rewrite Hm in *.
      apply elem_of_list_lookup_2 in Hc. rewrite Hbs, dom_elems_visit in Hc by apply Hv. apply (visit1 [o] m Hv) in Hc.
      destruct (in_domain_typed [o] m id c Hv Hc) as (_ & d & Hd1 & Hdd). destruct (in_domain_typed [o] m id' e Hv He') as (_ & d' & Hd2 & Hdd').
      rewrite Hids. eapply (Hpar id d id' d'); [|done|done|done|by rewrite Hdd', Hd]. apply Hids. by apply (elem_of_list_fmap_1 fst) in Hid.
    - rewrite Hm. intros id id' c c' _ _ Hc Hc' Hn. eapply dim_by_size; [done|done|by rewrite Hn].
  Qed.
End made.
