(** Lemmas for C81: merging the parts. *)
From Coq Require Import Reals Lra.
From Verif Require Import Base StdAlgo Ownership_model Elem_model Elem_spec Mesh_model Mesh_spec Mesh_proofs Prim_model Prim_spec Prim_proofs Merge_model Merge_spec Merge_proofs Merge3_proofs Merge4_proofs Merge_props Cyl_model Cyl_spec Cyl_proofs Cyl2_proofs.
From Verif Require Match4_proofs.
Local Open Scope nat_scope.

Lemma for_each_keep {A S} (f : A -> S -> res S) (I : S -> Prop) l s s' : I s -> for_each f l s = Ok s' ->
  (forall a t t', a ∈ l -> I t -> f a t = Ok t' -> I t') -> I s'.
Proof.
  revert s. induction l as [|a l IH]; intros s Hs Hf Hst; cbn [for_each] in Hf; [by injection Hf as <-|]. apply bind_inv in Hf as (t & Ht & Hf).
  eapply IH; [|exact Hf|]; [eapply Hst; [left|exact Hs|done]|]. intros b u u' Hb. apply Hst. by right.
Qed.

Section keys.
  Context {V : Type}.
  Notation el := (element V).
  Definition kin (A : nat -> Prop) (m : dmap (domain V)) : Prop := forall k, k ∈ m.*1 -> A k.
  Lemma emplace_kin (A : nat -> Prop) id d (m : dmap (domain V)) : A id -> kin A m -> kin A (dm_emplace id d m).
  Proof. intros Hi Hm. unfold dm_emplace. destruct (dm_find id m); [done|]. intros k Hk. apply dm_set_keys in Hk as [->|Hk]; [done|by apply Hm]. Qed.
  Lemma push_kin (A : nat -> Prop) id (e : el) m m' : A id -> kin A m -> push_at id e m = Ok m' -> kin A m'.
  Proof. intros Hi Hm H. unfold push_at in H. apply bind_inv in H as (d & _ & H). injection H as <-. intros k Hk. apply dm_set_keys in Hk as [->|Hk]; [done|by apply Hm]. Qed.
  Lemma copy_kin (A : nat -> Prop) m (src : mesh V) del proj r : (forall k, k ∈ (m_domains src).*1 -> A k) -> (forall k, k ∈ (m_bnds src).*1 -> A k) -> StronglySorted lt (m_domains src).*1 -> StronglySorted lt (m_bnds src).*1 ->
    kin A m -> copyElements m src del proj = Ok r -> kin A r.1.
  Proof.
    intros HA HB S1 S2 Hm H. unfold copyElements in H. apply bind_inv in H as (m1 & H1 & H). apply bind_inv in H as (st & H2 & H). injection H as <-. cbn [fst].
    assert (Hm1 : kin A m1).
    { eapply (for_each_keep _ (kin A)); [exact Hm|exact H1|]. intros id t t' Hid Ht Hf. apply set_difference_elem in Hid as [Hid _]; [|done|done]. unfold copy_domain in Hf.
      eapply (for_each_keep _ (kin A)); [|exact Hf|]; [apply emplace_kin; [by apply HA|done]|]. intros e u u' _ Hu Hp. eapply push_kin; [by apply HA|exact Hu|exact Hp]. }
    eapply (for_each_keep _ (fun st => kin A st.1)); [|exact H2|]; [exact Hm1|]. intros id t t' Hid Ht Hf. unfold copy_boundary in Hf. apply bind_inv in Hf as (st2 & H3 & Hf). injection Hf as <-. cbn [fst].
    assert (H4 : kin A st2.1).
    { eapply (for_each_keep _ (fun st => kin A st.1)); [|exact H3|]; [cbn [fst]; apply emplace_kin; [by apply HB|done]|]. intros e u u' _ Hu Hp. cbv beta zeta in Hp. destruct (bool_decide (sort (el_nodes e) ∈ del)); [by injection Hp as <-|]. apply bind_inv in Hp as (m2 & Hp & Hq). injection Hq as <-. cbn [fst]. eapply push_kin; [by apply HB|exact Hu|exact Hp]. }
    destruct (dm_find id st2.1); [|done]. destruct (forallb _ _); [|done]. intros k Hk. apply H4. unfold dm_erase in Hk. apply elem_of_list_fmap in Hk as (p & -> & Hp). apply elem_of_list_In, List.filter_In in Hp as [Hp _]. apply elem_of_list_fmap. exists p. split; [done|by apply elem_of_list_In].
  Qed.
  Lemma merge_kin (A : nat -> Prop) sched shuffle mm (x1 x2 y : mesh V) n1 k1 n2 k2 N K : (forall l, sched l ≡ₚ l) -> (forall l, shuffle l ≡ₚ l) -> whole_mesh x1 n1 k1 -> whole_mesh x2 n2 k2 -> whole_mesh y N K ->
    (forall k, k ∈ (m_domains x1).*1 -> A k) -> (forall k, k ∈ (m_bnds x1).*1 -> A k) -> (forall k, k ∈ (m_domains x2).*1 -> A k) -> (forall k, k ∈ (m_bnds x2).*1 -> A k) ->
    merge sched shuffle mm x1 x2 = Ok y -> forall k, k ∈ (m_domains y).*1 -> A k /\ (k ∈ (m_bnds x1).*1 \/ k ∈ (m_bnds x2).*1 -> k ∈ (m_bnds y).*1).
  Proof.
    intros Hs Hsh W1 W2 Wy A1 B1 A2 B2 H. unfold merge in H. apply bind_inv in H as (f1 & _ & H). apply bind_inv in H as (f2 & _ & H). cbv zeta in H. apply bind_inv in H as (r1 & E1 & H). apply bind_inv in H as (r2 & E2 & H).
    assert (K1 : kin A r1.1). { eapply copy_kin; [exact A1|exact B1|apply (wm_valid _ _ _ W1)|apply (wm_keys _ _ _ W1)| |exact E1]. intros k Hk. by apply elem_of_nil in Hk. }
    assert (K2 : kin A r2.1). { eapply copy_kin; [exact A2|exact B2|apply (wm_valid _ _ _ W2)|apply (wm_keys _ _ _ W2)|exact K1|exact E2]. }
    pose proof (Match4_proofs.made_same _ _ _ _ _ _ _ H) as Em. pose proof (wm_valid _ _ _ Wy) as Hv. rewrite Em in Hv.
    assert (Hkeys : (m_domains y).*1 = r2.1.*1). { rewrite Em. unfold fixElementIds. change (map ?g ?l) with (g <$> l). rewrite <- list_fmap_compose. apply list_fmap_ext. by intros ? []. }
    intros k Hk. split; [apply K2; by rewrite <- Hkeys|]. intros Hb. set (ids := set_intersection _ _) in H.
    pose proof (mesh2_ok [1] sched shuffle _ 0 (localSize (m_own x1) + localSize (m_own x2) - length mm) ids Hv Hs Hsh) as Hm.
    destruct (Mesh_proofs.init_ok [1] sched _ ids Hv Hs) as [(r & Hr & _ & H2 & _)|[Hr _]]; rewrite Hr in Hm; [|congruence]. destruct Hm as (so & Hm & _). rewrite Hm in H. injection H as <-. cbn [m_bnds]. apply H2. unfold ids.
    apply set_intersection_elem; [apply unique_strict, sort_sorted|apply Hv|]. split; [rewrite unique_elem, sort_elem, elem_of_app; exact Hb|by rewrite <- Em].
  Qed.
End keys.

(** Positions after a merge. *)
Definition merged_at (n1 n2 : nat) (f : nat -> nat) (loc1 loc2 : nat -> pt3) (i : nat) : pt3 :=
  if i <? n1 then loc1 i else match List.find (fun a => f a =? i) (seq 0 n2) with Some a => loc2 a | None => loc1 i end.
Lemma merged_at2 mm n1 n2 N f loc1 loc2 a : matching mm n1 n2 -> renumbering mm n1 n2 N f -> (forall a b, (a, b) ∈ mm -> loc2 a = loc1 b) -> a < n2 ->
  merged_at n1 n2 f loc1 loc2 (f a) = loc2 a.
Proof.
  intros [Hnd Hm] (R1 & R2 & R3 & R4) Hs Ha. unfold merged_at. destruct (decide (a ∈ mm.*1)) as [Hin|Hout].
  - apply elem_of_list_fmap in Hin as ([a' b] & -> & Hin). cbn [fst] in *. rewrite (R1 _ _ Hin). destruct (Hm _ _ Hin) as [_ Hb]. rewrite (proj2 (Nat.ltb_lt b n1) Hb). symmetry. by apply Hs.
  - pose proof (R2 a Ha Hout) as Hf. rewrite (proj2 (Nat.ltb_ge (f a) n1)) by lia. destruct (List.find (fun a0 => f a0 =? f a) (seq 0 n2)) as [a'|] eqn:E.
    + apply List.find_some in E as [Hin E]. apply List.in_seq in Hin. apply Nat.eqb_eq in E. assert (Hout' : a' ∉ mm.*1). { intros Hin'. apply elem_of_list_fmap in Hin' as ([a2 b] & -> & Hi). cbn [fst] in *. rewrite (R1 _ _ Hi) in E. destruct (Hm _ _ Hi). lia. }
      assert (a' = a) as ->; [|done]. destruct (Nat.lt_trichotomy a' a) as [Hl|[He|Hl]]; [|done|]; apply R3 in Hl; (done || lia).
    + exfalso. assert (Hina : List.In a (seq 0 n2)) by (apply List.in_seq; lia). apply (List.find_none _ _ E) in Hina. by rewrite Nat.eqb_refl in Hina.
Qed.

(** A mesh made of the parts in [xs]. *)
Record made_of (dom : nat) (xs : list (mesh pt3)) (y : mesh pt3) : Prop := {
  mo_whole : exists n k, whole_mesh y n k;
  mo_place : exists loc, placed y loc;
  mo_dom : dom ∉ (m_bnds y).*1;
  mo_keys : forall d, d ∈ (m_domains y).*1 -> d = dom \/ d ∈ (m_bnds y).*1;
  mo_quad : forall e, in_domain (m_domains y) dom e -> el_type e = Quad;
  mo_line : forall d e, d <> dom -> in_domain (m_domains y) d e -> el_type e = Line;
  mo_from : forall d e', in_domain (m_domains y) d e' -> exists x e, x ∈ xs /\ in_domain (m_domains x) d e /\ el_type e' = el_type e /\ el_verts e' = el_verts e;
  mo_to : forall x e, x ∈ xs -> in_domain (m_domains x) dom e -> exists e', in_domain (m_domains y) dom e' /\ el_type e' = el_type e /\ el_verts e' = el_verts e }.
Lemma part_made_of x p : is_part x p -> sq_domain (p_ids p) ∉ sides p -> made_of (sq_domain (p_ids p)) [x] x.
Proof.
  intros Hp Hd. pose proof Hp as [H1 H2 H3 H4 H5 H6 H7 H8 H9]. split.
  - by eexists _, _.
  - exists (fun n => (p_pt p (n mod (p_ex p + 1)) (n / (p_ex p + 1)), 0%R)). intros e He. exact (H2 e He).
  - intros Hin. by apply Hd, H8.
  - intros d. by rewrite H9.
  - intros e He. by apply H3.
  - intros d e Hdd He. by destruct (H5 d e Hdd He).
  - intros d e He. exists x, e. split; [left|done].
  - intros x' e Hx He. apply elem_of_list_singleton in Hx as ->. by exists e.
Qed.

Section merged.
  Context (sched : list (element pt3) -> list (element pt3)) (shuffle : list nat -> list nat) (Hs : forall l, sched l ≡ₚ l) (Hsh : forall l, shuffle l ≡ₚ l).
  Context (mf : mesh pt3 -> mesh pt3 -> res (dmap nat)) (Hmf : matches mf).
  Lemma merge_made dom xs1 xs2 x1 x2 : made_of dom xs1 x1 -> made_of dom xs2 x2 -> exists y, merge_parts sched shuffle mf x1 x2 = Ok y /\ made_of dom (xs1 ++ xs2) y.
  Proof using Hs Hsh Hmf.
    intros [(n1 & k1 & W1) (loc1 & L1) D1 K1 Q1 E1 F1 T1] [(n2 & k2 & W2) (loc2 & L2) D2 K2 Q2 E2 F2 T2]. unfold merge_parts.
    destruct (Hmf x1 x2 n1 k1 n2 k2 loc1 loc2 W1 W2 L1 L2) as (mm & -> & Hmm & Hpos). rewrite bind_ok.
    assert (HC : compatible x1 x2).
    { split; [|split].
      - intros d e1 e2 H1 H2. destruct (decide (d = dom)) as [->|Hne]; [by rewrite (Q1 _ H1), (Q2 _ H2)|by rewrite (E1 d _ Hne H1), (E2 d _ Hne H2)].
      - intros d H1 H2. by destruct (K2 d H2) as [->|?].
      - intros d H1 H2. by destruct (K1 d H2) as [->|?]. }
    destruct (merge_valid sched shuffle mm x1 x2 n1 k1 n2 k2 Hs Hsh W1 W2 HC Hmm) as (y & f & g1 & g2 & Hy & Hren & Hel & _ & _ & _ & Wy & _ & Hb). cbv zeta in *. exists y. split; [done|].
    assert (Hnode1 : forall e a, is_elem (m_domains x1) e -> a ∈ el_nodes e -> a < n1) by (intros e a He Ha; apply (wm_nodes _ _ _ W1); by exists e).
    assert (Hnode2 : forall e a, is_elem (m_domains x2) e -> a ∈ el_nodes e -> a < n2) by (intros e a He Ha; apply (wm_nodes _ _ _ W2); by exists e).
    assert (Hfrom : forall d e', in_domain (m_domains y) d e' -> exists e, (in_domain (m_domains x1) d e \/ in_domain (m_domains x2) d e) /\ el_type e' = el_type e /\ el_verts e' = el_verts e).
    { intros d e' He'. apply Hel in He' as [(e & He & _ & (M1 & _ & M2 & _))|(e & He & _ & (M1 & _ & M2 & _))]; exists e; eauto. }
    split.
    - by eexists _, _.
    - exists (merged_at n1 n2 f loc1 loc2). intros e' (d & He'). apply Hel in He' as [(e & He & _ & (_ & _ & Ev & En & _))|(e & He & _ & (_ & _ & Ev & En & _))]; rewrite Ev, En.
      + rewrite map_id. assert (Hie : is_elem (m_domains x1) e) by (by exists d). eapply Match4_proofs.forall2_in; [exact (L1 e Hie)|]. intros a v Ha ->. unfold merged_at. by rewrite (proj2 (Nat.ltb_lt a n1) (Hnode1 e a Hie Ha)).
      + assert (Hie : is_elem (m_domains x2) e) by (by exists d). rewrite Forall2_fmap_l. eapply Match4_proofs.forall2_in; [exact (L2 e Hie)|]. intros a v Ha ->. symmetry. eapply merged_at2; [exact Hmm|exact Hren|exact Hpos|by apply (Hnode2 e)].
    - rewrite Hb. tauto.
    - intros d Hd. destruct (merge_kin (fun d => d = dom \/ d ∈ (m_bnds x1).*1 \/ d ∈ (m_bnds x2).*1) sched shuffle mm x1 x2 y n1 k1 n2 k2 _ _ Hs Hsh W1 W2 Wy) with (k := d) as [[->|HA] HB]; [..|done|by left|right; by apply HB]; try tauto.
      + intros k Hk. destruct (K1 k Hk); tauto.
      + intros k Hk. destruct (K2 k Hk); tauto.
    - intros e' He'. apply Hfrom in He' as (e & [He|He] & -> & _); auto.
    - intros d e' Hne He'. apply Hfrom in He' as (e & [He|He] & -> & _); eauto.
    - intros d e' He'. apply Hfrom in He' as (e & [He|He] & Et & Ev).
      + destruct (F1 d e He) as (x & e0 & Hx & He0 & Et0 & Ev0). exists x, e0. split; [apply elem_of_app; by left|]. split; [done|]. split; congruence.
      + destruct (F2 d e He) as (x & e0 & Hx & He0 & Et0 & Ev0). exists x, e0. split; [apply elem_of_app; by right|]. split; [done|]. split; congruence.
    - assert (HT1 : forall e, in_domain (m_domains x1) dom e -> exists e', in_domain (m_domains y) dom e' /\ el_type e' = el_type e /\ el_verts e' = el_verts e).
      { intros e He. exists (mk_el (el_type e) (el_order e) (map (fun i => i) (el_nodes e)) (el_verts e) (g1 (el_id e))). split; [|done]. apply Hel. left. exists e. split; [done|]. split; [|done]. intros [Hbe _]. by apply (bnd_iff x1 n1 k1 W1 dom e He) in Hbe. }
      assert (HT2 : forall e, in_domain (m_domains x2) dom e -> exists e', in_domain (m_domains y) dom e' /\ el_type e' = el_type e /\ el_verts e' = el_verts e).
      { intros e He. exists (mk_el (el_type e) (el_order e) (map f (el_nodes e)) (el_verts e) (g2 (el_id e))). split; [|done]. apply Hel. right. exists e. split; [done|]. split; [|done]. intros [Hbe _]. by apply (bnd_iff x2 n2 k2 W2 dom e He) in Hbe. }
      intros x e Hx He. apply elem_of_app in Hx as [Hx|Hx].
      + destruct (T1 x e Hx He) as (e1 & He1 & Et & Ev). destruct (HT1 e1 He1) as (e' & He' & Et' & Ev'). exists e'. split; [done|]. split; congruence.
      + destruct (T2 x e Hx He) as (e1 & He1 & Et & Ev). destruct (HT2 e1 He1) as (e' & He' & Et' & Ev'). exists e'. split; [done|]. split; congruence.
  Qed.
  Lemma merge_all dom l : forall xs x, made_of dom xs x -> Forall (fun x => made_of dom [x] x) l ->
    exists y, for_each (fun x cylinder => merge_parts sched shuffle mf cylinder x) l x = Ok y /\ made_of dom (xs ++ l) y.
  Proof using Hs Hsh Hmf.
    induction l as [|z l IH]; intros xs x Hx Hl; [exists x; rewrite app_nil_r; by split|]. inversion Hl as [|? ? Hz Hl']; subst. destruct (merge_made dom xs [z] x z Hx Hz) as (y & Hy & My).
    destruct (IH (xs ++ [z]) y My Hl') as (w & Hw & Mw). exists w. cbn [for_each]. rewrite Hy, bind_ok. split; [done|]. by rewrite <- app_assoc in Mw.
  Qed.
End merged.
