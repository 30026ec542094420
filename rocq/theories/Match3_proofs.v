(** Lemmas for C80: the match map and the merged mesh. *)
From Coq Require Import QArith Qabs.
From Verif Require Import Base StdAlgo Ownership_model Elem_model Mesh_model Mesh_spec Merge_model Merge_spec Merge4_proofs Spatial_model Spatial_proofs Match_model Match_spec Match_proofs Match2_proofs.
Local Open Scope nat_scope.

Lemma same_sym p q : same_point p q -> same_point q p.
Proof. intros (H1 & H2 & H3). split; [by symmetry|split; by symmetry]. Qed.
Lemma same_trans p q r : same_point p q -> same_point q r -> same_point p r.
Proof. intros (H1 & H2 & H3) (K1 & K2 & K3). split; [by rewrite H1|split; [by rewrite H2|by rewrite H3]]. Qed.
Lemma near_comp v v' w w' : same_point v v' -> same_point w w' -> near v w -> near v' w'.
Proof. intros (H1 & H2 & H3) (K1 & K2 & K3). unfold near. by rewrite H1, H2, H3, K1, K2, K3. Qed.
Lemma same_near v w : same_point v w -> near v w.
Proof. intros (H1 & H2 & H3). unfold near. rewrite H1, H2, H3. ring_simplify ((w.1.1 - w.1.1) * (w.1.1 - w.1.1) + (w.1.2 - w.1.2) * (w.1.2 - w.1.2) + (w.2 - w.2) * (w.2 - w.2))%Q. done. Qed.
Lemma moderate_comp v w : same_point v w -> moderate w -> moderate v.
Proof. intros (H1 & H2 & H3). unfold moderate. by rewrite H1, H2, H3. Qed.
Lemma omap_keys (found : list (nat * option nat)) : NoDup found.*1 -> NoDup (omap (fun p : nat * option nat => match p.2 with Some b => Some (p.1, b) | None => None end) found).*1.
Proof.
  induction found as [|[a [b|]] l IH]; cbn; intros H; [done| |]; apply NoDup_cons in H as [H1 H2]; [|by apply IH]. constructor; [|by apply IH].
  intros Hin. apply H1. apply elem_of_list_fmap in Hin as ([a' b'] & -> & Hin). apply elem_of_list_omap in Hin as ([a2 [b2|]] & Hin & E); cbn in E; [|done]. injection E as -> ->. cbn. apply elem_of_list_fmap. by exists (a', Some b').
Qed.
Lemma omap_elem (found : list (nat * option nat)) a b : (a, b) ∈ omap (fun p : nat * option nat => match p.2 with Some b => Some (p.1, b) | None => None end) found <-> (a, Some b) ∈ found.
Proof.
  rewrite elem_of_list_omap. split.
  - intros ([a2 [b2|]] & Hin & E); cbn in E; [|done]. by injection E as -> ->.
  - intros H. by exists (a, Some b).
Qed.

Section found.
  Context (odd : fl -> Z) (root : Q -> Q) (Hodd : (min64 < odd None < max64)%Z).
  Context (x1 x2 : mesh pt) (n1 n2 : nat) (loc1 loc2 : nat -> pt) (E1 E2 : list (nat * list fl)).
  Context (HE1 : node_coords x1 n1 loc1 E1) (HE2 : node_coords x2 n2 loc2 E2).
  Context (M1 : forall b, boundary_node x1 b -> moderate (loc1 b)) (M2 : forall a, boundary_node x2 a -> moderate (loc2 a)).
  Lemma entries_ok1 p : p ∈ E1 -> entry_ok p.2.
  Proof. destruct p as [i c]. intros H. destruct HE1 as (_ & _ & HE). destruct (HE i c H) as [_ [[Hb (v & -> & Hv)]|[_ ->]]]; [right|by left]. exists v. split; [done|]. eapply moderate_comp; [exact Hv|by apply M1]. Qed.
  Lemma entries_ok2 p : p ∈ E2 -> entry_ok p.2.
  Proof. destruct p as [i c]. intros H. destruct HE2 as (_ & _ & HE). destruct (HE i c H) as [_ [[Hb (v & -> & Hv)]|[_ ->]]]; [right|by left]. exists v. split; [done|]. eapply moderate_comp; [exact Hv|by apply M2]. Qed.
  Lemma entry_length c : entry_ok c -> length c = 3.
  Proof. by intros [-> |(v & -> & _)]. Qed.
  (** Without assumptions on the positions: what is matched is near, and a node at the same
      place as another is matched. *)
  Lemma match_found : exists mm, matchExistingNodes odd root E1 E2 = Ok mm /\ matching mm n1 n2 /\
    (forall a b, (a, b) ∈ mm -> boundary_node x2 a /\ boundary_node x1 b /\ near (loc2 a) (loc1 b)) /\
    (forall a b, boundary_node x2 a -> boundary_node x1 b -> a < n2 -> b < n1 -> same_point (loc2 a) (loc1 b) -> exists b', (a, b') ∈ mm).
  Proof using Hodd HE1 HE2 M1 M2.
    unfold matchExistingNodes. destruct (init_ok root E1 entries_ok1) as (d0 & d1 & d2 & o0 & o1 & o2 & -> & S0 & S1 & S2 & O0 & O1 & O2).
    set (f := fun p : nat * list fl => _).
    assert (Hf : forall p, p ∈ E2 -> exists r, f p = Ok (p.1, r) /\ (forall b, r = Some b -> exists c', (b, c') ∈ E1 /\ close p.2 c' = true) /\
      (r = None -> forall b c', (b, c') ∈ E1 -> point_key odd [d0; d1; d2] [o0; o1; o2] c' = point_key odd [d0; d1; d2] [o0; o1; o2] p.2 -> close p.2 c' = false)).
    { intros p Hp. destruct (find_in_ok odd Hodd d0 d1 d2 o0 o1 o2 S0 S1 S2 O0 O1 O2 E1 p.2 (offsets 3) (entries_ok2 p Hp) ltac:(done)) as (r & Hr & H1 & H2). exists r. split; [unfold f; by rewrite Hr|]. split; [done|]. intros Hn. apply H2; [done|]. apply offsets_elem. split; [done|]. repeat constructor; done. }
    assert (exists found, map_res f E2 = Ok found) as [found Hfound].
    { clear -Hf. induction E2 as [|p l IH]; [by exists []|]. cbn [map_res]. destruct (Hf p ltac:(left)) as (r & -> & _). rewrite bind_ok. destruct IH as [fs ->]; [intros q Hq; apply Hf; by right|]. rewrite bind_ok. by eexists. }
    rewrite Hfound, bind_ok. eexists. split; [reflexivity|]. apply map_res_inv in Hfound.
    assert (Hk : found.*1 = E2.*1).
    { clear -Hf Hfound. induction Hfound as [|p q l l' Hpq _ IH]; [done|]. cbn. destruct (Hf p ltac:(left)) as (r & Hr & _). rewrite Hr in Hpq. injection Hpq as <-. f_equal. apply IH. intros; apply Hf; by right. }
    assert (Hin : forall a b, (a, Some b) ∈ found -> exists c c', (a, c) ∈ E2 /\ (b, c') ∈ E1 /\ close c c' = true).
    { intros a b H. apply elem_of_list_lookup in H as [j Hj]. destruct (Forall2_lookup_r _ _ _ _ _ Hfound Hj) as ([a' c] & Hp & Hpq). apply elem_of_list_lookup_2 in Hp. destruct (Hf _ Hp) as (r & Hr & H1 & _). rewrite Hr in Hpq. injection Hpq as -> ->. destruct (H1 b eq_refl) as (c' & Hc' & Hcl). by exists c, c'. }
    assert (Hn : forall a b, (a, Some b) ∈ found -> a < n2 /\ b < n1 /\ boundary_node x2 a /\ boundary_node x1 b /\ near (loc2 a) (loc1 b)).
    { intros a b (c & c' & Ha & Hb & Hcl)%Hin. pose proof (entries_ok2 _ Ha) as K2. pose proof (entries_ok1 _ Hb) as K1. cbn [snd] in K1, K2. destruct HE1 as (_ & _ & X1). destruct HE2 as (_ & _ & X2). destruct (X1 b c' Hb) as [Hbn [[B1 (w & -> & Hw)]|[_ ->]]]; [|by rewrite (proj1 (close_nan c (entry_length c K2))) in Hcl].
      destruct (X2 a c Ha) as [Han [[B2 (v & -> & Hv)]|[_ ->]]]; [|by rewrite (proj2 (close_nan (coords w) (entry_length _ K1))) in Hcl]. split; [done|]. split; [done|]. split; [done|]. split; [done|]. apply close_near in Hcl. by eapply near_comp. }
    split; [|split].
    - split; [apply omap_keys; rewrite Hk; apply HE2|]. intros a b H. apply omap_elem in H. by apply Hn in H as (? & ? & _).
    - intros a b H. apply omap_elem in H. by apply Hn in H as (_ & _ & ? & ? & ?).
    - intros a b Ha Hb Han Hbn Hsp. destruct HE1 as (_ & A1 & X1). destruct HE2 as (_ & A2 & X2). destruct (A1 b Hbn) as [c' Hc']. destruct (A2 a Han) as [c Hc].
      destruct (X1 b c' Hc') as [_ [[_ (w & -> & Hw)]|[Hno _]]]; [|done]. destruct (X2 a c Hc) as [_ [[_ (v & -> & Hv)]|[Hno _]]]; [|done].
      assert (Hvw : same_point v w) by (eapply same_trans; [exact Hv|]; eapply same_trans; [exact Hsp|]; by apply same_sym).
      destruct (Hf _ Hc) as (r & Hr & _ & H2). destruct r as [b'|].
      + exists b'. apply omap_elem. apply elem_of_list_lookup in Hc as [j Hj]. destruct (Forall2_lookup_l _ _ _ _ _ Hfound Hj) as (q & Hq & Hpq). rewrite Hr in Hpq. injection Hpq as <-. by apply elem_of_list_lookup_2 in Hq.
      + exfalso. specialize (H2 eq_refl b (coords w) Hc'). cbn [snd] in H2. rewrite (key_same odd Hodd d0 d1 d2 o0 o1 o2 S0 S1 S2 O0 O1 O2 v w) in H2; [|eapply moderate_comp; [exact Hv|by apply M2]|done]. specialize (H2 eq_refl). rewrite (proj2 (close_near v w)) in H2; [done|by apply same_near].
  Qed.
End found.

Section merged.
  Context (odd : fl -> Z) (root : Q -> Q) (Hodd : (min64 < odd None < max64)%Z).
  Context (sched : list (element pt * nat) -> list (element pt * nat)) (order : list (nat * list fl) -> list (nat * list fl)) (Hsch : forall l, sched l ≡ₚ l) (Hord : forall l, order l ≡ₚ l).
  Context (x1 x2 : mesh pt) (n1 k1 n2 k2 : nat) (loc1 loc2 : nat -> pt) (W1 : whole_mesh x1 n1 k1) (W2 : whole_mesh x2 n2 k2) (L1 : located x1 loc1) (L2 : located x2 loc2).
  Context (M1 : forall b, boundary_node x1 b -> moderate (loc1 b)) (M2 : forall a, boundary_node x2 a -> moderate (loc2 a)).
  Lemma bnode_lt (x : mesh pt) n k i : whole_mesh x n k -> boundary_node x i -> i < n.
  Proof. clear. intros W (b & (d & _ & Hb) & Hi). apply (wm_nodes _ _ _ W). exists b. split; [by exists d|done]. Qed.
  Lemma match_any : exists mm, match_map odd root sched order x1 x2 = Ok mm /\ matching mm n1 n2 /\
    (forall a b, (a, b) ∈ mm -> boundary_node x2 a /\ boundary_node x1 b /\ near (loc2 a) (loc1 b)) /\
    (forall a b, boundary_node x2 a -> boundary_node x1 b -> same_point (loc2 a) (loc1 b) -> exists b', (a, b') ∈ mm).
  Proof using All.
    unfold match_map. destruct (node_coords_ok sched order x1 n1 k1 loc1 Hsch Hord W1 L1) as (c1 & -> & HE1). destruct (node_coords_ok sched order x2 n2 k2 loc2 Hsch Hord W2 L2) as (c2 & -> & HE2). rewrite !bind_ok.
    destruct (match_found odd root Hodd x1 x2 n1 n2 loc1 loc2 _ _ HE1 HE2 M1 M2) as (mm & Hmm & H1 & H2 & H3). exists mm. split; [done|]. split; [done|]. split; [done|]. intros a b Ha Hb. apply H3; [done|done|by eapply bnode_lt|by eapply bnode_lt].
  Qed.
  Context (HF : fitting x1 x2 loc1 loc2).
  Lemma match_exact : exists mm, match_map odd root sched order x1 x2 = Ok mm /\ matching mm n1 n2 /\
    forall a b, (a, b) ∈ mm <-> boundary_node x2 a /\ boundary_node x1 b /\ same_point (loc2 a) (loc1 b).
  Proof using All.
    destruct match_any as (mm & Hmm & H1 & H2 & H3). exists mm. split; [done|]. split; [done|]. destruct HF as [F1 F2]. intros a b. split.
    - intros (Ha & Hb & Hn)%H2. split; [done|]. split; [done|]. by apply F1.
    - intros (Ha & Hb & Hs). destruct (H3 a b Ha Hb Hs) as [b' Hb']. destruct (H2 _ _ Hb') as (_ & Hbn' & Hnear). assert (b = b') as ->; [|done]. apply F2; [done|done|]. apply same_near. eapply same_trans; [apply same_sym; exact Hs|]. by apply F1.
  Qed.
End merged.
