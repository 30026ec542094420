(** Lemmas for C80: the merged mesh; nodes inside; square meshes. *)
From Coq Require Import QArith Qabs.
From Verif Require Import Base StdAlgo Ownership_model Elem_model Elem_spec Mesh_model Mesh_spec Mesh_proofs Prim_model Prim_spec Prim_proofs Square_proofs Prim_props Merge_model Merge_spec Merge_proofs Merge3_proofs Merge4_proofs Merge_props Spatial_model Spatial_proofs Match_model Match_spec Match_proofs Match2_proofs Match3_proofs.
Local Open Scope nat_scope.

Lemma forall2_in {A B} (P Q : A -> B -> Prop) l k : Forall2 P l k -> (forall a b, a ∈ l -> P a b -> Q a b) -> Forall2 Q l k.
Proof.
  induction 1 as [|a b l k Hab _ IH]; intros H; constructor; [apply H; [left|done]|]. apply IH. intros a' b' Ha'. apply H. by right.
Qed.
Lemma coincide_place mm (x1 x2 : mesh pt) n1 k1 n2 k2 loc1 loc2 b1 b2 : whole_mesh x1 n1 k1 -> whole_mesh x2 n2 k2 -> located x1 loc1 -> located x2 loc2 ->
  (forall a b, (a, b) ∈ mm <-> boundary_node x2 a /\ boundary_node x1 b /\ same_point (loc2 a) (loc1 b)) ->
  boundary_el x1 b1 -> boundary_el x2 b2 -> coincide mm b1 b2 <-> same_place b1 b2.
Proof.
  intros W1 W2 L1 L2 Hmm B1 B2. assert (E1 : is_elem (m_domains x1) b1) by (destruct B1 as (d & _ & H); by exists d). assert (E2 : is_elem (m_domains x2) b2) by (destruct B2 as (d & _ & H); by exists d).
  pose proof (L1 b1 E1) as P1. pose proof (L2 b2 E2) as P2.
  assert (N1 : forall b, b ∈ el_nodes b1 -> boundary_node x1 b) by (intros b Hb; by exists b1). assert (N2 : forall a, a ∈ el_nodes b2 -> boundary_node x2 a) by (intros a Ha; by exists b2). split.
  - intros (ns & HF & Hp). destruct (forall2_perm_l _ _ _ _ P1 (symmetry Hp)) as (vs & Hvs & Hpv). exists vs. split; [|by symmetry]. clear Hpv Hp P1.
    assert (HF' : Forall2 (fun a b => same_point (loc2 a) (loc1 b)) (el_nodes b2) ns) by (eapply Forall2_impl; [exact HF|]; intros a b H; by apply Hmm in H as (_ & _ & ?)). clear HF. revert ns vs HF' Hvs. induction P2 as [|a v l l' Hv _ IH]; intros ns vs HF Hvs.
    + inversion HF; subst. inversion Hvs; subst. constructor.
    + inversion HF as [|? b ? ns' Hab HF']; subst. inversion Hvs as [|? w ? vs' Hw Hvs']; subst. constructor; [|by eapply IH; [intros; apply N2; by right| |]; eauto].
      eapply same_trans; [exact Hv|]. eapply same_trans; [exact Hab|]. by apply same_sym.
  - intros (vs & HF & Hp). assert (Q1 : Forall2 (fun v n => same_point v (loc1 n)) (el_verts b1) (el_nodes b1)) by (by apply Forall2_flip). destruct (forall2_perm_l _ _ _ _ Q1 (symmetry Hp)) as (ns & Hns & Hpn). exists ns. split; [|by symmetry].
    assert (Nn : forall b, b ∈ ns -> boundary_node x1 b) by (intros b Hb; apply N1; by rewrite Hpn). clear P1 Q1 Hp Hpn.
    revert vs ns HF Hns Nn. induction P2 as [|a v l l' Hv _ IH]; intros vs ns HF Hns Nn.
    + inversion HF; subst. inversion Hns; subst. constructor.
    + inversion HF as [|? w ? vs' Hvw HF']; subst. inversion Hns as [|? b ? ns' Hwb Hns']; subst. constructor.
      * apply Hmm. split; [apply N2; left|]. split; [apply Nn; left|]. eapply same_trans; [apply same_sym; exact Hv|]. eapply same_trans; [exact Hvw|done].
      * eapply IH; [intros; apply N2; by right|exact HF'|exact Hns'|intros; apply Nn; by right].
Qed.

(** Where the nodes of the merged mesh are. *)
Definition merged_loc (n1 n2 : nat) (f : nat -> nat) (loc1 loc2 : nat -> pt) (i : nat) : pt :=
  if i <? n1 then loc1 i else match List.find (fun a => f a =? i) (seq 0 n2) with Some a => loc2 a | None => loc1 i end.
Lemma merged_loc2 mm n1 n2 N f loc1 loc2 a : matching mm n1 n2 -> renumbering mm n1 n2 N f -> (forall a b, (a, b) ∈ mm -> same_point (loc2 a) (loc1 b)) -> a < n2 ->
  same_point (merged_loc n1 n2 f loc1 loc2 (f a)) (loc2 a).
Proof.
  intros [Hnd Hm] (R1 & R2 & R3 & R4) Hs Ha. unfold merged_loc. destruct (decide (a ∈ mm.*1)) as [Hin|Hout].
  - apply elem_of_list_fmap in Hin as ([a' b] & -> & Hin). cbn [fst] in *. rewrite (R1 _ _ Hin). destruct (Hm _ _ Hin) as [_ Hb]. rewrite (proj2 (Nat.ltb_lt b n1) Hb). by apply same_sym, Hs.
  - pose proof (R2 a Ha Hout) as Hf. rewrite (proj2 (Nat.ltb_ge (f a) n1)) by lia. destruct (List.find (fun a0 => f a0 =? f a) (seq 0 n2)) as [a'|] eqn:E.
    + apply List.find_some in E as [Hin E]. apply List.in_seq in Hin. apply Nat.eqb_eq in E. assert (Hout' : a' ∉ mm.*1). { intros Hin'. apply elem_of_list_fmap in Hin' as ([a2 b] & -> & Hi). cbn [fst] in *. rewrite (R1 _ _ Hi) in E. destruct (Hm _ _ Hi). lia. }
      assert (a' = a) as ->; [|by repeat split]. destruct (Nat.lt_trichotomy a' a) as [Hl|[He|Hl]]; [|done|]; apply R3 in Hl; (done || lia).
    + exfalso. assert (He : List.find (fun a0 => f a0 =? f a) (seq 0 n2) <> None); [|done]. intros Hn. assert (Hina : List.In a (seq 0 n2)) by (apply List.in_seq; lia). apply (List.find_none _ _ Hn) in Hina. by rewrite Nat.eqb_refl in Hina.
Qed.

Section main.
  Context (odd : fl -> Z) (root : Q -> Q) (Hodd : (min64 < odd None < max64)%Z).
  Context (sched : list (element pt * nat) -> list (element pt * nat)) (order : list (nat * list fl) -> list (nat * list fl)) (msched : list (element pt) -> list (element pt)) (shuffle : list nat -> list nat).
  Context (Hsch : forall l, sched l ≡ₚ l) (Hord : forall l, order l ≡ₚ l) (Hms : forall l, msched l ≡ₚ l) (Hsh : forall l, shuffle l ≡ₚ l).
  Context (x1 x2 : mesh pt) (n1 k1 n2 k2 : nat) (loc1 loc2 : nat -> pt) (W1 : whole_mesh x1 n1 k1) (W2 : whole_mesh x2 n2 k2) (L1 : located x1 loc1) (L2 : located x2 loc2).
  Context (M1 : forall b, boundary_node x1 b -> moderate (loc1 b)) (M2 : forall a, boundary_node x2 a -> moderate (loc2 a)).
  Context (HF : fitting x1 x2 loc1 loc2) (HC : compatible x1 x2).
  Lemma merged_ok : exists y f g1 g2 N loc, merge_meshes odd root sched order msched shuffle x1 x2 = Ok y /\
    whole_mesh y N (length (all_elems (m_domains y))) /\ located y loc /\
    (forall i, i < n1 -> loc i = loc1 i) /\ (forall a, a < n2 -> same_point (loc (f a)) (loc2 a)) /\
    (forall i, i < N <-> i < n1 \/ exists a, a < n2 /\ f a = i) /\
    (forall a b, a < n2 -> b < n1 -> f a = b <-> boundary_node x2 a /\ boundary_node x1 b /\ same_point (loc2 a) (loc1 b)) /\
    (forall a a', a < n2 -> a' < n2 -> n1 <= f a -> f a = f a' -> a = a') /\
    (forall id e', in_domain (m_domains y) id e' <->
       (exists e, in_domain (m_domains x1) id e /\ ~ (boundary_el x1 e /\ exists b, boundary_el x2 b /\ same_place e b) /\ moved (fun i => i) g1 e e') \/
       (exists e, in_domain (m_domains x2) id e /\ ~ (boundary_el x2 e /\ exists b, boundary_el x1 b /\ same_place b e) /\ moved f g2 e e')) /\
    forall id, id ∈ (m_bnds y).*1 <-> (id ∈ (m_bnds x1).*1 \/ id ∈ (m_bnds x2).*1) /\ exists e, in_domain (m_domains y) id e.
  Proof using All.
    destruct (match_exact odd root Hodd sched order Hsch Hord x1 x2 n1 k1 n2 k2 loc1 loc2 W1 W2 L1 L2 M1 M2 HF) as (mm & Hmm & Hma & Hiff). unfold merge_meshes. rewrite Hmm, bind_ok.
    destruct (merge_valid msched shuffle mm x1 x2 n1 k1 n2 k2 Hms Hsh W1 W2 HC Hma) as (y & f & g1 & g2 & Hy & Hren & Hel & _ & _ & _ & Hw & _ & Hb). cbv zeta in *. set (N := n1 + n2 - length mm) in *. exists y, f, g1, g2, N, (merged_loc n1 n2 f loc1 loc2).
    assert (Hloc2 : forall a, a < n2 -> same_point (merged_loc n1 n2 f loc1 loc2 (f a)) (loc2 a)). { intros a Ha. eapply merged_loc2; [exact Hma|exact Hren| |done]. intros a' b' H'. by apply Hiff in H' as (_ & _ & ?). }
    assert (Hloc1 : forall i, i < n1 -> merged_loc n1 n2 f loc1 loc2 i = loc1 i). { intros i Hi. unfold merged_loc. by rewrite (proj2 (Nat.ltb_lt i n1) Hi). }
    assert (Hr1 : forall e, removed1 mm x1 x2 e <-> boundary_el x1 e /\ exists b, boundary_el x2 b /\ same_place e b).
    { intros e. unfold removed1. split; intros (Be & b & Bb & Hc); (split; [done|]; exists b; split; [done|]); by apply (coincide_place mm x1 x2 n1 k1 n2 k2 loc1 loc2). }
    assert (Hr2 : forall e, removed2 mm x1 x2 e <-> boundary_el x2 e /\ exists b, boundary_el x1 b /\ same_place b e).
    { intros e. unfold removed2. split; intros (Be & b & Bb & Hc); (split; [done|]; exists b; split; [done|]); by apply (coincide_place mm x1 x2 n1 k1 n2 k2 loc1 loc2). }
    assert (Hel' : forall id e', in_domain (m_domains y) id e' <->
       (exists e, in_domain (m_domains x1) id e /\ ~ (boundary_el x1 e /\ exists b, boundary_el x2 b /\ same_place e b) /\ moved (fun i => i) g1 e e') \/
       (exists e, in_domain (m_domains x2) id e /\ ~ (boundary_el x2 e /\ exists b, boundary_el x1 b /\ same_place b e) /\ moved f g2 e e')).
    { intros d e'. rewrite Hel. split; intros [(e & H1 & H2 & H3)|(e & H1 & H2 & H3)]; [left|right|left|right]; exists e; (split; [done|]; split; [|done]); intros H4; apply H2; by first [apply Hr1|apply Hr2]. }
    destruct Hma as [Hnd Hlt]. destruct Hren as (R1 & R2 & R3 & R4).
    assert (Hnode2 : forall e a, is_elem (m_domains x2) e -> a ∈ el_nodes e -> a < n2) by (intros e a He Ha; apply (wm_nodes _ _ _ W2); by exists e).
    assert (Hnode1 : forall e a, is_elem (m_domains x1) e -> a ∈ el_nodes e -> a < n1) by (intros e a He Ha; apply (wm_nodes _ _ _ W1); by exists e).
    assert (Hlen : length mm <= n2) by (eapply match_length; by split).
    split; [done|]. split; [done|]. split; [|split; [done|split; [done|split; [|split; [|split; [|split; [exact Hel'|exact Hb]]]]]]].
    - intros e' (d & He'). apply Hel' in He' as [(e & He & _ & (_ & _ & Ev & En & _))|(e & He & _ & (_ & _ & Ev & En & _))]; rewrite Ev, En.
      + rewrite map_id. assert (Hie : is_elem (m_domains x1) e) by (by exists d). eapply forall2_in; [exact (L1 e Hie)|]. intros a v Ha Hv. by rewrite Hloc1 by (by apply (Hnode1 e)).
      + assert (Hie : is_elem (m_domains x2) e) by (by exists d). rewrite Forall2_fmap_l. eapply forall2_in; [exact (L2 e Hie)|]. intros a v Ha Hv. eapply same_trans; [exact Hv|]. by apply same_sym, Hloc2, (Hnode2 e).
    - intros i. split.
      + intros Hi. destruct (Nat.lt_ge_cases i n1) as [Hl|Hg]; [by left|right]. destruct (R4 i ltac:(lia)) as (a & Ha & _ & E). by exists a.
      + intros [Hi|(a & Ha & <-)]; [unfold N; lia|]. destruct (decide (a ∈ mm.*1)) as [Hin|Hout].
        * apply elem_of_list_fmap in Hin as ([a' b] & -> & Hin). cbn [fst] in *. rewrite (R1 _ _ Hin). destruct (Hlt _ _ Hin). unfold N. lia.
        * by destruct (R2 a Ha Hout).
    - intros a b Ha Hb'. rewrite <- Hiff. split.
      + intros E. destruct (decide (a ∈ mm.*1)) as [Hin|Hout].
        * apply elem_of_list_fmap in Hin as ([a' b'] & -> & Hin). cbn [fst] in *. by rewrite <- E, (R1 _ _ Hin).
        * pose proof (R2 a Ha Hout). lia.
      + intros Hin. by apply R1.
    - intros a a' Ha Ha' Hge E. assert (Hout : forall c, c < n2 -> n1 <= f c -> c ∉ mm.*1). { intros c Hc Hg Hin. apply elem_of_list_fmap in Hin as ([c' b'] & -> & Hin). cbn [fst] in *. rewrite (R1 _ _ Hin) in Hg. destruct (Hlt _ _ Hin). lia. }
      assert (Ho : a ∉ mm.*1) by (by apply Hout). assert (Ho' : a' ∉ mm.*1) by (apply Hout; [done|lia]). destruct (Nat.lt_trichotomy a a') as [Hl|[He|Hl]]; [|done|]; apply R3 in Hl; (done || lia).
  Qed.
End main.

(** A node inside the second mesh, where lround gives the least number for NaN. *)
Lemma map_res_ub {A B} (f : A -> res B) l : (forall a, a ∈ l -> f a <> Throw) -> (exists a, a ∈ l /\ f a = UB) -> map_res f l = UB.
Proof.
  induction l as [|a l IH]; intros HT (b & Hb & Hu); [by apply elem_of_nil in Hb|]. cbn [map_res]. destruct (f a) as [v| |] eqn:E; cbn [mbind res_bind]; [|exfalso; by apply (HT a (elem_of_list_here a l))|done].
  rewrite IH; [done|intros c Hc; apply HT; by right|]. apply elem_of_cons in Hb as [-> |Hb]; [congruence|by exists b].
Qed.
Lemma add_key_no_throw k o : add_key k o <> Throw.
Proof.
  unfold add_key. generalize (zip k o). intros l. induction l as [|x l IH]; [done|]. cbn [map_res]. cbv zeta. destruct (in64 _); cbn [mbind res_bind]; [|done]. destruct (map_res _ l); done.
Qed.
Lemma find_in_no_throw cells k p ofs : find_in cells k p ofs <> Throw.
Proof.
  induction ofs as [|o ofs IH]; [done|]. cbn [find_in]. pose proof (add_key_no_throw k o). destruct (add_key k o) as [k'| |]; cbn [mbind res_bind]; try done. destruct (List.find _ _); [done|exact IH].
Qed.
Lemma interior_ub odd root sched order (x1 x2 : mesh pt) n1 k1 n2 k2 loc1 loc2 a : odd None = min64 -> (forall l, sched l ≡ₚ l) -> (forall l, order l ≡ₚ l) ->
  whole_mesh x1 n1 k1 -> whole_mesh x2 n2 k2 -> located x1 loc1 -> located x2 loc2 ->
  (forall b, boundary_node x1 b -> moderate (loc1 b)) ->
  a < n2 -> ~ boundary_node x2 a -> match_map odd root sched order x1 x2 = UB.
Proof.
  intros Ho Hs Hord W1 W2 L1 L2 M1 Ha Hna. unfold match_map.
  destruct (node_coords_ok sched order x1 n1 k1 loc1 Hs Hord W1 L1) as (c1 & -> & (_ & _ & HC1)). rewrite bind_ok. destruct (node_coords_ok sched order x2 n2 k2 loc2 Hs Hord W2 L2) as (c2 & -> & (_ & HA & HE)). rewrite bind_ok.
  assert (HEn : forall p, p ∈ order c1 -> entry_ok p.2). { intros [i c] Hp. destruct (HC1 _ _ Hp) as [_ [(Hb & v & -> & Hv)|[_ ->]]]; [|by left]. right. exists v. split; [done|]. eapply moderate_comp; [|by apply M1]. done. }
  unfold matchExistingNodes. destruct (Match2_proofs.init_ok root (order c1) HEn) as (d0 & d1 & d2 & o0 & o1 & o2 & -> & _). rewrite map_res_ub; [done| |].
  - intros p _. pose proof (find_in_no_throw (bucket odd [d0; d1; d2] [o0; o1; o2] (order c1)) (point_key odd [d0; d1; d2] [o0; o1; o2] p.2) p.2 (offsets 3)). destruct (find_in _ _ _ _); done.
  - destruct (HA a Ha) as (c & Hc). exists (a, c). split; [done|]. destruct (HE _ _ Hc) as [_ [[Hb _]|[_ ->]]]; [done|]. cbn [snd]. assert (Hk : point_key odd [d0; d1; d2] [o0; o1; o2] nan_point = [min64; min64; min64]).
    { unfold point_key, nan_point, snap. cbn [zip_with map fst snd fl2]. by rewrite Ho. }
    rewrite Hk. assert (Hof : exists l, offsets 3 = [-1; -1; -1]%Z :: l) by (eexists; vm_compute; reflexivity). destruct Hof as (l & ->). cbn [find_in]. assert (add_key [min64; min64; min64] [-1; -1; -1]%Z = UB) as -> by (vm_compute; reflexivity). done.
Qed.

(** Square meshes. *)
Definition square_loc (xs ys : list Q) (i : nat) : pt := (nth (i `mod` length xs) xs 0%Q, nth (i / length xs) ys 0%Q, 0%Q).
Lemma made_keys {V} sched shuffle (m : dmap (domain V)) b n ids x : valid_doms [1] m -> (forall l, sched l ≡ₚ l) -> (forall l, shuffle l ≡ₚ l) ->
  make_mesh2 sched shuffle m b n ids = Ok x -> m_domains x = m /\ StronglySorted lt (m_bnds x).*1.
Proof.
  intros Hv Hs Hsh Hx. pose proof (mesh2_ok [1] sched shuffle m b n ids Hv Hs Hsh) as Hm.
  destruct (Mesh_proofs.init_ok [1] sched m ids Hv Hs) as [(r & Hr & H1 & H2 & H3)|[Hr _]]; rewrite Hr in Hm; [|congruence].
  destruct Hm as (so & Hm & _). rewrite Hm in Hx. by injection Hx as <-.
Qed.
Lemma square_made {C} (zero : C) sched shuffle xs ys ids x : makeSquareMesh zero sched shuffle xs ys ids = Ok x ->
  exists m n, make_mesh2 sched shuffle m 0 n [sq_bottom ids; sq_top ids; sq_left ids; sq_right ids] = Ok x.
Proof.
  unfold makeSquareMesh. destruct (_ || _); [done|]. intros H. apply bind_inv in H as (st & _ & H). apply bind_inv in H as (st2 & _ & H). apply bind_inv in H as (st3 & _ & H). by exists (st3.1), (length xs * length ys).
Qed.
Lemma made_same {V} sched shuffle (m : dmap (domain V)) b n ids x : make_mesh2 sched shuffle m b n ids = Ok x -> m_domains x = m.
Proof. unfold make_mesh2. intros H. apply bind_inv in H as (bs & _ & H). apply bind_inv in H as (own & _ & H). by injection H as <-. Qed.
Lemma valid_in1 {V} (m : dmap (domain V)) i e : valid_doms [1] m -> in_domain m i e -> typed_el e /\ el_order e = 1.
Proof.
  intros [_ Hf] (d & v & Hd & Hv & He). rewrite Forall_forall in Hf. destruct (Hf _ Hd) as [Ht _]. cbn [snd] in Ht. unfold typed_domain in Ht.
  apply elem_of_list_lookup in Hv as [j Hj]. destruct (Forall2_lookup_r _ _ _ _ _ Ht Hj) as (s & Hs & Hs2). rewrite Forall_forall in Hs2. destruct (Hs2 e He) as [E Hty]. split; [done|].
  apply elem_of_list_lookup_2 in Hs. unfold slots in Hs. rewrite <- E in Hs. apply elem_of_concat in Hs as (l & Hs & Hl). apply elem_of_list_fmap in Hl as (t & -> & _). apply elem_of_list_fmap in Hs as (o & Ho & Hin). apply elem_of_list_singleton in Hin. injection Ho as _ ->. done.
Qed.
Lemma two_nodes (b : element pt) e s : el_type e = Quad -> el_order e = 1 -> side_of b e s -> length (el_nodes b) = 2.
Proof.
  intros Ht Ho Hs. destruct (side_view_ok b e s Hs) as (ns & Hv & Hp). rewrite <- Hp. unfold side_view_nodes in Hv. cbn [fst snd] in Hv. rewrite Ht, Ho in Hv. apply bind_inv in Hv as (inds & Hr & Hv).
  apply map_res_inv in Hv. apply Forall2_length in Hv. rewrite <- Hv. destruct s as [|[|[|[|s]]]]; vm_compute in Hr; try (injection Hr as <-; reflexivity). destruct s; discriminate.
Qed.
Lemma square_whole sched shuffle (xs ys : list Q) ids : 2 <= length xs -> 2 <= length ys ->
  NoDup [sq_domain ids; sq_bottom ids; sq_top ids; sq_left ids; sq_right ids] -> (forall l, sched l ≡ₚ l) -> (forall l, shuffle l ≡ₚ l) ->
  exists x k, makeSquareMesh 0%Q sched shuffle xs ys ids = Ok x /\ whole_mesh x (length xs * length ys) k /\ located x (square_loc xs ys).
Proof.
  intros Hx Hy Hnd Hs Hsh. destruct (square_mesh_valid 0%Q xs ys ids sched shuffle Hx Hy Hnd Hs Hsh) as (x & Hok & Hv & Hasc & Hn & O1 & O2 & O3 & Hids & Hpt & Hq & _ & _ & Hbk & _ & _ & Hba). cbv zeta in *.
  eexists x, _. split; [done|]. destruct (square_made _ _ _ _ _ _ _ Hok) as (m & n & Hm). pose proof (made_same _ _ _ _ _ _ _ Hm) as Em. rewrite <- Em in Hm. destruct (made_keys _ _ _ _ _ _ _ Hv Hs Hsh Hm) as [_ Hkeys]. split.
  - split; [exact Hv|exact Hids|exact Hn|done|exact Hkeys|exact (made_views _ _ _ _ _ _ _ Hv Hs Hsh Hm)|].
    intros d b Hd Hb. apply Hbk in Hd. destruct (Hba d b Hd Hb) as ([e s] & (He & ns & Hsn & Hp) & _). cbn [fst snd] in *. exists (sq_domain ids), e, s.
    assert (Hso : side_of b e s) by (apply side_of_iff; exists ns; split; [done|by symmetry]). destruct (Hq e He) as (Ht & _).
    split; [rewrite Hbk; by apply NoDup_cons in Hnd as [? _]|]. split; [done|]. split; [|done].
    assert (Hty : forall id e, in_domain (m_domains x) id e -> typed_el e /\ el_order e = 1) by (intros i0 e0; by apply valid_in1).
    destruct (Hty _ _ He) as [_ Ho]. pose proof (two_nodes b e s Ht Ho Hso) as H2. destruct (Hty _ _ Hb) as [[Hl _] Hob]. rewrite Hob, H2 in Hl. rewrite Ht. by destruct (el_type b).
  - intros e He. eapply forall2_in; [exact (Hpt e He)|]. intros a v _ (px & py & E1 & E2 & ->). unfold square_loc, same_point. cbn [fst snd]. rewrite (nth_lookup_Some _ _ 0%Q _ E1), (nth_lookup_Some _ _ 0%Q _ E2). by repeat split.
Qed.

(** deform. *)
Section deformed.
  Context {V : Type} (f : V -> V) (x : mesh V).
  Lemma deform_in d e' : in_domain (m_domains (deform f x)) d e' <-> exists e, in_domain (m_domains x) d e /\ e' = deform_el f e.
  Proof.
    unfold in_domain, deform. cbn [m_domains]. split.
    - intros (dm & v & Hd & Hv & He). apply elem_of_list_fmap in Hd as ([d0 dm0] & [= -> ->] & Hd). cbn [fst snd d_els] in *. apply elem_of_list_fmap in Hv as (v0 & -> & Hv). apply elem_of_list_fmap in He as (e & -> & He). exists e. split; [|done]. by exists dm0, v0.
    - intros (e & (dm & v & Hd & Hv & He) & ->). eexists _, _. split; [apply elem_of_list_fmap; exists (d, dm); split; [reflexivity|done]|]. cbn [fst snd d_els]. split; [apply elem_of_list_fmap; exists v; by split|]. apply elem_of_list_fmap. by exists e.
  Qed.
  Lemma deform_elem e' : is_elem (m_domains (deform f x)) e' <-> exists e, is_elem (m_domains x) e /\ e' = deform_el f e.
  Proof. unfold is_elem. setoid_rewrite deform_in. split; [intros (d & e & H & ->); exists e; split; [by exists d|done]|intros (e & (d & H) & ->); exists d, e; by split]. Qed.
  Lemma deform_keys : (m_bnds (deform f x)).*1 = (m_bnds x).*1.
  Proof. unfold deform. cbn [m_bnds]. rewrite <- list_fmap_compose. apply list_fmap_ext. by intros ? []. Qed.
  Lemma deform_valid O : valid_doms [O] (m_domains x) -> valid_doms [O] (m_domains (deform f x)).
  Proof.
    intros [Hs Hf]. unfold deform. cbn [m_domains]. split.
    - assert (E : (map (fun p => (p.1, mk_dom (map (map (deform_el f)) (d_els p.2)) (d_dim p.2))) (m_domains x)).*1 = (m_domains x).*1); [|by rewrite E].
      change (map ?g ?l) with (g <$> l). rewrite <- list_fmap_compose. apply list_fmap_ext. by intros ? [].
    - apply Forall_forall. intros p Hp. apply elem_of_list_fmap in Hp as ([d dm] & -> & Hd). rewrite Forall_forall in Hf. destruct (Hf _ Hd) as [Ht Hdd]. cbn [fst snd] in *. split.
      + unfold typed_domain in *. cbn [d_els]. change (map ?g ?l) with (g <$> l). rewrite Forall2_fmap_r. eapply Forall2_impl; [exact Ht|]. intros s v Hv. apply Forall_forall. intros e He. apply elem_of_list_fmap in He as (e0 & -> & He). rewrite Forall_forall in Hv. destruct (Hv _ He) as [E [T1 T2]]. split; [done|]. unfold typed_el. cbn [deform_el el_nodes el_verts el_type el_order]. by rewrite map_length.
      + intros v e Hv He. cbn [d_els d_dim] in *. apply elem_of_list_fmap in Hv as (v0 & -> & Hv). apply elem_of_list_fmap in He as (e0 & -> & He). exact (Hdd v0 e0 Hv He).
  Qed.
  Lemma deform_dkeys : (m_domains (deform f x)).*1 = (m_domains x).*1.
  Proof. unfold deform. cbn [m_domains]. change (map ?g ?l) with (g <$> l). rewrite <- list_fmap_compose. apply list_fmap_ext. by intros ? []. Qed.
  Lemma deform_all : NoDup (m_domains x).*1 -> map el_id (all_elems (m_domains (deform f x))) = map el_id (all_elems (m_domains x)).
  Proof.
    intros Hnd. rewrite !all_elems_concat by (rewrite ?deform_dkeys; done). unfold deform. cbn [m_domains]. clear Hnd. induction (m_domains x) as [|[d dm] l IH]; [done|]. cbn [map concat fst snd d_els]. rewrite !map_app, IH. f_equal. clear IH. induction (d_els dm) as [|v vs IH]; [done|]. cbn [map concat]. rewrite !map_app, IH. f_equal. rewrite map_map. done.
  Qed.
  Lemma side_deform b e s : side_of b e s -> side_of (deform_el f b) (deform_el f e) s.
  Proof. done. Qed.
  Lemma deform_whole n k : whole_mesh x n k -> whole_mesh (deform f x) n k.
  Proof.
    intros [H1 H2 H3 H4 H5 H6 H7]. split.
    - by apply deform_valid.
    - rewrite deform_all; [done|]. apply strict_nodup, H1.
    - intros i. rewrite <- H3. unfold is_node. setoid_rewrite deform_elem. split; [intros (e' & (e & He & ->) & Hi); by exists e|intros (e & He & Hi); exists (deform_el f e); split; [by exists e|done]].
    - exact H4.
    - by rewrite deform_keys.
    - intros d vs Hd. unfold deform in Hd. cbn [m_bnds] in Hd. apply elem_of_list_fmap in Hd as ([d0 vs0] & [= -> ->] & Hd). cbn [fst snd]. destruct (H6 _ _ Hd) as (bs & Hbs & HF). exists (map (deform_el f) bs). split.
      + intros b. rewrite deform_in. split; [intros Hb; apply elem_of_list_fmap in Hb as (b0 & -> & Hb); exists b0; split; [by apply Hbs|done]|intros (b0 & Hb & ->); apply elem_of_list_fmap; exists b0; split; [done|by apply Hbs]].
      + change (map ?g ?l) with (g <$> l). apply Forall2_fmap. eapply Forall2_impl; [exact HF|]. intros b v (Hv & Hdim & Hs). cbn [fst snd]. split; [apply deform_elem; by exists v.1|]. by split.
    - intros d b. rewrite deform_keys, deform_in. intros Hd (b0 & Hb & ->). destruct (H7 d b0 Hd Hb) as (d' & e & s & Hn & He & Hdim & Hs). exists d', (deform_el f e), s. split; [done|]. split; [apply deform_in; by exists e|]. by split.
  Qed.
End deformed.
Lemma deform_located f (x : mesh pt) loc : (forall p q, same_point p q -> same_point (f p) (f q)) -> located x loc -> located (deform f x) (fun n => f (loc n)).
Proof.
  intros Hf HL e' He'. apply deform_elem in He' as (e & He & ->). cbn [el_nodes el_verts deform_el]. change (map ?g ?l) with (g <$> l). rewrite Forall2_fmap_r. eapply Forall2_impl; [exact (HL e He)|]. intros a v Hv. by apply Hf.
Qed.
Lemma deform_boundary f (x : mesh pt) n : boundary_node (deform f x) n <-> boundary_node x n.
Proof.
  unfold boundary_node, boundary_el. rewrite deform_keys. setoid_rewrite deform_in. split.
  - intros (b & (d & Hd & b0 & Hb & ->) & Hn). exists b0. split; [by exists d|done].
  - intros (b & (d & Hd & Hb) & Hn). exists (deform_el f b). split; [|done]. exists d. split; [done|]. by exists b.
Qed.
