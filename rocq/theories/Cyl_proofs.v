(** Lemmas for C81: the parts. *)
From Coq Require Import Reals Lra.
From Verif Require Import Base StdAlgo Ownership_model Elem_model Elem_spec Mesh_model Mesh_spec Mesh_proofs Prim_model Prim_spec Prim_proofs Square_proofs Prim_props Merge_model Merge_spec Merge_proofs Merge3_proofs Merge4_proofs Poly_model Poly_spec Poly_proofs Poly3_proofs Cyl_model Cyl_spec.
From Verif Require Match_model Match4_proofs.
Local Open Scope nat_scope.

Lemma two_nodes3 {V} (b e : element V) s : el_type e = Quad -> el_order e = 1 -> side_of b e s -> length (el_nodes b) = 2.
Proof.
  intros Ht Ho Hs. destruct (side_view_ok b e s Hs) as (ns & Hv & Hp). rewrite <- Hp. unfold side_view_nodes in Hv. cbn [fst snd] in Hv. rewrite Ht, Ho in Hv. apply bind_inv in Hv as (inds & Hr & Hv).
  apply map_res_inv in Hv. apply Forall2_length in Hv. rewrite <- Hv. destruct s as [|[|[|[|s]]]]; vm_compute in Hr; try (injection Hr as <-; reflexivity). destruct s; discriminate.
Qed.
Lemma four (P : nat -> Prop) a b c d : P a -> P b -> P c -> P d -> forall x, x ∈ [a; b; c; d] -> P x.
Proof. intros Ha Hb Hc Hd x. rewrite !elem_of_cons, elem_of_nil. intros [-> |[-> |[-> |[-> |[]]]]]; done. Qed.

Lemma nodup_key {A B} (l : list (A * B)) k a b : NoDup l.*1 -> (k, a) ∈ l -> (k, b) ∈ l -> a = b.
Proof.
  intros Hn Ha Hb. apply elem_of_list_lookup in Ha as [i Hi]. apply elem_of_list_lookup in Hb as [j Hj].
  assert (i = j) as ->. { eapply NoDup_lookup; [exact Hn| |]; rewrite list_lookup_fmap; [by rewrite Hi|by rewrite Hj]. } congruence.
Qed.
Definition sides (p : part) : list nat := [sq_bottom (p_ids p); sq_top (p_ids p); sq_left (p_ids p); sq_right (p_ids p)].
Section parts.
  Context (sched : list (element pt3) -> list (element pt3)) (shuffle : list nat -> list nat) (Hs : forall l, sched l ≡ₚ l) (Hsh : forall l, shuffle l ≡ₚ l).
  Definition grid_pt (xs ys : list R) (i j : nat) : point := (nth i xs 0%R, nth j ys 0%R).
  Lemma square_part ids ex ey xs ys : 0 < ex -> 0 < ey -> length xs = ex + 1 -> length ys = ey + 1 ->
    sq_domain ids ∉ [sq_bottom ids; sq_top ids; sq_left ids; sq_right ids] ->
    exists x, makeSquareMesh 0%R sched shuffle xs ys ids = Ok x /\ is_part x (mk_part ids ex ey (grid_pt xs ys)).
  Proof using Hs Hsh.
    intros Hx Hy Lx Ly Hd. destruct (square_mesh_repeated 0%R xs ys ids sched shuffle) as (x & Hok & Hv & Hasc & Hn & O1 & O2 & O3 & Hids & Hpt & Hq & Hq2 & Hsd & Hbx & Hby & Hbk & Hk & _ & Hba); [lia|lia|done|done|done|]. cbv zeta in *.
    exists x. split; [done|]. rewrite Lx, Ly, !Nat.add_sub in *.
    destruct (Match4_proofs.square_made _ _ _ _ _ _ _ Hok) as (m & n & Hm). pose proof (Match4_proofs.made_same _ _ _ _ _ _ _ Hm) as Em. rewrite <- Em in Hm. destruct (Match4_proofs.made_keys _ _ _ _ _ _ _ Hv Hs Hsh Hm) as [_ Hkeys].
    assert (Hline : forall d b, d ∈ (m_bnds x).*1 -> in_domain (m_domains x) d b -> exists e s, in_domain (m_domains x) (sq_domain ids) e /\ el_type e = Quad /\ el_type b = Line /\ side_of b e s).
    { intros d b Hdb Hb. apply Hbk in Hdb. destruct (Hba d b Hdb Hb) as ([e s] & (He & ns & Hsn & Hp) & _). cbn [fst snd] in *. exists e, s.
      assert (Hso : side_of b e s) by (apply side_of_iff; exists ns; split; [done|by symmetry]). destruct (Hq e He) as (Ht & _). split; [done|]. split; [done|]. split; [|done].
      destruct (Match4_proofs.valid_in1 _ _ _ Hv He) as [_ Ho]. pose proof (two_nodes3 b e s Ht Ho Hso) as H2. destruct (Match4_proofs.valid_in1 _ _ _ Hv Hb) as [[Hl _] Hob]. rewrite Hob, H2 in Hl. by destruct (el_type b). }
    split; cbn [p_ids p_ex p_ey p_pt].
    - split; [exact Hv|exact Hids|exact Hn|done|exact Hkeys|exact (made_views _ _ _ _ _ _ _ Hv Hs Hsh Hm)|].
      intros d b Hdb Hb. destruct (Hline d b Hdb Hb) as (e & s & He & Ht & Htb & Hso). exists (sq_domain ids), e, s. split; [by rewrite Hbk|]. split; [done|]. split; [by rewrite Ht, Htb|done].
    - intros e He. eapply Match4_proofs.forall2_in; [exact (Hpt e He)|]. intros a v _ (px & py & E1 & E2 & ->). unfold at_node, grid_pt. cbn [p_pt p_ex]. rewrite Lx in *. by rewrite (nth_lookup_Some _ _ 0%R _ E1), (nth_lookup_Some _ _ 0%R _ E2).
    - intros e He. destruct (Hq e He) as (Ht & _ & H). by split.
    - exact Hq2.
    - intros d b Hdd Hb. assert (Hdb : d ∈ [sq_bottom ids; sq_top ids; sq_left ids; sq_right ids]). { pose proof (in_keys _ _ _ Hb) as Hin. apply Hk in Hin. apply elem_of_cons in Hin as [?|?]; [done|done]. }
      destruct (Hline d b (proj2 (Hbk d) Hdb) Hb) as (_ & _ & _ & _ & Htb & _). split; [done|]. exact (Hsd d b Hdb Hb).
    - exact Hbx.
    - exact Hby.
    - exact Hbk.
    - intros d. rewrite Hk, elem_of_cons. by rewrite Hbk.
  Qed.

  Lemma deform_part f x p P : is_part x p -> (forall i j, f (p_pt p i j, 0%R) = (P i j, 0%R)) -> is_part (Match_model.deform f x) (mk_part (p_ids p) (p_ex p) (p_ey p) P).
  Proof.
    intros [H1 H2 H3 H4 H5 H6 H7 H8 H9] Hf. split; cbn [p_ids p_ex p_ey p_pt].
    - by apply Match4_proofs.deform_whole.
    - intros e' He'. apply Match4_proofs.deform_elem in He' as (e & He & ->). cbn [el_nodes el_verts Match_model.deform_el]. change (map ?g ?l) with (g <$> l). rewrite Forall2_fmap_r. eapply Forall2_impl; [exact (H2 e He)|]. intros a v Hv. unfold at_node in *. rewrite Hv. cbn [p_pt p_ex]. apply Hf.
    - intros e'. rewrite Match4_proofs.deform_in. intros (e & He & ->). exact (H3 e He).
    - intros i j Hi Hj. destruct (H4 i j Hi Hj) as (e & He & En). exists (Match_model.deform_el f e). split; [|done]. apply Match4_proofs.deform_in. by exists e.
    - intros d e' Hd. rewrite Match4_proofs.deform_in. intros (e & He & ->). exact (H5 d e Hd He).
    - intros i Hi. destruct (H6 i Hi) as [(b & Hb & E) (c & Hc & E')]. split; [exists (Match_model.deform_el f b)|exists (Match_model.deform_el f c)]; (split; [apply Match4_proofs.deform_in; eauto|done]).
    - intros i Hi. destruct (H7 i Hi) as [(b & Hb & E) (c & Hc & E')]. split; [exists (Match_model.deform_el f b)|exists (Match_model.deform_el f c)]; (split; [apply Match4_proofs.deform_in; eauto|done]).
    - intros d. by rewrite Match4_proofs.deform_keys.
    - intros d. by rewrite Match4_proofs.deform_dkeys, Match4_proofs.deform_keys.
  Qed.

  Lemma part_dim x p d dm e : is_part x p -> (d, dm) ∈ m_domains x -> in_domain (m_domains x) d e -> d_dim dm = Some (native_dim (el_type e)).
  Proof.
    intros Hp Hd (dm' & v & Hd' & Hv & He). destruct (wm_valid _ _ _ (ip_whole _ _ Hp)) as [Hk Hf].
    assert (dm' = dm) as ->. { apply strict_nodup in Hk. by apply (nodup_key (m_domains x) d). }
    rewrite Forall_forall in Hf. destruct (Hf _ Hd) as [_ H]. exact (H v e Hv He).
  Qed.
  Lemma copy_part x p : is_part x p -> 0 < p_ex p -> 0 < p_ey p -> sq_domain (p_ids p) ∉ sides p ->
    exists y, copy_mesh sched shuffle x = Ok y /\ is_part y p.
  Proof using Hs Hsh.
    intros Hp Hx Hy Hd. pose proof Hp as [[W1 W2 W3 W4 W5 W6 W7] H2 H3 H4 H5 H6 H7 H8 H9]. unfold copy_mesh. destruct W4 as (B0 & B1 & _). unfold numOwned. rewrite B0, B1, Nat.sub_0_r.
    assert (E0 : (if (p_ex p + 1) * (p_ey p + 1) =? 0 then 0 else 0) = 0) by (by destruct (_ =? 0)). rewrite E0.
    assert (Hne : forall d, d ∈ sides p -> exists b, in_domain (m_domains x) d b).
    { destruct (H6 0 Hx) as [(b1 & ? & _) (b2 & ? & _)]. destruct (H7 0 Hy) as [(b3 & ? & _) (b4 & ? & _)]. apply four; eauto. }
    assert (Hatt : forall b d, d ∈ (m_bnds x).*1 -> in_domain (m_domains x) d b -> exists e s, attached (m_domains x) b e s).
    { intros b d Hdb Hb. destruct (W7 d b Hdb Hb) as (d' & e & s & _ & He & Hdim & Hso). exists e, s. split; [by exists d'|]. by split. }
    assert (Hpar : parents_exist (m_domains x) (m_bnds x).*1).
    { intros d dm Hdb Hdm. destruct (Hne d (proj1 (H8 d) Hdb)) as (b & Hb). destruct (H5 d b) as [Hl _]; [intros ->; apply Hd, H8, Hdb|done|]. exists 1. split; [rewrite (part_dim x p d dm b Hp Hdm Hb); by rewrite Hl|].
      destruct (H4 0 0 Hx Hy) as (e & He & _). destruct He as (dm' & v & Hd' & Hv & He'). exists (sq_domain (p_ids p)), dm'. split; [done|]. rewrite (part_dim x p _ dm' e Hp Hd'); [|by exists dm', v]. destruct (H3 e) as [-> _]; [by exists dm', v|done]. }
    destruct (finish sched shuffle (m_domains x) ((p_ex p + 1) * (p_ey p + 1)) (m_bnds x).*1 W1 Hs Hsh Hpar Hatt (fun i => proj1 (W3 i))) as (so & bnds & Hm & S0 & S1 & S2 & S3 & S4).
    rewrite Hm. eexists. split; [done|]. pose proof (made_views _ _ _ _ _ _ _ W1 Hs Hsh Hm) as Hvw. cbn [m_domains m_bnds m_own] in *. split; cbn [m_domains m_bnds m_own]; try done.
    - split; cbn [m_domains m_bnds m_own]; try done. intros d b Hdb Hb. apply S4 in Hdb. destruct (W7 d b Hdb Hb) as (d' & e & s & Hn & H). exists d', e, s. by rewrite S4.
    - intros d. by rewrite S4, H8.
    - intros d. by rewrite H9, S4.
  Qed.
End parts.
