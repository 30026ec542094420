(** Proofs for C76: the conversion of a mesh. *)
From Coq Require Import Reals Lra.
From Verif Require Import Base StdAlgo Ownership_model Elem_model Elem_spec Elem_proofs Mesh_model Mesh_spec Mesh_proofs Merge_model Helpers_model Helpers_proofs Partition_model Partition_spec Geom_model.
From Verif Require Import Convert_model Convert_proofs Convert2_proofs Convert_spec Convert3_proofs Convert4_proofs Convert5_proofs Convert6_proofs Convert7_proofs.
Local Open Scope nat_scope.

Section maps.
  Context {V : Type} (r : element V -> element V).
  Definition mapdoms (m : dmap (domain V)) : dmap (domain V) := map (fun d : nat * domain V => (d.1, mk_dom (map (map r) (d_els d.2)) (d_dim d.2))) m.
  Lemma mapdoms_elem m k d : (k, d) ∈ mapdoms m <-> exists d0, (k, d0) ∈ m /\ d = mk_dom (map (map r) (d_els d0)) (d_dim d0).
  Proof. unfold mapdoms. rewrite elem_of_list_fmap. split; [intros ([k0 d0] & [= -> ->] & H); by exists d0|intros (d0 & H & ->); by exists (k, d0)]. Qed.
  Lemma mapdoms_in m k e : in_domain (mapdoms m) k e <-> exists e0, in_domain m k e0 /\ e = r e0.
  Proof.
    split.
    - intros (d & v & Hd & Hv & He). apply mapdoms_elem in Hd as (d0 & Hd & ->). cbn in Hv. apply elem_of_list_fmap in Hv as (v0 & -> & Hv). apply elem_of_list_fmap in He as (e0 & -> & He). exists e0. split; [by exists d0, v0|done].
    - intros (e0 & (d & v & Hd & Hv & He) & ->). exists (mk_dom (map (map r) (d_els d)) (d_dim d)), (map r v). split; [apply mapdoms_elem; by exists d|]. split; apply elem_of_list_fmap; eauto.
  Qed.
  Lemma mapdoms_is m e : is_elem (mapdoms m) e <-> exists e0, is_elem m e0 /\ e = r e0.
  Proof. split; [intros (k & H); apply mapdoms_in in H as (e0 & H & ->); exists e0; split; [by exists k|done]|intros (e0 & (k & H) & ->); exists k; apply mapdoms_in; eauto]. Qed.
  Lemma mapdoms_keys m : (mapdoms m).*1 = m.*1.
  Proof. unfold mapdoms. induction m as [|[k d] m IH]; [done|]. cbn. f_equal. exact IH. Qed.
  Lemma mapdoms_valid O O' m : (forall e, is_elem m e -> el_order e = O -> typed_el e -> el_type (r e) = el_type e /\ el_order (r e) = O' /\ typed_el (r e)) -> valid_doms [O] m -> valid_doms [O'] (mapdoms m).
  Proof.
    intros Hr [Hs Hf]. split; [by rewrite mapdoms_keys|]. apply Forall_forall. intros [k d] Hd. apply mapdoms_elem in Hd as (d0 & Hd & ->). rewrite Forall_forall in Hf. destruct (Hf _ Hd) as [Ht Hdim]. cbn [snd] in *. split.
    - unfold typed_domain in *. cbn [d_els]. apply Forall2_same_length_lookup_2; [rewrite map_length; by rewrite <- (Forall2_length _ _ _ Ht)|]. intros i s v Hsl Hv. rewrite map_lookup in Hv. destruct (d_els d0 !! i) as [v0|] eqn:Ev; [|done]. injection Hv as <-.
      destruct (Forall2_lookup_r _ _ _ _ _ Ht Ev) as (s0 & Hs0 & Hall). assert (exists t, s0 = (t, O) /\ s = (t, O')) as (t & -> & ->). { rewrite slots1 in Hs0, Hsl. destruct i as [|[|[|i]]]; cbn in Hs0, Hsl; simplify_eq; eauto. }
      apply Forall_forall. intros e He. apply elem_of_list_fmap in He as (e0 & -> & He). rewrite Forall_forall in Hall. destruct (Hall _ He) as [E Hty]. injection E as Et Eo.
      destruct (Hr e0) as (-> & -> & H); [exists k, d0, v0; split; [done|]; split; [by eapply elem_of_list_lookup_2|done]|done|done|]. by rewrite Et.
    - intros v e Hv He. cbn [d_els d_dim] in *. apply elem_of_list_fmap in Hv as (v0 & -> & Hv). apply elem_of_list_fmap in He as (e0 & -> & He).
      assert (Hel : is_elem m e0) by (exists k, d0, v0; done). apply elem_of_list_lookup in Hv as [i Hi]. destruct (Forall2_lookup_r _ _ _ _ _ Ht Hi) as (s0 & Hs0 & Hall). rewrite Forall_forall in Hall. destruct (Hall _ He) as [E Hty].
      assert (s0.2 = O). { rewrite slots1 in Hs0. destruct i as [|[|[|i]]]; cbn in Hs0; simplify_eq; done. } subst s0. cbn in *. destruct (Hr e0 Hel ltac:(done) Hty) as (-> & _). apply (Hdim v0); [by eapply elem_of_list_lookup_2|done].
  Qed.
  Lemma mapdoms_concat m : concat (map (fun p : nat * domain V => concat (d_els p.2)) (mapdoms m)) = map r (concat (map (fun p : nat * domain V => concat (d_els p.2)) m)).
  Proof.
    induction m as [|[k d] m IH]; [done|]. cbn. rewrite map_app. f_equal; [|exact IH]. symmetry. apply concat_map.
  Qed.
End maps.
Section pairs_facts.
  Context {V : Type} (m : dmap (domain V)).
  Lemma pairs_in k e : (k, e) ∈ pairs m <-> in_domain m k e.
  Proof.
    unfold pairs. rewrite elem_of_concat. split.
    - intros (l & He & Hl). apply elem_of_list_fmap in Hl as ([k' d] & -> & Hd). apply elem_of_list_fmap in He as (e' & [= -> ->] & He). cbn in *. apply elem_of_concat in He as (v & He & Hv). by exists d, v.
    - intros (d & v & Hd & Hv & He). exists (map (pair k) (concat (d_els d))). split; [apply elem_of_list_fmap; exists e; split; [done|]; apply elem_of_concat; eauto|]. apply elem_of_list_fmap. by exists (k, d).
  Qed.
  Lemma mem_elem e : e ∈ (pairs m).*2 <-> is_elem m e.
  Proof. rewrite elem_of_list_fmap. split; [intros ([k e'] & -> & H); exists k; by apply pairs_in|intros (k & H); exists (k, e); split; [done|by apply pairs_in]]. Qed.
  Lemma pairs_ids : map (fun de : nat * element V => el_id de.2) (pairs m) = map el_id (concat (map (fun p : nat * domain V => concat (d_els p.2)) m)).
  Proof.
    unfold pairs. induction m as [|[k d] m' IH]; [done|]. cbn [map concat fst snd]. rewrite !map_app. f_equal; [|exact IH]. rewrite map_map. done.
  Qed.
  Lemma pairs_length : length (pairs m) = getNElements m.
  Proof.
    unfold pairs, getNElements. induction m as [|[k d] m' IH]; [done|]. cbn. rewrite app_length, map_length, length_concat. unfold sum in IH at 1. rewrite IH. done.
  Qed.
End pairs_facts.
Lemma typed_g {V} (x : mesh V) N adj (e : element V) : convertible x N adj -> is_elem (m_domains x) e -> length (el_nodes e) = npe (el_type e) 1 /\ el_order e = 1 /\ typed_el e.
Proof.
  intros Hc (k & d & v & Hd & Hv & He). destruct (un_valid _ _ _ (cv_mesh _ _ _ Hc)) as [_ Hf]. rewrite Forall_forall in Hf. destruct (Hf _ Hd) as [Ht _]. cbn in Ht. apply elem_of_list_lookup in Hv as [i Hi].
  destruct (Forall2_lookup_r _ _ _ _ _ Ht Hi) as (s & Hs & Hall). rewrite Forall_forall in Hall. destruct (Hall _ He) as [E Hty]. assert (s.2 = 1). { rewrite slots1 in Hs. destruct i as [|[|[|i]]]; cbn in Hs; simplify_eq; done. } subst s. cbn in *.
  split; [|done]. destruct Hty as [Hl _]. by rewrite H in Hl.
Qed.
Section mesh.
  Context (OC : nat) (absc : list R) (Hsym : symmetric_absc OC absc) (HO : 1 <= OC).
  Context (x : mesh (list R)) (N : nat) (adj : list (list nat)) (X : nat -> list R).
  Context (Hc : convertible x N adj) (Hp : placed X (m_domains x)) (Hr : resolved tolerance OC X absc (m_domains x)).
  Notation m := (m_domains x).
  Notation el := (element (list R)).
  Notation nE := (getNElements (m_domains x)).
  Notation same := (same_point absc).
  Lemma typed_elem (e : el) : is_elem m e -> length (el_nodes e) = npe (el_type e) 1 /\ el_order e = 1 /\ typed_el e.
  Proof using All. exact (typed_g x N adj e Hc). Qed.
  Lemma good_elem (e : el) : is_elem m e -> good e.
  Proof using All. intros He. split; [by apply typed_elem|]. by apply (cv_conforming _ _ _ Hc). Qed.
  Lemma node_bound (e : el) n : is_elem m e -> n ∈ el_nodes e -> n < N.
  Proof using All. intros He Hn. apply (un_nodes _ _ _ (cv_mesh _ _ _ Hc)). by exists e. Qed.
  Lemma ids_nodup : NoDup (map (fun de : nat * el => el_id de.2) (pairs m)).
  Proof using All. rewrite pairs_ids. apply (un_ids _ _ _ (cv_mesh _ _ _ Hc)). Qed.
  Lemma verts_ok (e : el) : is_elem m e -> length (el_verts e) = npe (el_type e) 1 /\ Forall (fun v => length v = 3) (el_verts e).
  Proof using All.
    intros He. destruct Hp as [HX HV]. rewrite (HV e He). split; [rewrite map_length; by apply typed_elem|]. apply Forall_forall. intros v Hv. apply elem_of_list_fmap in Hv as (n & -> & _). apply HX.
  Qed.
  Lemma conversion : exists st nu, convert_domains point_matcher (location absc) OC m adj (init_domains OC m, N, replicate nE false) = Ok st /\
    st.1.1 = mapdoms (conv OC nu) m /\ numbered OC (vpos OC) same N (pairs m) nu st.1.2.
  Proof using All.
    destruct (un_valid _ _ _ (cv_mesh _ _ _ Hc)) as [Hkeys Hf]. destruct (cv_dual _ _ _ Hc) as (Hadj & Hadj' & Hdual). destruct (cv_conforming _ _ _ Hc) as [Hnd Hmeet].
    destruct (domains_ok point_matcher (location absc) OC (vpos OC) same m adj N nE) as (st & E & nu & H1 & H2 & _).
    - exact Hkeys.
    - intros dom e He. apply pairs_in in He as (d & v & Hd & Hv & He). exists d. split; [by apply dm_find_iff|]. rewrite Forall_forall in Hf. destruct (Hf _ Hd) as [_ Hdim]. by apply (Hdim v).
    - exact ids_nodup.
    - intros [k e] He. apply (cv_ids _ _ _ Hc). cbn. exists k. by apply pairs_in.
    - intros dom t. rewrite pick_all; [|by apply strict_nodup|eapply Forall_impl; [exact Hf|intros p [? _]; done]]. destruct (dm_find dom m) as [d|] eqn:Ed; [|constructor]. destruct (d_els d !! slot_of t) as [v|] eqn:Ev; [|constructor].
      apply (cv_ascending _ _ _ Hc dom d v); [by apply dm_find_elem|by eapply elem_of_list_lookup_2].
    - exact Hadj.
    - exact Hadj'.
    - intros e He. apply mem_elem in He. split; [by apply typed_elem|]. intros n. by apply node_bound.
    - intros e i f j. apply same_sym.
    - intros e i f j g k. apply same_trans.
    - intros e i. apply same_refl.
    - intros e i j He. apply (same_inj OC absc Hsym HO). apply good_elem. by apply mem_elem.
    - intros t k k'. by apply vpos_inj.
    - intros t k Hk. by apply vpos_ok.
    - intros e i k He Hi Hk. apply mem_elem in He. destruct (verts_ok e He) as [HV H3]. rewrite (location_vertex OC absc Hsym HO (el_type e) (el_verts e) k HV H3 Hk).
      rewrite (matcher_ok OC absc Hsym HO X m e e i (vpos OC (el_type e) k) N Hp Hr He He (proj1 (typed_elem e He)) (proj1 (typed_elem e He)) (fun n => node_bound e n He) (fun n => node_bound e n He) (or_introl eq_refl) Hi (proj1 (vpos_ok OC (el_type e) k Hk))). split.
      + intros Hs. apply (same_inj OC absc Hsym HO e); [by apply good_elem|done|by apply vpos_ok|exact Hs].
      + intros ->. apply same_refl.
    - intros e k f j n He Hf' Hn Hj. apply (same_vertex OC absc Hsym HO); [apply good_elem; by apply mem_elem|apply good_elem; by apply mem_elem|done|done].
    - intros f e Hmf Hme Hne. apply mem_elem in Hmf, Hme. destruct (intersection_same OC HO absc Hsym f e (good_elem f Hmf) (good_elem e Hme) (Hmeet f e Hmf Hme Hne)) as (pf & pe & Ei & Hpf & Hpe & Hex & Hall).
      exists pf, pe. split; [exact Ei|]. split; [exact Hpf|]. split; [exact Hpe|]. split.
      + intros i Hi Hnv. split; [by apply Hex|]. intros j Hj. destruct (Hex i Hi) as (j0 & Hj0 & Hs0).
        destruct (two_common OC absc Hsym HO e f i j0 (good_elem e Hme) (good_elem f Hmf) Hs0 (Hpe i Hi) Hnv) as (a & b & Hab & Ha1 & Hb1 & Ha2 & Hb2).
        apply (matcher_ok OC absc Hsym HO X m f e j i N Hp Hr Hmf Hme (proj1 (typed_elem f Hmf)) (proj1 (typed_elem e Hme)) (fun n => node_bound f n Hmf) (fun n => node_bound e n Hme)); [|by apply Hpf|by apply Hpe]. right. exists a, b. done.
      + intros i j Hi Hj Hnv Hs. split; [by apply (Hall i j)|]. destruct (two_common OC absc Hsym HO e f i j (good_elem e Hme) (good_elem f Hmf) Hs Hi Hnv) as (a & b & Hab & Ha1 & Hb1 & Ha2 & Hb2).
        apply (Hdual e f a b); done.
    - exists st, nu. split; [exact E|]. split; [|exact H2]. rewrite H1. apply built_all; [exact Hkeys|]. eapply Forall_impl; [exact Hf|]. intros p [? _]. done.
  Qed.
  Lemma dual_checked : dual_checks x = Ok tt.
  Proof using All.
    unfold dual_checks. pose proof (un_pos _ _ _ (cv_mesh _ _ _ Hc)) as HN. rewrite (un_own _ _ _ (cv_mesh _ _ _ Hc)). unfold localSize, numOwned. cbn [so_begin so_end so_shared List.length]. rewrite !Nat.sub_0_r, !Nat.add_0_r.
    assert ((0 + N - 1 + 1 =? N) = true) as -> by (apply Nat.eqb_eq; lia). cbn [Nat.eqb andb]. rewrite orb_true_r. change (throwing_assert true) with (Ok tt). rewrite bind_ok. destruct (Nat.eqb_spec N 0); [lia|]. rewrite bind_ok.
    assert (Huniq : unique_ids m).
    { intros e1 e2 H1 H2 E. apply mem_elem in H1, H2. apply elem_of_list_fmap in H1 as ([k1 e1'] & -> & H1). apply elem_of_list_fmap in H2 as ([k2 e2'] & -> & H2). cbn in *. apply elem_of_list_lookup in H1 as [i Hi]. apply elem_of_list_lookup in H2 as [j Hj].
      assert (i = j) as ->; [|congruence]. apply (NoDup_lookup _ i j (el_id e1') ids_nodup); rewrite map_lookup; [by rewrite Hi|rewrite Hj; cbn; by rewrite E]. }
    assert (Hall : forall i, i < nE -> exists e, is_elem m e /\ el_id e = i).
    { assert (Hincl : incl (seq 0 nE) (map (fun de : nat * el => el_id de.2) (pairs m))).
      { apply NoDup_length_incl; [apply NoDup_ListNoDup, ids_nodup|rewrite seq_length, map_length, pairs_length; done|]. intros i Hi. apply elem_of_list_In, elem_of_list_fmap in Hi as ([k e] & -> & He). apply in_seq. split; [lia|]. apply (cv_ids _ _ _ Hc). exists k. by apply pairs_in. }
      intros i Hi. specialize (Hincl i ltac:(apply in_seq; lia)). apply elem_of_list_In, elem_of_list_fmap in Hincl as ([k e] & -> & He). exists e. split; [exists k; by apply pairs_in|done]. }
    assert (Hl : forall i, i ∈ seq 0 nE -> i < nE) by (intros i Hi; apply elem_of_seq in Hi; lia). revert Hl. generalize (seq 0 nE). intros l. induction l as [|i l IH]; intros Hl; [done|]. cbn [for_each].
    destruct (Hall i (Hl i ltac:(left))) as (e & He & <-). rewrite (find_id_unique m e (cv_ascending _ _ _ Hc) Huniq He), !bind_ok. apply IH. intros j Hj. apply Hl. by right.
  Qed.
  Context (nu : nat -> list nat) (N' : nat) (Hnum : numbered OC (vpos OC) same N (pairs m) nu N').
  Notation r := (conv OC nu).
  Lemma r_length (e : el) : is_elem m e -> length (el_nodes (r e)) = npe (el_type e) OC.
  Proof using All. intros He. destruct Hnum as (_ & H & _). by apply H, mem_elem. Qed.
  Lemma r_same (e f : el) i j a b : is_elem m e -> is_elem m f -> el_nodes (r e) !! i = Some a -> el_nodes (r f) !! j = Some b -> a = b <-> same e i f j.
  Proof using All. intros He Hf. destruct Hnum as (_ & _ & H & _). apply H; by apply mem_elem. Qed.
  Lemma r_raised (e : el) : is_elem m e -> raised OC e (r e).
  Proof using All.
    intros He. destruct Hnum as (_ & H & _). destruct (H e) as (Hl & Hv & _); [by apply mem_elem|]. repeat (split; [done|]). intros k i n Hk Hi Hco. assert (Hkl : k < npe (el_type e) 1) by (apply lookup_lt_Some in Hk; rewrite <- (proj1 (typed_elem e He)); done).
    destruct (vpos_ok OC (el_type e) k Hkl) as [Hvl Hvc]. assert (i = vpos OC (el_type e) k) as ->. { apply (coord_ext (el_type e) OC); [done|done|]. intros a Ha. by rewrite Hco, Hvc. } by apply Hv.
  Qed.
  Lemma r_typed (e : el) : is_elem m e -> typed_el (r e).
  Proof using All. intros He. split; [exact (r_length e He)|exact (proj1 (verts_ok e He))]. Qed.
  Lemma r_nodup (e : el) : is_elem m e -> NoDup (el_nodes (r e)).
  Proof using All.
    intros He. apply NoDup_alt. intros i j a Hi Hj. apply (same_inj OC absc Hsym HO e); [by apply good_elem|rewrite <- (r_length e He); by eapply lookup_lt_Some|rewrite <- (r_length e He); by eapply lookup_lt_Some|]. by apply (r_same e e i j a a He He Hi Hj).
  Qed.
  (** Sides stay sides. *)
  Definition full (t : etype) : list (option bool) := replicate (native_dim t) None.
  Lemma full_on t O i : on_cube (full t) O i.
  Proof using. intros a b Hab. apply lookup_replicate in Hab as [? _]. done. Qed.
  Lemma full_free t : n_free (full t) = native_dim t /\ length (full t) = native_dim t.
  Proof using. by destruct t. Qed.
  Lemma full_nodes (e : el) n : cube_nodes e (full (el_type e)) n <-> n ∈ el_nodes e.
  Proof using. split; [apply cube_nodes_in|]. intros H. apply elem_of_list_lookup in H as [k Hk]. exists k. split; [done|apply full_on]. Qed.
  Lemma side_free t s : s < n_sides t -> length (side_cube t s) = native_dim t /\ n_free (side_cube t s) = native_dim t - 1.
  Proof using HO. intros Hs. destruct t; cbn in Hs; destruct s as [|[|[|[|[|[|s]]]]]]; try lia; done. Qed.
  Lemma side_nodes (b e : el) s : is_elem m e -> side_of b e s -> s < n_sides (el_type e) /\ forall n, n ∈ el_nodes b <-> cube_nodes e (side_cube (el_type e) s) n.
  Proof using All.
    intros He (inds & ns & _ & Hinds & Hf & Hperm & Hs). split; [done|]. destruct (typed_elem e He) as (Hl & Ho & _). rewrite Ho in Hinds. intros n. rewrite Hperm. split.
    - intros Hn. apply elem_of_list_lookup in Hn as [q Hq]. destruct (Forall2_lookup_r _ _ _ _ _ Hf Hq) as (k & Hk & Hkn). exists k. split; [done|]. apply elem_of_list_lookup_2, Hinds, (side_cube_ok (el_type e) 1 s k Hs) in Hk. apply Hk.
    - intros (k & Hk & Hon). assert (Hin : k ∈ inds). { apply Hinds. apply (side_cube_ok (el_type e) 1 s k Hs). split; [apply lookup_lt_Some in Hk; lia|done]. } apply elem_of_list_lookup in Hin as [q Hq]. destruct (Forall2_lookup_l _ _ _ _ _ Hf Hq) as (n' & Hn' & E). assert (n' = n) as -> by congruence. by eapply elem_of_list_lookup_2.
  Qed.
  Lemma side_points (b e : el) s : is_elem m b -> is_elem m e -> native_dim (el_type e) = native_dim (el_type b) + 1 -> side_of b e s ->
    (forall i, i < npe (el_type b) OC -> exists j, on_side (el_type e) OC s j /\ same e j b i) /\ (forall j, on_side (el_type e) OC s j -> exists i, i < npe (el_type b) OC /\ same b i e j).
  Proof using All.
    intros Hb He Hdim Hside. destruct (side_nodes b e s He Hside) as [Hs Hnodes]. destruct (full_free (el_type b)) as [Ff Fl]. destruct (side_free (el_type e) s Hs) as [Sl Sf]. pose proof (good_elem b Hb) as Gb. pose proof (good_elem e He) as Ge.
    assert (Hd12 : native_dim (el_type b) = 1 \/ native_dim (el_type b) = 2) by (destruct (el_type b), (el_type e); cbn in *; lia).
    assert (Hne : b <> e) by (intros ->; lia).
    assert (Hcc : forall n, cube_nodes b (full (el_type b)) n <-> cube_nodes e (side_cube (el_type e) s) n) by (intros n; by rewrite full_nodes, Hnodes).
    assert (Hcom : forall n, n ∈ el_nodes b /\ n ∈ el_nodes e <-> n ∈ el_nodes b). { intros n. split; [intros [? _]; done|]. intros Hn. split; [done|]. apply Hnodes in Hn. by eapply cube_nodes_in. }
    assert (Hj : forall a c, a ∈ el_nodes b -> c ∈ el_nodes b -> joined b a c <-> joined e a c).
    { destruct (proj2 (cv_conforming _ _ _ Hc) b e Hb He Hne) as [Hone|(ce & cf & Hle & Hlf & Hpos & Hfree & _ & Hce & Hcf & Hj)].
      - exfalso. destruct (cube_two OC HO b (full (el_type b)) Gb Fl ltac:(lia)) as (a & c & Hac & Ha & Hc'). apply Hac, Hone; apply Hcom; by apply full_nodes.
      - intros a c Ha Hc'. apply Hj; by apply Hcom. }
    split.
    - intros i Hi. destruct (match_exists OC absc Hsym HO b e (full (el_type b)) (side_cube (el_type e) s) i Gb Ge Fl Sl ltac:(lia) ltac:(lia) Hcc) as (j & Hjl & Hjon & Hsm); [|done|apply full_on|].
      + intros a c Ha Hc'. apply Hj; by apply full_nodes.
      + exists j. split; [by apply side_cube_ok|done].
    - intros j Hon. apply side_cube_ok in Hon as [Hjl Hon]; [|done]. destruct (match_exists OC absc Hsym HO e b (side_cube (el_type e) s) (full (el_type b)) j Ge Gb Sl Fl ltac:(lia) ltac:(lia)) as (i & Hil & _ & Hsm); [intros n; by rewrite Hcc| |done|done|].
      + intros a c Ha Hc'. symmetry. apply Hj; by apply Hnodes.
      + exists i. done.
  Qed.
  Lemma r_sides (b e : el) s : is_elem m b -> attached m b e s -> attached (mapdoms r m) (r b) (r e) s.
  Proof using All.
    intros Hb (He & Hdim & Hside). destruct (side_points b e s Hb He Hdim Hside) as [P1 P2]. destruct (side_nodes b e s He Hside) as [Hs _].
    split; [apply mapdoms_is; by exists e|]. split; [done|]. destruct (lookup_lt_is_Some_2 (boundary_table (el_type e) OC) s) as [l Hl]; [by rewrite table_length|]. destruct (side_table_ok (el_type e) OC s l Hl) as [Hsl Hin].
    assert (Hlt : forall i, i ∈ l -> i < npe (el_type e) OC). { intros i Hi. apply Hin, side_cube_ok in Hi; [|done]. apply Hi. }
    assert (Hlk : forall i, i ∈ l -> el_nodes (r e) !! i = Some (nth i (el_nodes (r e)) 0)). { intros i Hi. destruct (lookup_lt_is_Some_2 (el_nodes (r e)) i) as [a Ha]; [rewrite (r_length e He); by apply Hlt|]. by rewrite (nth_lookup_Some _ _ _ _ Ha). }
    exists l, (map (fun i => nth i (el_nodes (r e)) 0) l). split; [by apply strict_nodup|]. split; [exact Hin|]. split; [|split; [|exact Hs]].
    - apply Forall2_fmap_r. apply Forall2_same_length_lookup_2; [done|]. intros q i i' H1 H2. assert (i' = i) as -> by congruence. apply Hlk. by eapply elem_of_list_lookup_2.
    - apply NoDup_Permutation; [by apply r_nodup| |].
      + apply NoDup_fmap_2_strong; [|by apply strict_nodup]. intros i j Hi Hj E. eapply (NoDup_lookup _ i j); [exact (r_nodup e He)|by apply Hlk|rewrite E; by apply Hlk].
      + intros a. rewrite elem_of_list_fmap. split.
        * intros Ha. apply elem_of_list_lookup in Ha as [i Hi]. destruct (P1 i) as (j & Hj & Hsm); [rewrite <- (r_length b Hb); by eapply lookup_lt_Some|]. apply Hin in Hj. exists j. split; [|done]. symmetry. by apply (r_same e b j i _ a He Hb (Hlk j Hj) Hi).
        * intros (j & -> & Hj). destruct (P2 j) as (i & Hi & Hsm); [by apply Hin|]. destruct (lookup_lt_is_Some_2 (el_nodes (r b)) i) as [c Hc']; [by rewrite (r_length b Hb)|]. assert (c = nth j (el_nodes (r e)) 0) as <- by (by apply (r_same b e i j c _ Hb He Hc' (Hlk j Hj))). by eapply elem_of_list_lookup_2.
  Qed.
  Lemma r_valid : valid_doms [OC] (mapdoms r m).
  Proof using All.
    apply (mapdoms_valid r 1 OC); [|exact (un_valid _ _ _ (cv_mesh _ _ _ Hc))]. intros e He _ _. split; [done|]. split; [done|by apply r_typed].
  Qed.
  Lemma r_nodes_lt n : is_node (mapdoms r m) n -> n < N'.
  Proof using All.
    intros (e' & He' & Hn). apply mapdoms_is in He' as (e & He & ->). apply elem_of_list_lookup in Hn as [i Hi]. destruct Hnum as (_ & H & _). destruct (H e) as (_ & _ & H3); [by apply mem_elem|]. by apply (H3 i n).
  Qed.
  Lemma r_cover n : n < N' -> exists k e, k ∉ (m_bnds x).*1 /\ in_domain (mapdoms r m) k e /\ n ∈ el_nodes e.
  Proof using All.
    intros Hn. destruct (decide (n < N)) as [Hlt|Hge].
    - destruct (un_cover _ _ _ (cv_mesh _ _ _ Hc) n Hlt) as (k & e & Hk & He & Hne). exists k, (r e). split; [done|]. split; [apply mapdoms_in; by exists e|]. apply elem_of_list_lookup in Hne as [q Hq].
      assert (Hel : is_elem m e) by (by exists k). assert (Hql : q < npe (el_type e) 1) by (apply lookup_lt_Some in Hq; rewrite <- (proj1 (typed_elem e Hel)); done). destruct (vpos_ok OC (el_type e) q Hql) as [Hv1 Hv2].
      destruct (r_raised e Hel) as (_ & _ & _ & _ & _ & Hkeep). eapply elem_of_list_lookup_2. exact (Hkeep q _ n Hq Hv1 Hv2).
    - destruct Hnum as (_ & _ & _ & Hfill). destruct (Hfill n ltac:(lia)) as (e & i & He & Hi). apply mem_elem in He. assert (Hne : n ∈ el_nodes (r e)) by (by eapply elem_of_list_lookup_2). destruct He as [k He].
      destruct (decide (k ∈ (m_bnds x).*1)) as [Hk|Hk]; [|exists k, (r e); split; [done|]; split; [apply mapdoms_in; by exists e|done]].
      assert (Hel : is_elem m e) by (by exists k). destruct (cv_sides _ _ _ Hc k e Hk He) as (e' & s & Hat). pose proof (r_sides e e' s Hel Hat) as (_ & _ & (inds & ns & _ & _ & Hf & Hperm & _)). destruct Hat as ([k' He'] & Hdim & _).
      exists k', (r e'). split; [|split; [apply mapdoms_in; by exists e'|]].
      + destruct He as (d & v & Hd & Hv & He). destruct He' as (d' & v' & Hd' & Hv' & He'). destruct (un_valid _ _ _ (cv_mesh _ _ _ Hc)) as [_ Hfa]. rewrite Forall_forall in Hfa. destruct (Hfa _ Hd) as [_ D1]. destruct (Hfa _ Hd') as [_ D2]. cbn in D1, D2.
        destruct (un_parents _ _ _ (cv_mesh _ _ _ Hc)) as [_ Hpar]. apply (Hpar k d k' d' (native_dim (el_type e)) Hk Hd (D1 v e Hv He) Hd'). rewrite <- Hdim. by apply (D2 v').
      + rewrite Hperm in Hne. apply elem_of_list_lookup in Hne as [q Hq]. destruct (Forall2_lookup_r _ _ _ _ _ Hf Hq) as (j & _ & Hj). by eapply elem_of_list_lookup_2.
  Qed.
  Lemma r_mesh sched shuffle : (forall l, sched l ≡ₚ l) -> (forall l, shuffle l ≡ₚ l) ->
    exists y, make_mesh2 sched shuffle (mapdoms r m) 0 N' (m_bnds x).*1 = Ok y /\ converted OC absc x y N' r.
  Proof using All.
    intros Hs Hsh. pose proof r_valid as Hv. pose proof (cv_mesh _ _ _ Hc) as Hun. destruct (un_bnds _ _ _ Hun) as [Bnd Bin]. destruct (un_parents _ _ _ Hun) as [Bp1 Bp2].
    assert (Hpar : parents_exist (mapdoms r m) (m_bnds x).*1).
    { intros k d Hk Hd. apply mapdoms_elem in Hd as (d0 & Hd & ->). destruct (Bp1 k d0 Hk Hd) as (dim & E & k' & d' & Hd' & E'). exists dim. split; [done|]. exists k', (mk_dom (map (map r) (d_els d')) (d_dim d')). split; [apply mapdoms_elem; by exists d'|done]. }
    assert (Hnd : NoDup (mapdoms r m).*1) by (by apply strict_nodup, Hv).
    pose proof (mesh2_ok [OC] sched shuffle (mapdoms r m) 0 N' (m_bnds x).*1 Hv Hs Hsh) as Hm. destruct (init_ok [OC] sched (mapdoms r m) (m_bnds x).*1 Hv Hs) as [(bnds & Eb & Sb & Ib & Vb)|[_ (k & Hk & Hth)]].
    2:{ exfalso. destruct (proj2 (views_ok_iff [OC] sched (mapdoms r m) [k] Hv Hs)) as [views Hviews]; [|congruence]. split.
        - intros k' d Hk' Hd. apply elem_of_list_singleton in Hk' as ->. by apply (Hpar k d).
        - intros b Hb. apply visit_elem in Hb as (k' & Hk' & Hb); [|done]. apply elem_of_list_singleton in Hk' as ->. apply mapdoms_in in Hb as (b0 & Hb & ->). destruct (cv_sides _ _ _ Hc k b0 Hk Hb) as (e & s & Hat). exists (r e), s. apply r_sides; [by exists k|done]. }
    rewrite Eb in Hm. destruct Hm as (so & E & B1 & B2 & _ & B4). eexists. split; [exact E|].
    assert (so_shared so = []) as Hsh0. { destruct (so_shared so) as [|n l] eqn:El; [done|]. exfalso. destruct (proj1 (B4 n) ltac:(left)) as [Hn Hout]. apply r_nodes_lt in Hn. lia. }
    constructor; cbn [m_domains m_bnds m_own].
    - done.
    - exact r_raised.
    - intros e f i j a b He Hf. by apply r_same.
    - exact r_sides.
    - exact Ib.
    - constructor; cbn [m_domains m_bnds m_own].
      + apply NoDup_singleton.
      + exact Hv.
      + rewrite mapdoms_concat, map_map. exact (un_ids _ _ _ Hun).
      + destruct so; cbn in *. by subst.
      + pose proof (un_pos _ _ _ Hun). destruct Hnum as (? & _). lia.
      + exact r_nodes_lt.
      + intros n Hn. destruct (r_cover n Hn) as (k & e & Hk & He & Hne). exists k, e. split; [by rewrite Ib|done].
      + split; [by apply strict_nodup|]. intros b Hb. rewrite mapdoms_keys. by apply Bin, Ib.
      + split.
        * intros k d Hk. apply Hpar. by apply Ib.
        * intros b d k d' dim Hb Hd Ed Hd' Ed'. rewrite Ib in *. apply mapdoms_elem in Hd as (d0 & Hd & ->). apply mapdoms_elem in Hd' as (d0' & Hd' & ->). by apply (Bp2 b d0 k d0' dim).
  Qed.
End mesh.
Lemma conversion_ok OC absc (x : mesh (list R)) N adj X sched shuffle : symmetric_absc OC absc -> 1 <= OC -> convertible x N adj -> placed X (m_domains x) -> resolved tolerance OC X absc (m_domains x) ->
  (forall l, sched l ≡ₚ l) -> (forall l, shuffle l ≡ₚ l) ->
  exists y N' r, convertMeshToOrder point_matcher (location absc) OC sched shuffle adj x = Ok y /\ converted OC absc x y N' r /\ N <= N'.
Proof.
  intros Hsym HO Hc Hp Hr Hs Hsh. destruct (conversion OC absc Hsym HO x N adj X Hc Hp Hr) as (st & nu & E & E1 & Hnum). destruct (r_mesh OC absc Hsym HO x N adj X Hc Hp Hr nu st.1.2 Hnum sched shuffle Hs Hsh) as (y & Ey & Hy).
  exists y, st.1.2, (conv OC nu). split; [|split; [done|apply Hnum]]. unfold convertMeshToOrder. rewrite (dual_checked OC absc Hsym HO x N adj X Hc Hp Hr), bind_ok.
  assert (numOwned (m_own x) = N) as ->. { rewrite (un_own _ _ _ (cv_mesh _ _ _ Hc)). unfold numOwned. cbn. lia. }
  rewrite E, bind_ok, E1. exact Ey.
Qed.
