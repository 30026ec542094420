(** Proofs for C76: where two elements meet, and the intersection computed for them. *)
From Coq Require Import Reals.
From Verif Require Import Base StdAlgo Elem_model Elem_spec Elem_proofs Mesh_model Mesh_spec Mesh_proofs Merge_model Merge_proofs Convert_model Convert_proofs Convert_spec Convert3_proofs Convert4_proofs Convert5_proofs.
Local Open Scope nat_scope.

Lemma cube_subset t cs cs' : length cs = native_dim t -> length cs' = native_dim t -> (forall k, k < npe t 1 -> on_cube cs' 1 k -> on_cube cs 1 k) ->
  forall (a : nat) (b : bool), cs !! a = Some (Some b) -> cs' !! a = Some (Some b).
Proof.
  intros Hl Hl' H a b Hab. assert (Ha : a < native_dim t) by (apply lookup_lt_Some in Hab; lia).
  destruct (cube_point 1 t cs' (fun _ => if b then 0 else 1) Hl' ltac:(intros; cbv beta; destruct b; lia)) as (k & Hk & Hon & Hc). specialize (H k Hk Hon a b Hab).
  destruct (lookup_lt_is_Some_2 cs' a) as [o Ho]; [lia|]. rewrite Ho. destruct o as [b'|].
  - specialize (Hon a b' Ho). f_equal. f_equal. destruct b, b'; try done; lia.
  - specialize (Hc a Ho). cbv beta in Hc. destruct b; lia.
Qed.
Lemma fewer_free (cs cs' : list (option bool)) : length cs = length cs' -> (forall (a : nat) (b : bool), cs !! a = Some (Some b) -> cs' !! a = Some (Some b)) ->
  n_free cs' <= n_free cs /\ (n_free cs' = n_free cs -> cs' = cs).
Proof.
  unfold n_free. revert cs'. induction cs as [|o cs IH]; intros [|o' cs'] Hl H; try done. cbn in Hl. destruct (IH cs' ltac:(lia) (fun a b => H (S a) b)) as [H1 H2]. cbn.
  destruct o as [b|].
  - pose proof (H 0 b eq_refl) as H0. cbn in H0. injection H0 as ->. cbn. split; [done|]. intros E. by rewrite H2.
  - destruct o' as [b'|]; cbn; split; [lia|lia|lia|]. intros E. by rewrite H2 by lia.
Qed.
Lemma free_le cs : n_free cs <= length cs.
Proof. unfold n_free. induction cs as [|[b|] cs IH]; cbn; lia. Qed.
Section meeting.
  Context {V : Type} (OC : nat) (HO : 1 <= OC).
  Notation el := (element V).
  Lemma node_lookup (e : el) k : good e -> k < npe (el_type e) 1 -> el_nodes e !! k = Some (nth k (el_nodes e) 0).
  Proof using. exact (Convert4_proofs.node_lookup 1 (le_n 1) e k). Qed.
  Lemma node_inj (e : el) k l : good e -> k < npe (el_type e) 1 -> l < npe (el_type e) 1 -> nth k (el_nodes e) 0 = nth l (el_nodes e) 0 -> k = l.
  Proof using. exact (Convert4_proofs.node_inj 1 (le_n 1) e k l). Qed.
  Lemma cube_nodes_in (e : el) cs n : cube_nodes e cs n -> n ∈ el_nodes e.
  Proof. intros (k & Hk & _). by eapply elem_of_list_lookup_2. Qed.
  Lemma cube_nodes_subset (e : el) cs cs' : good e -> length cs = native_dim (el_type e) -> length cs' = native_dim (el_type e) -> (forall n, cube_nodes e cs' n -> cube_nodes e cs n) -> n_free cs' <= n_free cs /\ (n_free cs' = n_free cs -> cs' = cs).
  Proof.
    intros Hg Hl Hl' H. apply fewer_free; [lia|]. apply (cube_subset (el_type e)); [done|done|]. intros k Hk Hon.
    destruct (H (nth k (el_nodes e) 0)) as (k' & Hk' & Hon'); [exists k; split; [by apply node_lookup|done]|]. assert (k' = k) as ->; [|done].
    apply (NoDup_lookup _ k' k _ (proj2 Hg) Hk'). by apply node_lookup.
  Qed.
  (** The nodes at the indices of a feature. *)
  Lemma feature_nodes (e : el) cs l : good e -> lists_cube (el_type e) 1 cs l -> exists ns, map_res (rd (el_nodes e)) l = Ok ns /\ NoDup ns /\ forall n, n ∈ ns <-> cube_nodes e cs n.
  Proof.
    intros Hg [Hs Hl]. exists (map (fun k => nth k (el_nodes e) 0) l). assert (Hk : forall k, k ∈ l -> k < npe (el_type e) 1) by (intros k Hk; by apply Hl in Hk as [? _]). split; [|split].
    - apply map_res_ok. intros k Hin. apply rd_ok. by apply node_lookup; [|apply Hk].
    - apply NoDup_fmap_2_strong; [|by apply strict_nodup]. intros x y Hx Hy E. apply (node_inj e); [done|by apply Hk|by apply Hk|done].
    - intros n. rewrite elem_of_list_fmap. split.
      + intros (k & -> & Hin). exists k. apply Hl in Hin as [? ?]. split; [by apply node_lookup|done].
      + intros (k & Hkn & Hon). exists k. split; [by rewrite (nth_node e k n Hkn)|]. apply Hl. split; [|done]. apply lookup_lt_Some in Hkn. destruct Hg as [E _]. lia.
  Qed.
  Lemma features_lookup t O dim k l : 1 <= O -> dim = 1 \/ dim = 2 -> outer_features t O dim !! k = Some l -> exists cs, cube_of t dim !! k = Some cs /\ lists_cube t O cs l.
  Proof. intros HO' Hd Hk. exact (Forall2_lookup_r _ _ _ _ _ (features_ok t O dim HO' Hd) Hk). Qed.
  Lemma features_lookup' t O dim k cs : 1 <= O -> dim = 1 \/ dim = 2 -> cube_of t dim !! k = Some cs -> exists l, outer_features t O dim !! k = Some l /\ lists_cube t O cs l.
  Proof. intros HO' Hd Hk. exact (Forall2_lookup_l _ _ _ _ _ (features_ok t O dim HO' Hd) Hk). Qed.
  Lemma spans_ok dim (e1 e2 : el) : good e1 -> good e2 -> dim = 1 \/ dim = 2 -> exists r, spans_at_dim OC dim e1 e2 = Ok r /\
    ((r = ([], []) /\ forall c1 c2, c1 ∈ cube_of (el_type e1) dim -> c2 ∈ cube_of (el_type e2) dim -> ~ forall n, cube_nodes e1 c1 n <-> cube_nodes e2 c2 n) \/
     exists c1 c2, c1 ∈ cube_of (el_type e1) dim /\ c2 ∈ cube_of (el_type e2) dim /\ (forall n, cube_nodes e1 c1 n <-> cube_nodes e2 c2 n) /\ lists_cube (el_type e1) OC c1 r.1 /\ lists_cube (el_type e2) OC c2 r.2).
  Proof.
    intros Hg1 Hg2 Hd. unfold spans_at_dim.
    set (inner := fun (nodes1 : list nat) (i1 : nat) (f2 : nat * list nat) => nodes2 ← map_res (rd (el_nodes e2)) f2.2; if bool_decide (sort nodes1 = sort nodes2) then inds1 ← rd (outer_features (el_type e1) OC dim) i1; inds2 ← rd (outer_features (el_type e2) OC dim) f2.1; Ok (Some (inds1, inds2)) else Ok None).
    assert (Hin : forall k1 l1 c1 ns1, outer_features (el_type e1) 1 dim !! k1 = Some l1 -> cube_of (el_type e1) dim !! k1 = Some c1 -> NoDup ns1 -> (forall n, n ∈ ns1 <-> cube_nodes e1 c1 n) -> forall f2, f2 ∈ indexed (outer_features (el_type e2) 1 dim) ->
      exists c2, cube_of (el_type e2) dim !! f2.1 = Some c2 /\
        ((inner ns1 k1 f2 = Ok None /\ ~ forall n, cube_nodes e1 c1 n <-> cube_nodes e2 c2 n) \/
         exists r, inner ns1 k1 f2 = Ok (Some r) /\ (forall n, cube_nodes e1 c1 n <-> cube_nodes e2 c2 n) /\ lists_cube (el_type e1) OC c1 r.1 /\ lists_cube (el_type e2) OC c2 r.2)).
    { intros k1 l1 c1 ns1 Hl1 Hc1 Hnd1 Hns1 [k2 l2] Hf2. apply indexed_elem in Hf2. cbn [fst snd]. destruct (features_lookup _ 1 dim k2 l2 ltac:(lia) Hd Hf2) as (c2 & Hc2 & Hlc2). exists c2. split; [done|].
      destruct (feature_nodes e2 c2 l2 Hg2 Hlc2) as (ns2 & E2 & Hnd2 & Hns2). unfold inner. cbn [fst snd]. rewrite E2, bind_ok.
      assert (Hiff : sort ns1 = sort ns2 <-> forall n, cube_nodes e1 c1 n <-> cube_nodes e2 c2 n).
      { split.
        - intros E n. rewrite <- Hns1, <- Hns2, <- (sort_elem ns1), <- (sort_elem ns2), E. done.
        - intros H. apply sort_ext. apply NoDup_Permutation; [done|done|]. intros n. rewrite Hns1, Hns2. apply H. }
      case_bool_decide as E.
      - right. assert (E' := proj1 Hiff E). destruct (features_lookup' _ OC dim k1 c1 HO Hd Hc1) as (i1 & Hi1 & Hc1'). destruct (features_lookup' _ OC dim k2 c2 HO Hd Hc2) as (i2 & Hi2 & Hc2').
        exists (i1, i2). rewrite (rd_ok _ _ _ Hi1), bind_ok, (rd_ok _ _ _ Hi2), bind_ok. done.
      - left. split; [done|]. by rewrite <- Hiff. }
    set (outer := fun f1 : nat * list nat => nodes1 ← map_res (rd (el_nodes e1)) f1.2; find_res (inner nodes1 f1.1) (indexed (outer_features (el_type e2) 1 dim))).
    change (exists r, (r0 ← find_res outer (indexed (outer_features (el_type e1) 1 dim)); Ok match r0 with Some p => p | None => ([], []) end) = Ok r /\
      ((r = ([], []) /\ forall c1 c2, c1 ∈ cube_of (el_type e1) dim -> c2 ∈ cube_of (el_type e2) dim -> ~ forall n, cube_nodes e1 c1 n <-> cube_nodes e2 c2 n) \/
       exists c1 c2, c1 ∈ cube_of (el_type e1) dim /\ c2 ∈ cube_of (el_type e2) dim /\ (forall n, cube_nodes e1 c1 n <-> cube_nodes e2 c2 n) /\ lists_cube (el_type e1) OC c1 r.1 /\ lists_cube (el_type e2) OC c2 r.2)).
    assert (Hout : forall f1, f1 ∈ indexed (outer_features (el_type e1) 1 dim) -> exists c1, cube_of (el_type e1) dim !! f1.1 = Some c1 /\
      ((outer f1 = Ok None /\ forall c2, c2 ∈ cube_of (el_type e2) dim -> ~ forall n, cube_nodes e1 c1 n <-> cube_nodes e2 c2 n) \/
       exists r c2, outer f1 = Ok (Some r) /\ c2 ∈ cube_of (el_type e2) dim /\ (forall n, cube_nodes e1 c1 n <-> cube_nodes e2 c2 n) /\ lists_cube (el_type e1) OC c1 r.1 /\ lists_cube (el_type e2) OC c2 r.2)).
    { intros [k1 l1] Hf1. apply indexed_elem in Hf1. cbn [fst snd]. destruct (features_lookup _ 1 dim k1 l1 ltac:(lia) Hd Hf1) as (c1 & Hc1 & Hlc1). exists c1. split; [done|].
      destruct (feature_nodes e1 c1 l1 Hg1 Hlc1) as (ns1 & E1 & Hnd1 & Hns1). unfold outer. cbn [fst snd]. rewrite E1, bind_ok. specialize (Hin k1 l1 c1 ns1 Hf1 Hc1 Hnd1 Hns1).
      destruct (find_res_total (inner ns1 k1) (indexed (outer_features (el_type e2) 1 dim))) as [[E Hn]|(f2 & r & E & Hf2 & Ef2)].
      - intros f2 Hf2. destruct (Hin f2 Hf2) as (c2 & _ & [[-> _]|(r & -> & _)]); eauto.
      - left. split; [done|]. intros c2 Hc2. apply elem_of_list_lookup in Hc2 as [k2 Hc2]. destruct (features_lookup' _ 1 dim k2 c2 ltac:(lia) Hd Hc2) as (l2 & Hl2 & _).
        assert (Hf2 : (k2, l2) ∈ indexed (outer_features (el_type e2) 1 dim)) by (by apply indexed_elem). specialize (Hn _ Hf2). destruct (Hin _ Hf2) as (c2' & Hc2' & [[_ H]|(r & E' & _)]); [|congruence]. cbn in Hc2'. rewrite Hc2 in Hc2'. injection Hc2' as <-. exact H.
      - right. destruct (Hin f2 Hf2) as (c2 & Hc2 & [[E' _]|(r' & E' & H & H1 & H2)]); [congruence|]. rewrite Ef2 in E'. injection E' as <-. exists r, c2. split; [done|]. split; [by eapply elem_of_list_lookup_2|done]. }
    destruct (find_res_total outer (indexed (outer_features (el_type e1) 1 dim))) as [[E Hn]|(f1 & r & E & Hf1 & Ef1)].
    - intros f1 Hf1. destruct (Hout f1 Hf1) as (c1 & _ & [[-> _]|(r & c2 & -> & _)]); eauto.
    - exists ([], []). rewrite E, bind_ok. split; [done|]. left. split; [done|]. intros c1 c2 Hc1 Hc2. apply elem_of_list_lookup in Hc1 as [k1 Hc1]. destruct (features_lookup' _ 1 dim k1 c1 ltac:(lia) Hd Hc1) as (l1 & Hl1 & _).
      assert (Hf1 : (k1, l1) ∈ indexed (outer_features (el_type e1) 1 dim)) by (by apply indexed_elem). specialize (Hn _ Hf1). destruct (Hout _ Hf1) as (c1' & Hc1' & [[_ H]|(r & c2' & E' & _)]); [|congruence]. cbn in Hc1'. assert (c1' = c1) as -> by congruence. by apply H.
    - exists r. rewrite E, bind_ok. split; [done|]. right. destruct (Hout f1 Hf1) as (c1 & Hc1 & [[E' _]|(r' & c2 & E' & Hc2 & H)]); [congruence|]. rewrite Ef1 in E'. injection E' as <-. exists c1, c2. split; [by eapply elem_of_list_lookup_2|done].
  Qed.
  Lemma cube_inhabited t cs O : length cs = native_dim t -> exists i, i < npe t O /\ on_cube cs O i.
  Proof. intros Hl. destruct (cube_point O t cs (fun _ => 0) Hl ltac:(intros; cbv beta; lia)) as (i & ? & ? & _). eauto. Qed.
  Lemma lists_nonempty t cs l : length cs = native_dim t -> lists_cube t OC cs l -> l <> [].
  Proof. intros Hl [_ H] ->. destruct (cube_inhabited t cs OC Hl) as (i & ? & ?). by apply (not_elem_of_nil i), H. Qed.
  Lemma cube_two (e : el) cs : good e -> length cs = native_dim (el_type e) -> 0 < n_free cs -> exists a b, a <> b /\ cube_nodes e cs a /\ cube_nodes e cs b.
  Proof.
    intros Hg Hl Hf. assert (exists ax, cs !! ax = Some None) as [ax Hax].
    { clear -Hf. unfold n_free in Hf. induction cs as [|[b|] cs IH]; cbn in Hf; [lia| |by exists 0]. destruct (IH Hf) as [ax Hax]. by exists (S ax). }
    destruct (cube_point 1 (el_type e) cs (fun _ => 0) Hl ltac:(intros; cbv beta; lia)) as (i & Hi & Hion & Hic). destruct (cube_point 1 (el_type e) cs (fun _ => 1) Hl ltac:(intros; cbv beta; lia)) as (j & Hj & Hjon & Hjc).
    exists (nth i (el_nodes e) 0), (nth j (el_nodes e) 0). split; [|split; [exists i|exists j]; (split; [by apply node_lookup|done])]. intros E. apply (node_inj e) in E; [|done|done|done]. subst j. specialize (Hjc ax Hax). specialize (Hic ax Hax). cbv beta in *. lia.
  Qed.
  (** The intersection of two elements which meet properly. *)
  Lemma intersection_ok (e1 e2 : el) : good e1 -> good e2 -> meet e1 e2 -> exists l1 l2, element_intersection OC e1 e2 = Ok (l1, l2) /\
    ((l1 = [] /\ l2 = [] /\ forall a b, a ∈ el_nodes e1 -> a ∈ el_nodes e2 -> b ∈ el_nodes e1 -> b ∈ el_nodes e2 -> a = b) \/
     exists c1 c2, length c1 = native_dim (el_type e1) /\ length c2 = native_dim (el_type e2) /\ n_free c1 = n_free c2 /\ (n_free c1 = 1 \/ n_free c1 = 2) /\
       (forall n, n ∈ el_nodes e1 -> n ∈ el_nodes e2 -> cube_nodes e1 c1 n) /\ (forall n, n ∈ el_nodes e1 -> n ∈ el_nodes e2 -> cube_nodes e2 c2 n) /\
       (forall n, cube_nodes e1 c1 n <-> cube_nodes e2 c2 n) /\ (forall a b, cube_nodes e1 c1 a -> cube_nodes e1 c1 b -> joined e1 a b <-> joined e2 a b) /\
       lists_cube (el_type e1) OC c1 l1 /\ lists_cube (el_type e2) OC c2 l2).
  Proof.
    intros Hg1 Hg2 Hmeet. set (t1 := el_type e1) in *. set (t2 := el_type e2) in *.
    destruct Hmeet as [Hone|(ce & cf & Hle & Hlf & Hpos & Hfree & Hlow & Hce & Hcf & Hj)].
    - (* one common node at most *)
      assert (Hno : forall dim, dim = 1 \/ dim = 2 -> spans_at_dim OC dim e1 e2 = Ok ([], [])).
      { intros dim Hd. destruct (spans_ok dim e1 e2 Hg1 Hg2 Hd) as (r & E & [[-> _]|(c1 & c2 & Hc1 & Hc2 & Hn & _)]); [done|]. exfalso.
        destruct (cube_of_ok _ _ _ Hc1) as [Hl1 Hf1]. destruct (cube_two e1 c1 Hg1 Hl1 ltac:(destruct Hd; lia)) as (a & b & Hne & Ha & Hb). apply Hne, Hone; split; [by eapply cube_nodes_in| |by eapply cube_nodes_in|]; [apply Hn in Ha|apply Hn in Hb]; by eapply cube_nodes_in. }
      exists [], []. split; [|left; split; [done|]; split; [done|]; intros a b ? ? ? ?; by apply Hone].
      unfold element_intersection. fold t1 t2. destruct (highest_matchable t1 t2) as [|[|h]]; [done|apply Hno; by left|]. rewrite (Hno 2) by (by right). rewrite bind_ok. cbn. apply Hno. by left.
    - set (d := n_free ce) in *. assert (Hd1 : d <= native_dim t1). { unfold d, t1. rewrite <- Hle. apply free_le. }
      assert (Hd2 : d <= native_dim t2). { rewrite Hfree. unfold t2. rewrite <- Hlf. apply free_le. }
      assert (Hdh : d <= highest_matchable t1 t2). { unfold highest_matchable. destruct (Nat.eqb_spec (native_dim t1) (native_dim t2)) as [E|E]; [|clearbody d; lia]. specialize (Hlow E). fold t1 in Hlow. lia. }
      assert (Hd : d = 1 \/ d = 2). { assert (native_dim t1 <= 3) by (destruct t1; cbn; lia). assert (native_dim t2 <= 3) by (destruct t2; cbn; lia). unfold highest_matchable in Hdh. destruct (Nat.eqb_spec (native_dim t1) (native_dim t2)); lia. }
      assert (Hcc : forall n, cube_nodes e1 ce n <-> cube_nodes e2 cf n) by (intros n; by rewrite <- Hce, <- Hcf).
      assert (Hone : forall dim r c1 c2, dim = 1 \/ dim = 2 -> spans_at_dim OC dim e1 e2 = Ok r -> c1 ∈ cube_of t1 dim -> c2 ∈ cube_of t2 dim -> (forall n, cube_nodes e1 c1 n <-> cube_nodes e2 c2 n) -> dim <= d /\ (dim = d -> c1 = ce /\ c2 = cf)).
      { intros dim r c1 c2 _ _ Hc1 Hc2 Hn. destruct (cube_of_ok _ _ _ Hc1) as [Hl1 Hf1]. destruct (cube_of_ok _ _ _ Hc2) as [Hl2 Hf2].
        destruct (cube_nodes_subset e1 ce c1 Hg1 Hle Hl1) as [H1 H1']. { intros n Hcn. apply Hce. split; [by eapply cube_nodes_in|]. apply Hn in Hcn. by eapply cube_nodes_in. }
        destruct (cube_nodes_subset e2 cf c2 Hg2 Hlf Hl2) as [H2 H2']. { intros n Hcn. apply Hcf. split; [|by eapply cube_nodes_in]. apply Hn in Hcn. by eapply cube_nodes_in. }
        split; [unfold d; lia|]. intros ->. split; [apply H1'; lia|apply H2'; unfold d in *; lia]. }
      assert (Hspd : exists l1 l2, spans_at_dim OC d e1 e2 = Ok (l1, l2) /\ lists_cube t1 OC ce l1 /\ lists_cube t2 OC cf l2).
      { destruct (spans_ok d e1 e2 Hg1 Hg2 Hd) as ([l1 l2] & E & [[_ Hno]|(c1 & c2 & Hc1 & Hc2 & Hn & H1 & H2)]).
        - exfalso. apply (Hno ce cf); [by apply cube_of_all|apply cube_of_all; [done|by rewrite <- Hfree|done]|done].
        - destruct (Hone d _ c1 c2 Hd E Hc1 Hc2 Hn) as [_ H]. destruct (H eq_refl) as [-> ->]. eauto. }
      destruct Hspd as (l1 & l2 & E & L1 & L2). exists l1, l2. split.
      + unfold element_intersection. assert (Hh : highest_matchable t1 t2 <= 2). { unfold highest_matchable. destruct (Nat.eqb_spec (native_dim t1) (native_dim t2)); destruct t1, t2; cbn in *; lia. }
        fold t1 t2. destruct (highest_matchable t1 t2) as [|[|[|h]]]; [lia|replace 1 with d by lia; done| |lia].
        destruct Hd as [Hd|Hd].
        * destruct (spans_ok 2 e1 e2 Hg1 Hg2 ltac:(by right)) as (r & E2 & [[-> _]|(c1 & c2 & Hc1 & Hc2 & Hn & H1 & H2)]); [rewrite E2, bind_ok; cbn; by rewrite <- Hd|]. exfalso. destruct (Hone 2 r c1 c2 ltac:(by right) E2 Hc1 Hc2 Hn). lia.
        * rewrite <- Hd, E, bind_ok. cbn [fst]. pose proof (lists_nonempty t1 ce l1 Hle L1). by destruct l1.
      + right. exists ce, cf. split; [done|]. split; [done|]. split; [done|]. split; [done|]. split; [intros n ? ?; by apply Hce|]. split; [intros n ? ?; by apply Hcf|]. split; [done|]. split; [|done].
        intros a b Ha Hb. apply Hj; by apply Hce.
  Qed.
  (** The hypothesis of the conversion, up to [near]. *)
  Context (absc : list R) (Hsym : symmetric_absc OC absc).
  Lemma intersection_same (f e : el) : good f -> good e -> meet f e -> exists pf pe, element_intersection OC f e = Ok (pf, pe) /\
    (forall j, j ∈ pf -> j < npe (el_type f) OC) /\ (forall i, i ∈ pe -> i < npe (el_type e) OC) /\
    (forall i, i ∈ pe -> exists j, j ∈ pf /\ same_point absc f j e i) /\
    (forall i j, i < npe (el_type e) OC -> j < npe (el_type f) OC -> (~ exists k, k < npe (el_type e) 1 /\ i = vpos OC (el_type e) k) -> same_point absc f j e i -> i ∈ pe).
  Proof.
    intros Hgf Hge Hm. destruct (intersection_ok f e Hgf Hge Hm) as (pf & pe & E & [(-> & -> & Hone)|(cf & ce & Hlf & Hle & Hfree & Hd & Hcf & Hce & Hcc & Hj & [_ Lf] & [_ Le])]); exists pf, pe || exists [], []; (split; [done|]).
    - split; [intros j H; by apply elem_of_nil in H|]. split; [intros j H; by apply elem_of_nil in H|]. split; [intros j H; by apply elem_of_nil in H|]. intros i j Hi Hj Hnv Hs. exfalso.
      destruct (two_common OC absc Hsym HO e f i j Hge Hgf Hs Hi Hnv) as (a & b & Hne & ? & ? & ? & ?). by apply Hne, Hone.
    - split; [intros j H; by apply Lf in H as [? _]|]. split; [intros j H; by apply Le in H as [? _]|]. split.
      + intros i H. apply Le in H as [Hi Hon]. destruct (match_exists OC absc Hsym HO e f ce cf i Hge Hgf Hle Hlf ltac:(done) ltac:(lia)) as (j & Hjl & Hjon & Hs); [intros n; by rewrite Hcc| |done|done|].
        { intros a b Ha Hb. apply Hcc in Ha, Hb. symmetry. by apply Hj. }
        exists j. split; [by apply Lf|done].
      + intros i j Hi Hjl _ Hs. apply Le. split; [done|]. apply (support_cube OC absc Hsym HO e f ce i j Hge Hgf Hs Hi Hle). intros n Hn1 Hn2. by apply Hce.
  Qed.
End meeting.
