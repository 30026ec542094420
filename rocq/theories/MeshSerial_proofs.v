From Verif Require Import Base StdAlgo Ownership_model Elem_model Serial_model Serial_spec Serial_proofs Mesh_model Mesh_spec Mesh_proofs MeshSerial_model MeshSerial_spec.
Local Arguments Nat.mul : simpl never.
Local Arguments Nat.add : simpl never.
Local Arguments N.pow : simpl never.

Lemma w8_length n : length (w8 n) = 8.
Proof. apply le_length. Qed.
Lemma w8_round n : (n < 2 ^ 64)%N -> le_value (w8 n) = n.
Proof. intros H. apply le_round. exact H. Qed.
Lemma words_ok ws : Forall (fun n => (n < 2 ^ 64)%N) ws -> words (length ws) (concat (map w8 ws)) = ws.
Proof.
  induction 1 as [|n ws Hn _ IH]; [done|]. cbn [List.length words map concat].
  rewrite (take_app_alt (w8 n)) by (symmetry; apply w8_length). rewrite (drop_app_alt (w8 n)) by (symmetry; apply w8_length).
  by rewrite w8_round, IH.
Qed.
Lemma points_ok vs rest : points (length vs) (concat (map point_words vs) ++ rest) = vs.
Proof.
  revert rest. induction vs as [|[[x y] z] vs IH]; intros rest; [done|]. cbn [List.length points map concat]. rewrite <- app_assoc.
  cbn [point_words fst snd app nth drop]. f_equal. rewrite drop_0. apply IH.
Qed.
Lemma point_words_length vs : length (concat (map point_words vs)) = 3 * length vs.
Proof. induction vs as [|v vs IH]; [done|]. cbn [map concat List.length]. rewrite app_length, IH. unfold point_words. cbn [List.length]. lia. Qed.
Lemma el_words_length e : typed_el e -> length (el_words e) = n_words (el_type e, el_order e).
Proof.
  intros [H1 H2]. unfold el_words, n_words. rewrite !app_length, map_length, point_words_length. cbn [fst snd List.length].
  rewrite H1, H2. lia.
Qed.
Lemma concat_w8_length ws : length (concat (map w8 ws)) = 8 * length ws.
Proof. induction ws as [|w ws IH]; [done|]. cbn [map concat List.length]. rewrite app_length, w8_length, IH. lia. Qed.
Lemma concat_w8_bytes ws : Forall (fun b => (b < 256)%N) (concat (map w8 ws)).
Proof. induction ws as [|w ws IH]; cbn [map concat]; [constructor|]. apply Forall_app. split; [apply le_bytes_ok|done]. Qed.
Lemma el_words_fit e : el_fits e -> Forall (fun n => (n < 2 ^ 64)%N) (el_words e).
Proof.
  intros (H1 & H2 & H3). unfold el_words. rewrite !Forall_app. split; [|split].
  - apply Forall_fmap. eapply Forall_impl; [exact H1|]. done.
  - induction H3 as [|v vs (Hx & Hy & Hz) _ IH]; cbn; [constructor|]. repeat (constructor; [assumption|]). exact IH.
  - repeat constructor. exact H2.
Qed.
Lemma el_round e : typed_el e -> el_fits e -> el_of_bytes (el_type e, el_order e) (el_bytes e) = e.
Proof.
  intros Ht Hf. unfold el_of_bytes. cbv zeta. rewrite <- (el_words_length e Ht). unfold el_bytes. rewrite words_ok by (by apply el_words_fit).
  destruct Ht as [H1 H2]. cbn [fst snd]. rewrite <- H1, <- H2. destruct e as [t o ns vs i]. cbn [el_type el_order el_nodes el_verts el_id] in *.
  assert (Hl : length (map N.of_nat ns) = length ns) by apply map_length.
  unfold el_words. cbn [el_nodes el_verts el_id].
  rewrite <- Hl at 1. rewrite take_app. rewrite <- Hl at 1. rewrite drop_app. rewrite points_ok. f_equal.
  - rewrite map_map. rewrite <- (map_id ns) at 2. apply map_ext. intros n. apply Nat2N.id.
  - rewrite app_nth2 by lia. rewrite app_nth2 by (rewrite point_words_length; lia). rewrite point_words_length, Hl.
    replace (length ns + 3 * length vs - length ns - 3 * length vs) with 0 by lia. cbn [nth]. apply Nat2N.id.
Qed.

(** Pushing the elements of one vector. *)
Lemma slots_nodup orders : NoDup orders -> NoDup (slots orders).
Proof.
  intros H. unfold slots. cbn [map concat].
  assert (Hm : forall t : etype, NoDup (map (fun o => (t, o)) orders)) by (intros t; apply (NoDup_fmap_2 (fun o => (t, o))); try done; by intros ? ? [= ->]).
  assert (Hd : forall (t : etype) p, p ∈ map (fun o => (t, o)) orders -> p.1 = t) by (intros t p Hp; by apply (elem_of_list_fmap (fun o => (t, o))) in Hp as (o & -> & _)).
  rewrite app_nil_r. apply NoDup_app. split; [apply Hm|]. split.
  - intros p Hp Hq. apply Hd in Hp. apply elem_of_app in Hq as [Hq|Hq]; apply Hd in Hq; congruence.
  - apply NoDup_app. split; [apply Hm|]. split; [|apply Hm]. intros p Hp Hq. apply Hd in Hp. apply Hd in Hq. congruence.
Qed.
Lemma pos_of_at {A} `{EqDecision A} (l1 l2 : list A) x : NoDup (l1 ++ x :: l2) -> pos_of x (l1 ++ x :: l2) = Some (length l1).
Proof.
  induction l1 as [|y l1 IH]; intros H; cbn.
  - by rewrite decide_True by done.
  - apply NoDup_cons in H as [Hn H]. rewrite decide_False.
    + by rewrite IH.
    + intros ->. apply Hn, elem_of_app. right. left.
Qed.
Section push.
  Context (orders : list nat) (Hnd : NoDup orders).
  Lemma push_one s1 s2 a b (v : list (element point)) dim e D : slots orders = s1 ++ (el_type e, el_order e) :: s2 -> length a = length s1 ->
    native_dim (el_type e) = D -> dim = None \/ dim = Some D ->
    pushToDomain orders (mk_dom (a ++ v :: b) dim) e = Ok (mk_dom (a ++ (v ++ [e]) :: b) (Some D)).
  Proof.
    intros Hs Hl He Hd. unfold pushToDomain. cbn [d_dim d_els].
    assert (default (native_dim (el_type e)) dim = D) as -> by (destruct Hd as [-> | ->]; done).
    rewrite He, Nat.eqb_refl. change (throwing_assert true) with (Ok tt). rewrite bind_ok. rewrite Hs, pos_of_at by (rewrite <- Hs; by apply slots_nodup).
    rewrite <- Hl. rewrite (rd_ok _ _ v) by (by apply list_lookup_middle). rewrite bind_ok.
    rewrite insert_app_r_alt by done. rewrite Nat.sub_diag. done.
  Qed.
  Lemma push_vec s1 s2 s D els a b v dim : slots orders = s1 ++ s :: s2 -> length a = length s1 -> dim = None \/ dim = Some D ->
    Forall (fun e => (el_type e, el_order e) = s /\ typed_el e /\ el_fits e /\ native_dim (el_type e) = D) els ->
    for_each (fun ve d => x ← get_pod ve; pushToDomain orders d (el_of_bytes s x)) (map (fun e => VPod (el_bytes e)) els) (mk_dom (a ++ v :: b) dim)
    = Ok (mk_dom (a ++ (v ++ els) :: b) (match els with [] => dim | _ => Some D end)).
  Proof.
    intros Hs Hl Hd Hf. revert v dim Hd. induction Hf as [|e els (He & Ht & Hfit & Hdim) Hf IH]; intros v dim Hd.
    - cbn. by rewrite app_nil_r.
    - cbn [map for_each]. cbn [get_pod]. rewrite bind_ok. rewrite <- He at 1. rewrite el_round by done.
      rewrite (push_one s1 s2 a b v dim e D) by (done || by rewrite He). rewrite bind_ok.
      rewrite IH by auto. rewrite <- app_assoc. cbn [app]. by destruct els.
  Qed.
  Lemma make_domain_els D vs s1 s2 a dim : slots orders = s1 ++ s2 -> length a = length s1 -> dim = None \/ dim = Some D ->
    Forall2 (fun s v => Forall (fun e => (el_type e, el_order e) = s /\ typed_el e /\ el_fits e /\ native_dim (el_type e) = D) v) s2 vs ->
    for_each (fun (sa : etype * nat * val) d => els ← get_range sa.2;
          for_each (fun ve d => b ← get_pod ve; pushToDomain orders d (el_of_bytes sa.1 b)) els d)
        (zip s2 (map (fun v => VRange (map (fun e => VPod (el_bytes e)) v)) vs)) (mk_dom (a ++ map (fun _ => []) s2) dim)
    = Ok (mk_dom (a ++ vs) (match concat vs with [] => dim | _ => Some D end)).
  Proof.
    intros Hs Hl Hd Hf. revert s1 a dim Hs Hl Hd. induction Hf as [|s v s2 vs Hv Hf IH]; intros s1 a dim Hs Hl Hd; [done|].
    cbn [map zip zip_with for_each fst snd get_range]. rewrite bind_ok. rewrite (push_vec s1 s2 s D v a _ [] dim) by done.
    rewrite bind_ok. cbn [app]. specialize (IH (s1 ++ [s]) (a ++ [v])). rewrite <- !app_assoc in IH. cbn [app] in IH.
    replace (a ++ v :: map (fun _ => []) s2) with ((a ++ [v]) ++ map (fun _ => @nil (element point)) s2) by (by rewrite <- app_assoc).
    rewrite <- app_assoc. cbn [app].
    rewrite IH; [|done|rewrite !app_length; cbn [List.length]; lia|destruct v; auto].
    cbn [concat]. destruct v; [done|]. cbn [app]. by destruct (concat vs).
  Qed.
  Lemma make_domain_ok id d : fits16 id -> typed_domain orders d -> dim_domain d ->
    Forall (fun v => fits64 (length v) /\ Forall el_fits v) (d_els d) -> (concat (d_els d) = [] -> d_dim d = None) ->
    make_domain orders (v_dom (id, d)) = Ok (id, d).
  Proof.
    intros Hid Ht Hdd Hfit Hst. unfold make_domain, v_dom. cbn [fst snd get_num get_pod]. unfold get_num. cbn [get_pod]. rewrite bind_ok.
    rewrite le_round by exact Hid. rewrite Nat2N.id.
    assert (HD : exists D, d_dim d = (match concat (d_els d) with [] => None | _ => Some D end) /\
      forall v e, v ∈ d_els d -> e ∈ v -> native_dim (el_type e) = D).
    { destruct (concat (d_els d)) as [|e0 l] eqn:E.
      - exists 0. split; [by apply Hst|]. intros v e Hv He. exfalso. assert (e ∈ concat (d_els d)) as H by (apply elem_of_concat; by exists v).
        rewrite E in H. by apply elem_of_nil in H.
      - exists (native_dim (el_type e0)). assert (e0 ∈ concat (d_els d)) as H by (rewrite E; left). apply elem_of_concat in H as (v0 & He0 & Hv0).
        split; [by eapply Hdd|]. intros v e Hv He. pose proof (Hdd v e Hv He). pose proof (Hdd v0 e0 Hv0 He0). congruence. }
    destruct HD as (D & Hdim & HD). unfold empty_domain.
    pose proof (make_domain_els D (d_els d) [] (slots orders) [] None eq_refl eq_refl (or_introl eq_refl)) as H. cbn [app] in H.
    rewrite H.
    - rewrite bind_ok. destruct d as [els dim]. cbn [d_els d_dim] in *. by rewrite Hdim.
    - apply Forall2_same_length_lookup_2; [by eapply Forall2_length|]. intros i s v Hi Hv.
      apply Forall_forall. intros e He. pose proof (Forall2_lookup_lr _ _ _ _ _ _ Ht Hi Hv) as Hx. cbn in Hx. rewrite Forall_forall in Hx.
      destruct (Hx e He) as [Hs Hte]. split; [done|]. split; [done|].
      assert (Hin : v ∈ d_els d) by (by eapply elem_of_list_lookup_2). split; [|by eapply HD].
      rewrite Forall_forall in Hfit. destruct (Hfit v Hin) as [_ Hx']. rewrite Forall_forall in Hx'. by apply Hx'.
  Qed.
End push.

Lemma emplace_all {A} (l m0 : dmap A) : StronglySorted lt (m0 ++ l).*1 -> foldl (fun m (d : nat * A) => dm_emplace d.1 d.2 m) m0 l = m0 ++ l.
Proof.
  revert m0. induction l as [|[k a] l IH]; intros m0 H; [by rewrite app_nil_r|]. cbn [foldl fst snd].
  replace (dm_emplace k a m0) with (m0 ++ [(k, a)]).
  - rewrite IH; rewrite <- app_assoc; done.
  - rewrite fmap_app in H. cbn in H.
    assert (Hlt : forall k' a', (k', a') ∈ m0 -> k' < k).
    { intros k' a' Hk. eapply elem_of_StronglySorted_app; [exact H| |left]. apply elem_of_list_fmap. by exists (k', a'). }
    unfold dm_emplace. assert (dm_find k m0 = None) as ->.
    { apply dm_find_none. intros Hk. apply elem_of_list_fmap in Hk as ([k' a'] & Hkk & Hk). cbn in Hkk. subst. apply Hlt in Hk. lia. }
    clear H IH. induction m0 as [|[k' a'] m0 IH]; [done|]. cbn [app dm_set].
    assert (k' < k) by (eapply Hlt; left). destruct (Nat.ltb_spec k k'); [lia|]. destruct (Nat.eqb_spec k k'); [lia|]. f_equal. apply IH.
    intros k2 a2 H2. apply (Hlt k2 a2). by right.
Qed.

Lemma pod_type n bs : length bs = n -> Forall (fun b => (b < 256)%N) bs -> has_type (TPod n) (VPod bs).
Proof. done. Qed.
Lemma tuple_type ts vs : Forall2 has_type ts vs -> has_type (TTuple ts) (VTuple vs).
Proof. cbn [has_type]. induction 1; [done|]. split; assumption. Qed.
Lemma dom_type orders d : typed_domain orders d.2 -> Forall (fun v => fits64 (length v) /\ Forall el_fits v) (d_els d.2) ->
  has_type (TTuple [TPod 2; TTuple (map (fun s => TRange (TPod (el_size s))) (slots orders))]) (v_dom d).
Proof.
  intros Ht Hf. unfold v_dom. apply tuple_type. constructor; [apply pod_type; [apply le_length|apply le_bytes_ok]|].
  constructor; [|constructor]. apply tuple_type.
  change (map (fun s => TRange (TPod (el_size s))) (slots orders)) with ((fun s => TRange (TPod (el_size s))) <$> slots orders).
  change (map (fun v => VRange (map (fun e => VPod (el_bytes e)) v)) (d_els d.2)) with ((fun v => VRange (map (fun e => VPod (el_bytes e)) v)) <$> d_els d.2).
  rewrite Forall2_fmap. apply Forall2_same_length_lookup_2; [by eapply Forall2_length|]. intros i s v Hi Hv.
  pose proof (Forall2_lookup_lr _ _ _ _ _ _ Ht Hi Hv) as Hx. cbn in Hx.
  rewrite Forall_forall in Hf. destruct (Hf v) as [Hn _]; [by eapply elem_of_list_lookup_2|].
  cbn [has_type]. rewrite map_length. split; [exact Hn|]. apply Forall_fmap. eapply Forall_impl; [exact Hx|]. intros e [<- Hte].
  apply pod_type; [|apply concat_w8_bytes]. unfold el_bytes, el_size. by rewrite concat_w8_length, el_words_length.
Qed.
Lemma mesh_type orders m : valid_doms orders (m_domains m) -> mesh_fits m -> has_type (t_mesh orders) (v_mesh m).
Proof.
  intros [_ Hv] (H1 & H2 & H3 & H4 & H5 & H6 & H7). unfold t_mesh, v_mesh. apply tuple_type. constructor; [|constructor; [|constructor; [|constructor; [|constructor]]]].
  - cbn [has_type]. rewrite map_length. split; [exact H1|]. apply Forall_fmap. rewrite Forall_forall in Hv. rewrite Forall_forall in H7.
    apply Forall_forall. intros d Hd. apply dom_type; [by apply Hv|by apply H7].
  - apply pod_type; [apply w8_length|apply le_bytes_ok].
  - apply pod_type; [apply w8_length|apply le_bytes_ok].
  - cbn [has_type]. rewrite map_length, fmap_length. split; [exact H4|]. apply Forall_fmap, Forall_true. intros b.
    apply pod_type; [apply le_length|apply le_bytes_ok].
Qed.
Lemma map_res_map {A B C} (f : B -> res C) (g : A -> B) (h : A -> C) l : (forall a, a ∈ l -> f (g a) = Ok (h a)) -> map_res f (map g l) = Ok (map h l).
Proof.
  induction l as [|a l IH]; intros H; [done|]. cbn [map map_res]. rewrite (H a) by left. rewrite bind_ok, IH; [done|].
  intros b Hb. apply H. by right.
Qed.
Lemma mesh_round orders sched shuffle m rest : NoDup orders -> valid_doms orders (m_domains m) -> mesh_fits m -> no_stale_dim m ->
  deserializeMesh orders sched shuffle (serializeMesh m ++ rest) = copy_mesh sched shuffle m.
Proof.
  intros Hnd Hv Hfit Hst. unfold deserializeMesh, serializeMesh. rewrite round_ok by (by apply mesh_type). rewrite bind_ok. cbn [fst v_mesh].
  unfold v_mesh. cbv zeta. cbn [get_range]. rewrite bind_ok.
  rewrite (map_res_map _ _ id).
  2:{ intros [id d] Hd. destruct Hv as [_ Hv]. destruct Hfit as (_ & _ & _ & _ & H5 & _ & H7).
      unfold no_stale_dim in Hst. rewrite Forall_forall in Hst. rewrite Forall_forall in Hv. rewrite Forall_forall in H7. rewrite Forall_forall in H5.
      destruct (Hv _ Hd) as [Ht Hdd]. apply make_domain_ok; [done| |done|done|by apply (H7 _ Hd)|].
      - apply H5, elem_of_list_fmap. by exists (id, d).
      - intros E. apply (Hst _ Hd). intros e (d' & v & Hd' & Hv' & He). apply elem_of_list_singleton in Hd'. injection Hd' as <-.
        assert (e ∈ concat (d_els d')) as Hx by (apply elem_of_concat; by exists v). rewrite E in Hx. by apply elem_of_nil in Hx. }
  rewrite bind_ok, map_id. rewrite (emplace_all (m_domains m) []) by apply Hv. cbn [app].
  unfold get_num. cbn [get_pod]. rewrite !bind_ok. cbn [get_range].
  destruct Hfit as (_ & H2 & H3 & _ & _ & H6 & _).
  rewrite !w8_round; [|exact H3|].
  2:{ destruct (numOwned (m_own m) =? 0); [done|exact H2]. }
  rewrite !Nat2N.id.
  rewrite (map_res_map _ _ id).
  2:{ intros b Hb. cbn [get_pod]. rewrite bind_ok. rewrite le_round; [by rewrite Nat2N.id|]. rewrite Forall_forall in H6. exact (H6 b Hb). }
  rewrite bind_ok, map_id. done.
Qed.
