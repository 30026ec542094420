From Verif Require Import Base StdAlgo Ownership_model Ownership_spec Ownership_proofs Elem_model Elem_spec Mesh_model Mesh_spec Mesh_proofs Mesh_props Helpers_model Partition_model Partition_spec Redist_model Redist_spec.
Local Arguments Nat.mul : simpl never.
Local Arguments Nat.add : simpl never.
Local Arguments Nat.sub : simpl never.

Lemma map_res_f2 {A B} (f : A -> res B) l k : Forall2 (fun a b => f a = Ok b) l k -> map_res f l = Ok k.
Proof. induction 1 as [|a b l k H _ IH]; [done|]. cbn. by rewrite H, bind_ok, IH, bind_ok. Qed.
Lemma pings_elem dests r s : s ∈ pings dests r <-> dests !! s = Some r.
Proof.
  unfold pings. rewrite elem_of_list_In, filter_In, <- elem_of_list_In, elem_of_seq, bool_decide_eq_true. split; [tauto|]. intros H. split; [|done].
  apply lookup_lt_Some in H. lia.
Qed.
Lemma pings_one P srcs dests r : rank_permutation P srcs dests -> r < P -> exists s, pings dests r = [s] /\ srcs !! r = Some s.
Proof.
  intros (H1 & H2 & H) Hr. destruct (lookup_lt_is_Some_2 srcs r) as [s Hs]; [lia|]. exists s. split; [|done].
  assert (Hp : pings dests r ≡ₚ [s]).
  { apply NoDup_Permutation; [apply NoDup_ListNoDup, List.NoDup_filter, seq_NoDup|apply NoDup_singleton|]. intros t. rewrite pings_elem, elem_of_list_singleton, <- H. split; [|by intros ->].
    intros Ht. rewrite Hs in Ht. by injection Ht. }
  symmetry in Hp. by apply Permutation_singleton_l in Hp.
Qed.

Section redist.
  Context {V : Type} (parts : list (mesh V)) (N : nat) (HD : distributed parts N) (srcs dests : list nat) (HP : rank_permutation (length parts) srcs dests).
  Notation P := (length parts).
  Lemma src_dest r s : srcs !! r = Some s <-> dests !! s = Some r.
  Proof. apply HP. Qed.
  Lemma src_lt r s : srcs !! r = Some s -> r < P /\ s < P.
  Proof. intros H. destruct HP as (H1 & H2 & _). split; [apply lookup_lt_Some in H; lia|]. apply src_dest, lookup_lt_Some in H. lia. Qed.
  Lemma recv_ex : exists recv, map_res (rd parts) srcs = Ok recv /\ Forall2 (fun s y => parts !! s = Some y) srcs recv.
  Proof.
    destruct (map_res_total (rd parts) srcs) as [recv Hr].
    { intros s Hs. apply elem_of_list_lookup in Hs as [r Hr]. apply src_lt in Hr as [_ Hs]. apply lookup_lt_is_Some_2 in Hs as [y Hy]. exists y. by apply rd_ok. }
    exists recv. split; [done|]. apply map_res_inv in Hr. eapply Forall2_impl; [exact Hr|]. intros s y H. by apply rd_inv in H.
  Qed.
  Context (recv : list (mesh V)) (Hrecv : Forall2 (fun s y => parts !! s = Some y) srcs recv).
  Lemma recv_len : length recv = P.
  Proof. rewrite <- (Forall2_length _ _ _ Hrecv). apply HP. Qed.
  Lemma recv_at r y : recv !! r = Some y <-> exists q, srcs !! r = Some q /\ parts !! q = Some y.
  Proof.
    split.
    - intros H. destruct (Forall2_lookup_r _ _ _ _ _ Hrecv H) as (q & Hq & Hy). eauto.
    - intros (q & Hq & Hy). destruct (Forall2_lookup_l _ _ _ _ _ Hrecv Hq) as (y' & Hy' & H). congruence.
  Qed.
  Definition start (r : nat) : nat := sum (take r (counts recv)).
  Lemma counts_at (l : list (mesh V)) r y : l !! r = Some y -> counts l !! r = Some (numOwned (m_own y)).
  Proof. intros H. unfold counts. change (map ?f l) with (f <$> l). by rewrite list_lookup_fmap, H. Qed.
  Lemma counts_len (l : list (mesh V)) : length (counts l) = length l.
  Proof. apply map_length. Qed.
  (** The owner, its new rank, and the new number. *)
  Definition own_rank (n : nat) : nat := get_owner (getOwnershipDist (counts parts)) n.
  Definition F (n : nat) : nat :=
    start (default 0 (dests !! own_rank n)) + (n - match parts !! own_rank n with Some y => so_begin (m_own y) | None => 0 end).
  Lemma own_rank_ok n : n < N -> exists y r, parts !! own_rank n = Some y /\ owned y n /\ srcs !! r = Some (own_rank n) /\ recv !! r = Some y /\
    F n = start r + (n - so_begin (m_own y)).
  Proof.
    intros Hn. rewrite <- (di_total _ _ HD) in Hn. destruct (get_owner_spec (counts parts) n Hn) as (c & Hc & Hr). fold (own_rank n) in Hc, Hr.
    pose proof (lookup_lt_Some _ _ _ Hc) as Hlt. rewrite counts_len in Hlt. destruct (lookup_lt_is_Some_2 parts _ Hlt) as [y Hy]. rewrite (counts_at _ _ _ Hy) in Hc. injection Hc as <-.
    destruct (di_begin _ _ HD _ y Hy) as [Hb1 Hb2]. unfold first_owned in Hr. fold (sum (take (own_rank n) (counts parts))) in Hr. unfold numOwned in Hr.
    rewrite <- Hb2 in Hr by lia. destruct (lookup_lt_is_Some_2 dests (own_rank n)) as [r Hrr]; [destruct HP as (_ & -> & _); done|]. exists y, r.
    pose proof Hrr as Hs. apply src_dest in Hs. split; [done|]. split; [unfold owned; lia|]. split; [done|]. split; [apply recv_at; eauto|]. unfold F. rewrite Hrr, Hy. done.
  Qed.
  Lemma owned_lt y n r : parts !! r = Some y -> owned y n -> n < N /\ own_rank n = r.
  Proof.
    intros Hy Ho. destruct (di_begin _ _ HD r y Hy) as [Hb1 Hb2]. unfold owned in Ho. specialize (Hb2 ltac:(lia)).
    assert (How : owns (counts parts) r n). { exists (numOwned (m_own y)). split; [by apply counts_at|]. unfold first_owned. fold (sum (take r (counts parts))). unfold numOwned. lia. }
    pose proof (owns_total _ _ _ How) as Ht. unfold total in Ht. fold (sum (counts parts)) in Ht. rewrite (di_total _ _ HD) in Ht. split; [done|].
    eapply owns_unique; [apply get_owner_spec|exact How]. fold (sum (counts parts)). unfold total. fold (sum (counts parts)). by rewrite (di_total _ _ HD).
  Qed.
  Lemma F_owned r q y n : srcs !! r = Some q -> parts !! q = Some y -> owned y n -> F n = start r + (n - so_begin (m_own y)).
  Proof.
    intros Hr Hy Ho. destruct (owned_lt y n q Hy Ho) as [_ Hq]. unfold F. rewrite Hq, Hy. apply src_dest in Hr. by rewrite Hr.
  Qed.
  Lemma F_owns n : n < N -> exists y r, recv !! r = Some y /\ owned y n /\ owns (counts recv) r (F n).
  Proof.
    intros Hn. destruct (own_rank_ok n Hn) as (y & r & Hy & Ho & Hr & Hrc & HF). exists y, r. split; [done|]. split; [done|]. exists (numOwned (m_own y)).
    split; [by apply counts_at|]. unfold first_owned. fold (sum (take r (counts recv))). fold (start r). unfold owned in Ho. unfold numOwned. lia.
  Qed.
  Lemma F_range r y n : recv !! r = Some y -> n < N -> ~ owned y n -> ~ (start r <= F n < start r + numOwned (m_own y)).
  Proof.
    intros Hr Hn Hno HF. destruct (F_owns n Hn) as (y' & r' & Hr' & Ho & How). apply Hno. assert (r = r') as <-; [|congruence].
    eapply owns_unique; [|exact How]. exists (numOwned (m_own y)). split; [by apply counts_at|]. done.
  Qed.
  Lemma F_inj n n' : n < N -> n' < N -> F n = F n' -> n = n'.
  Proof.
    intros Hn Hn' HE. destruct (F_owns n Hn) as (y & r & Hr & Ho & How), (F_owns n' Hn') as (y' & r' & Hr' & Ho' & How'). rewrite HE in How.
    assert (r = r') as <- by (eapply owns_unique; [exact How|exact How']). assert (y = y') as <- by congruence. apply recv_at in Hr as (q & Hq & Hy).
    rewrite (F_owned r q y n Hq Hy Ho), (F_owned r q y n' Hq Hy Ho') in HE. unfold owned in *. lia.
  Qed.
  Lemma start_take r : r <= P -> start r = sum (counts (take r recv)).
  Proof. intros H. unfold start, counts. by rewrite firstn_map. Qed.
  Lemma F_number n : n < N -> new_number parts srcs n (F n).
  Proof.
    intros Hn. destruct (own_rank_ok n Hn) as (y & r & Hy & Ho & Hr & Hrc & HF). exists (own_rank n), r, y, (take r recv). split; [done|]. split; [done|]. split; [done|].
    split; [by apply Forall2_take|]. rewrite HF. f_equal. unfold start, counts. by rewrite firstn_map.
  Qed.
  Lemma begins_at r : r < P -> newBegins recv !! r = Some (start r).
  Proof.
    intros Hr. unfold newBegins. rewrite exclusive_scan_lookup by (rewrite map_length, recv_len; lia). rewrite Nat.add_0_l. done.
  Qed.
  Lemma ids_ok : exists owned_ids, (nbons ← map_res (rd (newBegins recv)) dests; Ok (zip_with (fun nb y => seq nb (numOwned (m_own y))) nbons parts)) = Ok owned_ids /\
    forall n, n < N -> importIds parts owned_ids n = Ok (F n).
  Proof.
    destruct HP as (Hl1 & Hl2 & _).
    assert (Hm : map_res (rd (newBegins recv)) dests = Ok (map start dests)).
    { apply map_res_ok. intros r Hr. apply elem_of_list_lookup in Hr as [q Hq]. apply src_dest, src_lt in Hq as [Hq _]. apply rd_ok. by apply begins_at. }
    rewrite Hm, bind_ok. eexists. split; [done|]. intros n Hn. destruct (own_rank_ok n Hn) as (y & r & Hy & Ho & Hr & Hrc & HF). unfold importIds.
    change (get_owner _ n) with (own_rank n). rewrite (rd_ok _ (own_rank n) (seq (start r) (numOwned (m_own y)))).
    2:{ apply lookup_zip_with_Some. exists (start r), y. split; [done|]. split; [|done]. change (map start dests) with (start <$> dests). rewrite list_lookup_fmap.
        apply src_dest in Hr. by rewrite Hr. }
    rewrite bind_ok, (rd_ok _ _ _ Hy), bind_ok. unfold owned in Ho. rewrite (rd_ok _ _ (start r + (n - so_begin (m_own y)))); [by rewrite HF|].
    apply lookup_seq. unfold numOwned. lia.
  Qed.
  Lemma zip3_lookup {A B C} (l : list A) (k : list B) (h : list C) z : z ∈ zip l (zip k h) -> exists i, l !! i = Some z.1 /\ k !! i = Some z.2.1 /\ h !! i = Some z.2.2.
  Proof.
    intros H. apply elem_of_list_lookup in H as [i Hi]. exists i. apply lookup_zip_with_Some in Hi as (a & bc & -> & Ha & Hbc).
    apply lookup_zip_with_Some in Hbc as (b & c & -> & Hb & Hc). done.
  Qed.
  Lemma recv_in y : y ∈ recv -> y ∈ parts.
  Proof. intros H. apply elem_of_list_lookup in H as [r Hr]. apply recv_at in Hr as (q & _ & Hy). by eapply elem_of_list_lookup_2. Qed.
  Definition new_own (r : nat) (y : mesh V) : ownership :=
    {| so_begin := start r; so_end := start r + numOwned (m_own y); so_shared := sort (map F (so_shared (m_own y))) |}.
  Lemma establish_ok : establishNewNodeIds parts recv srcs dests = Ok (imap new_own recv).
  Proof.
    unfold establishNewNodeIds. cbv zeta. destruct ids_ok as (owned_ids & Ho & Himp). apply bind_inv in Ho as (nbons & -> & [= Ho]). rewrite bind_ok, Ho. clear Ho.
    rewrite (map_res_ok _ (fun y => map F (so_shared (m_own y)))).
    2:{ intros y Hy. apply map_res_ok. intros n Hn. apply Himp. by apply (di_shared _ _ HD y Hy). }
    rewrite bind_ok. assert (Hs : map_res (rd (map (fun y => map F (so_shared (m_own y))) parts)) srcs = Ok (map (fun y : mesh V => map F (so_shared (m_own y))) recv)).
    { apply map_res_f2. change (map ?f recv) with (f <$> recv). rewrite Forall2_fmap_r. eapply Forall2_impl; [exact Hrecv|]. intros s y Hy. cbn. apply rd_ok.
      change (map ?f parts) with (f <$> parts). by rewrite list_lookup_fmap, Hy. }
    rewrite Hs, bind_ok. apply map_res_f2. apply Forall2_same_length_lookup. split.
    { rewrite !zip_with_length, imap_length, map_length. unfold newBegins. rewrite exclusive_scan_length, map_length. lia. }
    intros r [y [b sh]] own Hz Hown. apply lookup_zip_with_Some in Hz as (y' & bs & Heq & Hy & Hbs). apply lookup_zip_with_Some in Hbs as (b' & sh' & -> & Hb & Hsh). injection Heq as <- <- <-.
    rewrite list_lookup_imap, Hy in Hown. cbn in Hown. injection Hown as <-. rewrite begins_at in Hb by (apply lookup_lt_Some in Hy; rewrite recv_len in Hy; done). injection Hb as <-.
    change (map ?f recv) with (f <$> recv) in Hsh. rewrite list_lookup_fmap, Hy in Hsh. injection Hsh as <-. cbn [fst snd].
    rewrite make_ownership_ok; [done|]. intros k Hk. apply (elem_of_list_fmap F) in Hk as (n & -> & Hn). apply F_range; [done| |]; apply (di_shared _ _ HD y); try done; apply recv_in; by eapply elem_of_list_lookup_2.
  Qed.
  Definition kept (y : mesh V) : Prop := forall n n', n ∈ so_shared (m_own y) -> n' ∈ so_shared (m_own y) -> n < n' -> F n < F n'.
  Lemma kept_sorted y : y ∈ parts -> kept y -> StronglySorted lt (map F (so_shared (m_own y))).
  Proof.
    intros Hy Hk. destruct (di_shared _ _ HD y Hy) as [Hs _]. unfold kept in Hk. induction Hs as [|n l Hs IH Hf]; [constructor|]. cbn. constructor.
    - apply IH. intros a b Ha Hb. apply Hk; by right.
    - apply Forall_forall. intros k Hkk. apply (elem_of_list_fmap F) in Hkk as (n' & -> & Hn'). rewrite Forall_forall in Hf. apply Hk; [left|by right|auto].
  Qed.
  Lemma o2n_ok r y n : recv !! r = Some y -> kept y -> owned y n \/ n ∈ so_shared (m_own y) -> old2new (m_own y) (new_own r y) n = Ok (F n).
  Proof.
    intros Hr Hk Hn. assert (Hin : y ∈ parts) by (apply recv_in; by eapply elem_of_list_lookup_2). pose proof Hr as Hr0. apply recv_at in Hr0 as (q & Hq & Hy).
    unfold old2new, getLocalIndex, getGlobalIndex. assert (Hno : numOwned (new_own r y) = numOwned (m_own y)). { unfold numOwned at 1, new_own. cbn. lia. } rewrite Hno.
    destruct (isOwned (m_own y) n) eqn:Ho.
    - apply isOwned_spec in Ho. rewrite (proj2 (Nat.ltb_lt _ _)) by (unfold numOwned; lia). rewrite (F_owned r q y n Hq Hy Ho). done.
    - assert (Hn' : n ∈ so_shared (m_own y)). { destruct Hn as [Hn|Hn]; [|done]. apply isOwned_spec in Hn. congruence. }
      destruct (di_shared _ _ HD y Hin) as [Hs _]. pose proof (lower_bound_found _ _ (strict_sorted _ Hs) Hn') as Hlb. rewrite (proj2 (Nat.ltb_ge _ _)) by lia.
      apply rd_ok. unfold new_own. cbn [so_shared]. rewrite sort_id by (apply strict_sorted, kept_sorted; done).
      replace (numOwned (m_own y) + lower_bound (so_shared (m_own y)) n - numOwned (m_own y)) with (lower_bound (so_shared (m_own y)) n) by lia.
      change (map F (so_shared (m_own y))) with (F <$> so_shared (m_own y)). by rewrite list_lookup_fmap, Hlb.
  Qed.
  Lemma renumbered_ext f g (e e' : element V) : (forall n, n ∈ el_nodes e -> f n = g n) -> renumbered f e e' -> renumbered g e e'.
  Proof.
    intros H (H1 & H2 & H3 & H4 & H5 & H6). repeat (split; [done|]). intros i n Hi. rewrite (H6 i n Hi), H; [done|]. by eapply elem_of_list_lookup_2.
  Qed.
  Lemma part_ok r y : recv !! r = Some y -> kept y -> exists y', renumberPart y (new_own r y) = Ok y' /\ same_mesh F y y' /\
    so_shared (m_own y') = map F (so_shared (m_own y)) /\ forall k, owned y' k <-> start r <= k < start r + numOwned (m_own y).
  Proof.
    intros Hr Hk. assert (Hin : y ∈ parts) by (apply recv_in; by eapply elem_of_list_lookup_2). pose proof Hr as Hr0. apply recv_at in Hr0 as (q & Hq & Hy).
    unfold renumberPart. set (f := fun n => match old2new (m_own y) (new_own r y) n with Ok k => k | _ => 0 end).
    assert (Hf : forall n, owned y n \/ n ∈ so_shared (m_own y) -> f n = F n). { intros n Hn. unfold f. by rewrite (o2n_ok r y n Hr Hk Hn). }
    assert (Hnode : forall e n, is_elem (m_domains y) e -> n ∈ el_nodes e -> owned y n \/ n ∈ so_shared (m_own y)). { intros e n He Hn. apply (di_nodes _ _ HD y n Hin). exists e. done. }
    rewrite (map_res_ok _ F).
    2:{ intros n Hn. apply (o2n_ok r y n Hr Hk). rewrite !elem_of_app, elem_of_seq in Hn. destruct Hn as [Hn|[Hn|Hn]]; [left; unfold owned, numOwned in *; lia|by right|].
        apply elem_of_concat in Hn as (l & Hn & Hl). apply (elem_of_list_fmap el_nodes) in Hl as (e & -> & He). apply (Hnode e); [|done]. apply all_elems_elem; [by apply (di_keys _ _ HD)|done]. }
    rewrite bind_ok. assert (HR1 : forall k, (exists x, so_begin (m_own y) <= x < so_begin (m_own y) + numOwned (m_own y) /\ f x = k) <-> start r <= k < start r + numOwned (m_own y)).
    { intros k. split.
      - intros (n & Hn & <-). assert (Ho : owned y n) by (unfold owned, numOwned in *; lia). rewrite Hf by (by left). rewrite (F_owned r q y n Hq Hy Ho). unfold owned, numOwned in *. lia.
      - intros Hkr. exists (so_begin (m_own y) + (k - start r)). assert (Ho : owned y (so_begin (m_own y) + (k - start r))) by (unfold owned, numOwned in *; lia).
        split; [lia|]. rewrite Hf by (by left). rewrite (F_owned r q y _ Hq Hy Ho). lia. }
    assert (HR2 : forall x, x ∈ so_shared (m_own y) -> ~ (start r <= f x < start r + numOwned (m_own y))).
    { intros n Hn. rewrite Hf by (by right). destruct (di_shared _ _ HD y Hin) as [_ Hs]. apply Hs in Hn as [Hn Hno]. by apply F_range. }
    destruct (reindex_renumbers f y (start r) HR1 HR2) as (y' & Hy' & Hn' & Ho' & Hsh' & Hss' & Hd' & Hb').
    exists y'. split; [done|]. split; [|split].
    - split; [|split; [|split; [done|]]].
      + assert (Hext : forall id d, (id, d) ∈ m_domains y -> forall v, v ∈ d_els d -> forall e, e ∈ v -> is_elem (m_domains y) e). { intros id d Hid v Hv e He. exists id, d, v. done. }
        apply Forall2_same_length_lookup. split; [by apply Forall2_length in Hd'|]. intros i [id d] d' Hi Hi'. destruct (Forall2_lookup_l _ _ _ _ _ Hd' Hi) as (d'' & Hi'' & H1 & H2 & H3).
        assert (d'' = d') as -> by congruence. split; [done|]. split; [done|]. cbn [snd] in *. apply Forall2_same_length_lookup. split; [by apply Forall2_length in H3|].
        intros j v v' Hj Hj'. destruct (Forall2_lookup_l _ _ _ _ _ H3 Hj) as (v'' & Hv'' & H4). assert (v'' = v') as -> by congruence.
        apply Forall2_same_length_lookup. split; [by apply Forall2_length in H4|]. intros k e e' Hke Hke'. destruct (Forall2_lookup_l _ _ _ _ _ H4 Hke) as (e'' & He'' & H5).
        assert (e'' = e') as -> by congruence. eapply renumbered_ext, H5. intros n Hn. apply Hf, (Hnode e); [|done].
        apply (Hext id d ltac:(by eapply elem_of_list_lookup_2) v ltac:(by eapply elem_of_list_lookup_2) e ltac:(by eapply elem_of_list_lookup_2)).
      + apply Forall2_same_length_lookup. split; [by apply Forall2_length in Hb'|]. intros i [id vs] b' Hi Hi'. destruct (Forall2_lookup_l _ _ _ _ _ Hb' Hi) as (b'' & Hi'' & H1 & H2).
        assert (b'' = b') as -> by congruence. split; [done|]. cbn [snd] in *. apply Forall2_same_length_lookup. split; [by apply Forall2_length in H2|].
        intros j [e s] v' Hj Hj'. destruct (Forall2_lookup_l _ _ _ _ _ H2 Hj) as (v'' & Hv'' & H3 & H4). assert (v'' = v') as -> by congruence. split; [|done].
        eapply renumbered_ext, H3. intros n Hn. cbn [fst] in *. apply Hf, (Hnode e); [|done]. apply (di_views _ _ HD y id vs e s); [done|by eapply elem_of_list_lookup_2|by eapply elem_of_list_lookup_2].
      + intros k. rewrite Hsh'. split; intros (n & Hn & <-); exists n; (split; [done|]); rewrite Hf by (by right); done.
    - destruct (reindex_ok f y (start r) HR1 HR2) as (y'' & Hy'' & _ & _ & Hs'' & _). rewrite Hy' in Hy''. injection Hy'' as <-. rewrite Hs''.
      rewrite (map_ext_in f F) by (intros n Hn; apply elem_of_list_In in Hn; apply Hf; by right). apply sort_id, strict_sorted, kept_sorted; done.
    - intros k. rewrite <- Ho', isOwned_spec. done.
  Qed.
  Lemma permute_ok : (forall y, y ∈ parts -> kept y) -> map_res (rd parts) srcs = Ok recv ->
    exists ys, permuteMesh parts srcs dests = Ok ys /\ length ys = P /\
      forall r q y, srcs !! r = Some q -> parts !! q = Some y -> exists y', ys !! r = Some y' /\ same_mesh F y y' /\
        so_shared (m_own y') = map F (so_shared (m_own y)) /\ forall k, owned y' k <-> start r <= k < start r + numOwned (m_own y).
  Proof.
    intros Hk Hm. unfold permuteMesh. rewrite Hm, bind_ok, establish_ok, bind_ok.
    destruct (map_res_total (fun z : mesh V * ownership => renumberPart z.1 z.2) (zip recv (imap new_own recv))) as [ys Hys].
    { intros [y own] Hz. apply elem_of_list_lookup in Hz as [r Hz]. apply lookup_zip_with_Some in Hz as (y' & o' & [= <- <-] & Hy & Ho). rewrite list_lookup_imap, Hy in Ho. cbn in Ho. injection Ho as <-.
      destruct (part_ok r y Hy) as (y' & Hy' & _); [apply Hk, recv_in; by eapply elem_of_list_lookup_2|]. by exists y'. }
    exists ys. split; [done|]. apply map_res_inv in Hys. split.
    - rewrite <- (Forall2_length _ _ _ Hys), zip_with_length, imap_length, recv_len. lia.
    - intros r q y Hq Hy. assert (Hr : recv !! r = Some y) by (apply recv_at; eauto). destruct (Forall2_lookup_l _ _ _ r (y, new_own r y) Hys) as (y' & Hy' & Hz).
      + apply lookup_zip_with_Some. exists y, (new_own r y). split; [done|]. split; [done|]. rewrite list_lookup_imap, Hr. done.
      + cbn [fst snd] in Hz. exists y'. split; [done|]. destruct (part_ok r y Hr) as (y'' & Hy'' & H); [apply Hk; by eapply elem_of_list_lookup_2|]. rewrite Hz in Hy''. injection Hy'' as <-. done.
  Qed.
End redist.
