(** Vectors on a heap. *)
From Verif Require Import Base CVec_model CVec_spec.

Section cells.
  Context {T : Type}.
  Notation heap := (heap T).
  Implicit Types (h : heap) (l : list T).
  Notation nones := (replicate (A := option T)).

  Lemma load_ok h p c i x : h !! p = Some (Some c) -> c !! i = Some (Some x) -> load p i h = Ok x.
  Proof. intros H1 H2. unfold load. rewrite (rd_ok _ _ _ H1), bind_ok, (rd_ok _ _ _ H2). done. Qed.
  Lemma construct_at_ok h p c i x : h !! p = Some (Some c) -> c !! i = Some None -> construct_at p i x h = Ok (<[p := Some (<[i := Some x]> c)]> h).
  Proof. intros H1 H2. unfold construct_at. rewrite (rd_ok _ _ _ H1), bind_ok, (rd_ok _ _ _ H2), bind_ok. apply wr_ok. by eapply lookup_lt_Some. Qed.
  Lemma destroy_at_ok h p c i x : h !! p = Some (Some c) -> c !! i = Some (Some x) -> destroy_at p i h = Ok (<[p := Some (<[i := None]> c)]> h).
  Proof. intros H1 H2. unfold destroy_at. rewrite (rd_ok _ _ _ H1), bind_ok, (rd_ok _ _ _ H2), bind_ok. apply wr_ok. by eapply lookup_lt_Some. Qed.
  Lemma deallocate_ok h p n : h !! p = Some (Some (nones n None)) -> deallocate_block p n h = Ok (<[p := None]> h).
  Proof.
    intros H. unfold deallocate_block. rewrite (rd_ok _ _ _ H), bind_ok, replicate_length, Nat.eqb_refl. cbn [andb].
    replace (forallb _ _) with true; [apply wr_ok; by eapply lookup_lt_Some|]. symmetry. apply forallb_forall. intros x Hx. apply elem_of_list_In, elem_of_replicate in Hx as [-> _]. done.
  Qed.

  (** [a] objects, then [m] free cells. *)
  Definition full (l : list T) (m : nat) : list (option T) := map Some l ++ nones m None.
  Lemma full_free l m k : length l = k -> 0 < m -> full l m !! k = Some None.
  Proof. intros <- Hm. unfold full. rewrite lookup_app_r by (by rewrite map_length). rewrite map_length, Nat.sub_diag. by apply lookup_replicate_2. Qed.
  Lemma full_put l m x k : length l = k -> 0 < m -> <[k := Some x]> (full l m) = full (l ++ [x]) (m - 1).
  Proof. intros <- Hm. unfold full. rewrite insert_app_r_alt by (by rewrite map_length). rewrite map_length, Nat.sub_diag. destruct m as [|m]; [lia|]. cbn [replicate]. rewrite map_app, <- app_assoc. cbn. by rewrite Nat.sub_0_r. Qed.
  Lemma full_get l m i x : l !! i = Some x -> full l m !! i = Some (Some x).
  Proof. intros H. unfold full. rewrite lookup_app_l by (rewrite map_length; by eapply lookup_lt_Some). by rewrite list_lookup_fmap, H. Qed.
  Lemma full_length l m : length (full l m) = length l + m.
  Proof. unfold full. by rewrite app_length, map_length, replicate_length. Qed.
  Lemma full_nil m : full [] m = nones m None.
  Proof. done. Qed.

  (** Constructing [l] in an empty block. *)
  Lemma construct_loop (get : nat -> heap -> res T) v q cap l : m_data v = Some q -> length l <= cap -> forall h, h !! q = Some (Some (nones cap None)) ->
    (forall i x c, l !! i = Some x -> get i (<[q := Some c]> h) = Ok x) ->
    for_each (fun i h => x ← get i h; construct v i x h) (seq 0 (length l)) h = Ok (<[q := Some (full l (cap - length l))]> h).
  Proof.
    intros Hv Hl h Hq Hg. assert (Hc : forall i x h, construct v i x h = construct_at q i x h) by (intros; unfold construct; by rewrite Hv).
    assert (G : forall r k, k + length r = length l -> drop k l = r ->
      for_each (fun i h => x ← get i h; construct v i x h) (seq k (length r)) (<[q := Some (full (take k l) (cap - k))]> h) = Ok (<[q := Some (full l (cap - length l))]> h)).
    { induction r as [|x r IH]; intros k Hk Hd; cbn [length seq for_each].
      - cbn [length] in Hk. replace k with (length l) by lia. by rewrite firstn_all.
      - assert (Hx : l !! k = Some x). { replace k with (k + 0) by lia. rewrite <- lookup_drop, Hd. done. }
        rewrite (Hg k x _ Hx), bind_ok. rewrite Hc. cbn [length] in Hk.
        assert (Ht : length (take k l) = k) by (rewrite take_length; lia).
        assert (Hqh : <[q := Some (full (take k l) (cap - k))]> h !! q = Some (Some (full (take k l) (cap - k)))) by (apply list_lookup_insert; by eapply lookup_lt_Some).
        rewrite (construct_at_ok _ _ _ k x Hqh) by (apply full_free; lia).
        rewrite list_insert_insert, bind_ok. rewrite (full_put _ _ x k Ht) by lia. rewrite <- (take_S_r _ _ _ Hx). replace (cap - k - 1) with (cap - S k) by lia. apply IH; [lia|].
        replace (S k) with (k + 1) by lia. rewrite <- drop_drop, Hd. done. }
    specialize (G l 0). rewrite drop_0, take_0, full_nil, Nat.sub_0_r in G. rewrite list_insert_id in G by done. apply G; [done|done].
  Qed.
  (** Destroying the objects of a block. *)
  Definition holed (k : nat) (l : list T) (m : nat) : list (option T) := nones k None ++ map Some (drop k l) ++ nones m None.
  Lemma holed_0 l m : holed 0 l m = full l m.
  Proof. unfold holed. by rewrite drop_0. Qed.
  Lemma holed_all l m : holed (length l) l m = nones (length l + m) None.
  Proof. unfold holed. rewrite drop_all. cbn. by rewrite replicate_add. Qed.
  Lemma holed_get k l m x : l !! k = Some x -> holed k l m !! k = Some (Some x) /\ <[k := None]> (holed k l m) = holed (S k) l m.
  Proof.
    intros Hx. unfold holed. rewrite (drop_S l x k Hx). cbn [map app]. split.
    - rewrite lookup_app_r by (by rewrite replicate_length). by rewrite replicate_length, Nat.sub_diag.
    - rewrite insert_app_r_alt by (by rewrite replicate_length). rewrite replicate_length, Nat.sub_diag. cbn [insert list_insert]. by rewrite cons_middle, app_assoc, <- replicate_S_end.
  Qed.
  Lemma destroy_loop v p l m h : m_data v = Some p -> h !! p = Some (Some (full l m)) ->
    for_each (fun i h => destroy v i h) (seq 0 (length l)) h = Ok (<[p := Some (nones (length l + m) None)]> h).
  Proof.
    intros Hv Hp. assert (Hc : forall i h, destroy v i h = destroy_at p i h) by (intros; unfold destroy; by rewrite Hv).
    assert (G : forall n k, k + n = length l -> for_each (fun i h => destroy v i h) (seq k n) (<[p := Some (holed k l m)]> h) = Ok (<[p := Some (nones (length l + m) None)]> h)).
    { induction n as [|n IH]; intros k Hk; cbn [seq for_each].
      - replace k with (length l) by lia. by rewrite holed_all.
      - destruct (lookup_lt_is_Some_2 l k) as [x Hx]; [lia|]. destruct (holed_get k l m x Hx) as [H1 H2]. rewrite Hc.
        rewrite (destroy_at_ok _ p (holed k l m) k x) by (done || apply list_lookup_insert; by eapply lookup_lt_Some). rewrite bind_ok, list_insert_insert, H2. apply IH. lia. }
    specialize (G (length l) 0 eq_refl). rewrite holed_0 in G. rewrite list_insert_id in G by done. exact G.
  Qed.
  (** Moving the objects of a block to another. *)
  Lemma move_loop v' p q l m n h : m_data v' = Some q -> p <> q -> h !! p = Some (Some (full l m)) -> h !! q = Some (Some (nones n None)) -> length l <= n ->
    for_each (fun i h => x ← load p i h; h' ← construct v' i x h; destroy_at p i h') (seq 0 (length l)) h =
      Ok (<[p := Some (nones (length l + m) None)]> (<[q := Some (full l (n - length l))]> h)).
  Proof.
    intros Hv Hpq Hp Hq Hl. assert (Hc : forall i x h, construct v' i x h = construct_at q i x h) by (intros; unfold construct; by rewrite Hv). assert (Lp := lookup_lt_Some _ _ _ Hp). assert (Lq := lookup_lt_Some _ _ _ Hq).
    assert (G : forall d k, k + d = length l -> for_each (fun i h => x ← load p i h; h' ← construct v' i x h; destroy_at p i h') (seq k d) (<[p := Some (holed k l m)]> (<[q := Some (full (take k l) (n - k))]> h)) =
      Ok (<[p := Some (nones (length l + m) None)]> (<[q := Some (full l (n - length l))]> h))).
    { induction d as [|d IH]; intros k Hk; cbn [seq for_each].
      - replace k with (length l) by lia. by rewrite holed_all, firstn_all.
      - destruct (lookup_lt_is_Some_2 l k) as [x Hx]; [lia|]. destruct (holed_get k l m x Hx) as [H1 H2]. set (h0 := <[p := _]> _).
        assert (E1 : h0 !! p = Some (Some (holed k l m))) by (unfold h0; apply list_lookup_insert; by rewrite insert_length).
        assert (E2 : h0 !! q = Some (Some (full (take k l) (n - k)))) by (unfold h0; rewrite list_lookup_insert_ne by done; by apply list_lookup_insert).
        assert (Ht : length (take k l) = k) by (rewrite take_length; lia).
        rewrite (load_ok _ _ _ _ _ E1 H1), bind_ok. rewrite Hc. rewrite (construct_at_ok _ _ _ k x E2) by (apply full_free; lia). rewrite bind_ok.
        rewrite (destroy_at_ok _ p (holed k l m) k x) by (try done; by rewrite list_lookup_insert_ne). rewrite bind_ok. rewrite (full_put _ _ x k Ht) by lia. rewrite <- (take_S_r _ _ _ Hx), H2. replace (n - k - 1) with (n - S k) by lia.
        unfold h0. rewrite (list_insert_commute _ q p) by done. rewrite !list_insert_insert. apply IH. lia. }
    specialize (G (length l) 0 eq_refl). rewrite holed_0, take_0, full_nil, Nat.sub_0_r in G. rewrite (list_insert_id h q) in G by done. rewrite list_insert_id in G by done. exact G.
  Qed.
End cells.
