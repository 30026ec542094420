From Verif Require Import Base StdAlgo Ownership_model Ownership_spec Ownership_proofs Elem_model Elem_spec Mesh_model Mesh_spec Mesh_proofs Helpers_model Partition_model Partition_spec Redist_spec Dofs_model Dofs_spec Dofs_proofs Dofs2_proofs.
Local Arguments Nat.mul : simpl never.
Local Arguments Nat.add : simpl never.
Local Arguments Nat.sub : simpl never.

Section entries.
  Context (D : nat).
  Lemma entry_flat base (rows : list (list bool)) i j k : Forall (fun r => length r = D) rows -> j < D ->
    entry base rows i j = Some k <-> concat rows !! (i * D + j) = Some true /\ k = base + count_true (take (i * D + j) (concat rows)).
  Proof.
    intros Hf Hj. unfold entry. destruct (rows !! i) as [row|] eqn:Hr.
    - destruct (concat_rows D rows i row j Hf Hr ltac:(lia)) as [H1 H2]. rewrite decide_True in H1 by done. rewrite H1, H2, count_app. destruct (row !! j) as [[]|]; split; try naive_solver.
      + intros [= <-]. split; [done|]. lia.
      + intros [_ ->]. f_equal. lia.
    - split; [done|]. intros [H _]. destruct (rows_at D rows _ _ Hf H) as (i' & j' & row & Hr' & _ & Hj' & E). assert (i' = i) as -> by nia. congruence.
  Qed.
  Lemma entry_onto base (rows : list (list bool)) k : Forall (fun r => length r = D) rows ->
    base <= k < base + count_true (concat rows) <-> exists i j, i < length rows /\ j < D /\ entry base rows i j = Some k.
  Proof.
    intros Hf. split.
    - intros Hk. destruct (count_onto (concat rows) (k - base)) as (p & Hp & Hc); [lia|]. destruct (rows_at D rows _ _ Hf Hp) as (i & j & row & Hr & _ & Hj & ->). exists i, j.
      split; [by eapply lookup_lt_Some|]. split; [done|]. apply entry_flat; [done|done|]. split; [done|]. lia.
    - intros (i & j & Hi & Hj & E). apply entry_flat in E as [H1 ->]; [|done|done]. pose proof (count_take_lt _ _ H1). lia.
  Qed.
  Lemma entry_order base (rows : list (list bool)) i j k i' j' k' : Forall (fun r => length r = D) rows -> j < D -> j' < D ->
    entry base rows i j = Some k -> entry base rows i' j' = Some k' -> i < i' \/ i = i' /\ j < j' -> k < k'.
  Proof.
    intros Hf Hj Hj' E E' Hlt. apply entry_flat in E as [H1 ->]; [|done|done]. apply entry_flat in E' as [H1' ->]; [|done|done].
    pose proof (count_take_strict (concat rows) (i * D + j) (i' * D + j') H1). nia.
  Qed.
End entries.

Section world.
  Context {V : Type} (D : nat) (ranks : list (mesh V * pbc)) (pdef : list (list nat * list bool)) (N : nat) (HN : numberable D ranks pdef N).
  Notation rk := (mesh V * pbc)%type.
  Notation sos := (map nso ranks).
  Notation lid x n := (getLocalIndex (nso x) n).
  Notation isview := (isview D).
  Notation setview := (setview D).
  Lemma identified_iff r x n j a : ranks !! r = Some x -> owned x.1 n -> identified ranks n j a <-> passive x.2 n j a.
  Proof.
    intros Hx Ho. split.
    - intros (m & b & Hin & Hp). destruct Hp as (row & Hrow & Hj). destruct (nb_keys _ _ _ _ HN m b Hin) as [_ Hk]. destruct (Hk n row Hrow) as [Ho' _]. apply elem_of_list_lookup in Hin as [r' Hr'].
      destruct (owner_uniq D ranks pdef N HN r x n Hx Ho) as (_ & <- & _). destruct (owner_uniq D ranks pdef N HN r' (m, b) n Hr' Ho') as (_ & <- & _). assert (x = (m, b)) as -> by congruence. by exists row.
    - intros Hp. destruct x as [m b]. exists m, b. split; [by eapply elem_of_list_lookup_2|done].
  Qed.
  Lemma mark_loc cond x t j : x ∈ ranks -> Mark pdef cond x t j -> loc x t.
  Proof.
    intros Hx (n & (ids & bits & id & e & Hp & Hb & Hi & He & Hpr) & Ht). destruct Ht as [Ht|[_ ->]].
    - destruct x as [m b]. by destruct (nb_target _ _ _ _ HN m b n j t Hx Ht) as [H _].
    - eapply elem_loc; [exact HN|done| |by eapply primary_in]. by exists id.
  Qed.
  Lemma wanted_mark cond n j : wanted cond ranks pdef n j <-> exists x, x ∈ ranks /\ Mark pdef cond x n j.
  Proof.
    split.
    - intros (m & b & t & Hin & Ha & Ht). exists (m, b). split; [done|]. exists t. split; [done|]. destruct Ht as [Ht|[Ht ->]]; [by left|by right].
    - intros ([m b] & Hin & t & Ha & Ht). exists m, b, t. split; [done|]. split; [done|]. destruct Ht as [Ht|[Ht ->]]; [by left|by right].
  Qed.

  (** Views after the export. *)
  Context (cond : bool) (bmps : list (list (list bool))) (Hbl : length bmps = length ranks).
  Context (Hb : forall r x v, ranks !! r = Some x -> bmps !! r = Some v ->
    setview x v (fun n j => Mark pdef cond x n j \/ owned x.1 n /\ exists x', x' ∈ ranks /\ n ∈ so_shared (nso x') /\ Mark pdef cond x' n j)).
  Definition frs : list (list (list bool)) := zip_with (frows D) ranks bmps.
  Definition B : list (list bool) := concat frs.
  Definition num (n j : nat) : option nat := entry 0 B n j.
  Definition nums : list nat := map (fun z : list (list bool) => count_true (concat z)) frs.
  Lemma bmp_at r x : ranks !! r = Some x -> exists v, bmps !! r = Some v /\ frs !! r = Some (frows D x v) /\ length v = localSize (nso x) /\ Forall (fun r => length r = D) v.
  Proof.
    intros Hx. destruct (lookup_lt_is_Some_2 bmps r) as [v Hv]; [rewrite Hbl; by eapply lookup_lt_Some|]. exists v. split; [done|].
    split; [apply lookup_zip_with_Some; by exists x, v|]. by destruct (Hb r x v Hx Hv) as (H1 & H2 & _).
  Qed.
  Lemma frs_at r fr : frs !! r = Some fr -> exists x v, ranks !! r = Some x /\ bmps !! r = Some v /\ fr = frows D x v /\ length fr = numOwned (nso x) /\ Forall (fun r => length r = D) fr.
  Proof.
    intros H. apply lookup_zip_with_Some in H as (x & v & -> & Hx & Hv). exists x, v. split; [done|]. split; [done|]. split; [done|]. destruct (bmp_at r x Hx) as (v' & Hv' & _ & H1 & H2). assert (v' = v) as -> by congruence.
    destruct (frows_ok D ranks pdef N HN x v) as (H3 & H4 & _); [by eapply elem_of_list_lookup_2|done|done|done].
  Qed.
  Lemma frs_len : length frs = length ranks.
  Proof. unfold frs. rewrite zip_with_length. lia. Qed.
  Lemma frs_counts : map length frs = counts ranks.*1.
  Proof.
    apply list_eq_same_length with (length ranks); [unfold counts; by rewrite map_length, fmap_length|by rewrite map_length, frs_len|].
    intros r a c Hr Ha Hc. change (map length frs) with (length <$> frs) in Ha. rewrite list_lookup_fmap in Ha. destruct (frs !! r) as [fr|] eqn:E; [|done]. injection Ha as <-.
    destruct (frs_at r fr E) as (x & v & Hx & _ & _ & Hl & _). unfold counts in Hc. change (map ?f ranks.*1) with (f <$> ranks.*1) in Hc. rewrite list_lookup_fmap, (parts_at ranks r x Hx) in Hc. injection Hc as <-.
    rewrite Hl, nso_num. done.
  Qed.
  Lemma B_rows : Forall (fun r => length r = D) B.
  Proof. apply Forall_forall. intros row Hr. apply elem_of_concat in Hr as (fr & Hr & Hfr). apply elem_of_list_lookup in Hfr as [r Hfr]. destruct (frs_at r fr Hfr) as (_ & _ & _ & _ & _ & _ & H). rewrite Forall_forall in H. by apply H. Qed.
  Lemma B_len : length B = N.
  Proof.
    rewrite <- (di_total _ _ (nb_dist _ _ _ _ HN)), <- frs_counts. unfold B. clear. induction frs as [|l ls IH]; [done|]. cbn [concat map]. by rewrite app_length, sum_cons, IH.
  Qed.
  Lemma count_concat (ls : list (list (list bool))) : count_true (concat (concat ls)) = sum (map (fun z : list (list bool) => count_true (concat z)) ls).
  Proof. induction ls as [|l ls IH]; [done|]. cbn [concat map]. by rewrite concat_app, count_app, sum_cons, IH. Qed.
  Lemma entry_at r x v n j : ranks !! r = Some x -> bmps !! r = Some v -> owned x.1 n -> entry (sum (take r nums)) (frows D x v) (lid x n) j = num n j.
  Proof.
    intros Hx Hv Ho. destruct (bmp_at r x Hx) as (v' & Hv' & Hfr & _). assert (v' = v) as -> by congruence. destruct (frs_at r _ Hfr) as (x' & v' & Hx' & _ & _ & Hl & _). assert (x' = x) as -> by congruence.
    destruct (owner_uniq D ranks pdef N HN r x n Hx Ho) as (_ & _ & En). destruct (lid_owned x n Ho) as (_ & Hlt & _). rewrite <- Hl in Hlt.
    destruct (concat_at frs r _ _ Hfr Hlt) as [H1 H2]. rewrite frs_counts, <- En in H1, H2. unfold num, entry. fold B in H1, H2. rewrite H1. destruct (frows D x v !! lid x n) as [row|]; [|done]. destruct (row !! j) as [[]|]; [|done|done].
    f_equal. rewrite H2, concat_app, count_app, count_concat. unfold nums. rewrite <- firstn_map. lia.
  Qed.
  Lemma free_at n j : n < N -> j < D -> is_Some (num n j) <-> (forall a, ~ identified ranks n j a) /\ wanted cond ranks pdef n j.
  Proof.
    intros Hn Hj. destruct (owner_ok D ranks pdef N HN n Hn) as (x & Hx & Ho). set (r := node_owner sos n) in *. assert (Hxi : x ∈ ranks) by (by eapply elem_of_list_lookup_2).
    destruct (bmp_at r x Hx) as (v & Hv & Hfr & Hl1 & Hl2). rewrite <- (entry_at r x v n j Hx Hv Ho). destruct (frows_ok D ranks pdef N HN x v Hxi Hl1 Hl2) as (_ & _ & H3). destruct (lid_owned x n Ho) as (_ & Hlt & En).
    destruct (H3 _ Hlt) as (row & Hrow & Hrl & Hfi). unfold entry. rewrite Hfi. unfold frow. rewrite En. destruct (Hb r x v Hx Hv) as (_ & _ & Hview). destruct (Hview n) as (row' & Hrow' & Hbits); [by left|done|].
    assert (row' = row) as -> by congruence. destruct (Hbits j Hj) as (y & Hy & HP). destruct x as [m b] eqn:Ex. destruct (lookup_ok D ranks pdef N HN m b n Hxi) as [Hlk Hp]. rewrite <- Ex in *.
    destruct (lookup_lt_is_Some_2 (pb_lookup D b n) j) as [p Hpj]; [lia|]. assert (E : zip_with (fun p y => is_invalid p && y) (pb_lookup D x.2 n) row !! j = Some (is_invalid p && y)).
    { apply lookup_zip_with_Some. exists p, y. split; [done|]. split; [by rewrite Ex|done]. }
    rewrite E. assert (Hw : y = true <-> wanted cond ranks pdef n j).
    { rewrite HP, wanted_mark. split; [intros [HM|(_ & x' & Hx' & _ & HM)]; eauto|]. intros (x' & Hx' & HM). pose proof (mark_loc cond x' n j Hx' HM) as Hloc. apply loc_cases in Hloc as [Ho'|Hs].
      - left. apply elem_of_list_lookup in Hx' as [r' Hr']. destruct (owner_uniq D ranks pdef N HN r' x' n Hr' Ho') as (_ & Er & _). fold r in Er. assert (x' = x) as -> by congruence. done.
      - right. split; [done|]. by exists x'. }
    assert (Hi : is_invalid p = true <-> forall a, ~ identified ranks n j a).
    { assert (Hid : forall a, identified ranks n j a <-> passive b n j a) by (intros a; rewrite (identified_iff r x n j a Hx Ho); by rewrite Ex). destruct p as [a|].
      - split; [done|]. intros Hc. destruct (Hc a). apply Hid. by apply (Hp j (Some a) Hpj a).
      - split; [|done]. intros _ a Ha. apply Hid, (Hp j None Hpj a) in Ha. done. }
    destruct (is_invalid p && y) eqn:Eb.
    - apply andb_true_iff in Eb as [E1 E2]. split; [|eauto]. intros _. split; [by apply Hi|by apply Hw].
    - split; [by intros [? ?]|]. intros [H1 H2]. apply Hi in H1. apply Hw in H2. by rewrite H1, H2 in Eb.
  Qed.
  Lemma num_numbering : numbering D N (sum nums) (fun n j => (forall a, ~ identified ranks n j a) /\ wanted cond ranks pdef n j) num.
  Proof.
    split.
    - apply free_at.
    - intros n j k n' j' k' Hj Hj' E E' Hlt. eapply (entry_order D 0 B); [apply B_rows|exact Hj|exact Hj'|exact E|exact E'|done].
    - intros k. rewrite <- B_len. rewrite <- (entry_onto D 0 B k B_rows). unfold nums. rewrite <- count_concat. fold B. lia.
  Qed.
End world.
