From Verif Require Import Base StdAlgo Ownership_model Elem_model Elem_spec Elem_proofs Mesh_model Mesh_spec Mesh_proofs Helpers_model Partition_model Partition_spec.
Local Arguments Nat.mul : simpl never.
Local Arguments Nat.add : simpl never.
Local Arguments Nat.sub : simpl never.

Lemma rep_lookup {A} (x : A) n i : i < n -> repeat x n !! i = Some x.
Proof. revert i. induction n as [|n IH]; intros [|i] H; [lia|lia|done|]. cbn. apply IH. lia. Qed.
Lemma wr_all {A} (l : list nat) (x : A) (a : list A) : Forall (fun n => n < length a) l ->
  for_each (fun n r => wr r n x) l a = Ok (foldl (fun a n => <[n := x]> a) a l).
Proof.
  revert a. induction l as [|n l IH]; intros a H; [done|]. apply Forall_cons in H as [Hn H]. cbn [for_each foldl]. rewrite wr_ok by done. rewrite bind_ok.
  apply IH. by rewrite insert_length.
Qed.
Lemma fold_insert_lookup {A} (l : list nat) (x : A) (a : list A) i : Forall (fun n => n < length a) l ->
  foldl (fun a n => <[n := x]> a) a l !! i = if decide (i ∈ l) then Some x else a !! i.
Proof.
  revert a. induction l as [|n l IH]; intros a H; cbn [foldl].
  - case_decide as E; [by apply elem_of_nil in E|done].
  - apply Forall_cons in H as [Hn H]. rewrite IH by (by rewrite insert_length). case_decide as E.
    + rewrite decide_True by (by right). done.
    + destruct (decide (i = n)) as [->|Hne].
      * rewrite list_lookup_insert by done. rewrite decide_True by left. done.
      * rewrite list_lookup_insert_ne by done. rewrite decide_False; [done|]. rewrite elem_of_cons. naive_solver.
Qed.
Lemma fold_insert_length {A} (l : list nat) (x : A) (a : list A) : length (foldl (fun a n => <[n := x]> a) a l) = length a.
Proof. revert a. induction l as [|n l IH]; intros a; [done|]. cbn [foldl]. rewrite IH. apply insert_length. Qed.

Section elem.
  Context {V : Type}.
  Notation el := (element V).
  Lemma inds_ok (e : el) inds : typed_el e -> (forall i, i ∈ inds -> i < nodes_per_element (el_type e) (el_order e)) ->
    exists ns, map_res (rd (el_nodes e)) inds = Ok ns /\ length ns = length inds /\ (forall n, n ∈ ns <-> exists i, i ∈ inds /\ el_nodes e !! i = Some n).
  Proof.
    intros [Hn _] Hi. destruct (map_res_total (rd (el_nodes e)) inds) as [ns Hns].
    { intros i Hin. apply Hi in Hin. rewrite <- Hn in Hin. apply lookup_lt_is_Some_2 in Hin as [x Hx]. exists x. by apply rd_ok. }
    exists ns. split; [done|]. pose proof (map_res_inv _ _ _ Hns) as HF. split; [by rewrite (Forall2_length _ _ _ HF)|]. intros n. split.
    - intros Hin. apply elem_of_list_lookup in Hin as [k Hk]. destruct (Forall2_lookup_r _ _ _ _ _ HF Hk) as (i & Hik & Hr).
      exists i. split; [by eapply elem_of_list_lookup_2|by apply rd_inv].
    - intros (i & Hin & Hr). apply elem_of_list_lookup in Hin as [k Hk]. destruct (Forall2_lookup_l _ _ _ _ _ HF Hk) as (y & Hy & Hr').
      apply rd_inv in Hr'. assert (y = n) as -> by congruence. by eapply elem_of_list_lookup_2.
  Qed.
  Lemma boundary_nodes_ok (e : el) : typed_el e -> exists ns, boundary_nodes e = Ok ns /\ (forall n, n ∈ ns <-> bnd_node e n).
  Proof.
    intros Ht. destruct (boundary_inds_ok (el_type e) (el_order e)) as [_ Hb]. destruct (inds_ok e (boundary_node_inds (el_type e) (el_order e)) Ht) as (ns & Hr & _ & Hns).
    { intros i Hi. apply Hb in Hi as [s Hs]. destruct Hs as [? _]. done. }
    exists ns. split; [done|]. intros n. rewrite Hns. unfold bnd_node. setoid_rewrite Hb. naive_solver.
  Qed.
  Lemma internal_nodes_ok (e : el) : typed_el e -> exists ns, internal_nodes e = Ok ns /\ (forall n, n ∈ ns <-> int_node e n).
  Proof.
    intros Ht. destruct (internal_ok (el_type e) (el_order e)) as [_ Hb]. destruct (inds_ok e (internal_node_inds (el_type e) (el_order e)) Ht) as (ns & Hr & _ & Hns).
    { intros i Hi. by apply Hb in Hi as [? _]. }
    exists ns. split; [done|]. intros n. rewrite Hns. unfold int_node. setoid_rewrite Hb. split; [naive_solver|].
    intros (i & Hi & Hno). exists i. split; [|done]. split; [|done]. destruct Ht as [Hl _]. rewrite <- Hl. by eapply lookup_lt_Some.
  Qed.
  Lemma node_cases (e : el) n : typed_el e -> n ∈ el_nodes e -> bnd_node e n \/ int_node e n.
  Proof.
    intros Ht Hn. apply elem_of_list_lookup in Hn as [i Hi]. destruct (decide (i ∈ boundary_node_inds (el_type e) (el_order e))) as [Hb|Hb].
    - left. apply boundary_inds_ok in Hb as [s Hs]. by exists i, s.
    - right. exists i. split; [done|]. intros Hs. apply Hb. by apply boundary_inds_ok.
  Qed.
  Lemma bnd_node_in (e : el) n : bnd_node e n -> n ∈ el_nodes e.
  Proof. intros (i & s & Hi & _). by eapply elem_of_list_lookup_2. Qed.
  Lemma int_node_in (e : el) n : int_node e n -> n ∈ el_nodes e.
  Proof. intros (i & Hi & _). by eapply elem_of_list_lookup_2. Qed.

  Lemma mark_ok N (order : list el) : (forall e, e ∈ order -> typed_el e /\ forall n, n ∈ el_nodes e -> n < N) ->
    exists marks, markBoundaryNodes N order = Ok marks /\ length marks = N /\
      forall n, n < N -> (exists e, e ∈ order /\ bnd_node e n) /\ marks !! n = Some 1 \/ ~ (exists e, e ∈ order /\ bnd_node e n) /\ marks !! n = Some 0.
  Proof.
    intros H. unfold markBoundaryNodes.
    destruct (for_each_inv (fun (e : el) marks => ns ← boundary_nodes e; for_each (fun n marks => wr marks n 1) ns marks)
      (fun pre marks => length marks = N /\ forall n, n < N -> (exists e, e ∈ pre /\ bnd_node e n) /\ marks !! n = Some 1 \/ ~ (exists e, e ∈ pre /\ bnd_node e n) /\ marks !! n = Some 0)
      order [] (repeat 0 N)) as (marks & Hm & HI).
    - split; [by rewrite repeat_length|]. intros n Hn. right. split; [intros (e & He & _); by apply elem_of_nil in He|]. by apply rep_lookup.
    - intros pre e marks (post & Heq) [Hlen HI]. cbn [app] in Heq. assert (e ∈ order) as He by (rewrite Heq, elem_of_app; right; left).
      destruct (H e He) as [Ht Hlt]. destruct (boundary_nodes_ok e Ht) as (ns & -> & Hns). rewrite bind_ok.
      assert (HF : Forall (fun n => n < length marks) ns). { apply Forall_forall. intros n Hn. rewrite Hlen. apply Hlt, bnd_node_in, Hns, Hn. }
      rewrite wr_all by done. eexists. split; [done|]. split; [by rewrite fold_insert_length|].
      intros n Hn. rewrite fold_insert_lookup by done. case_decide as E.
      + left. split; [|done]. exists e. split; [apply elem_of_app; right; left|by apply Hns].
      + destruct (HI n Hn) as [[(e' & He' & Hb) Hl]|[Hno Hl]].
        * left. split; [|done]. exists e'. split; [apply elem_of_app; by left|done].
        * right. split; [|done]. intros (e' & He' & Hb). apply elem_of_app in He' as [He'|He']; [apply Hno; eauto|].
          apply elem_of_list_singleton in He' as ->. by apply E, Hns.
    - exists marks. split; [done|]. cbn [app] in HI. exact HI.
  Qed.
  (** The condensation loop. *)
  Lemma condense_ok marks full cond : let r := condense_loop marks full cond in
    length r.1 = length marks /\ StronglySorted lt r.2 /\
    (forall n, n ∈ r.2 <-> full <= n /\ exists x, marks !! (n - full) = Some x /\ x <> 0) /\
    (forall c n, r.2 !! c = Some n -> r.1 !! (n - full) = Some (cond + c)) /\
    (forall n, full <= n -> marks !! (n - full) = Some 0 -> r.1 !! (n - full) = Some 0).
  Proof.
    revert full cond. induction marks as [|x marks IH]; intros full cond; cbn [condense_loop].
    - cbv zeta. cbn [fst snd]. split; [done|]. split; [constructor|]. split; [|split; [done|]].
      + intros n. rewrite elem_of_nil. split; [done|]. intros (_ & y & Hy & _). done.
      + intros n _ Hy. done.
    - destruct (Nat.eqb_spec x 0) as [->|Hx].
      + destruct (IH (full + 1) cond) as (H1 & H2 & H3 & H4 & H5). cbv zeta. cbn [fst snd]. split; [cbn [List.length]; by rewrite H1|]. split; [done|]. split; [|split].
        * intros n. rewrite H3. split; intros (Hn & y & Hy & Hne).
          -- split; [lia|]. exists y. replace (n - full) with (S (n - (full + 1))) by lia. done.
          -- destruct (decide (n = full)) as [->|]; [rewrite Nat.sub_diag in Hy; cbn in Hy; congruence|]. split; [lia|]. exists y.
             replace (n - full) with (S (n - (full + 1))) in Hy by lia. done.
        * intros c n Hc. pose proof (proj1 (H3 n) ltac:(by eapply elem_of_list_lookup_2)) as [Hge _]. replace (n - full) with (S (n - (full + 1))) by lia. cbn. by apply H4.
        * intros n Hn Hy. destruct (decide (n = full)) as [->|]; [by rewrite Nat.sub_diag|]. replace (n - full) with (S (n - (full + 1))) in * by lia. cbn in *. apply H5; [lia|done].
      + destruct (IH (full + 1) (cond + 1)) as (H1 & H2 & H3 & H4 & H5). cbv zeta. cbn [fst snd]. split; [cbn [List.length]; by rewrite H1|]. split; [|split; [|split]].
        * constructor; [done|]. apply Forall_forall. intros n Hn. apply H3 in Hn as [? _]. lia.
        * intros n. rewrite elem_of_cons, H3. split.
          -- intros [-> |(Hn & y & Hy & Hne)]; [split; [lia|]; exists x; by rewrite Nat.sub_diag|]. split; [lia|]. exists y. replace (n - full) with (S (n - (full + 1))) by lia. done.
          -- intros (Hn & y & Hy & Hne). destruct (decide (n = full)) as [->|]; [by left|]. right. split; [lia|]. exists y. replace (n - full) with (S (n - (full + 1))) in Hy by lia. done.
        * intros [|c] n Hc; cbn in Hc.
          -- injection Hc as <-. rewrite Nat.sub_diag. cbn. f_equal. lia.
          -- pose proof (proj1 (H3 n) ltac:(by eapply elem_of_list_lookup_2)) as [Hge _]. replace (n - full) with (S (n - (full + 1))) by lia. etransitivity; [exact (H4 c n Hc)|]. f_equal. lia.
        * intros n Hn Hy. destruct (decide (n = full)) as [->|]; [rewrite Nat.sub_diag in Hy; cbn in Hy; congruence|]. replace (n - full) with (S (n - (full + 1))) in * by lia. cbn in *. apply H5; [lia|done].
  Qed.
  Lemma condensation_ok N (order : list el) : (forall e, e ∈ order -> typed_el e /\ forall n, n ∈ el_nodes e -> n < N) ->
    exists fwd rev, makeNodeCondensationMaps N order = Ok (fwd, rev) /\ length fwd = N /\ StronglySorted lt rev /\
      (forall n, n ∈ rev <-> exists e, e ∈ order /\ bnd_node e n) /\
      (forall c n, rev !! c = Some n -> fwd !! n = Some c) /\ (forall n, n < N -> n ∉ rev -> fwd !! n = Some 0).
  Proof.
    intros H. unfold makeNodeCondensationMaps. destruct (mark_ok N order H) as (marks & -> & Hlen & Hm). rewrite bind_ok.
    destruct (condense_ok marks 0 0) as (H1 & H2 & H3 & H4 & H5). destruct (condense_loop marks 0 0) as [fwd rev]. cbn [fst snd] in *.
    assert (Hrev : forall n, n ∈ rev <-> exists e, e ∈ order /\ bnd_node e n).
    { intros n. rewrite H3, Nat.sub_0_r. split.
      - intros (_ & x & Hx & Hne). destruct (Hm n ltac:(apply lookup_lt_Some in Hx; lia)) as [[? _]|[_ ?]]; [done|congruence].
      - intros (e & He & Hb). destruct (H e He) as [_ Hlt]. split; [lia|]. destruct (Hm n (Hlt n (bnd_node_in e n Hb))) as [[_ Hl]|[Hno _]]; [by eexists|]. destruct Hno. eauto. }
    exists fwd, rev. split; [done|]. split; [lia|]. split; [done|]. split; [done|]. split.
    - intros c n Hc. pose proof (H4 c n Hc) as Hf. by rewrite Nat.sub_0_r in Hf.
    - intros n Hn Hnot. destruct (Hm n Hn) as [[He _]|[_ Hl]]; [by apply Hrev in He|]. pose proof (H5 n ltac:(lia)) as Hf. rewrite Nat.sub_0_r in Hf. auto.
  Qed.
  (** In-place compaction. *)
  Lemma strict_ge (l : list nat) c n : StronglySorted lt l -> l !! c = Some n -> c <= n.
  Proof.
    intros Hs. revert c n. induction c as [|c IH]; intros n Hc; [lia|].
    destruct (lookup_lt_is_Some_2 l c) as [k Hk]; [apply lookup_lt_Some in Hc; lia|]. pose proof (IH k Hk). pose proof (strict_lookup l c (S c) k n Hs Hk Hc). lia.
  Qed.
  Lemma weights_ok (w rev : list nat) : StronglySorted lt rev -> (forall n, n ∈ rev -> n < length w) ->
    exists w', (st ← for_each (fun n st => x ← rd st.1 n; w ← wr st.1 st.2 x; Ok (w, st.2 + 1)) rev (w, 0); Ok st.1) = Ok w' /\
      length w' = length w /\ forall c n, rev !! c = Some n -> w' !! c = w !! n.
  Proof.
    intros Hs Hlt.
    destruct (for_each_inv (fun n (st : list nat * nat) => x ← rd st.1 n; w ← wr st.1 st.2 x; Ok (w, st.2 + 1))
      (fun pre st => st.2 = length pre /\ length st.1 = length w /\ (forall c n, pre !! c = Some n -> st.1 !! c = w !! n) /\ forall k, length pre <= k -> st.1 !! k = w !! k)
      rev [] (w, 0)) as (st & Hst & _ & Hl & Hc & _).
    - split; [done|]. split; [done|]. split; [intros c n Hc; done|done].
    - intros pre n [a k] (post & Heq) (Hk & Hl & Hc & Hr). cbn [fst snd app] in *. subst k.
      assert (Hn : rev !! length pre = Some n) by (rewrite Heq, lookup_app_r by lia; by rewrite Nat.sub_diag).
      pose proof (strict_ge _ _ _ Hs Hn) as Hge. assert (Hnw : n < length w) by (apply Hlt; by eapply elem_of_list_lookup_2).
      destruct (lookup_lt_is_Some_2 w n Hnw) as [x Hx]. rewrite (rd_ok a n x) by (by rewrite Hr). rewrite bind_ok, wr_ok by lia. rewrite bind_ok.
      eexists. split; [done|]. cbn [fst snd]. rewrite insert_length, app_length. cbn [List.length]. split; [lia|]. split; [done|]. split.
      + intros c n' Hc'. destruct (decide (c = length pre)) as [->|Hne].
        * rewrite lookup_app_r in Hc' by lia. rewrite Nat.sub_diag in Hc'. cbn in Hc'. injection Hc' as <-. rewrite list_lookup_insert by lia. done.
        * assert (c < length pre). { apply lookup_lt_Some in Hc'. rewrite app_length in Hc'. cbn in Hc'. lia. }
          rewrite lookup_app_l in Hc' by done. rewrite list_lookup_insert_ne by lia. by apply Hc.
      + intros j Hj. rewrite list_lookup_insert_ne by lia. apply Hr. lia.
    - rewrite Hst, bind_ok. exists st.1. split; [done|]. split; [done|]. done.
  Qed.
  (** METIS input. *)
  Definition seg_of (rev : list nat) (e : el) (seg : list nat) : Prop :=
    exists inds ns, NoDup inds /\ (forall i, i ∈ inds <-> exists s, on_side (el_type e) (el_order e) s i) /\
      Forall2 (fun i n => el_nodes e !! i = Some n) inds ns /\ Forall2 (fun c n => rev !! c = Some n) seg ns.
  Lemma prep_ok (m : dmap (domain V)) fwd rev ids :
    (forall e, e ∈ visit_elems m ids -> typed_el e /\ forall n, bnd_node e n -> exists c, fwd !! n = Some c /\ rev !! c = Some n) ->
    exists segs e_ptr, prepMetisInput m fwd ids = Ok (concat segs, e_ptr) /\ Forall2 (seg_of rev) (visit_elems m ids) segs /\
      length e_ptr = S (length segs) /\ forall k, k <= length segs -> e_ptr !! k = Some (length (concat (take k segs))).
  Proof.
    intros H. unfold prepMetisInput. set (els := visit_elems m ids) in *.
    destruct (for_each_inv (fun (e : el) (st : list nat * list nat) => ns ← boundary_nodes e; cs ← map_res (rd fwd) ns; last ← rd st.2 (length st.2 - 1);
                          Ok (st.1 ++ cs, st.2 ++ [last + length cs]))
      (fun pre st => exists segs, st.1 = concat segs /\ Forall2 (seg_of rev) pre segs /\ length st.2 = S (length segs) /\
         forall k, k <= length segs -> st.2 !! k = Some (length (concat (take k segs)))) els [] ([], [0])) as ([a p] & Hst & segs & Ha & HF & Hl & Hp).
    - exists []. split; [done|]. split; [constructor|]. split; [done|]. intros k Hk. cbn in Hk. assert (k = 0) as -> by lia. done.
    - intros pre e [a p] (post & Heq) (segs & Ha & HF & Hl & Hp). cbn [app fst snd] in *. assert (He : e ∈ els) by (rewrite Heq, elem_of_app; right; left).
      destruct (H e He) as [Ht Hb]. destruct (boundary_nodes_ok e Ht) as (ns & Hns & Hbn). rewrite Hns, bind_ok.
      assert (exists cs, map_res (rd fwd) ns = Ok cs) as [cs Hcs].
      { apply map_res_total. intros n Hn. apply Hbn in Hn. destruct (Hb n Hn) as (c & Hc & _). exists c. by apply rd_ok. }
      rewrite Hcs, bind_ok, Hl. replace (S (length segs) - 1) with (length segs) by lia.
      rewrite (rd_ok p (length segs) _ (Hp (length segs) (le_n _))), bind_ok. eexists. split; [done|]. exists (segs ++ [cs]). cbn [fst snd].
      split; [by rewrite concat_app, Ha; cbn; rewrite app_nil_r|]. split; [|split].
      + apply Forall2_app; [done|]. constructor; [|constructor]. exists (boundary_node_inds (el_type e) (el_order e)), ns.
        destruct (boundary_inds_ok (el_type e) (el_order e)) as [Hsrt Hin]. split; [by apply strict_nodup|]. split; [done|].
        pose proof (map_res_inv _ _ _ Hns) as H1. pose proof (map_res_inv _ _ _ Hcs) as H2. split; [eapply Forall2_impl; [exact H1|]; intros ? ?; apply rd_inv|].
        apply Forall2_same_length_lookup_2; [by rewrite (Forall2_length _ _ _ H2)|]. intros i c n Hc Hn.
        assert (Hbd : bnd_node e n) by (apply Hbn; by eapply elem_of_list_lookup_2). destruct (Hb n Hbd) as (c' & Hf & Hr).
        pose proof (Forall2_lookup_lr _ _ _ _ _ _ H2 Hn Hc) as Hrd. apply rd_inv in Hrd. congruence.
      + rewrite !app_length, Hl. cbn [List.length]. lia.
      + intros k Hk. rewrite app_length in Hk. cbn [List.length] in Hk. destruct (decide (k = S (length segs))) as [->|Hne].
        * rewrite lookup_app_r by lia. rewrite Hl, Nat.sub_diag. cbn. f_equal. rewrite firstn_all, take_ge by (rewrite app_length; cbn; lia).
          rewrite concat_app, (app_length (concat segs)). cbn. rewrite app_nil_r. done.
        * rewrite lookup_app_l by lia. rewrite Hp by lia. rewrite take_app_le by lia. done.
    - exists segs, p. rewrite Hst. cbn [app fst snd] in *. subst a. done.
  Qed.
  (** Expanding the METIS output. *)
  Lemma uncondense_ok N epart npart rev (m : dmap (domain V)) ids :
    NoDup rev -> length npart = length rev -> length epart = length (visit_elems m ids) -> (forall n, n ∈ rev -> n < N) ->
    (forall e, e ∈ visit_elems m ids -> typed_el e /\ forall n, n ∈ el_nodes e -> n < N) ->
    exists q, uncondenseNodes N epart npart rev m ids = Ok q /\ length q = N /\
      forall n, n < N ->
        (exists k e p, visit_elems m ids !! k = Some e /\ int_node e n /\ epart !! k = Some p /\ q !! n = Some (Some p)) \/
        (forall e, e ∈ visit_elems m ids -> ~ int_node e n) /\
          ((exists c p, rev !! c = Some n /\ npart !! c = Some p /\ q !! n = Some (Some p)) \/ n ∉ rev /\ q !! n = Some None).
  Proof.
    intros Hnd Hnp Hep Hrev H. unfold uncondenseNodes. set (els := visit_elems m ids) in *.
    destruct (for_each_inv (fun n (st : list (option nat) * nat) => p ← rd npart st.2; r ← wr st.1 n (Some p); Ok (r, st.2 + 1))
      (fun pre st => st.2 = length pre /\ length st.1 = N /\ forall n, n < N ->
         (exists c p, pre !! c = Some n /\ npart !! c = Some p /\ st.1 !! n = Some (Some p)) \/ n ∉ pre /\ st.1 !! n = Some None) rev [] (repeat None N, 0))
      as ([q0 k0] & Hst & _ & Hl0 & Hq0).
    { split; [done|]. cbn [fst]. split; [by rewrite repeat_length|]. intros n Hn. right. split; [by apply not_elem_of_nil|by apply rep_lookup]. }
    { intros pre n [q k] (post & Heq) (Hk & Hl & HI). cbn [app fst snd] in *. subst k.
      assert (Hn : n ∈ rev) by (rewrite Heq, elem_of_app; right; left).
      assert (Hlp : length pre < length npart) by (rewrite Hnp, Heq, app_length; cbn; lia).
      apply lookup_lt_is_Some_2 in Hlp as [p Hp]. rewrite (rd_ok _ _ _ Hp), bind_ok, wr_ok by (rewrite Hl; auto). rewrite bind_ok.
      eexists. split; [done|]. cbn [fst snd]. rewrite app_length, insert_length. cbn [List.length]. split; [lia|]. split; [done|].
      assert (Hnpre : n ∉ pre). { rewrite Heq in Hnd. apply NoDup_app in Hnd as (_ & Hd & _). intros Hx. apply (Hd n Hx). left. }
      intros j Hj. destruct (decide (j = n)) as [->|Hne].
      + left. exists (length pre), p. split; [rewrite lookup_app_r by lia; by rewrite Nat.sub_diag|]. split; [done|]. apply list_lookup_insert. lia.
      + rewrite list_lookup_insert_ne by done. destruct (HI j Hj) as [(c & p' & Hc & Hp' & Hq)|[Hno Hq]].
        * left. exists c, p'. split; [by apply lookup_app_l_Some|done].
        * right. split; [|done]. rewrite elem_of_app, elem_of_list_singleton. naive_solver. }
    rewrite Hst, bind_ok. cbn [app fst snd] in *.
    destruct (for_each_inv (fun (e : el) (st : list (option nat) * nat) => p ← rd epart st.2; ns ← internal_nodes e; r ← for_each (fun n r => wr r n (Some p)) ns st.1; Ok (r, st.2 + 1))
      (fun pre st => st.2 = length pre /\ length st.1 = N /\ forall n, n < N ->
         (exists k e p, pre !! k = Some e /\ int_node e n /\ epart !! k = Some p /\ st.1 !! n = Some (Some p)) \/
         (forall e, e ∈ pre -> ~ int_node e n) /\ st.1 !! n = q0 !! n) els [] (q0, 0))
      as ([q1 k1] & Hst1 & _ & Hl1 & Hq1).
    { split; [done|]. split; [done|]. intros n Hn. right. split; [|done]. intros e He. by apply elem_of_nil in He. }
    { intros pre e [q k] (post & Heq) (Hk & Hl & HI). cbn [app fst snd] in *. subst k.
      assert (He : e ∈ els) by (rewrite Heq, elem_of_app; right; left). destruct (H e He) as [Ht Hlt].
      assert (Hlp : length pre < length epart) by (rewrite Hep, Heq, app_length; cbn; lia).
      apply lookup_lt_is_Some_2 in Hlp as [p Hp]. rewrite (rd_ok _ _ _ Hp), bind_ok. destruct (internal_nodes_ok e Ht) as (ns & -> & Hns). rewrite bind_ok.
      assert (HF : Forall (fun n => n < length q) ns). { apply Forall_forall. intros n Hn. rewrite Hl. apply Hlt, int_node_in, Hns, Hn. }
      rewrite wr_all by done. rewrite bind_ok. eexists. split; [done|]. cbn [fst snd]. rewrite app_length, fold_insert_length. cbn [List.length].
      split; [lia|]. split; [done|]. intros n Hn. rewrite fold_insert_lookup by done. case_decide as E.
      + left. exists (length pre), e, p. split; [rewrite lookup_app_r by lia; by rewrite Nat.sub_diag|]. split; [by apply Hns|done].
      + destruct (HI n Hn) as [(k & e' & p' & Hk & Hi & Hp' & Hq)|[Hno Hq]].
        * left. exists k, e', p'. split; [by apply lookup_app_l_Some|done].
        * right. split; [|done]. intros e' He'. apply elem_of_app in He' as [He'|He']; [by apply Hno|]. apply elem_of_list_singleton in He' as ->. intros Hi. by apply E, Hns. }
    rewrite Hst1, bind_ok. exists q1. split; [done|]. cbn [app fst snd] in *. split; [done|]. intros n Hn.
    destruct (Hq1 n Hn) as [?|[Hno Hq]]; [by left|]. right. split; [done|]. rewrite Hq. apply Hq0, Hn.
  Qed.
End elem.
