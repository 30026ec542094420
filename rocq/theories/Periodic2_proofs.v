From Verif Require Import Base StdAlgo Ownership_model Ownership_spec Ownership_proofs Elem_model Elem_spec Mesh_model Mesh_spec Mesh_proofs Helpers_model Helpers_proofs Partition_model Partition_spec Redist_spec Graph_model Graph_spec Graph_proofs Dofs_model Dofs_spec Dofs_proofs Dofs2_proofs Periodic_model Periodic_spec Periodic_proofs.
Local Arguments Nat.mul : simpl never.
Local Arguments Nat.add : simpl never.
Local Arguments Nat.sub : simpl never.

Section process.
  Context {G : Type} `{EqDecision G} (D : nat).
  Definition groups_of (pre : list (nat * list G)) (m : list (list G * list bool)) : Prop :=
    NoDup m.*1 /\ (forall k bits, (k, bits) ∈ m -> length bits = D /\ forall j, bits !! j = Some true <-> (j, k) ∈ pre) /\ (forall j k, (j, k) ∈ pre -> k ∈ m.*1) /\ forall k, k ∈ m.*1 -> exists j, (j, k) ∈ pre.
  Lemma set_dof_keys key i (m : list (list G * list bool)) k : k ∈ (set_dof D key i m).*1 <-> k = key \/ k ∈ m.*1.
  Proof.
    induction m as [|[k' bits] m IH]; [cbn; rewrite elem_of_list_singleton; rewrite elem_of_nil; tauto|]. cbn. case_decide as E; cbn; rewrite !elem_of_cons; [subst; tauto|]. change (k ∈ map fst (set_dof D key i m)) with (k ∈ (set_dof D key i m).*1). rewrite IH. tauto.
  Qed.
  Lemma set_dof_nodup key i (m : list (list G * list bool)) : NoDup m.*1 -> NoDup (set_dof D key i m).*1.
  Proof.
    induction m as [|[k bits] m IH]; intros H; [apply NoDup_singleton|]. cbn in H |- *. apply NoDup_cons in H as [Hn H]. case_decide as E; [by apply NoDup_cons|]. cbn. apply NoDup_cons. split; [|by apply IH].
    intros Hk. apply set_dof_keys in Hk as [-> |Hk]; [done|]. done.
  Qed.
  Lemma set_dof_entry key i (m : list (list G * list bool)) k bits : NoDup m.*1 -> (k, bits) ∈ set_dof D key i m ->
    k <> key /\ (k, bits) ∈ m \/ k = key /\ ((exists b0, (k, b0) ∈ m /\ bits = <[i := true]> b0) \/ key ∉ m.*1 /\ bits = <[i := true]> (replicate D false)).
  Proof.
    induction m as [|[k' b'] m IH]; intros Hn H.
    - cbn in H. apply elem_of_list_singleton in H as [= -> ->]. right. split; [done|]. right. split; [apply not_elem_of_nil|done].
    - cbn in Hn, H. apply NoDup_cons in Hn as [Hk Hn]. case_decide as E.
      + subst k'. apply elem_of_cons in H as [[= -> ->]|H]; [right; split; [done|]; left; exists b'; split; [left|done]|]. left. split; [|by right]. intros ->. apply Hk. apply elem_of_list_fmap. by exists (key, bits).
      + apply elem_of_cons in H as [[= -> ->]|H]; [left; split; [done|left]|]. destruct (IH Hn H) as [[H1 H2]|[-> [(b0 & H1 & H2)|[H1 H2]]]]; [left; split; [done|by right]|right; split; [done|]; left; exists b0; split; [by right|done]|].
        right. split; [done|]. right. split; [|done]. cbn. intros [-> |Hc]%elem_of_cons; done.
  Qed.
  Lemma groups_fold (l : list (nat * list G)) : NoDup l.*1 -> (forall j k, (j, k) ∈ l -> j < D) -> groups_of l (foldl (fun m z => set_dof D z.2 z.1 m) [] l).
  Proof.
    induction l as [|[i key] l IH] using rev_ind; intros Hn Hlt.
    - split; [constructor|]. split; [intros k bits H; by apply elem_of_nil in H|]. split; [intros j k H; by apply elem_of_nil in H|intros k H; by apply elem_of_nil in H].
    - rewrite foldl_app. cbn [foldl fst snd]. rewrite fmap_app in Hn. apply NoDup_app in Hn as (Hn & Hdis & _).
      destruct IH as (H1 & H2 & H3 & H4); [done|intros j k H; apply (Hlt j k), elem_of_app; by left|]. set (m := foldl _ _ _) in *. assert (Hi : i < D) by (apply (Hlt i key), elem_of_app; right; left).
      assert (Hin : forall j k, (j, k) ∈ l ++ [(i, key)] <-> (j, k) ∈ l \/ j = i /\ k = key) by (intros j k; rewrite elem_of_app, elem_of_list_singleton; naive_solver).
      split; [by apply set_dof_nodup|]. split.
      + intros k bits H. apply set_dof_entry in H as [[Hne H]|[-> [(b0 & H & ->)|[Hnk ->]]]]; [| | |done].
        * destruct (H2 k bits H) as [Hl Hj]. split; [done|]. intros j. rewrite Hin, Hj. naive_solver.
        * destruct (H2 key b0 H) as [Hl Hj]. split; [by rewrite insert_length|]. intros j. rewrite Hin, <- Hj. destruct (decide (j = i)) as [-> |Hne]; [rewrite list_lookup_insert by lia; tauto|rewrite list_lookup_insert_ne by done]. naive_solver.
        * split; [by rewrite insert_length, replicate_length|]. intros j. rewrite Hin. destruct (decide (j = i)) as [-> |Hne]; [rewrite list_lookup_insert by (rewrite replicate_length; lia); tauto|rewrite list_lookup_insert_ne by done].
          rewrite lookup_replicate. split; [by intros [? _]|]. intros [H|[? _]]; [|done]. destruct Hnk. by apply (H3 j).
      + split; [intros j k H; rewrite Hin in H; apply set_dof_keys; destruct H as [H|[_ ->]]; [right; by apply (H3 j)|by left]|].
        intros k H. apply set_dof_keys in H as [-> |H]; [exists i; apply Hin; by right|]. destruct (H4 k H) as [j Hj]. exists j. apply Hin. by left.
  Qed.
  Lemma process_ok srt ord (defs : list (G * list bool)) : (forall l, ord l ≡ₚ l) ->
    (forall bits gs, (bits, gs) ∈ processPeriodicDef D srt ord defs -> length bits = D /\ (forall j, bits !! j = Some true <-> j < D /\ gs = srt (concerned defs j)) /\ exists j, bits !! j = Some true) /\
    (forall j, j < D -> exists bits, (bits, srt (concerned defs j)) ∈ processPeriodicDef D srt ord defs) /\ NoDup (processPeriodicDef D srt ord defs).*2.
  Proof.
    intros Hord. unfold processPeriodicDef. set (l := zip (seq 0 D) (map (fun i => srt (map fst (List.filter (fun d => covers d i) defs))) (seq 0 D))).
    assert (Hl : forall j k, (j, k) ∈ l <-> j < D /\ k = srt (concerned defs j)).
    { intros j k. unfold l. rewrite zip_lookup_in. change (map ?f (seq 0 D)) with (f <$> seq 0 D). split.
      - intros (i & Hi & Hk). rewrite list_lookup_fmap, Hi in Hk. apply lookup_seq in Hi as [-> Hi]. cbn in Hk. injection Hk as <-. split; [lia|done].
      - intros [Hj ->]. exists j. rewrite list_lookup_fmap, lookup_seq_lt by done. done. }
    assert (Hnd : NoDup l.*1). { unfold l. rewrite fst_zip by (rewrite map_length; done). apply NoDup_seq. }
    destruct (groups_fold l Hnd) as (H1 & H2 & H3 & H4); [intros j k H; apply Hl in H; lia|]. set (m := foldl _ _ _) in *. pose proof (Hord m) as Hp.
    assert (Hin : forall bits gs, (bits, gs) ∈ map (fun p : list G * list bool => (p.2, p.1)) (ord m) <-> (gs, bits) ∈ m).
    { intros bits gs. rewrite (elem_of_list_fmap (fun p : list G * list bool => (p.2, p.1))), <- Hp. split; [intros ([k b] & [= -> ->] & H); done|]. intros H. by exists (gs, bits). }
    split; [|split].
    - intros bits gs H. apply Hin in H. destruct (H2 gs bits H) as [Hlen Hj]. split; [done|]. split; [intros j; rewrite Hj; apply Hl|]. destruct (H4 gs) as [j Hg]; [apply elem_of_list_fmap; by exists (gs, bits)|]. exists j. by apply Hj.
    - intros j Hj. assert (Hk : srt (concerned defs j) ∈ m.*1) by (apply (H3 j), Hl; done). apply elem_of_list_fmap in Hk as ([k bits] & E & Hk). cbn in E. subst k. exists bits. by apply Hin.
    - change (?x.*2) with (map snd x). rewrite map_map. cbn [snd]. change (map (fun x => x.1) (ord m)) with ((ord m).*1). by rewrite Hp.
  Qed.
End process.

(** *** The information on one rank *)
Section info.
  Context (D : nat) (K : nat -> Prop).
  Notation info_t := (list (nat * list (option nat))).
  Definition info_is (info : info_t) (P : nat -> nat -> nat -> Prop) : Prop :=
    NoDup info.*1 /\ (forall n row, (n, row) ∈ info -> K n /\ length row = D) /\ forall n j a, (exists row, (n, row) ∈ info /\ row !! j = Some (Some a)) <-> P n j a.
  Lemma hm_find_in {B} (n : nat) (m : list (nat * B)) (row : B) : NoDup m.*1 -> (n, row) ∈ m <-> hm_find n m = Some row.
  Proof.
    induction m as [|[k v] m IH]; intros Hn; [cbn; split; [by intros H%elem_of_nil|done]|]. cbn in Hn |- *. apply NoDup_cons in Hn as [Hk Hn]. rewrite elem_of_cons. case_decide as E.
    - subst k. split; [|intros [= ->]; by left]. intros [[= ->]|H]; [done|]. destruct Hk. apply elem_of_list_fmap. by exists (n, row).
    - rewrite <- IH by done. split; [|by right]. intros [[= -> ->]|H]; done.
  Qed.
  Lemma hm_find_none {B} (n : nat) (m : list (nat * B)) : hm_find n m = None -> n ∉ m.*1.
  Proof. induction m as [|[k v] m IH]; intros H; [apply not_elem_of_nil|]. cbn in H |- *. case_decide as E; [done|]. rewrite elem_of_cons. intros [H'|H']; [done|]. by apply IH. Qed.
  Lemma set_bits_ok (bits : list bool) a (row : list (option nat)) : length bits = D -> length row = D ->
    exists row', for_each (fun i row => wr row i (Some a)) (true_inds bits) row = Ok row' /\ length row' = D /\
      forall j a', row' !! j = Some (Some a') <-> (bits !! j = Some true /\ a' = a) \/ (bits !! j <> Some true /\ row !! j = Some (Some a')).
  Proof.
    intros Hb Hr. destruct (for_each_prefix (fun i (row : list (option nat)) => wr row i (Some a)) (fun pre row' => length row' = D /\
      forall j, (j ∈ pre -> row' !! j = Some (Some a)) /\ (j ∉ pre -> row' !! j = row !! j)) (true_inds bits) row) as (row' & E & Hl & H).
    - split; [done|]. intros j. split; [by intros H%elem_of_nil|done].
    - intros pre i r (post & Ei) [Hl H]. assert (Hi : i ∈ true_inds bits) by (rewrite Ei; apply elem_of_app; right; left). apply true_inds_elem in Hi. pose proof (lookup_lt_Some _ _ _ Hi). rewrite wr_ok by lia. eexists. split; [done|].
      split; [by rewrite insert_length|]. intros j. rewrite elem_of_app, elem_of_list_singleton. destruct (decide (j = i)) as [-> |Hne]; [rewrite list_lookup_insert by lia|rewrite list_lookup_insert_ne by done].
      + split; [done|]. intros Hc. destruct Hc. by right.
      + split; [intros [Hj|Hj]; [by apply H|done]|]. intros Hc. apply H. tauto.
    - exists row'. split; [done|]. split; [done|]. intros j a'. destruct (H j) as [H1 H2]. rewrite true_inds_elem in H1, H2. destruct (decide (bits !! j = Some true)) as [Hj|Hj].
      + rewrite (H1 Hj). naive_solver.
      + rewrite (H2 Hj). naive_solver.
  Qed.
  Lemma set_partner_ok (info : info_t) P bits n a : info_is info P -> length bits = D -> K n -> (forall j a', bits !! j = Some true -> P n j a' -> a' = a) ->
    exists info', set_partner D bits n a info = Ok info' /\ info_is info' (fun n' j a' => P n' j a' \/ n' = n /\ bits !! j = Some true /\ a' = a).
  Proof.
    intros (H1 & H2 & H3) Hb HK Hfun. unfold set_partner.
    assert (He : exists row1, hm_find n (hm_emplace n (replicate D None) info) = Some row1 /\ info_is (hm_emplace n (replicate D None) info) P).
    { unfold hm_emplace. destruct (hm_find n info) as [row|] eqn:E; [exists row; split; [done|]; by split|]. apply hm_find_none in E. exists (replicate D None). assert (Hnd : NoDup (info ++ [(n, replicate D None)]).*1).
      { rewrite fmap_app. apply NoDup_app. split; [done|]. split; [|apply NoDup_singleton]. intros x Hx Hx'. apply elem_of_list_singleton in Hx'. cbn in Hx'. by subst. }
      split; [apply hm_find_in; [done|]; apply elem_of_app; right; left|]. split; [done|]. split.
      - intros n' row H. apply elem_of_app in H as [H|H]; [by apply H2|]. apply elem_of_list_singleton in H as [= -> ->]. split; [done|apply replicate_length].
      - intros n' j a'. rewrite <- H3. split; intros (row & H & Hj); exists row; (split; [|done]); [|apply elem_of_app; by left]. apply elem_of_app in H as [H|H]; [done|]. apply elem_of_list_singleton in H as [= -> ->].
        apply lookup_replicate in Hj as [Hj _]. done. }
    destruct He as (row1 & E1 & H1' & H2' & H3'). set (info1 := hm_emplace n (replicate D None) info) in *. cbv zeta. rewrite E1, bind_ok. apply hm_find_in in E1; [|done]. destruct (H2' n row1 E1) as [_ Hl1].
    destruct (set_bits_ok bits a row1 Hb Hl1) as (row' & E' & Hl' & Hr'). rewrite E', bind_ok. eexists. split; [done|].
    assert (Hin : forall n' r, (n', r) ∈ map (fun e : nat * list (option nat) => if e.1 =? n then (e.1, row') else e) info1 <-> n' <> n /\ (n', r) ∈ info1 \/ n' = n /\ r = row').
    { intros n' r. rewrite (elem_of_list_fmap (fun e : nat * list (option nat) => if e.1 =? n then (e.1, row') else e)). split.
      - intros ([k v] & E & Hk). cbn [fst] in E. destruct (k =? n) eqn:Ek; [apply Nat.eqb_eq in Ek; subst; injection E as -> ->; by right|]. apply Nat.eqb_neq in Ek. injection E as -> ->. by left.
      - intros [[Hne H]|[-> ->]]; [exists (n', r)|exists (n, row1)]; cbn [fst]; [by rewrite (proj2 (Nat.eqb_neq _ _) Hne)|]. by rewrite Nat.eqb_refl. }
    split; [|split].
    - assert (Hk : (map (fun e : nat * list (option nat) => if e.1 =? n then (e.1, row') else e) info1).*1 = info1.*1); [|by rewrite Hk]. change (?l.*1) with (map fst l). rewrite map_map. apply map_ext. intros [k v]. cbn [fst]. by destruct (k =? n).
    - intros n' r H. apply Hin in H as [[_ H]|[-> ->]]; [by apply H2'|done].
    - intros n' j a'. split.
      + intros (r & H & Hj). apply Hin in H as [[Hne H]|[-> ->]]; [left; apply H3'; by exists r|]. apply Hr' in Hj as [[Hbj ->]|[Hbj Hj]]; [by right|]. left. apply H3'. by exists row1.
      + destruct (decide (n' = n)) as [-> |Hne].
        * intros HP. exists row'. split; [apply Hin; by right|]. apply Hr'. destruct (decide (bits !! j = Some true)) as [Hbj|Hbj].
          -- left. split; [done|]. destruct HP as [HP|(_ & _ & ->)]; [by apply (Hfun j)|done].
          -- right. split; [done|]. destruct HP as [HP|(_ & Hc & _)]; [|done]. apply H3' in HP as (r & Hr & Hj). assert (r = row1) as -> by (by apply (nodup_fst info1 n)). done.
        * intros [HP|(Hc & _)]; [|done]. apply H3' in HP as (r & Hr & Hj). exists r. split; [|done]. apply Hin. by left.
  Qed.
  Lemma add_message_ok so bits msg info gh P : info_is info P -> length bits = D -> (forall p a, (p, a) ∈ msg -> K p) -> (forall p a a', (p, a) ∈ msg -> (p, a') ∈ msg -> a = a') ->
    (forall n j a, bits !! j = Some true -> ~ P n j a) ->
    exists info' gh', add_message D so bits msg (info, gh) = Ok (info', gh') /\ info_is info' (fun n j a => P n j a \/ bits !! j = Some true /\ (n, a) ∈ msg) /\
      forall g, g ∈ gh' <-> g ∈ gh \/ isOwned so g = false /\ isShared so g = false /\ exists p, (p, g) ∈ msg.
  Proof.
    intros Hi Hb HK Hfun Hfree. unfold add_message.
    destruct (for_each_prefix (fun (pa : nat * nat) (st : info_t * list nat) => info ← set_partner D bits pa.1 pa.2 st.1;
      Ok (info, if negb (isOwned so pa.2) && negb (isShared so pa.2) then pa.2 :: st.2 else st.2))
      (fun pre st => info_is st.1 (fun n j a => P n j a \/ bits !! j = Some true /\ (n, a) ∈ pre) /\ forall g, g ∈ st.2 <-> g ∈ gh \/ isOwned so g = false /\ isShared so g = false /\ exists p, (p, g) ∈ pre) msg (info, gh)) as ([info' gh'] & E & H1 & H2).
    - cbn [fst snd]. split.
      + destruct Hi as (H1 & H2 & H3). split; [done|]. split; [done|]. intros n j a. rewrite H3. split; [by left|]. intros [H|[_ H]]; [done|by apply elem_of_nil in H].
      + intros g. split; [by left|]. intros [H|(_ & _ & p & H)]; [done|by apply elem_of_nil in H].
    - intros pre [p a] [inf g0] (post & Em) [H1 H2]. cbn [fst snd] in *. assert (Hin : (p, a) ∈ msg) by (rewrite Em; apply elem_of_app; right; left).
      destruct (set_partner_ok inf _ bits p a H1 Hb (HK _ _ Hin)) as (inf' & E & H').
      { intros j a' Hj [HP|[_ Ha']]; [by destruct (Hfree p j a' Hj)|]. apply (Hfun p); [|done]. rewrite Em. apply elem_of_app. by left. }
      rewrite E, bind_ok. eexists. split; [done|]. cbn [fst snd]. split.
      + destruct H' as (H3 & H4 & H5). split; [done|]. split; [done|]. intros n j a'. rewrite H5, elem_of_app, elem_of_list_singleton. naive_solver.
      + intros g. assert (Hx : (exists p', (p', g) ∈ pre ++ [(p, a)]) <-> (exists p', (p', g) ∈ pre) \/ g = a).
        { split; [intros (p' & H); apply elem_of_app in H as [H|H]; [left; by exists p'|]; apply elem_of_list_singleton in H as [= -> ->]; by right|].
          intros [(p' & H)| ->]; [exists p'; apply elem_of_app; by left|exists p; apply elem_of_app; right; left]. }
        rewrite Hx. specialize (H2 g). destruct (isOwned so a) eqn:Eo; cbn [negb andb].
        { rewrite H2. split; [tauto|]. intros [H|(Ho & Hs & [H| ->])]; [tauto|tauto|congruence]. }
        destruct (isShared so a) eqn:Es; cbn [negb].
        * rewrite H2. split; [tauto|]. intros [H|(Ho & Hs & [H| ->])]; [tauto|tauto|congruence].
        * rewrite elem_of_cons, H2. split; [|tauto]. intros [-> |H]; [right; tauto|tauto].
    - exists info', gh'. done.
  Qed.
End info.
