(** C41: exchange of shared rows. *)
From Verif Require Import Base StdAlgo Ownership_model Ownership_spec Ownership_proofs Elem_model Elem_spec Mesh_model Mesh_spec Mesh_proofs Helpers_model Helpers_proofs Graph_model Graph_spec Graph_proofs Merge_model Merge_proofs Partition_model Partition_spec Dofs_model Dofs_spec Dofs_proofs Dofs2_proofs Periodic_proofs Sparsity_model Sparsity_spec Sparsity_proofs Sparsity2_proofs.
Local Arguments Nat.mul : simpl never.
Local Arguments Nat.add : simpl never.
Local Arguments Nat.sub : simpl never.

Lemma hm_find_rm_set k v (m : list (nat * list nat)) k' : hm_find k' (rm_set k v m) = if decide (k' = k) then match hm_find k' m with Some _ => Some v | None => None end else hm_find k' m.
Proof.
  unfold rm_set. induction m as [|[a l] m IH]; [cbn; by case_decide|]. cbn [map fst]. destruct (Nat.eqb_spec a k) as [-> |Ha]; cbn [hm_find].
  - destruct (decide (k' = k)); [done|]. done.
  - destruct (decide (k' = a)) as [-> |Hk]; [rewrite decide_False by done; done|]. exact IH.
Qed.
Lemma keys_rm_set k v (m : list (nat * list nat)) : (rm_set k v m).*1 = m.*1.
Proof. unfold rm_set. induction m as [|[a l] m IH]; [done|]. cbn [map fst fmap list_fmap] in *. destruct (Nat.eqb_spec a k) as [-> |Ha]; cbn [fst]; f_equal; exact IH. Qed.
Lemma touch_ok (rows : list nat) (cur : list (nat * list nat)) : NoDup cur.*1 -> NoDup (foldl (fun c k => hm_emplace k [] c) cur rows).*1 /\
  forall k, hm_find k (foldl (fun c k => hm_emplace k [] c) cur rows) = match hm_find k cur with Some l => Some l | None => if decide (k ∈ rows) then Some [] else None end.
Proof.
  revert cur. induction rows as [|a rows IH]; intros cur Hn; cbn [foldl]; [split; [done|]; intros k; destruct (hm_find k cur); [done|]; rewrite decide_False by apply not_elem_of_nil; done|].
  destruct (IH (hm_emplace a [] cur)) as [H1 H2].
  - unfold hm_emplace. destruct (hm_find a cur) eqn:E; [done|]. rewrite fmap_app. cbn. apply NoDup_app. split; [done|]. apply hm_find_None in E. split; [|apply NoDup_singleton]. intros x Hx Hx'. apply elem_of_list_singleton in Hx' as ->. done.
  - split; [done|]. intros k. rewrite H2, hm_find_emplace. destruct (hm_find k cur); [done|]. destruct (decide (k = a)) as [-> |Hne]; [by rewrite decide_True by left|]. destruct (decide (k ∈ rows)); [rewrite decide_True by (by right); done|]. rewrite decide_False; [done|]. rewrite elem_of_cons. tauto.
Qed.
Lemma remove_dups_len (l : list nat) : NoDup l -> length (remove_dups l) = length l.
Proof. intros H. apply Permutation_length, NoDup_Permutation; [apply NoDup_remove_dups|done|]. intros x. apply elem_of_remove_dups. Qed.

(** ** The message and its parts. *)
Definition packet (rows : list nat) (f : nat -> list nat) : list nat := length rows :: map length (map f rows) ++ rows ++ concat (map f rows).
Lemma serialize_ok rows o lg f : (forall k, k ∈ rows -> lg_row lg (getLocalIndex o k) = Ok (f k)) -> serializeSharedGraph rows o lg = Ok (packet rows f).
Proof.
  intros H. unfold serializeSharedGraph. rewrite (map_res_ok _ f) by done. rewrite bind_ok. cbv zeta. fold (packet rows f).
  assert (E : length (packet rows f) =? sum (map length (map f rows)) + 2 * length rows + 1 = true). { apply Nat.eqb_eq. unfold packet. cbn [length]. rewrite !app_length, concat_len, !map_length. lia. }
  rewrite E. change (throwing_assert true) with (Ok tt). by rewrite bind_ok.
Qed.
Lemma packet_parse rows f : length (packet rows f) = 2 * length rows + 1 + length (concat (map f rows)) /\ take (length rows) (drop 1 (packet rows f)) = map length (map f rows) /\ take (length rows) (drop (1 + length rows) (packet rows f)) = rows /\
  forall i k, rows !! i = Some k -> exists off, exclusive_scan (2 * length rows + 1) (map length (map f rows)) !! i = Some off /\ map length (map f rows) !! i = Some (length (f k)) /\ off + length (f k) <= length (packet rows f) /\ take (length (f k)) (drop off (packet rows f)) = f k.
Proof.
  assert (Hl : length (map length (map f rows)) = length rows) by (by rewrite !map_length). assert (Hlen : length (packet rows f) = 2 * length rows + 1 + length (concat (map f rows))) by (unfold packet; cbn [length]; rewrite !app_length, Hl; lia).
  split; [done|]. split; [|split].
  - unfold packet. cbn [drop]. rewrite drop_0. rewrite <- Hl at 1. apply take_app.
  - unfold packet. change (drop (1 + length rows) (?a :: ?l)) with (drop (length rows) l). rewrite (drop_app_alt (map length (map f rows))) by done. apply take_app.
  - intros i k Hk. assert (Hi : i < length rows) by (by eapply lookup_lt_Some). assert (Hf : map f rows !! i = Some (f k)) by (change (map f rows) with (f <$> rows); by rewrite list_lookup_fmap, Hk).
    exists (2 * length rows + 1 + offset (map f rows) i). split; [|split; [|split]].
    + rewrite exclusive_scan_lookup by (by rewrite Hl). unfold offset. by rewrite firstn_map.
    + change (map length (map f rows)) with (length <$> map f rows). by rewrite list_lookup_fmap, Hf.
    + rewrite Hlen. pose proof (offset_lt (map f rows) i (f k) Hf). lia.
    + replace (2 * length rows + 1 + offset (map f rows) i) with (length (length rows :: map length (map f rows) ++ rows) + offset (map f rows) i) by (cbn [length]; rewrite app_length, Hl; lia).
      unfold packet. rewrite (app_assoc (map length (map f rows)) rows). change (length rows :: (?a ++ rows) ++ ?c) with ((length rows :: a ++ rows) ++ c). rewrite <- drop_drop, drop_app. by apply concat_slice.
Qed.

Section rank.
  Context (o : ownership) (lg : local_graph) (mine : nat -> list nat) (rows_of : nat -> list nat) (ent : nat -> nat -> list nat).
  Context (Hrows : forall s, NoDup (rows_of s) /\ forall k, k ∈ rows_of s -> lg_row lg (getLocalIndex o k) = Ok (mine k) /\ StronglySorted lt (mine k) /\ StronglySorted lt (ent s k)).
  (** Entries collected from the ranks [done]. *)
  Definition collected (done : list nat) (cur : list (nat * list nat)) : Prop := NoDup cur.*1 /\ forall k, match hm_find k cur with
    | None => forall s, s ∈ done -> k ∉ rows_of s
    | Some l => (exists s, s ∈ done /\ k ∈ rows_of s) /\ StronglySorted lt l /\ forall c, c ∈ l <-> c ∉ mine k /\ exists s, s ∈ done /\ k ∈ rows_of s /\ c ∈ ent s k end.
  Lemma append_ok sc done cur s : (forall l, s_append sc l ≡ₚ l) -> collected done cur ->
    exists cur', appendSharedFromSerial sc (packet (rows_of s) (ent s)) lg o cur = Ok cur' /\ collected (done ++ [s]) cur'.
  Proof.
    intros Hsc [Hn Hcur]. destruct (Hrows s) as [Hnd Hr]. set (rows := rows_of s) in *. set (f := ent s) in *. destruct (packet_parse rows f) as (P1 & P2 & P3 & P4). set (pk := packet rows f) in *. unfold appendSharedFromSerial.
    assert (E0 : negb (length pk =? 0) = true) by (rewrite P1; destruct (Nat.eqb_spec (2 * length rows + 1 + length (concat (map f rows))) 0); [lia|done]). rewrite E0. change (throwing_assert true) with (Ok tt). rewrite bind_ok.
    assert (E1 : rd pk 0 = Ok (length rows)) by done. rewrite E1, bind_ok. cbv zeta.
    rewrite (proj2 (Nat.leb_le _ _)) by (rewrite P1; lia). change (throwing_assert true) with (Ok tt). rewrite bind_ok. rewrite P2, P3.
    set (offs := exclusive_scan (2 * length rows + 1) (map length (map f rows))) in *. set (sizes := map length (map f rows)) in *.
    assert (E2 : forallb (fun z : nat * nat => z.1 + z.2 <=? length pk) (zip offs sizes) = true).
    { apply forallb_forall. intros [a b] Hz%elem_of_list_In. apply zip_lookup_in in Hz as (i & Ha & Hb). assert (Hi : i < length rows) by (apply lookup_lt_Some in Hb; unfold sizes in Hb; by rewrite !map_length in Hb).
      destruct (lookup_lt_is_Some_2 rows i Hi) as [k Hk]. destruct (P4 i k Hk) as (off & Q1 & Q2 & Q3 & _). assert (off = a) as -> by congruence. assert (b = length (f k)) as -> by congruence. by apply Nat.leb_le. }
    rewrite E2. change (throwing_assert true) with (Ok tt). rewrite bind_ok. rewrite remove_dups_len by done. rewrite Nat.eqb_refl. change (throwing_assert true) with (Ok tt). rewrite bind_ok.
    destruct (touch_ok rows cur Hn) as [T1 T2]. set (cur0 := foldl _ cur rows) in *. set (order := s_append sc _).
    assert (Hz : forall z, z ∈ order -> z.1 ∈ rows /\ take z.2.2 (drop z.2.1 pk) = f z.1).
    { intros [k [a b]] Hin. unfold order in Hin. rewrite Hsc in Hin. apply elem_of_list_lookup in Hin as [i Hi]. apply lookup_zip_with_Some in Hi as (k' & ab & [= <- <-] & Hk & Hab). apply lookup_zip_with_Some in Hab as (a' & b' & [= <- <-] & Ha & Hb).
      destruct (P4 i k Hk) as (off & Q1 & Q2 & Q3 & Q4). cbn [fst snd]. split; [by eapply elem_of_list_lookup_2|]. assert (off = a) as -> by congruence. assert (b = length (f k)) as -> by congruence. done. }
    assert (Hord : order.*1 ≡ₚ rows). { unfold order. rewrite Hsc. rewrite fst_zip; [done|]. rewrite zip_with_length. unfold offs, sizes. rewrite exclusive_scan_length, !map_length. lia. }
    set (new := fun k => match hm_find k cur with Some old => let e := old ++ set_difference (f k) (mine k) in if length old =? 0 then e else sortRemoveDup e | None => set_difference (f k) (mine k) end).
    destruct (for_each_inv (insert_entries pk lg o) (fun pre c => c.*1 = cur0.*1 /\ forall k, hm_find k c = if decide (k ∈ pre.*1) then Some (new k) else hm_find k cur0) order [] cur0) as (cur' & E & H1 & H2).
    - split; [done|]. intros k. rewrite decide_False by apply not_elem_of_nil. done.
    - intros pre [k [a b]] c [post Hpp] [Hk Hf]. cbn [app] in Hpp. assert (Hin : (k, (a, b)) ∈ order) by (rewrite Hpp; set_solver). destruct (Hz _ Hin) as [Hkr Hs]. cbn [fst snd] in Hkr, Hs.
      assert (Hnew : k ∉ pre.*1). { assert (Hno : NoDup order.*1) by (by rewrite Hord). rewrite Hpp, fmap_app in Hno. apply NoDup_app in Hno as (_ & Hno & _). intros Hi. apply (Hno k Hi). rewrite fmap_cons. left. }
      unfold insert_entries. cbn [fst snd]. destruct (Hr k Hkr) as (-> & _ & _). rewrite bind_ok. cbv zeta. rewrite Hf, decide_False by done. rewrite T2. rewrite Hs.
      assert (Hval : exists old, match hm_find k cur with Some l => Some l | None => if decide (k ∈ rows) then Some [] else None end = Some old /\ (if length old =? 0 then old ++ set_difference (f k) (mine k) else sortRemoveDup (old ++ set_difference (f k) (mine k))) = new k).
      { unfold new. destruct (hm_find k cur) as [old|]; [by exists old|]. rewrite decide_True by done. by exists []. }
      destruct Hval as (old & Eo & En). rewrite Eo, bind_ok, En. eexists. split; [reflexivity|]. split; [by rewrite keys_rm_set|]. intros k'. rewrite hm_find_rm_set. destruct (decide (k' = k)) as [-> |Hne].
      + rewrite Hf, decide_False by done. rewrite T2, Eo. rewrite decide_True; [done|]. rewrite fmap_app. set_solver.
      + rewrite Hf. destruct (decide (k' ∈ pre.*1)); [rewrite decide_True by (rewrite fmap_app; set_solver); done|]. rewrite decide_False; [done|]. rewrite fmap_app. cbn. rewrite elem_of_app, elem_of_list_singleton. tauto.
    - cbn [app] in H2. exists cur'. split; [done|]. split; [by rewrite H1|]. intros k. rewrite H2. assert (Hd : k ∈ order.*1 <-> k ∈ rows) by (by rewrite Hord).
      specialize (Hcur k). destruct (decide (k ∈ order.*1)) as [Hi|Hi].
      + apply Hd in Hi. destruct (Hr k Hi) as (_ & Hm & He). split; [exists s; split; [set_solver|done]|]. unfold new. destruct (hm_find k cur) as [old|] eqn:Eo.
        * destruct Hcur as (Hex & Hst & Hel). cbv zeta. assert (Hone : old <> [] -> length old =? 0 = false) by (intros; by destruct old). destruct old as [|x old].
          -- cbn [length Nat.eqb app]. split; [by apply set_difference_sorted|]. intros c. rewrite set_difference_elem by done. split.
             ++ intros [Hc Hnc]. split; [done|]. exists s. split; [set_solver|done].
             ++ intros [Hnc (s' & Hs' & Hk' & Hc)]. split; [|done]. apply elem_of_app in Hs' as [Hs'|Hs']; [|apply elem_of_list_singleton in Hs' as ->; done]. assert (Hbad : c ∈ @nil nat) by (apply Hel; split; [done|]; by exists s'). by apply elem_of_nil in Hbad.
          -- rewrite Hone by done. unfold sortRemoveDup. split; [apply unique_strict, sort_sorted|]. intros c. rewrite unique_elem, sort_elem, elem_of_app, Hel, set_difference_elem by done. split.
             ++ intros [[Hnc (s' & Hs' & Hk' & Hc)]|[Hc Hnc]]; (split; [done|]); [exists s'|exists s]; (split; [set_solver|done]).
             ++ intros [Hnc (s' & Hs' & Hk' & Hc)]. apply elem_of_app in Hs' as [Hs'|Hs']; [left; split; [done|]; by exists s'|]. apply elem_of_list_singleton in Hs' as ->. by right.
        * split; [by apply set_difference_sorted|]. intros c. rewrite set_difference_elem by done. split.
          -- intros [Hc Hnc]. split; [done|]. exists s. split; [set_solver|done].
          -- intros [Hnc (s' & Hs' & Hk' & Hc)]. split; [|done]. apply elem_of_app in Hs' as [Hs'|Hs']; [by destruct (Hcur s' Hs')|]. apply elem_of_list_singleton in Hs' as ->. done.
      + rewrite T2. assert (Hi' : k ∉ rows) by (by rewrite <- Hd). destruct (hm_find k cur) as [old|] eqn:Eo.
        * destruct Hcur as ((s' & Hs' & Hk') & Hst & Hel). split; [exists s'; split; [set_solver|done]|]. split; [done|]. intros c. rewrite Hel. split; intros [Hnc (s1 & Hs1 & Hk1 & Hc)]; (split; [done|]); exists s1; (split; [|done]); [set_solver|]. apply elem_of_app in Hs1 as [Hs1|Hs1]; [done|]. apply elem_of_list_singleton in Hs1 as ->. done.
        * rewrite decide_False by done. intros s' Hs'. apply elem_of_app in Hs' as [Hs'|Hs']; [by apply Hcur|]. apply elem_of_list_singleton in Hs' as ->. done.
  Qed.
End rank.
