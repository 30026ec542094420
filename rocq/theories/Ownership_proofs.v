From Verif Require Import Base StdAlgo Ownership_model Ownership_spec.

(** ** C07 *)
Lemma isOwned_spec so i : isOwned so i = true <-> so_begin so <= i < so_end so.
Proof.
  unfold isOwned. rewrite andb_true_iff, Nat.leb_le, Nat.ltb_lt. reflexivity.
Qed.
Lemma make_throw b n sh :
  make_ownership b n sh = Throw <-> exists i, i ∈ sh /\ b <= i < b + n.
Proof.
  unfold make_ownership, throwing_assert.
  destruct (forallb _ sh) eqn:E; cbn.
  - split; [discriminate|]. intros (i & Hi & Hr). rewrite forallb_forall in E.
    specialize (E i (proj1 (elem_of_list_In _ _) Hi)). rewrite negb_true_iff in E.
    apply not_true_iff_false in E. destruct E. apply isOwned_spec. exact Hr.
  - split; [intros _|reflexivity]. apply not_true_iff_false in E.
    destruct (decide (Exists (fun i => b <= i < b + n) sh)) as [H|H].
    + apply Exists_exists in H. exact H.
    + exfalso. apply E. rewrite forallb_forall. intros i Hi%elem_of_list_In.
      apply negb_true_iff, not_true_iff_false. intros Ho%isOwned_spec. apply H.
      apply Exists_exists. eauto.
Qed.
Lemma make_inv b n sh so :
  make_ownership b n sh = Ok so ->
  so = {| so_begin := b; so_end := b + n; so_shared := sort sh |}
  /\ forall i, i ∈ sh -> ~ (b <= i < b + n).
Proof.
  intros H. split.
  - unfold make_ownership in H. apply bind_inv in H. destruct H as (_ & _ & H).
    injection H as <-. reflexivity.
  - intros i Hi Hr. assert (make_ownership b n sh = Throw) by (apply make_throw; eauto). congruence.
Qed.
Lemma make_total b n sh : make_ownership b n sh <> UB.
Proof. unfold make_ownership, throwing_assert. destruct (forallb _ _); cbn; congruence. Qed.

Lemma make_bijection b n sh so :
  NoDup sh -> make_ownership b n sh = Ok so ->
  exists ids : list nat,
    localSize so = length ids
    /\ (forall lid, getGlobalIndex so lid = match ids !! lid with Some g => Ok g | None => UB end)
    /\ (forall lid g, ids !! lid = Some g <-> (getLocalIndex so g = lid /\ g ∈ ids))
    /\ NoDup ids /\ take n ids = seq b n /\ drop n ids ≡ₚ sh
    /\ (forall g, isOwned so g = true <-> b <= g < b + n)
    /\ (forall g, isShared so g = true <-> g ∈ sh).
Proof.
  intros Hn H. apply make_inv in H. destruct H as (-> & Hd).
  set (so := {| so_begin := b; so_end := b + n; so_shared := sort sh |}).
  assert (Hno : numOwned so = n) by (unfold numOwned; cbn; lia).
  exists (seq b n ++ sort sh).
  assert (Hnd : NoDup (seq b n ++ sort sh)).
  { apply NoDup_app. split; [apply NoDup_ListNoDup, seq_NoDup|].
    split; [|apply sort_nodup; exact Hn].
    intros x Hx Hs. rewrite sort_elem in Hs. apply elem_of_list_In, in_seq in Hx.
    apply (Hd x Hs). lia. }
  assert (Hloc : forall lid g, (seq b n ++ sort sh) !! lid = Some g -> getLocalIndex so g = lid).
  { intros lid g Hg. unfold getLocalIndex. rewrite Hno.
    apply lookup_app_Some in Hg. rewrite seq_length in Hg. destruct Hg as [Hg|[Hlen Hg]].
    - apply lookup_seq in Hg. destruct Hg as [-> Hl].
      replace (isOwned so (b + lid)) with true; [cbn; lia|].
      symmetry. apply isOwned_spec. cbn. lia.
    - assert (Ho : isOwned so g = false).
      { apply not_true_iff_false. intros Ho%isOwned_spec. cbn in Ho. apply (Hd g); [|lia].
        apply sort_elem. eapply elem_of_list_lookup_2; eauto. }
      rewrite Ho. unfold so. cbn [so_shared]. rewrite (lower_bound_elem _ _ (lid - n)); [lia|apply sort_sorted|apply sort_nodup, Hn|exact Hg]. }
  repeat split.
  - unfold localSize. rewrite Hno, app_length, seq_length. reflexivity.
  - intros lid. unfold getGlobalIndex. rewrite Hno. destruct (lid <? n) eqn:E.
    + apply Nat.ltb_lt in E. rewrite lookup_app_l by (rewrite seq_length; lia).
      rewrite lookup_seq_lt by lia. reflexivity.
    + apply Nat.ltb_ge in E. rewrite lookup_app_r by (rewrite seq_length; lia).
      rewrite seq_length. unfold so; cbn [so_shared]. unfold rd. destruct (sort sh !! (lid - n)); reflexivity.
  - apply Hloc. exact H.
  - eapply elem_of_list_lookup_2; eauto.
  - intros [Hl Hin]. apply elem_of_list_lookup_1 in Hin. destruct Hin as [i Hi].
    rewrite <- (Hloc _ _ Hi) in Hi. congruence.
  - exact Hnd.
  - rewrite take_app_le by (rewrite seq_length; lia). rewrite take_ge by (rewrite seq_length; lia). reflexivity.
  - rewrite drop_app_ge by (rewrite seq_length; lia). rewrite seq_length, Nat.sub_diag, drop_0. apply sort_perm.
  - apply isOwned_spec in H. cbn in H. lia.
  - apply isOwned_spec in H. cbn in H. lia.
  - intros ?. apply isOwned_spec. cbn. lia.
  - unfold isShared. cbn. rewrite binary_search_spec by apply sort_sorted. apply sort_elem.
  - unfold isShared. cbn. rewrite binary_search_spec by apply sort_sorted. apply sort_elem.
Qed.

(** ** C08 *)
Lemma first_owned_sum counts r : first_owned counts r = sum (take r counts).
Proof. reflexivity. Qed.
Lemma owns_unique counts r r' i : owns counts r i -> owns counts r' i -> r = r'.
Proof.
  intros (c & Hc & H) (c' & Hc' & H'). rewrite !first_owned_sum in *.
  destruct (lt_eq_lt_dec r r') as [[L|L]|L]; [|exact L|]; exfalso.
  - pose proof (sum_take_mono counts (S r) r' L). rewrite (sum_take_S _ _ _ Hc) in *. lia.
  - pose proof (sum_take_mono counts (S r') r L). rewrite (sum_take_S _ _ _ Hc') in *. lia.
Qed.
Lemma get_owner_spec counts i :
  i < total counts -> owns counts (get_owner (getOwnershipDist counts) i) i.
Proof.
  intros Hi. unfold get_owner, getOwnershipDist.
  destruct (upper_bound_spec (inclusive_scan 0 counts) i (inclusive_scan_sorted _ _)) as (A & B & C).
  set (r := upper_bound _ _) in *. clearbody r. rewrite inclusive_scan_length in A.
  assert (Hr : r < length counts).
  { destruct (decide (r < length counts)); [assumption|]. exfalso.
    assert (r = length counts) by lia.
    destruct counts as [|c0 cs] eqn:Ec; [cbn in Hi; lia|]. rewrite <- Ec in *.
    assert (Hl : length counts - 1 < length counts) by (rewrite Ec; cbn; lia).
    destruct (lookup_lt_is_Some_2 counts _ Hl) as [c Hc].
    pose proof (inclusive_scan_lookup 0 _ _ _ Hc) as Hs.
    specialize (B _ _ Hs ltac:(lia)). rewrite sum_take_all in B by lia.
    unfold total in Hi. unfold sum in B. lia. }
  destruct (lookup_lt_is_Some_2 counts r Hr) as [c Hc].
  exists c. split; [exact Hc|]. rewrite first_owned_sum.
  pose proof (inclusive_scan_lookup 0 _ _ _ Hc) as Hs. rewrite (sum_take_S _ _ _ Hc) in Hs.
  specialize (C _ _ Hs ltac:(lia)). split; [|lia].
  destruct r as [|r']; [rewrite take_0; cbn; lia|].
  destruct (lookup_lt_is_Some_2 counts r' ltac:(lia)) as [c' Hc'].
  pose proof (inclusive_scan_lookup 0 _ _ _ Hc') as Hs'. specialize (B _ _ Hs' ltac:(lia)). lia.
Qed.
Lemma get_owner_iff counts i r :
  i < total counts -> (get_owner (getOwnershipDist counts) i = r <-> owns counts r i).
Proof.
  intros Hi. pose proof (get_owner_spec counts i Hi) as H. split; [intros <-; exact H|].
  intros Hr. eapply owns_unique; eauto.
Qed.
Lemma owns_lt counts r i : owns counts r i -> r < length counts.
Proof. intros (c & Hc & _). apply lookup_lt_Some in Hc. exact Hc. Qed.
Lemma owns_total counts r i : owns counts r i -> i < total counts.
Proof.
  intros (c & Hc & H). rewrite first_owned_sum in H. unfold total.
  change (i < sum counts). pose proof (sum_take_S _ _ _ Hc). pose proof (sum_take_le counts (S r)). lia.
Qed.

(** ** C09: out-neighbour tables *)
(** Table with entries for the ranks in [a, a+n) whose list is non-empty. *)
Definition info (a n : nat) (f : nat -> list nat) : nbr_info :=
  omap (fun r => match f r with [] => None | l => Some (r, l) end) (seq a n).
Lemma info_keys a n f x : x ∈ info a n f -> a <= x.1 < a + n /\ x.2 = f x.1 /\ f x.1 <> [].
Proof.
  unfold info. rewrite elem_of_list_omap. intros (r & Hr & H).
  apply elem_of_list_In, in_seq in Hr. destruct (f r) eqn:E; [discriminate|]. injection H as <-.
  cbn. rewrite E. auto.
Qed.
Lemma info_elem a n f r l : (r, l) ∈ info a n f <-> a <= r < a + n /\ l = f r /\ l <> [].
Proof.
  split.
  - intros H. apply info_keys in H. cbn in H. destruct H as (? & -> & ?). auto.
  - intros (H & -> & Hne). unfold info. apply elem_of_list_omap. exists r. split.
    + apply elem_of_list_In, in_seq. lia.
    + destruct (f r); [contradiction|reflexivity].
Qed.
Lemma info_ext a n f g : (forall r, a <= r < a + n -> f r = g r) -> info a n f = info a n g.
Proof.
  unfold info. revert a. induction n as [|n IH]; intros a H; [reflexivity|]. cbn.
  rewrite (H a) by lia. destruct (g a); rewrite IH; auto; intros; apply H; lia.
Qed.
Lemma map_push_info a n f k v :
  a <= k < a + n ->
  map_push k v (info a n f) = info a n (fun r => if r =? k then f r ++ [v] else f r).
Proof.
  revert a. induction n as [|n IH]; intros a Hk; [lia|]. unfold info. cbn [seq].
  cbn [omap list_omap].
  destruct (decide (a = k)) as [->|Hne].
  - rewrite Nat.eqb_refl. fold (info (S k) n f). fold (info (S k) n (fun r => if r =? k then f r ++ [v] else f r)).
    rewrite (info_ext (S k) n (fun r => if r =? k then f r ++ [v] else f r) f).
    2:{ intros r Hr. destruct (r =? k) eqn:E; [apply Nat.eqb_eq in E; lia|reflexivity]. }
    destruct (f k) as [|x l] eqn:Ef; cbn [app].
    + destruct (info (S k) n f) as [|[k' l'] m] eqn:Ei; [reflexivity|]. cbn [map_push].
      assert (Hk' : S k <= k') .
      { assert (Hin : (k', l') ∈ info (S k) n f) by (rewrite Ei; left). apply info_keys in Hin. cbn in Hin. lia. }
      replace (k <? k') with true by (symmetry; apply Nat.ltb_lt; lia). reflexivity.
    + cbn [map_push]. rewrite Nat.ltb_irrefl, Nat.eqb_refl. reflexivity.
  - fold (info (S a) n f). fold (info (S a) n (fun r => if r =? k then f r ++ [v] else f r)).
    replace (a =? k) with false by (symmetry; apply Nat.eqb_neq; exact Hne).
    destruct (f a) as [|x l] eqn:Ef.
    + apply IH. lia.
    + cbn [map_push]. replace (k <? a) with false by (symmetry; apply Nat.ltb_ge; lia).
      replace (k =? a) with false by (symmetry; apply Nat.eqb_neq; lia). f_equal. apply IH. lia.
Qed.
Lemma foldl_map_push P (own : nat -> nat) l f :
  Forall (fun s => own s < P) l ->
  foldl (fun m s => map_push (own s) s m) (info 0 P f) l
  = info 0 P (fun r => f r ++ List.filter (fun s => own s =? r) l).
Proof.
  revert f. induction l as [|s l IH]; intros f H; cbn [foldl List.filter].
  - apply info_ext. intros. rewrite app_nil_r. reflexivity.
  - inversion H; subst. rewrite map_push_info by lia. rewrite IH by assumption.
    apply info_ext. intros r Hr. rewrite (Nat.eqb_sym r).
    destruct (own s =? r); [rewrite <- app_assoc; reflexivity|reflexivity].
Qed.
Lemma info_nil a n : info a n (fun _ => []) = [].
Proof. revert a. induction n; intros; [reflexivity|]. unfold info in *. cbn. apply IHn. Qed.
(** The out table of a rank: for each owner, my shared ids it owns, ascending. *)
Lemma out_nbr_spec counts so :
  Forall (fun s => s < total counts) (so_shared so) ->
  computeOutNbrInfo so (getOwnershipDist counts)
  = info 0 (length counts)
      (fun r => List.filter (fun s => get_owner (getOwnershipDist counts) s =? r) (so_shared so)).
Proof.
  intros H. unfold computeOutNbrInfo. rewrite <- (info_nil 0 (length counts)).
  rewrite foldl_map_push.
  - apply info_ext. reflexivity.
  - eapply Forall_impl; [exact H|]. intros s Hs. eapply owns_lt, get_owner_spec, Hs.
Qed.

(** ** C09: the exchange.  General over tables with keys in range, no key twice. *)
Definition tables_ok (outs : list nbr_info) : Prop :=
  forall r m, outs !! r = Some m -> NoDup m.*1 /\ Forall (fun k => k < length outs) m.*1.

Definition msg_of (outs : list nbr_info) (s r : nat) (ids : list nat) : Prop :=
  exists m, outs !! s = Some m /\ (r, ids) ∈ m.
Lemma msg_of_fun outs s r ids ids' : tables_ok outs -> msg_of outs s r ids -> msg_of outs s r ids' -> ids = ids'.
Proof.
  intros Hok (m & Hm & H) (m' & Hm' & H'). assert (m = m') by congruence. subst m'.
  destruct (Hok _ _ Hm) as [Hnd _].
  apply elem_of_list_lookup_1 in H. apply elem_of_list_lookup_1 in H'.
  destruct H as [i Hi], H' as [j Hj].
  assert (i = j).
  { eapply NoDup_lookup; [exact Hnd| |]; rewrite list_lookup_fmap; [rewrite Hi|rewrite Hj]; reflexivity. }
  subst. congruence.
Qed.
Lemma in_nbr_keys_elem outs r s : s ∈ in_nbr_keys outs r <-> exists ids, msg_of outs s r ids.
Proof.
  unfold in_nbr_keys. rewrite elem_of_list_In, filter_In. split.
  - intros [Hs H]. destruct (outs !! s) as [m|] eqn:E; [|discriminate].
    apply bool_decide_eq_true in H. apply elem_of_list_fmap in H. destruct H as ([k ids] & -> & H).
    exists ids, m. auto.
  - intros (ids & m & Hm & Hin). apply lookup_lt_Some in Hm as Hl.
    split; [apply in_seq; lia|]. cbn beta. rewrite Hm. apply bool_decide_eq_true.
    apply elem_of_list_fmap. exists (r, ids). auto.
Qed.
Lemma in_nbr_keys_nodup outs r : NoDup (in_nbr_keys outs r).
Proof. unfold in_nbr_keys. apply NoDup_ListNoDup, List.NoDup_filter, seq_NoDup. Qed.


(** Permutation lemmas for tables indexed by rank. *)
Lemma concat_imap_insert {X Y} (f : nat -> X -> list Y) (l : list X) r x :
  l !! r = Some x ->
  exists rest, concat (imap f l) ≡ₚ f r x ++ rest
    /\ forall x', concat (imap f (<[r := x']> l)) ≡ₚ f r x' ++ rest.
Proof.
  intros H. exists (concat (imap f (take r l)) ++ concat (imap (fun n => f (S (r + n))) (drop (S r) l))).
  pose proof (lookup_lt_Some _ _ _ H) as Hl.
  assert (G : forall x', concat (imap f (<[r := x']> l)) ≡ₚ f r x' ++ concat (imap f (take r l)) ++
            concat (imap (fun n => f (S (r + n))) (drop (S r) l))).
  { intros x'. rewrite insert_take_drop by exact Hl. rewrite imap_app, imap_cons, concat_app. cbn [concat].
    rewrite take_length, Nat.min_l by lia. rewrite Nat.add_0_r.
    rewrite (imap_ext ((fun n => f (r + n)) ∘ S) (fun n => f (S (r + n)))).
    2:{ intros i y _. unfold compose. f_equal. lia. }
    rewrite !app_assoc. apply Permutation_app_tail, Permutation_app_comm. }
  split; [|exact G]. rewrite <- (G x). rewrite list_insert_id by exact H. reflexivity.
Qed.
Lemma elem_of_concat_imap {X Y} (f : nat -> X -> list Y) (l : list X) y :
  y ∈ concat (imap f l) <-> exists r x, l !! r = Some x /\ y ∈ f r x.
Proof.
  rewrite elem_of_concat. split.
  - intros (l' & Hy & Hl). apply elem_of_lookup_imap_1 in Hl. destruct Hl as (r & x & -> & Hx). eauto.
  - intros (r & x & Hx & Hy). exists (f r x). split; [exact Hy|]. eapply elem_of_lookup_imap_2; eauto.
Qed.
Lemma NoDup_concat_imap {X Y} (f : nat -> X -> list Y) (l : list X) :
  (forall r x, l !! r = Some x -> NoDup (f r x)) ->
  (forall r r' x x' y, r <> r' -> l !! r = Some x -> l !! r' = Some x' -> y ∈ f r x -> y ∉ f r' x') ->
  NoDup (concat (imap f l)).
Proof.
  revert f. induction l as [|a l IH]; intros f H1 H2; [constructor|].
  rewrite imap_cons. cbn [concat]. apply NoDup_app. split; [|split].
  - apply (H1 0). reflexivity.
  - intros y Hy Hc. apply elem_of_concat_imap in Hc. destruct Hc as (r & x & Hx & Hy').
    unfold compose in Hy'. apply (H2 0 (S r) a x y); auto.
  - apply IH; unfold compose.
    + intros r x Hx. apply (H1 (S r)). exact Hx.
    + intros r r' x x' y Hr Hx Hx' Hy. apply (H2 (S r) (S r') x x' y); auto.
Qed.

Notation msg := (nat * nat * list nat)%type.
Definition out_msgs (r : nat) (m : nbr_info) : list msg := map (fun e => (r, e.1, e.2)) m.
Definition all_msgs (outs : list nbr_info) : list msg := concat (imap out_msgs outs).
Definition pend_of (r : nat) (x : nx_rank) : list msg := out_msgs r (nx_to_send x).
Definition got_of (r : nat) (x : nx_rank) : list msg :=
  omap (fun e => match e.2 with Some ids => Some (e.1, r, ids) | None => None end) (nx_recv x).
Definition pend st := concat (imap pend_of (nx_ranks st)).
Definition got st := concat (imap got_of (nx_ranks st)).

Lemma all_msgs_elem outs s r ids : (s, r, ids) ∈ all_msgs outs <-> msg_of outs s r ids.
Proof.
  unfold all_msgs. rewrite elem_of_concat_imap. split.
  - intros (k & m & Hm & H). unfold out_msgs in H. apply elem_of_list_fmap in H.
    destruct H as ([d i] & E & H). cbn in E. injection E as -> -> ->. exists m. auto.
  - intros (m & Hm & H). exists s, m. split; [exact Hm|]. apply elem_of_list_fmap. exists (r, ids). auto.
Qed.
Lemma all_msgs_nodup outs : tables_ok outs -> NoDup (map fst (all_msgs outs)).
Proof.
  intros Hok. unfold all_msgs. change (@map msg (nat * nat) fst) with (@fmap list _ msg (nat*nat) (@fst (nat*nat) (list nat))).
  assert (E : (concat (imap out_msgs outs)).*1 = concat (imap (fun r m => map (fun k => (r, k)) (m.*1)) outs)).
  { unfold out_msgs.
    assert (G : forall (l : list nbr_info) (b : nat), (concat (imap (fun r m => map (fun e => (b + r, e.1, e.2)) m) l)).*1
        = concat (imap (fun r m => map (fun k => (b + r, k)) (m.*1)) l)).
    { induction l as [|a l IH]; intros b; [reflexivity|]. rewrite !imap_cons. cbn [concat]. rewrite fmap_app. f_equal.
      - rewrite <- !list_fmap_compose. induction a as [|e a IHa]; cbn; congruence.
      - specialize (IH (S b)). unfold compose.
        rewrite (imap_ext _ (fun r m => map (fun e => (S b + r, e.1, e.2)) m)) by (intros; rewrite Nat.add_succ_r; reflexivity).
        rewrite IH. f_equal. apply imap_ext. intros. rewrite Nat.add_succ_r. reflexivity. }
    apply (G outs 0). }
  rewrite E. apply NoDup_concat_imap.
  - intros r m Hm. destruct (Hok _ _ Hm) as [Hnd _]. apply (NoDup_fmap_2 (fun k => (r, k))). exact Hnd.
  - intros r r' m m' y Hr _ _ Hy Hy'. apply elem_of_list_fmap in Hy, Hy'.
    destruct Hy as (? & -> & _), Hy' as (? & ? & _). congruence.
Qed.

Record nx_inv (outs : list nbr_info) (st : nx_state) : Prop := {
  nxi_len : length (nx_ranks st) = length outs;
  nxi_keys : forall r x, nx_ranks st !! r = Some x -> (nx_recv x).*1 = in_nbr_keys outs r;
  nxi_all : pend st ++ nx_net st ++ got st ≡ₚ all_msgs outs }.

Lemma map_fst_none (l : list nat) : (map (fun s => (s, @None (list nat))) l).*1 = l.
Proof. induction l; cbn; congruence. Qed.
Lemma nx_inv_init outs : nx_inv outs (nx_init outs).
Proof.
  split.
  - apply imap_length.
  - cbn. intros r x H. rewrite list_lookup_imap in H. destruct (outs !! r); [|discriminate].
    injection H as <-. cbn. apply map_fst_none.
  - assert (Hg : got (nx_init outs) = []).
    { destruct (got (nx_init outs)) as [|y l] eqn:E; [reflexivity|]. exfalso.
      assert (Hy : y ∈ got (nx_init outs)) by (rewrite E; left).
      unfold got in Hy. apply elem_of_concat_imap in Hy. destruct Hy as (r & x & Hx & Hy). cbn in Hx.
      rewrite list_lookup_imap in Hx. destruct (outs !! r); [|discriminate]. injection Hx as <-.
      unfold got_of in Hy. cbn in Hy. apply elem_of_list_omap in Hy. destruct Hy as (e & He & Hs).
      apply elem_of_list_fmap in He. destruct He as (? & -> & _). discriminate. }
    rewrite Hg, !app_nil_r. unfold pend, all_msgs, pend_of, nx_init. cbn [nx_ranks].
    assert (E : imap (fun r x => out_msgs r (nx_to_send x))
        (imap (fun r out => {| nx_to_send := out; nx_recv := map (fun s => (s, None)) (in_nbr_keys outs r) |}) outs)
        = imap out_msgs outs).
    { apply list_eq. intros i. rewrite !list_lookup_imap. destruct (outs !! i); reflexivity. }
    rewrite E. reflexivity.
Qed.
Lemma omap_insert_none {X Y} (f : X -> option Y) (l : list X) i x x' y :
  l !! i = Some x -> f x = None -> f x' = Some y -> omap f (<[i := x']> l) ≡ₚ y :: omap f l.
Proof.
  intros H Hn Hs. pose proof (lookup_lt_Some _ _ _ H) as Hl.
  rewrite insert_take_drop by exact Hl. rewrite <- (take_drop_middle l i x H) at 3.
  rewrite !omap_app. cbn. rewrite Hn, Hs. symmetry. apply Permutation_middle.
Qed.
Lemma nx_step_inv outs st st' :
  nx_inv outs st -> nx_step st st' ->
  nx_inv outs st' /\ 2 * length (pend st') + length (nx_net st') + 1 = 2 * length (pend st) + length (nx_net st).
Proof.
  intros [Hl Hk Ha] Hs. destruct Hs as [st r x d ids rest Hx Hs | st r x i s ids net1 net2 Hx Hs Hi Hnet Hfirst].
  - destruct (concat_imap_insert pend_of _ _ _ Hx) as (R & E1 & E2).
    destruct (concat_imap_insert got_of _ _ _ Hx) as (G & F1 & F2).
    set (x' := {| nx_to_send := rest; nx_recv := nx_recv x |}).
    assert (Hp : pend st ≡ₚ (r, d, ids) :: (pend_of r x' ++ R)).
    { unfold pend. rewrite E1. unfold pend_of. rewrite Hs. reflexivity. }
    set (st' := {| nx_ranks := _; nx_net := _ |}).
    assert (Hp' : pend st' ≡ₚ pend_of r x' ++ R) by apply E2.
    assert (Hg' : got st' ≡ₚ got st) by (unfold got; cbn; rewrite F1; apply (F2 x')).
    split; [split|].
    + cbn. rewrite insert_length. exact Hl.
    + cbn. intros r' y Hy. destruct (decide (r = r')) as [->|Hne].
      * apply lookup_lt_Some in Hx as Hlt. rewrite list_lookup_insert in Hy by exact Hlt. injection Hy as <-.
        apply (Hk _ _ Hx).
      * rewrite list_lookup_insert_ne in Hy by exact Hne. apply (Hk _ _ Hy).
    + rewrite <- Ha, Hp, Hp', Hg'. cbn [nx_net st']. cbn [app].
      rewrite <- (app_assoc (nx_net st)). cbn [app]. rewrite !app_assoc. symmetry.
      apply Permutation_middle.
    + apply Permutation_length in Hp, Hp'. cbn [length] in Hp. change (nx_net st') with (nx_net st ++ [(r, d, ids)]). rewrite app_length. cbn [length]. lia.
  - destruct (concat_imap_insert pend_of _ _ _ Hx) as (R & E1 & E2).
    destruct (concat_imap_insert got_of _ _ _ Hx) as (G & F1 & F2).
    set (x' := {| nx_to_send := []; nx_recv := <[i:=(s, Some ids)]> (nx_recv x) |}).
    set (st' := {| nx_ranks := _; nx_net := _ |}).
    assert (Hp' : pend st' ≡ₚ pend st).
    { unfold pend at 2. rewrite E1. unfold pend, st'. cbn. rewrite E2. unfold pend_of, x'. cbn. rewrite Hs. reflexivity. }
    assert (Hg' : got st' ≡ₚ (s, r, ids) :: got st).
    { unfold got at 2. rewrite F1. unfold got, st'. cbn. rewrite F2. rewrite app_comm_cons. apply Permutation_app_tail.
      unfold got_of, x'. cbn. eapply omap_insert_none; [exact Hi|reflexivity|reflexivity]. }
    split; [split|].
    + cbn. rewrite insert_length. exact Hl.
    + cbn. intros r' y Hy. destruct (decide (r = r')) as [->|Hne].
      * apply lookup_lt_Some in Hx as Hlt. rewrite list_lookup_insert in Hy by exact Hlt. injection Hy as <-.
        cbn. rewrite list_fmap_insert. cbn. rewrite list_insert_id; [apply (Hk _ _ Hx)|].
        rewrite list_lookup_fmap, Hi. reflexivity.
      * rewrite list_lookup_insert_ne in Hy by exact Hne. apply (Hk _ _ Hy).
    + rewrite <- Ha, Hp', Hg'. cbn [nx_net st']. rewrite Hnet.
      apply Permutation_app_head. rewrite <- !app_assoc. apply Permutation_app_head. cbn [app].
      symmetry. apply Permutation_middle.
    + apply Permutation_length in Hp'. change (nx_net st') with (net1 ++ net2). rewrite Hnet, !app_length. cbn [length]. lia.
Qed.
Lemma nx_steps_inv outs n st st' :
  nx_inv outs st -> nsteps nx_step n st st' ->
  nx_inv outs st' /\ n + 2 * length (pend st') + length (nx_net st') = 2 * length (pend st) + length (nx_net st).
Proof.
  intros Hi Hs. induction Hs as [|n st st1 st2 H1 H2 IH]; [split; [assumption|lia]|].
  destruct (nx_step_inv _ _ _ Hi H1) as [Hi1 Hm]. destruct (IH Hi1) as [Hi2 Hm2]. split; [exact Hi2|lia].
Qed.

Lemma got_elem st s r ids :
  (s, r, ids) ∈ got st <-> exists x, nx_ranks st !! r = Some x /\ (s, Some ids) ∈ nx_recv x.
Proof.
  unfold got. rewrite elem_of_concat_imap. split.
  - intros (r' & x & Hx & H). unfold got_of in H. apply elem_of_list_omap in H.
    destruct H as ([s' v] & Hin & H). cbn in H. destruct v; [|discriminate]. injection H as -> -> ->. eauto.
  - intros (x & Hx & H). exists r, x. split; [exact Hx|]. unfold got_of. apply elem_of_list_omap.
    exists (s, Some ids). auto.
Qed.
Lemma pend_elem st s r ids :
  (s, r, ids) ∈ pend st <-> exists x, nx_ranks st !! s = Some x /\ (r, ids) ∈ nx_to_send x.
Proof.
  unfold pend. rewrite elem_of_concat_imap. split.
  - intros (r' & x & Hx & H). unfold pend_of, out_msgs in H. apply elem_of_list_fmap in H.
    destruct H as ([d v] & E & Hin). cbn in E. injection E as -> -> ->. eauto.
  - intros (x & Hx & H). exists s, x. split; [exact Hx|]. apply elem_of_list_fmap. exists (r, ids). auto.
Qed.
Lemma keyed_unique (l : list (nat * option (list nat))) s v v' :
  NoDup l.*1 -> (s, v) ∈ l -> (s, v') ∈ l -> v = v'.
Proof.
  intros Hnd H H'. apply elem_of_list_lookup_1 in H, H'. destruct H as [i Hi], H' as [j Hj].
  assert (i = j). { eapply NoDup_lookup; [exact Hnd| |]; rewrite list_lookup_fmap; [rewrite Hi|rewrite Hj]; reflexivity. }
  subst. congruence.
Qed.
Lemma first_msg (net : list msg) s r ids :
  (s, r, ids) ∈ net -> exists net1 ids' net2, net = net1 ++ (s, r, ids') :: net2
     /\ Forall (fun m => (m.1.1, m.1.2) <> (s, r)) net1.
Proof.
  induction net as [|[[s' r'] i'] net IH]; intros H; [apply elem_of_nil in H; contradiction|].
  destruct (decide ((s', r') = (s, r))) as [E|E].
  - injection E as -> ->. exists [], i', net. split; [reflexivity|constructor].
  - apply elem_of_cons in H. destruct H as [H|H]; [congruence|].
    destruct (IH H) as (n1 & ids' & n2 & -> & Hf). exists ((s', r', i') :: n1), ids', n2.
    split; [reflexivity|]. constructor; auto.
Qed.
(** No deadlock: if nothing can happen every rank has finished. *)
Lemma nx_progress outs st :
  nx_inv outs st -> (exists st', nx_step st st') \/ forall r x, nx_ranks st !! r = Some x -> nx_done x.
Proof.
  intros [Hl Hk Ha].
  destruct (decide (Exists (fun x => nx_to_send x <> []) (nx_ranks st))) as [H|H].
  { left. apply Exists_exists in H. destruct H as (x & Hx & Hne). apply elem_of_list_lookup_1 in Hx.
    destruct Hx as [r Hx]. destruct (nx_to_send x) as [|[d ids] rest] eqn:E; [contradiction|].
    eexists. eapply nx_send; eauto. }
  assert (Hsend : forall r x, nx_ranks st !! r = Some x -> nx_to_send x = []).
  { intros r x Hx. destruct (nx_to_send x) as [|e rest] eqn:E; [reflexivity|]. exfalso.
    apply H. apply Exists_exists. exists x. split; [eapply elem_of_list_lookup_2; eauto|congruence]. }
  destruct (decide (Exists (fun x => Exists (fun e => e.2 = None) (nx_recv x)) (nx_ranks st))) as [H'|H'].
  - left. apply Exists_exists in H'. destruct H' as (x & Hx & He). apply Exists_exists in He.
    destruct He as ([s v] & Hin & Hv). cbn in Hv. subst v.
    apply elem_of_list_lookup_1 in Hx. destruct Hx as [r Hx].
    assert (Hs : s ∈ in_nbr_keys outs r).
    { rewrite <- (Hk _ _ Hx). apply elem_of_list_fmap. exists (s, None). auto. }
    apply in_nbr_keys_elem in Hs. destruct Hs as [ids Hm]. apply all_msgs_elem in Hm.
    rewrite <- Ha in Hm. rewrite !elem_of_app in Hm. destruct Hm as [Hm|[Hm|Hm]].
    + apply pend_elem in Hm. destruct Hm as (y & Hy & Hin'). rewrite (Hsend _ _ Hy) in Hin'. apply elem_of_nil in Hin'. contradiction.
    + apply first_msg in Hm. destruct Hm as (n1 & ids' & n2 & Hn & Hf).
      apply elem_of_list_lookup_1 in Hin. destruct Hin as [i Hi].
      eexists. eapply nx_take; eauto.
    + apply got_elem in Hm. destruct Hm as (y & Hy & Hin'). assert (y = x) by congruence. subst.
      pose proof (keyed_unique _ _ _ _ ltac:(rewrite (Hk _ _ Hx); apply in_nbr_keys_nodup) Hin Hin'). discriminate.
  - right. intros r x Hx. split; [eauto|]. apply Forall_forall. intros e He Hn. apply H'.
    apply Exists_exists. exists x. split; [eapply elem_of_list_lookup_2; eauto|].
    apply Exists_exists. exists e. auto.
Qed.
(** When every rank has finished, the tables are transposes of each other and
    no message is left over. *)
Lemma nx_final outs st :
  tables_ok outs -> nx_inv outs st -> (forall r x, nx_ranks st !! r = Some x -> nx_done x) ->
  nx_net st = [] /\
  forall r x, nx_ranks st !! r = Some x ->
    (nx_result x).*1 = in_nbr_keys outs r
    /\ forall s ids, (s, ids) ∈ nx_result x <-> msg_of outs s r ids.
Proof.
  intros Hok [Hl Hk Ha] Hd.
  assert (Hpend : pend st = []).
  { destruct (pend st) as [|[[s r] ids] l] eqn:E; [reflexivity|]. exfalso.
    assert (H : (s, r, ids) ∈ pend st) by (rewrite E; left). apply pend_elem in H.
    destruct H as (x & Hx & H). destruct (Hd _ _ Hx) as [H' _]. rewrite H' in H. apply elem_of_nil in H. contradiction. }
  assert (Hnet : nx_net st = []).
  { destruct (nx_net st) as [|[[s r] ids] l] eqn:E; [reflexivity|]. exfalso.
    assert (Hall : (s, r, ids) ∈ all_msgs outs).
    { rewrite <- Ha. rewrite !elem_of_app. right; left. left. }
    pose proof (proj1 (all_msgs_elem _ _ _ _) Hall) as Hm.
    assert (Hr : r < length (nx_ranks st)).
    { rewrite Hl. destruct Hm as (m & Hm & Hin). destruct (Hok _ _ Hm) as [_ Hf].
      rewrite Forall_forall in Hf. apply Hf. apply elem_of_list_fmap. exists (r, ids). auto. }
    destruct (lookup_lt_is_Some_2 _ _ Hr) as [x Hx].
    assert (Hs : s ∈ (nx_recv x).*1) by (rewrite (Hk _ _ Hx); apply in_nbr_keys_elem; eauto).
    apply elem_of_list_fmap in Hs. destruct Hs as ([s' v] & Es & Hin). cbn in Es. subst s'.
    destruct (Hd _ _ Hx) as [_ Hf]. rewrite Forall_forall in Hf. specialize (Hf _ Hin). cbn in Hf.
    destruct v as [ids'|]; [|contradiction].
    assert (Hg : (s, r, ids') ∈ got st) by (apply got_elem; eauto).
    pose proof (all_msgs_nodup _ Hok) as Hnd. change (@map msg (nat * nat) fst) with (@fmap list _ msg (nat*nat) (@fst (nat*nat) (list nat))) in Hnd.
    rewrite <- Ha in Hnd. rewrite Hpend in Hnd. cbn [app] in Hnd.
    rewrite fmap_cons in Hnd. apply NoDup_cons in Hnd. destruct Hnd as [Hnd _]. apply Hnd. cbn.
    rewrite fmap_app. apply elem_of_app. right. apply elem_of_list_fmap. exists (s, r, ids'). auto. }
  split; [exact Hnet|]. intros r x Hx. rewrite Hpend, Hnet in Ha. cbn [app] in Ha. split.
  - rewrite <- (Hk _ _ Hx). unfold nx_result.
    generalize (nx_recv x). intros l. induction l as [|e l IH]; cbn; [reflexivity|]. f_equal. exact IH.
  - intros s ids. rewrite <- all_msgs_elem, <- Ha, got_elem. unfold nx_result.
    rewrite elem_of_list_fmap. split.
    + intros ([s' v] & E & Hin). cbn in E. injection E as -> ->.
      destruct (Hd _ _ Hx) as [_ Hf]. rewrite Forall_forall in Hf. specialize (Hf _ Hin). cbn in Hf.
      destruct v as [ids'|]; [|contradiction]. cbn. eauto.
    + intros (y & Hy & Hin). assert (y = x) by congruence. subst. exists (s, Some ids). auto.
Qed.

(** ** All ranks together *)
Lemma make_all_inv counts shareds sos :
  length counts = length shareds -> make_all counts shareds = Ok sos ->
  length sos = length counts
  /\ map numOwned sos = counts
  /\ forall r sh, shareds !! r = Some sh -> exists so c,
       sos !! r = Some so /\ counts !! r = Some c /\
       make_ownership (first_owned counts r) c sh = Ok so.
Proof.
  intros Hl H. unfold make_all in H. apply map_res_inv in H.
  assert (Hlz : length (zip (exclusive_scan 0 counts) (zip counts shareds)) = length counts).
  { rewrite !zip_with_length, exclusive_scan_length. lia. }
  pose proof (Forall2_length _ _ _ H) as Hls. rewrite Hlz in Hls.
  assert (G : forall r sh, shareds !! r = Some sh -> exists so c,
       sos !! r = Some so /\ counts !! r = Some c /\
       make_ownership (first_owned counts r) c sh = Ok so).
  { intros r sh Hsh. pose proof (lookup_lt_Some _ _ _ Hsh) as Hr. rewrite <- Hl in Hr.
    destruct (lookup_lt_is_Some_2 counts r Hr) as [c Hc].
    destruct (lookup_lt_is_Some_2 sos r ltac:(lia)) as [so Hso].
    exists so, c. split; [exact Hso|]. split; [exact Hc|].
    assert (Hz : zip (exclusive_scan 0 counts) (zip counts shareds) !! r = Some (first_owned counts r, (c, sh))).
    { apply lookup_zip_with_Some. exists (first_owned counts r), (c, sh).
      split; [reflexivity|]. split; [rewrite exclusive_scan_lookup by exact Hr; reflexivity|].
      apply lookup_zip_with_Some. exists c, sh. auto. }
    pose proof (Forall2_lookup_lr _ _ _ _ _ _ H Hz Hso) as E. cbn in E. exact E. }
  split; [lia|]. split; [|exact G].
  apply list_eq. intros r. change (map numOwned sos) with (numOwned <$> sos). rewrite list_lookup_fmap.
  destruct (counts !! r) as [c|] eqn:Ec.
  - pose proof (lookup_lt_Some _ _ _ Ec) as Hr.
    destruct (lookup_lt_is_Some_2 shareds r ltac:(lia)) as [sh Hsh].
    destruct (G _ _ Hsh) as (so & c' & Hso & Hc & Hm). rewrite Hso. cbn. f_equal.
    apply make_inv in Hm. destruct Hm as [-> _]. unfold numOwned. cbn. assert (c = c') by congruence. subst. lia.
  - apply lookup_ge_None in Ec. rewrite (proj2 (lookup_ge_None sos r)) by lia. reflexivity.
Qed.
Lemma filter_app_sorted (p : nat -> bool) l : StronglySorted lt l -> StronglySorted lt (List.filter p l).
Proof.
  induction 1 as [|a l Hs IH Ha]; cbn; [constructor|]. destruct (p a); [|exact IH].
  constructor; [exact IH|]. rewrite Forall_forall in *. intros x Hx. apply Ha.
  apply elem_of_list_In, filter_In in Hx. apply elem_of_list_In. tauto.
Qed.

Section world.
  Context (counts : list nat) (shareds : list (list nat)) (sos : list ownership).
  Context (Hlen : length counts = length shareds).
  Context (Hnd : Forall NoDup shareds).
  Context (Hrange : Forall (Forall (fun g => g < total counts)) shareds).
  Context (Hmk : make_all counts shareds = Ok sos).

  (** The table of a rank with shared list [sh]. *)
  Definition out_fun (sh : list nat) (r : nat) : list nat :=
    List.filter (fun s => get_owner (getOwnershipDist counts) s =? r) (sort sh).
  Lemma outs_lookup r sh :
    shareds !! r = Some sh -> all_outs sos !! r = Some (info 0 (length counts) (out_fun sh)).
  Proof.
    intros Hsh. destruct (make_all_inv _ _ _ Hlen Hmk) as (L & E & G).
    destruct (G _ _ Hsh) as (so & c & Hso & Hc & Hm).
    unfold all_outs. rewrite E. change (map ?f sos) with (f <$> sos). rewrite list_lookup_fmap, Hso. cbn.
    apply make_inv in Hm. destruct Hm as [-> _]. rewrite out_nbr_spec; [reflexivity|]. cbn.
    rewrite Forall_forall. intros x Hx. rewrite sort_elem in Hx.
    rewrite Forall_lookup in Hrange. specialize (Hrange _ _ Hsh). rewrite Forall_forall in Hrange. auto.
  Qed.
  Lemma outs_length : length (all_outs sos) = length counts.
  Proof. unfold all_outs. rewrite map_length. apply (make_all_inv _ _ _ Hlen Hmk). Qed.
  Lemma out_fun_elem sh r b g :
    shareds !! b = Some sh -> g ∈ out_fun sh r <-> g ∈ sh /\ owns counts r g.
  Proof.
    intros Hsh. unfold out_fun. rewrite elem_of_list_In, filter_In, <- elem_of_list_In, sort_elem, Nat.eqb_eq.
    rewrite Forall_lookup in Hrange. specialize (Hrange _ _ Hsh). rewrite Forall_forall in Hrange.
    split; intros [Hin Ho]; (split; [exact Hin|]); eapply get_owner_iff; eauto.
  Qed.
  Lemma outs_ok : tables_ok (all_outs sos).
  Proof.
    intros r m Hm. pose proof (lookup_lt_Some _ _ _ Hm) as Hr. rewrite outs_length in *.
    destruct (lookup_lt_is_Some_2 shareds r ltac:(lia)) as [sh Hsh].
    rewrite (outs_lookup _ _ Hsh) in Hm. injection Hm as <-. split.
    - unfold info. generalize (length counts) at 1. clear. generalize 0. intros a n; revert a. induction n as [|n IH]; intros a; [constructor|].
      cbn. destruct (out_fun sh a) eqn:E; [apply IH|]. cbn. constructor; [|apply IH].
      intros Hin. apply elem_of_list_fmap in Hin. destruct Hin as (x & Hx & Hin).
      fold (info (S a) n (out_fun sh)) in Hin. apply info_keys in Hin. cbn in Hx. lia.
    - apply Forall_forall. intros k Hk. apply elem_of_list_fmap in Hk. destruct Hk as (x & -> & Hin).
      apply info_keys in Hin. lia.
  Qed.
  Lemma marks_ok : marks_in_range (all_outs sos) = true.
  Proof.
    unfold marks_in_range. apply forallb_forall. intros m Hm%elem_of_list_In.
    apply elem_of_list_lookup_1 in Hm. destruct Hm as [r Hm]. destruct (outs_ok _ _ Hm) as [_ Hf].
    apply forallb_forall. intros k Hk%elem_of_list_In. rewrite Forall_forall in Hf. apply Nat.ltb_lt. auto.
  Qed.
  Lemma msg_of_spec a b sh ids :
    shareds !! b = Some sh ->
    msg_of (all_outs sos) b a ids <-> a < length counts /\ ids = out_fun sh a /\ ids <> [].
  Proof.
    intros Hsh. unfold msg_of. rewrite (outs_lookup _ _ Hsh). split.
    - intros (m & E & Hin). injection E as <-. apply info_elem in Hin. intuition lia.
    - intros (H1 & H2 & H3). eexists. split; [reflexivity|]. apply info_elem. intuition lia.
  Qed.

  Lemma in_keys_sorted outs r : StronglySorted lt (in_nbr_keys outs r).
  Proof.
    unfold in_nbr_keys. apply filter_app_sorted. generalize 0 (length outs). intros a n. revert a.
    induction n as [|n IH]; intros a; cbn; constructor; auto. apply Forall_forall.
    intros x Hx%elem_of_list_In%in_seq. lia.
  Qed.
  Lemma table_correct_final st a x :
    nx_inv (all_outs sos) st -> (forall r x, nx_ranks st !! r = Some x -> nx_done x) ->
    nx_ranks st !! a = Some x -> table_correct counts shareds a (nx_result x).
  Proof.
    intros Hi Hd Hx. destruct (nx_final _ _ outs_ok Hi Hd) as [_ Hf].
    destruct (Hf _ _ Hx) as [Hk He]. split; [rewrite Hk; apply in_keys_sorted|].
    assert (Ha : a < length counts).
    { apply lookup_lt_Some in Hx. rewrite (nxi_len _ _ Hi), outs_length in Hx. exact Hx. }
    split.
    - intros b ids Hin. apply He in Hin.
      assert (Hb : b < length shareds).
      { destruct Hin as (m & Hm & _). apply lookup_lt_Some in Hm. rewrite outs_length in Hm. lia. }
      destruct (lookup_lt_is_Some_2 _ _ Hb) as [sh Hsh]. apply (msg_of_spec _ _ _ _ Hsh) in Hin.
      destruct Hin as (_ & -> & Hne). split; [|split; [exact Hne|]].
      + apply filter_app_sorted. apply sorted_nodup_strict; [apply sort_sorted|apply sort_nodup].
        rewrite Forall_lookup in Hnd. eauto.
      + exists sh. split; [exact Hsh|]. intros i. rewrite (out_fun_elem _ _ _ _ Hsh). tauto.
    - intros b sh i Hsh Ho Hin.
      assert (Hi' : i ∈ out_fun sh a) by (apply (out_fun_elem _ _ _ _ Hsh); auto).
      exists (out_fun sh a). split; [|exact Hi']. apply He. apply (msg_of_spec _ _ _ _ Hsh).
      split; [exact Ha|]. split; [reflexivity|]. intros E. rewrite E in Hi'. apply elem_of_nil in Hi'. exact Hi'.
  Qed.
  Lemma exchange_main :
    marks_in_range (all_outs sos) = true /\
    exists N, forall n st, nsteps nx_step n (nx_init (all_outs sos)) st ->
      n <= N /\
      ((exists st', nx_step st st') \/
       ((forall r x, nx_ranks st !! r = Some x -> nx_done x) /\ nx_net st = [] /\
        length (nx_ranks st) = length counts /\
        forall a x, nx_ranks st !! a = Some x ->
          table_correct counts shareds a (nx_result x) /\
          forall b ids, (b, ids) ∈ nx_result x <-> exists t, all_outs sos !! b = Some t /\ (a, ids) ∈ t)).
  Proof.
    split; [apply marks_ok|].
    exists (2 * length (pend (nx_init (all_outs sos)))). intros n st Hs.
    destruct (nx_steps_inv _ _ _ _ (nx_inv_init (all_outs sos)) Hs) as [Hi Hm]. split.
    { cbn [nx_net nx_init length] in Hm. lia. }
    destruct (nx_progress _ _ Hi) as [H|Hd]; [left; exact H|right].
    split; [exact Hd|]. destruct (nx_final _ _ outs_ok Hi Hd) as [Hn Hf]. split; [exact Hn|].
    split; [rewrite (nxi_len _ _ Hi), outs_length; reflexivity|].
    intros a x Hx. split; [eapply table_correct_final; eauto|]. apply (Hf _ _ Hx).
  Qed.
End world.
