From Verif Require Import Base StdAlgo Ownership_model Ownership_spec Ownership_proofs Elem_model Elem_spec Mesh_model Mesh_spec Mesh_proofs Helpers_model Helpers_proofs Partition_model Partition_spec Redist_spec Graph_model Graph_spec Graph_proofs Dofs_model Dofs_spec Dofs_proofs Dofs2_proofs Periodic_model Periodic_spec.
Local Arguments Nat.mul : simpl never.
Local Arguments Nat.add : simpl never.
Local Arguments Nat.sub : simpl never.

Lemma for_each_prefix {A S} (f : A -> S -> res S) (P : list A -> S -> Prop) l s :
  P [] s -> (forall pre a s, (exists post, l = pre ++ a :: post) -> P pre s -> exists s', f a s = Ok s' /\ P (pre ++ [a]) s') -> exists s', for_each f l s = Ok s' /\ P l s'.
Proof.
  intros H0 Hs. assert (H : forall post pre s, l = pre ++ post -> P pre s -> exists s', for_each f post s = Ok s' /\ P l s').
  { induction post as [|a post IH]; intros pre t E HP.
    - rewrite app_nil_r in E. subst. by exists t.
    - destruct (Hs pre a t ltac:(by exists post) HP) as (t' & E' & HP'). destruct (IH (pre ++ [a]) t') as (s' & E'' & H''); [by rewrite <- app_assoc|done|].
      exists s'. cbn [for_each]. by rewrite E', bind_ok. }
  by apply (H l [] s).
Qed.
Lemma zip_lookup_in {A B} (l : list A) (k : list B) a b : (a, b) ∈ zip l k <-> exists i, l !! i = Some a /\ k !! i = Some b.
Proof.
  rewrite elem_of_list_lookup. split.
  - intros [i Hi]. apply lookup_zip_with_Some in Hi as (x & y & [= <- <-] & Hx & Hy). by exists i.
  - intros (i & Hx & Hy). exists i. apply lookup_zip_with_Some. by exists a, b.
Qed.

Section comps.
  Context (src dest : list nat) (Hlen : length src = length dest).
  Notation nodes := (sortRemoveDup (src ++ dest)).
  Notation at_node i n := (nodes !! i = Some n).
  Lemma nodes_strict : StronglySorted lt nodes.
  Proof. apply unique_strict, sort_sorted. Qed.
  Lemma nodes_elem n : n ∈ nodes <-> n ∈ src \/ n ∈ dest.
  Proof. unfold sortRemoveDup. by rewrite unique_elem, sort_elem, elem_of_app. Qed.
  Lemma nodes_inj i i' n : at_node i n -> at_node i' n -> i = i'.
  Proof. apply NoDup_lookup. apply strict_nodup, nodes_strict. Qed.
  Lemma index_ok l : (forall n, n ∈ l -> n ∈ nodes) -> exists k, map_res (IndexMap_at (make_IndexMap nodes)) l = Ok k /\ Forall2 (fun n i => at_node i n) l k.
  Proof.
    intros Hl. destruct (map_res_total (IndexMap_at (make_IndexMap nodes)) l) as [k Hk].
    { intros n Hn. apply Hl in Hn. destruct (IndexMap_at (make_IndexMap nodes) n) eqn:E; [eauto|by apply index_map_ok in E|]. unfold IndexMap_at in E. by destruct (hm_find _ _). }
    exists k. split; [done|]. apply map_res_inv in Hk. eapply Forall2_impl; [exact Hk|]. intros n i E. by apply index_map_ok in E as [E _].
  Qed.
  Context (s d : list nat) (Hs : Forall2 (fun n i => at_node i n) src s) (Hd : Forall2 (fun n i => at_node i n) dest d).
  Lemma zip_pairs i k u v : at_node i u -> at_node k v -> (i, k) ∈ zip s d <-> (u, v) ∈ zip src dest.
  Proof.
    intros Hi Hk. rewrite !zip_lookup_in. split.
    - intros (p & Hp & Hq). exists p. destruct (Forall2_lookup_r _ _ _ _ _ Hs Hp) as (u' & Hu & E). destruct (Forall2_lookup_r _ _ _ _ _ Hd Hq) as (v' & Hv & E'). split; congruence.
    - intros (p & Hp & Hq). exists p. destruct (Forall2_lookup_l _ _ _ _ _ Hs Hp) as (i' & Hu & E). destruct (Forall2_lookup_l _ _ _ _ _ Hd Hq) as (k' & Hv & E').
      rewrite (nodes_inj i i' u Hi E), (nodes_inj k k' v Hk E'). done.
  Qed.
  Lemma listed_pairs i k u v : at_node i u -> at_node k v -> listed true s d i k <-> listed true src dest u v.
  Proof. intros Hi Hk. unfold listed. by rewrite (zip_pairs i k u v Hi Hk), (zip_pairs k i v u Hk Hi). Qed.
  Lemma listed_in u v : listed true src dest u v -> u ∈ nodes /\ v ∈ nodes.
  Proof. rewrite !nodes_elem. intros [H|[_ H]]; apply zip_lookup_in in H as (p & H1 & H2); apply elem_of_list_lookup_2 in H1, H2; tauto. Qed.
  Lemma listed_at i k : listed true s d i k -> exists u v, at_node i u /\ at_node k v.
  Proof.
    intros [H|[_ H]]; apply zip_lookup_in in H as (p & H1 & H2); destruct (Forall2_lookup_r _ _ _ _ _ Hs H1) as (u' & Hu & E); destruct (Forall2_lookup_r _ _ _ _ _ Hd H2) as (v' & Hv & E'); eauto.
  Qed.
  Lemma rtc_pairs i k u v : at_node i u -> at_node k v -> rtc (listed true s d) i k <-> rtc (listed true src dest) u v.
  Proof.
    intros Hi Hk. split.
    - intros H. revert u Hi. induction H as [i|i x k Hl H IH]; intros u Hi; [assert (u = v) as -> by congruence; constructor|].
      destruct (listed_at _ _ Hl) as (u' & w & Hu' & Hw). assert (u' = u) as -> by congruence. eapply rtc_l; [by eapply (listed_pairs i x)|]. by apply IH.
    - intros H. revert i Hi. induction H as [u|u x v Hl H IH]; intros i Hi; [rewrite (nodes_inj i k u Hi Hk); constructor|].
      destruct (listed_in _ _ Hl) as [_ Hx]. apply elem_of_list_lookup in Hx as [p Hp]. eapply rtc_l; [by eapply (listed_pairs i p u x)|]. by apply IH.
  Qed.
  Lemma foldr_max_lub l b : (forall x, x ∈ l -> x < b) -> 0 < b -> foldr Nat.max 0 l < b.
  Proof. intros H Hb. induction l as [|x l IH]; [done|]. cbn. assert (x < b) by (apply H; left). assert (foldr Nat.max 0 l < b) by (apply IH; intros y Hy; apply H; by right). lia. Qed.
  Lemma foldr_max_in l x : x ∈ l -> x <= foldr Nat.max 0 l.
  Proof. induction 1; cbn; lia. Qed.
  Lemma graph_rows : src <> [] -> S (foldr Nat.max 0 (map (fun e => Nat.max e.1 e.2) (zip s d))) = length nodes.
  Proof.
    intros Hne. assert (Hpos : 0 < length nodes). { assert (exists n, n ∈ src) as [n Hn] by (clear -Hne; destruct src as [|n l]; [done|]; exists n; left). assert (Hin : n ∈ nodes) by (apply nodes_elem; by left). apply elem_of_list_lookup in Hin as [i Hi]. apply lookup_lt_Some in Hi. lia. }
    apply Nat.le_antisymm.
    - apply foldr_max_lub; [|done]. intros x Hx. apply (elem_of_list_fmap (fun e : nat * nat => Nat.max e.1 e.2)) in Hx as ([i k] & -> & Hz). destruct (listed_at i k) as (u & v & Hu & Hv); [by left|].
      apply lookup_lt_Some in Hu, Hv. cbn. lia.
    - destruct (lookup_lt_is_Some_2 nodes (length nodes - 1)) as [n Hn]; [lia|]. pose proof (elem_of_list_lookup_2 _ _ _ Hn) as Hin. apply nodes_elem in Hin.
      assert (Hz : exists e, e ∈ zip s d /\ length nodes - 1 <= Nat.max e.1 e.2).
      { pose proof (Forall2_length _ _ _ Hs). pose proof (Forall2_length _ _ _ Hd). destruct Hin as [Hin|Hin]; apply elem_of_list_lookup in Hin as [p Hp].
        - destruct (Forall2_lookup_l _ _ _ _ _ Hs Hp) as (i & Hi & E). rewrite (nodes_inj _ _ _ Hn E). pose proof (lookup_lt_Some _ _ _ Hi). destruct (lookup_lt_is_Some_2 d p) as [k Hk]; [lia|].
          exists (i, k). split; [apply zip_lookup_in; by exists p|cbn; lia].
        - destruct (Forall2_lookup_l _ _ _ _ _ Hd Hp) as (i & Hi & E). rewrite (nodes_inj _ _ _ Hn E). pose proof (lookup_lt_Some _ _ _ Hi). destruct (lookup_lt_is_Some_2 s p) as [k Hk]; [lia|].
          exists (k, i). split; [apply zip_lookup_in; by exists p|cbn; lia]. }
      destruct Hz as (e & Hz & Hle). pose proof (foldr_max_in (map (fun e => Nat.max e.1 e.2) (zip s d)) (Nat.max e.1 e.2)) as H.
      assert (Nat.max e.1 e.2 ∈ map (fun e => Nat.max e.1 e.2) (zip s d)) as Hm by (apply (elem_of_list_fmap (fun e : nat * nat => Nat.max e.1 e.2)); by exists e). apply H in Hm. lia.
  Qed.
End comps.

Definition classes (src dest : list nat) (comps : list (list nat)) : Prop :=
  NoDup (concat comps) /\ (forall n, n ∈ concat comps <-> n ∈ src \/ n ∈ dest) /\ (forall c, c ∈ comps -> c <> [] /\ StronglySorted lt c) /\
  forall c u v, c ∈ comps -> u ∈ c -> v ∈ c <-> rtc (listed true src dest) u v.
Lemma components_classes fill shuffle shuffle_row src dest : (forall x, shuffle x ≡ₚ x) -> (forall x, shuffle_row x ≡ₚ x) -> length src = length dest ->
  exists comps, getComponents fill shuffle shuffle_row src dest = Ok comps /\ classes src dest comps.
Proof.
  intros Hsh Hsr Hlen. unfold getComponents. destruct (index_ok src dest src) as (s & Es & Hs); [intros n Hn; apply nodes_elem; by left|]. destruct (index_ok src dest dest) as (d & Ed & Hd); [intros n Hn; apply nodes_elem; by right|].
  cbv zeta. rewrite Es, bind_ok, Ed, bind_ok. set (nodes := sortRemoveDup (src ++ dest)) in *.
  assert (exists g, makeCrsGraph fill shuffle shuffle_row true s d = Ok g /\ crs_rows g = length nodes) as (g & Eg & Hrows).
  { destruct (decide (src = [])) as [-> |Hne].
    - inversion Hs; subst. destruct dest; [|done]. by exists crs_empty.
    - assert (s <> []) as Hse by (intros ->; apply Forall2_length in Hs; by destruct src). destruct (make_crs_graph_ok fill shuffle shuffle_row true s d Hsh Hsr Hse) as (g & E & Hr & _). exists g. split; [done|].
      rewrite Hr. by apply graph_rows. }
  rewrite Eg, bind_ok. destruct (make_crs_graph_wf _ _ _ _ _ _ _ Hsh Hsr Eg) as [Hwf Hsym]. destruct (components_ok g Hwf (Hsym eq_refl)) as (cs & Ec & Hp & Hf & Hc). rewrite Ec, bind_ok. rewrite Hrows in Hp, Hc.
  set (nd := fun i => default 0 (nodes !! i)). assert (Hnd : forall c i, c ∈ cs -> i ∈ c -> i < length nodes /\ nodes !! i = Some (nd i)).
  { intros c i Hcs Hi. assert (Hin : i ∈ concat cs) by (apply elem_of_concat; by exists c). rewrite Hp, elem_of_seq in Hin. destruct (lookup_lt_is_Some_2 nodes i) as [n Hn]; [lia|]. unfold nd. rewrite Hn. split; [lia|done]. }
  rewrite (map_res_ok _ (map nd)). 2:{ intros c Hcs. apply map_res_ok. intros i Hi. unfold at_. destruct (Hnd c i Hcs Hi) as [_ ->]. done. }
  eexists. split; [done|]. assert (Hcat : concat (map (map nd) cs) ≡ₚ nodes).
  { rewrite <- concat_map. etransitivity; [apply Permutation_map, Hp|]. assert (map nd (seq 0 (length nodes)) = nodes) as ->; [|done]. apply list_eq_same_length with (length nodes); [done|by rewrite map_length, seq_length|].
    intros i x y Hi Hx Hy. change (map nd (seq 0 (length nodes))) with (nd <$> seq 0 (length nodes)) in Hx. rewrite list_lookup_fmap, lookup_seq_lt in Hx by done. cbn in Hx. injection Hx as <-. unfold nd. rewrite Nat.add_0_l. by rewrite Hy. }
  assert (Hnod : NoDup nodes) by (apply strict_nodup, nodes_strict).
  split; [by rewrite Hcat|]. split; [intros n; rewrite Hcat; apply nodes_elem|]. split.
  - intros c Hc'. apply (elem_of_list_fmap (map nd)) in Hc' as (c' & -> & Hc'). rewrite Forall_forall in Hf. destruct (Hf c' Hc') as [Hne Hst]. split; [by destruct c'|].
    assert (Hinc : forall i, i ∈ c' -> nodes !! i = Some (nd i)) by (intros i Hi; by apply (Hnd c')). clear -Hst Hinc. induction Hst as [|i l Hst IH Hfa]; [constructor|]. cbn. constructor.
    + apply IH. intros k Hk. apply Hinc. by right.
    + apply Forall_forall. intros n Hn. apply (elem_of_list_fmap nd) in Hn as (k & -> & Hk). rewrite Forall_forall in Hfa. specialize (Hfa k Hk). cbn beta in Hfa.
      apply (Mesh_proofs.strict_lookup nodes i k); [apply nodes_strict|apply Hinc; left|apply Hinc; by right|done].
  - intros c u v Hc' Hu. apply (elem_of_list_fmap (map nd)) in Hc' as (c' & -> & Hc'). apply (elem_of_list_fmap nd) in Hu as (i & -> & Hi). destruct (Hnd c' i Hc' Hi) as [Hil Hiu]. split.
    + intros Hv. apply (elem_of_list_fmap nd) in Hv as (k & -> & Hk). destruct (Hnd c' k Hc' Hk) as [Hkl Hkv]. apply (rtc_pairs src dest s d Hs Hd i k); [done|done|].
      eapply rtc_subrel; [|apply Hc; [exact Hil|exact Hkl|by exists c']]. intros a b. by apply (proj1 (edge_listed _ _ _ _ _ _ _ a b Hsh Hsr Eg)).
    + intros H. assert (Hv : v ∈ nodes). { clear -H Hiu. apply elem_of_list_lookup_2 in Hiu. revert Hiu. generalize (nd i) H. clear. intros u H. induction H as [u|u x v Hl H IH]; [done|]. intros _. apply IH. by apply (listed_in src dest u x). }
      apply elem_of_list_lookup in Hv as [k Hk]. pose proof (lookup_lt_Some _ _ _ Hk) as Hkl. apply (rtc_pairs src dest s d Hs Hd i k (nd i) v Hiu Hk) in H.
      assert (He : rtc (edge g) i k) by (eapply rtc_subrel; [|exact H]; intros a b; by apply (proj2 (edge_listed _ _ _ _ _ _ _ a b Hsh Hsr Eg))).
      apply (Hc i k Hil Hkl) in He as (c'' & Hc'' & Hi'' & Hk''). assert (c'' = c') as ->.
      { assert (Hncs : NoDup (concat cs)) by (rewrite Hp; apply NoDup_seq). clear -Hncs Hc' Hc'' Hi Hi''. induction cs as [|c cs IH]; [by apply elem_of_nil in Hc'|]. cbn in Hncs. apply NoDup_app in Hncs as (_ & Hdis & Hn).
        apply elem_of_cons in Hc' as [-> |Hc']; apply elem_of_cons in Hc'' as [-> |Hc'']; [done| | |by apply IH].
        - destruct (Hdis i Hi). apply elem_of_concat. by exists c''.
        - destruct (Hdis i Hi''). apply elem_of_concat. by exists c'. }
      apply (elem_of_list_fmap nd). exists k. split; [|done]. destruct (Hnd c' k Hc' Hk'') as [_ E]. congruence.
Qed.

(** *** scatterMatched *)
Lemma concat_one {A} (ls : list (list A)) l l' x : NoDup (concat ls) -> l ∈ ls -> l' ∈ ls -> x ∈ l -> x ∈ l' -> l = l'.
Proof.
  intros Hn H H' Hx Hx'. induction ls as [|c cs IH]; [by apply elem_of_nil in H|]. cbn in Hn. apply NoDup_app in Hn as (_ & Hdis & Hn).
  apply elem_of_cons in H as [-> |H]; apply elem_of_cons in H' as [-> |H']; [done| | |by apply IH].
  - destruct (Hdis x Hx). apply elem_of_concat. by exists l'.
  - destruct (Hdis x Hx'). apply elem_of_concat. by exists l.
Qed.
Lemma add_passive_ok counts a p msgs : p < total counts -> length msgs = length counts ->
  exists msgs', add_passive counts a p msgs = Ok msgs' /\ length msgs' = length counts /\
    forall r m', msgs' !! r = Some m' -> exists m, msgs !! r = Some m /\ forall x, x ∈ m' <-> x ∈ m \/ x = (p, a) /\ owns counts r p.
Proof.
  intros Hp Hl. unfold add_passive. cbv zeta. pose proof (get_owner_spec counts p Hp) as Ho. set (o := get_owner _ p) in *.
  assert (Hol : o < length counts) by (destruct Ho as (c & Hc & _); by eapply lookup_lt_Some). destruct (lookup_lt_is_Some_2 msgs o) as [m Hm]; [lia|]. unfold at_. rewrite Hm, bind_ok, wr_ok by lia.
  eexists. split; [done|]. split; [by rewrite insert_length|]. intros r m' Hr. destruct (decide (r = o)) as [-> |Hne].
  - rewrite list_lookup_insert in Hr by lia. injection Hr as <-. exists m. split; [done|]. intros x. rewrite elem_of_app, elem_of_list_singleton. naive_solver.
  - rewrite list_lookup_insert_ne in Hr by done. exists m'. split; [done|]. intros x. split; [by left|]. intros [Hx|[_ Hw]]; [done|]. destruct Hne. by eapply owns_unique.
Qed.
Lemma scatter_ok counts comps : (forall c, c ∈ comps -> 1 < length c) -> (forall c n, c ∈ comps -> n ∈ c -> n < total counts) ->
  exists msgs, scatterMatched counts comps = Ok msgs /\ length msgs = length counts /\
    forall r m, msgs !! r = Some m -> forall p a, (p, a) ∈ m <-> owns counts r p /\ exists ps, (a :: ps) ∈ comps /\ p ∈ ps.
Proof.
  intros Hbig Hlt. unfold scatterMatched.
  destruct (for_each_prefix (fun c msgs => _ ← throwing_assert (1 <? length c); match c with [] => UB | a :: ps => for_each (add_passive counts a) ps msgs end)
    (fun pre msgs => length msgs = length counts /\ forall r m, msgs !! r = Some m -> forall p a, (p, a) ∈ m <-> owns counts r p /\ exists ps, (a :: ps) ∈ pre /\ p ∈ ps) comps (replicate (length counts) [])) as (msgs & E & H1 & H2).
  - split; [apply replicate_length|]. intros r m Hr p a. apply lookup_replicate in Hr as [-> _]. split; [by intros H%elem_of_nil|]. intros (_ & ps & H & _). by apply elem_of_nil in H.
  - intros pre c msgs (post & Ec) [Hl Hm]. assert (Hc : c ∈ comps) by (rewrite Ec; apply elem_of_app; right; left). rewrite (proj2 (Nat.ltb_lt _ _) (Hbig c Hc)). change (throwing_assert true) with (Ok tt). rewrite bind_ok.
    destruct c as [|a ps]; [by apply Hbig in Hc; cbn in Hc; lia|].
    destruct (for_each_prefix (add_passive counts a) (fun done_ msgs' => length msgs' = length counts /\
      forall r m', msgs' !! r = Some m' -> exists m, msgs !! r = Some m /\ forall x, x ∈ m' <-> x ∈ m \/ exists p, p ∈ done_ /\ x = (p, a) /\ owns counts r p) ps msgs) as (msgs' & E' & Hl' & Hm').
    + split; [done|]. intros r m Hr. exists m. split; [done|]. intros x. split; [by left|]. intros [Hx|(p & Hp & _)]; [done|]. by apply elem_of_nil in Hp.
    + intros d p ms (post' & Ep) [Hlm Hms]. destruct (add_passive_ok counts a p ms) as (ms' & E' & Hl' & H'); [|done|].
      { apply (Hlt _ p Hc). right. rewrite Ep. apply elem_of_app. right. left. }
      exists ms'. split; [done|]. split; [done|]. intros r m' Hr. destruct (H' r m' Hr) as (m1 & Hm1 & Hx1). destruct (Hms r m1 Hm1) as (m & Hm0 & Hx0). exists m. split; [done|]. intros x. rewrite Hx1, Hx0.
      setoid_rewrite elem_of_app. setoid_rewrite elem_of_list_singleton. naive_solver.
    + exists msgs'. split; [done|]. split; [done|]. intros r m' Hr p a'. destruct (Hm' r m' Hr) as (m & Hm0 & Hx). rewrite Hx, (Hm r m Hm0). setoid_rewrite elem_of_app. setoid_rewrite elem_of_list_singleton. split.
      * intros [(Ho & qs & Hq & Hp)|(p' & Hp & [= -> ->] & Ho)]; (split; [done|]); [exists qs; tauto|exists ps; tauto].
      * intros (Ho & qs & [Hq|[= -> ->]] & Hp); [left; split; [done|]; by exists qs|]. right. by exists p.
  - exists msgs. done.
Qed.
