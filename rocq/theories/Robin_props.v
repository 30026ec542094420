(** C82: the hash table. *)
From Verif Require Import Base Robin_model Robin_spec Robin_proofs Robin2_proofs Robin3_proofs Robin4_proofs Robin5_proofs.

Section run.
  Context {K V : Type} `{EqDecision K} (hash : nat -> K -> nat).
  Definition run (l : list (change K V)) : res table := carry_out (insert hash false) (insert hash true) (erase hash) clear (reserve hash) l empty_table.
  Definition few (m : K -> option V) (l : list (change K V)) : Prop := forall i, exists s, s <= 125 /\ has_size (foldl changed m (take i l)) s.
  Lemma num_size (t : table) (m : K -> option V) s : good hash t -> (forall k v, has t k v <-> m k = Some v) -> has_size m s -> t_num t = s.
  Proof.
    intros G Ht (l & L1 & <- & L3). destruct G as [W| ->].
    - destruct (w_size _ t W) as (l' & L1' & <- & L3'). apply Permutation_length. apply NoDup_Permutation; [done|done|]. intros k. rewrite L3, L3'. split.
      + intros (i & v & Hi). exists v. apply Ht. by exists i.
      + intros [v Hv]. apply Ht in Hv as [i Hi]. eauto.
    - destruct l as [|k l]; [done|]. destruct (proj1 (L3 k)) as [v Hv]; [by left|]. apply Ht in Hv. by destruct (empty_has k v).
  Qed.
  Lemma calm_dec (t : @table K V) : calm t \/ ~ calm t.
  Proof. unfold calm. destruct (decide (t_inc t = 2)), (decide (t_max t = 0)); tauto. Qed.
  Lemma throws_weaken {A} (c c' : Prop) (r : res A) P : throws_or c r P -> (c -> c') -> throws_or c' r P.
  Proof. intros [[E Hc]|Hr] Hw; [left; auto|by right]. Qed.
  Lemma run_ok (l : list (change K V)) : throws_or (~ at_most 125 l) (run l) (fun t => good hash t /\ forall k v, has t k v <-> history l k = Some v).
  Proof.
    unfold run, carry_out, history.
    assert (G : forall (t : table) (m : K -> option V), good hash t -> (forall k v, has t k v <-> m k = Some v) ->
      throws_or (~ few m l \/ ~ calm t) (for_each (fun c t => match c with Emplace k v => insert hash false k v t | Assign k v => insert hash true k v t | Erase k => erase hash k t | Clear => clear t | Reserve n => reserve hash n t end) l t)
        (fun t' => good hash t' /\ forall k v, has t' k v <-> foldl changed m l k = Some v)).
    { induction l as [|c l IH]; intros t m Gt Ht; cbn [for_each foldl]; [right; exists t; done|].
      assert (F0 : few m (c :: l) -> t_num t <= 125). { intros F. destruct (F 0) as (s & Hs & Hsz). by rewrite (num_size t m s Gt Ht Hsz). }
      assert (F1 : few m (c :: l) -> few (changed m c) l). { intros F i. destruct (F (S i)) as (s & Hs & Hsz). by exists s. }
      assert (IH' : forall t', good hash t' -> (forall k v, has t' k v <-> changed m c k = Some v) -> (few m (c :: l) -> calm t -> calm t') ->
        throws_or (~ few m (c :: l) \/ ~ calm t) (for_each (fun c t => match c with Emplace k v => insert hash false k v t | Assign k v => insert hash true k v t | Erase k => erase hash k t | Clear => clear t | Reserve n => reserve hash n t end) l t')
          (fun t'' => good hash t'' /\ forall k v, has t'' k v <-> foldl changed (changed m c) l k = Some v)).
      { intros t' G' H' C'. eapply throws_weaken; [by apply (IH t' (changed m c) G' H')|]. intros Hn. destruct (calm_dec t) as [Hc|Hc]; [left|by right]. intros F. destruct Hn as [Hn|Hn]; [by apply Hn, F1|by apply Hn, C']. }
      assert (Fi : 125 < t_num t \/ ~ calm t -> ~ few m (c :: l) \/ ~ calm t). { intros [?|?]; [left; intros F; pose proof (F0 F); lia|by right]. }
      destruct c as [k v|k v|k| |n].
      - eapply throws_bind; [apply (insert_ok hash false k v t Gt)|exact Fi|]. intros t' (W' & Ca & H'). apply IH'; [by left| |intros F Hc; apply Ca; [by apply F0|done]]. intros x y. rewrite H'. unfold changed. case_decide as D; [subst|apply Ht]. split.
        + intros [[-> [?|Hn]]|[_ Hh]]; [done| |apply Ht in Hh; by rewrite Hh]. destruct (m k) as [w|] eqn:E; [|done]. by destruct (Hn w); apply Ht.
        + intros [= <-]. destruct (m k) as [w|] eqn:E; [right; split; [done|by apply Ht]|]. left. split; [done|]. right. intros w Hw. apply Ht in Hw. congruence.
      - eapply throws_bind; [apply (insert_ok hash true k v t Gt)|exact Fi|]. intros t' (W' & Ca & H'). apply IH'; [by left| |intros F Hc; apply Ca; [by apply F0|done]]. intros x y. rewrite H'. unfold changed. case_decide as D; [subst|apply Ht]. split.
        + intros [[-> _]|[? _]]; done.
        + intros [= <-]. left. split; [done|by left].
      - destruct (erase_ok hash k t Gt) as (t' & -> & G' & Ca & H'). rewrite bind_ok. apply IH'; [done| |intros F; exact Ca]. intros x y. rewrite H'. unfold changed. case_decide as D; [split; [by intros [? _]|done]|]. rewrite Ht. split; [by intros [_ ?]|done].
      - destruct (clear_ok hash t Gt) as (t' & -> & G' & Ca & H'). rewrite bind_ok. apply IH'; [done| |intros F; exact Ca]. intros x y. split; [intros Hh; by destruct (H' x y)|done].
      - eapply throws_bind; [apply (reserve_ok hash n t Gt)|intros ?; apply Fi; left; lia|]. intros t' (G' & Ca & H'). apply IH'; [done| |intros F; apply Ca; pose proof (F0 F); lia]. intros x y. rewrite (H' x y). apply Ht. }
    destruct (G empty_table (fun _ => None)) as [[? Hn]|(t & H1 & H2 & H3)]; [by right|intros k v; split; [intros Hh; by destruct (empty_has k v)|done]|left; split; [done|]; destruct Hn as [Hn|Hn]; [exact Hn|by destruct Hn]|]. right. exists t. done.
  Qed.
End run.

(** C82.  For every hash function and every list of changes the table either throws
    (overflow) or is the map of these changes: find gives each key its value, and size is the
    number of keys.  It never reads or writes outside its arrays, never uses a node that is
    not alive and never overwrites one that is. *)
Theorem robin_hood_is_map {K V} `{EqDecision K} (hash : nat -> K -> nat) (l : list (change K V)) :
  run hash l = Throw \/
  exists t, run hash l = Ok t /\ (forall k, find hash t k = Ok (history l k)) /\ has_size (history l) (t_num t).
Proof.
  destruct (run_ok hash l) as [[? _]|(t & H1 & G & Ht)]; [by left|]. right. exists t. split; [done|]. split.
  - intros k. destruct (find_good hash t k G) as (r & -> & Hr). f_equal. destruct r as [v|]; [symmetry; apply Ht; by apply Hr|]. destruct (history l k) as [v|] eqn:E; [|done]. apply Ht, Hr in E. done.
  - destruct G as [W| ->].
    + destruct (w_size _ t W) as (ks & L1 & L2 & L3). exists ks. split; [done|]. split; [done|]. intros k. rewrite L3. split.
      * intros (i & v & Hi). exists v. apply Ht. by exists i.
      * intros [v Hv]. apply Ht in Hv as [i Hi]. eauto.
    + exists []. split; [apply NoDup_nil_2|]. split; [done|]. intros k. split; [intros H; by apply elem_of_nil in H|]. intros [v Hv]. apply Ht in Hv. by destruct (empty_has k v).
Qed.
Print Assumptions robin_hood_is_map.

(** C82.  While there are at most 125 keys the table never throws, whatever the hash. *)
Theorem robin_hood_few_keys {K V} `{EqDecision K} (hash : nat -> K -> nat) (l : list (change K V)) : at_most 125 l -> run hash l <> Throw.
Proof. intros Hl E. destruct (run_ok hash l) as [[_ ?]|(t & H1 & _)]; [done|congruence]. Qed.
Print Assumptions robin_hood_few_keys.

(** C82.  Iteration from begin() to end() visits every key once, with its value, and reads no
    info outside the array. *)
Theorem robin_hood_iteration {K V} `{EqDecision K} (hash : nat -> K -> nat) (l : list (change K V)) t : run hash l = Ok t ->
  exists e, elements t = Ok e /\ NoDup e.*1 /\ forall k v, (k, v) ∈ e <-> history l k = Some v.
Proof.
  intros Hr. destruct (run_ok hash l) as [[? _]|(t' & H1 & G & Ht)]; [congruence|]. assert (t' = t) as -> by congruence. destruct (elements_ok hash t G) as (e & H2 & H3 & H4). exists e. split; [done|]. split; [done|]. intros k v. by rewrite H4, Ht.
Qed.
Print Assumptions robin_hood_iteration.

Lemma omap_length_le {A B} (f : A -> option B) l : length (omap f l) <= length l.
Proof. induction l as [|a l IH]; cbn; [lia|]. destruct (f a); cbn; lia. Qed.
(** C82.  A table never holds more than 127 keys with the same hash: the info of a key at
    distance 127 does not fit into a byte even when the distance is counted in steps of 2. *)
Theorem robin_hood_same_hash {K V} `{EqDecision K} (hash : nat -> K -> nat) (l : list (change K V)) t ks : run hash l = Ok t -> NoDup ks ->
  (forall k, k ∈ ks -> is_Some (history l k)) -> (forall m a b, a ∈ ks -> b ∈ ks -> hash m a = hash m b) -> length ks <= 127.
Proof.
  intros Hr Hnd Hin Hh. destruct (run_ok hash l) as [[? _]|(t' & H1 & G & Ht)]; [congruence|]. assert (t' = t) as -> by congruence. clear H1.
  destruct ks as [|k0 ks']; [cbn; lia|]. set (ks := k0 :: ks') in *. assert (Hk0 : k0 ∈ ks) by by left.
  destruct G as [W| ->]; [|destruct (Hin k0 Hk0) as [v Hv]; apply Ht in Hv; by destruct (empty_has k0 v)].
  pose proof (w_shape _ t W) as S. pose proof (s_inc _ _ _ _ _ _ _ S) as Hinc.
  assert (Hs : ks ⊆ omap (fun i => fst <$> t_vals t !!! i) (seq (home hash t k0) 127)).
  { intros k Hk. destruct (Hin k Hk) as [v Hv]. apply Ht in Hv as [i Hi]. apply elem_of_list_omap. exists i. split; [|by rewrite Hi]. destruct (s_pos _ _ _ _ _ _ _ S i k v Hi) as [P1 P2]. cbv beta in P2.
    assert (Eh : home hash t k = home hash t k0) by (unfold home; by rewrite (Hh (t_mult t) k k0)). rewrite Eh in P1, P2. pose proof (s_byte _ _ _ _ _ _ _ S i) as Hb. cbv beta in Hb. pose proof (s_hi _ _ _ _ _ _ _ S k) as [Hlo _].
    assert ((i - home hash t k0) * 2 <= (i - home hash t k0) * t_inc t) by (apply Nat.mul_le_mono_l; lia). apply elem_of_seq. lia. }
  etransitivity; [apply (submseteq_length _ _ (NoDup_submseteq _ _ Hnd Hs))|]. etransitivity; [apply omap_length_le|]. by rewrite seq_length.
Qed.
Print Assumptions robin_hood_same_hash.

(** C82, refuted: unlike std::unordered_map the table throws for some hash functions, here for
    128 keys with the same hash. *)
Theorem robin_hood_total_refuted : ~ (forall (hash : nat -> nat -> nat) (l : list (change nat nat)), run hash l <> Throw).
Proof.
  intros H. set (l := map (fun i => Emplace i 0) (seq 0 128)). destruct (run_ok (fun _ _ : nat => 0) l) as [[E _]|(t & E & _)]; [by apply (H _ _ E)|].
  assert (Hl : length (seq 0 128) <= 127); [|rewrite seq_length in Hl; lia]. apply (robin_hood_same_hash (fun _ _ => 0) l t); [done|apply NoDup_seq| |done].
  intros k Hk. unfold history, l. clear E H t l. revert Hk. generalize (fun _ : nat => @None nat) as m. generalize (seq 0 128) as L.
  assert (Hp : forall L (m : nat -> option nat) k, is_Some (m k) -> is_Some (foldl changed m (map (fun i => Emplace i 0) L) k)). { induction L as [|a L IH]; intros m k' Hm; cbn; [done|]. apply IH. cbn. case_decide; [done|done]. }
  induction L as [|a L IH]; intros m Hk; [by apply elem_of_nil in Hk|]. apply elem_of_cons in Hk as [->|Hk]; cbn; [|by apply IH]. apply Hp. cbn. by rewrite decide_True.
Qed.
Print Assumptions robin_hood_total_refuted.

(** Nine keys, two hash values: the table grows from 8 to 16 slots, a collision is moved and
    moved back. *)
Example robin_hood_example :
  let hash := fun m k : nat => (k mod 2) * 32 + m + k in
  let l := [Emplace 1 10; Emplace 3 30; Emplace 5 50; Emplace 2 20; Assign 3 31; Emplace 4 40; Emplace 6 60; Emplace 7 70; Erase 1; Emplace 9 90; Emplace 2 21] in
  match run hash l with
  | Ok t => (t_num t, t_mask t, map (fun k => find hash t k) [1; 2; 3; 9], elements t) =
      (7, 15, [Ok None; Ok (Some 20); Ok (Some 31); Ok (Some 90)], Ok [(6, 60); (4, 40); (2, 20); (9, 90); (7, 70); (5, 50); (3, 31)])
  | _ => False
  end.
Proof. vm_compute. reflexivity. Qed.

(** Up to 125 changes are a history with at most 125 keys. *)
Lemma changed_size {K V} `{EqDecision K} (m : K -> option V) c s : has_size m s -> exists s', s' <= s + 1 /\ has_size (changed m c) s'.
Proof.
  intros (l & L1 & L2 & L3). assert (Hput : forall k (f : K -> option V), (forall x, is_Some (f x) <-> x = k \/ is_Some (m x)) -> exists s', s' <= s + 1 /\ has_size f s').
  { intros k f Hf. destruct (decide (k ∈ l)) as [Hk|Hk].
    - exists s. split; [lia|]. exists l. split; [done|]. split; [done|]. intros x. rewrite Hf, L3. split; [auto|]. intros [->|?]; [by apply L3|done].
    - exists (s + 1). split; [lia|]. exists (k :: l). split; [by apply NoDup_cons|]. split; [cbn; lia|]. intros x. rewrite elem_of_cons, Hf, L3. done. }
  destruct c as [k v|k v|k| |n].
  - apply (Hput k). intros x. cbn. case_decide; [subst; split; eauto|]. split; [auto|]. by intros [?|?].
  - apply (Hput k). intros x. cbn. case_decide; [subst; split; eauto|]. split; [auto|]. by intros [?|?].
  - exists (length (filter (fun x => x <> k) l)). split; [pose proof (filter_length (fun x => x <> k) l); lia|]. exists (filter (fun x => x <> k) l). split; [by apply NoDup_filter|]. split; [done|]. intros x. rewrite elem_of_list_filter, L3. cbn. case_decide; [split; [by intros [? _]|by intros [? ?]]|]. split; [by intros [_ ?]|done].
  - exists 0. split; [lia|]. exists []. split; [apply NoDup_nil_2|]. split; [done|]. intros x. split; [intros Hx; by apply elem_of_nil in Hx|by intros [? ?]].
  - exists s. split; [lia|]. by exists l.
Qed.
Example robin_hood_few_example {K V} `{EqDecision K} (l : list (change K V)) n : length l <= n -> at_most n l.
Proof.
  intros Hl i. assert (G : forall l' : list (change K V), exists s, s <= length l' /\ has_size (history l') s).
  { intros l'. induction l' as [|c l' IH] using rev_ind.
    - exists 0. split; [done|]. exists []. split; [apply NoDup_nil_2|]. split; [done|]. intros x. split; [intros Hx; by apply elem_of_nil in Hx|by intros [? ?]].
    - destruct IH as (s & Hs & Hz). destruct (changed_size _ c s Hz) as (s' & Hs' & Hz'). exists s'. rewrite app_length. cbn. split; [lia|]. unfold history. rewrite foldl_app. exact Hz'. }
  destruct (G (take i l)) as (s & Hs & Hz). rewrite take_length in Hs. exists s. split; [lia|done].
Qed.
