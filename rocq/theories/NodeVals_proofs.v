(** C45: proofs. *)
From Verif Require Import Base StdAlgo Ownership_spec Ownership_proofs ImportExport_spec ImportExport_proofs NodeVals_model NodeVals_spec.
Local Arguments Nat.add : simpl never.
Local Arguments Nat.sub : simpl never.
Local Arguments Nat.ltb : simpl never.

Lemma u16_small n : (N.of_nat n < 65536)%N -> u16 n = n.
Proof. intros H. unfold u16. rewrite N.mod_small by done. apply Nat2N.id. Qed.
Lemma u16_add_l a b : u16 (u16 a + b) = u16 (a + b).
Proof. unfold u16. f_equal. rewrite !Nat2N.inj_add, N2Nat.id. by rewrite N.add_mod_idemp_l. Qed.
Lemma u16_add_r a b : u16 (a + u16 b) = u16 (a + b).
Proof. rewrite (Nat.add_comm a), u16_add_l. f_equal. lia. Qed.
Lemma fold16 l : forall a, foldl add16 (u16 a) l = u16 (a + sum l).
Proof.
  induction l as [|x l IH]; intros a; cbn [foldl]; [by rewrite Nat.add_0_r|].
  unfold add16 at 2. rewrite u16_add_l, IH. f_equal. change (sum (x :: l)) with (x + sum l). lia.
Qed.
Lemma sum16 (l : list nat) : forall a, u16 (a + sum (map u16 l)) = u16 (a + sum l).
Proof.
  induction l as [|x l IH]; intros a; [done|]. cbn [map]. change (sum (u16 x :: map u16 l)) with (u16 x + sum (map u16 l)). change (sum (x :: l)) with (x + sum l).
  rewrite (Nat.add_assoc a x), <- IH. replace (a + (u16 x + sum (map u16 l))) with (u16 x + (a + sum (map u16 l))) by lia. rewrite u16_add_l. f_equal. lia.
Qed.
Lemma sum_perm l l' : l ≡ₚ l' -> sum l = sum l'.
Proof. induction 1 as [|x l l' _ IH|x y l|l l' l'' _ IH1 _ IH2]; unfold sum in *; cbn [foldr]; lia. Qed.
Lemma values_at_app {F} (l l' : list (nat * F)) i : values_at (l ++ l') i = values_at l i ++ values_at l' i.
Proof. unfold values_at. by rewrite List.filter_app, map_app. Qed.
Lemma values_at_nil {F} (l : list (nat * F)) i : (forall x, x ∈ l -> x.1 <> i) -> values_at l i = [].
Proof.
  unfold values_at. induction l as [|x l IH]; intros H; [done|]. cbn [List.filter]. destruct (Nat.eqb_spec x.1 i) as [E|E]; [by destruct (H x (elem_of_list_here _ _))|]. apply IH. intros y Hy. apply H. by right.
Qed.

Section proofs.
  Context {F : Type} (zero : F) (add : F -> F -> F) (div : F -> F -> F) (of_nat : nat -> F).
  Context (A0 : forall x, add zero x = x) (AC : forall x y, add x y = add y x) (AA : forall x y z, add x (add y z) = add (add x y) z).
  Notation fsum := (fsum zero add).
  Lemma fsum_cons x l : fsum (x :: l) = add x (fsum l).
  Proof. done. Qed.
  Lemma fsum_nil : fsum [] = zero.
  Proof. done. Qed.
  Lemma fsum_app l l' : fsum (l ++ l') = add (fsum l) (fsum l').
  Proof using A0 AA. induction l as [|x l IH]; cbn [app]; rewrite ?fsum_cons, ?fsum_nil; [by rewrite A0|]. by rewrite IH, AA. Qed.
  Lemma fsum_perm l l' : l ≡ₚ l' -> fsum l = fsum l'.
  Proof using AC AA. induction 1 as [|x l l' _ IH|x y l|l l' l'' _ IH _ IH']; rewrite ?fsum_cons; [done|by rewrite IH| |congruence]. by rewrite !AA, (AC x y). Qed.
  Lemma foldl_fsum l : forall v, foldl add v l = add v (fsum l).
  Proof using A0 AC AA. induction l as [|x l IH]; intros v; cbn [foldl]; rewrite ?fsum_cons, ?fsum_nil; [by rewrite AC, A0|]. by rewrite IH, AA. Qed.
  Lemma fsum_concat (ls : list (list F)) : fsum (concat ls) = fsum (map fsum ls).
  Proof using A0 AA. induction ls as [|l ls IH]; [done|]. cbn [concat map]. rewrite fsum_app, IH. done. Qed.
  Lemma length_concat {X} (ls : list (list X)) : length (concat ls) = sum (map length ls).
  Proof. clear. induction ls as [|l ls IH]; [done|]. cbn [concat map]. rewrite app_length, IH. done. Qed.

  (** One access. *)
  Definition get (c : nat) (st : list F * list F) (l : nat) : option F := if l <? c then st.1 !! l else st.2 !! (l - c).
  Definition shape (c s : nat) (st : list F * list F) : Prop := length st.1 = c /\ length st.2 = s.
  Lemma access_ok c s f row st : shape c s st -> row < c + s ->
    exists st', access c f row st = Ok st' /\ shape c s st' /\ forall l, get c st' l = if decide (l = row) then f <$> get c st l else get c st l.
  Proof.
    clear. intros [H1 H2] Hr. unfold access. destruct (Nat.ltb_spec row c) as [H|H].
    - destruct (lookup_lt_is_Some_2 st.1 row ltac:(lia)) as [v Hv]. rewrite (rd_ok _ _ _ Hv), bind_ok. rewrite wr_ok by lia. rewrite bind_ok. eexists. split; [reflexivity|]. split; [split; cbn [fst snd]; [by rewrite insert_length|done]|].
      intros l. unfold get. cbn [fst snd]. destruct (decide (l = row)) as [-> |Hne].
      + rewrite (proj2 (Nat.ltb_lt _ _) H), list_lookup_insert by lia. by rewrite Hv.
      + destruct (l <? c); [|done]. by rewrite list_lookup_insert_ne by done.
    - destruct (lookup_lt_is_Some_2 st.2 (row - c) ltac:(lia)) as [v Hv]. rewrite (rd_ok _ _ _ Hv), bind_ok. rewrite wr_ok by lia. rewrite bind_ok. eexists. split; [reflexivity|]. split; [split; cbn [fst snd]; [done|by rewrite insert_length]|].
      intros l. unfold get. cbn [fst snd]. destruct (decide (l = row)) as [-> |Hne].
      + rewrite (proj2 (Nat.ltb_ge _ _) H), list_lookup_insert by lia. by rewrite Hv.
      + destruct (Nat.ltb_spec l c); [done|]. rewrite list_lookup_insert_ne by lia. done.
  Qed.
  Lemma adds_ok c s xs : forall st, shape c s st -> (forall x, x ∈ xs -> x.1 < c + s) ->
    exists st', for_each (fun (x : nat * F) st => access c (fun v => add v x.2) x.1 st) xs st = Ok st' /\ shape c s st' /\ forall l, get c st' l = (fun v => foldl add v (values_at xs l)) <$> get c st l.
  Proof.
    clear. induction xs as [|x xs IH]; intros st Hs Hx; cbn [for_each].
    - exists st. split; [done|]. split; [done|]. intros l. by destruct (get c st l).
    - destruct (access_ok c s (fun v => add v x.2) x.1 st Hs (Hx x (elem_of_list_here _ _))) as (st1 & E & Hs1 & H1). rewrite E, bind_ok.
      destruct (IH st1 Hs1) as (st2 & E2 & Hs2 & H2); [intros y Hy; apply Hx; by right|]. exists st2. split; [done|]. split; [done|]. intros l. rewrite H2, H1. unfold values_at. cbn [List.filter].
      destruct (decide (l = x.1)) as [-> |Hne]; [rewrite Nat.eqb_refl|rewrite (proj2 (Nat.eqb_neq _ _)) by done; done]. cbn [map foldl]. by destruct (get c st x.1).
  Qed.
  Lemma bump_ok n row cs : length cs = n -> row < n -> exists cs', bump row cs = Ok cs' /\ length cs' = n /\ forall l, cs' !! l = if decide (l = row) then (fun k => add16 k 1) <$> cs !! l else cs !! l.
  Proof.
    clear. intros Hl Hr. unfold bump. destruct (lookup_lt_is_Some_2 cs row ltac:(lia)) as [k Hk]. rewrite (rd_ok _ _ _ Hk), bind_ok, wr_ok by lia. eexists. split; [done|]. split; [by rewrite insert_length|]. intros l. destruct (decide (l = row)) as [-> |Hne]; [rewrite list_lookup_insert by lia; by rewrite Hk|by rewrite list_lookup_insert_ne].
  Qed.
  Definition counted (n : nat) (xs : list (nat * F)) (cs : list nat) : Prop := length cs = n /\ forall l, l < n -> cs !! l = Some (u16 (length (values_at xs l))).
  Lemma counted_nil n : counted n [] (replicate n 0).
  Proof. clear. split; [apply replicate_length|]. intros l Hl. by apply lookup_replicate_2. Qed.
  Lemma counted_bump n xs x cs cs' : counted n xs cs -> bump x.1 cs = Ok cs' -> x.1 < n -> counted n (xs ++ [x]) cs'.
  Proof.
    clear. intros [Hl Hc] E Hx. destruct (bump_ok n x.1 cs Hl Hx) as (cs1 & E1 & Hl1 & H1). rewrite E in E1. injection E1 as <-. split; [done|]. intros l Hln. rewrite H1, Hc by done. rewrite values_at_app.
    assert (Ex : values_at [x] l = if decide (l = x.1) then [x.2] else []) by (unfold values_at; cbn [List.filter]; destruct (Nat.eqb_spec x.1 l); destruct (decide (l = x.1)); subst; done).
    rewrite Ex. destruct (decide (l = x.1)) as [-> |Hne]; [|by rewrite app_nil_r]. cbn [fmap option_fmap option_map]. f_equal. unfold add16. rewrite u16_add_l, app_length. done.
  Qed.
  Lemma counts_ok n xs : forall pre cs, counted n pre cs -> (forall x, x ∈ xs -> x.1 < n) -> exists cs', for_each (fun (x : nat * F) cs => bump x.1 cs) xs cs = Ok cs' /\ counted n (pre ++ xs) cs'.
  Proof.
    clear. induction xs as [|x xs IH]; intros pre cs Hc Hx; cbn [for_each]; [exists cs; by rewrite app_nil_r|].
    pose proof (Hx x (elem_of_list_here _ _)) as Hx1. destruct (bump_ok n x.1 cs (proj1 Hc) Hx1) as (cs1 & E & _). rewrite E, bind_ok.
    destruct (IH (pre ++ [x]) cs1 (counted_bump _ _ _ _ _ Hc E Hx1)) as (cs2 & E2 & H2); [intros y Hy; apply Hx; by right|]. exists cs2. split; [done|]. by rewrite <- app_assoc in H2.
  Qed.
  Lemma init_ok c s xs : forall pre st cs, shape c s st -> counted (c + s) pre cs -> (forall x, x ∈ xs -> x.1 < c + s) ->
    exists st' cs', for_each (fun (x : nat * F) (sc : list F * list F * list nat) => st ← access c (fun _ => zero) x.1 sc.1; cs ← bump x.1 sc.2; Ok (st, cs)) xs (st, cs) = Ok (st', cs') /\
      shape c s st' /\ counted (c + s) (pre ++ xs) cs' /\ forall l, get c st' l = match values_at xs l with [] => get c st l | _ => (fun _ => zero) <$> get c st l end.
  Proof.
    clear. induction xs as [|x xs IH]; intros pre st cs Hs Hc Hx; cbn [for_each]; [exists st, cs; by rewrite app_nil_r|].
    pose proof (Hx x (elem_of_list_here _ _)) as Hx1. cbn [fst snd]. destruct (access_ok c s (fun _ => zero) x.1 st Hs Hx1) as (st1 & E1 & Hs1 & H1). rewrite E1, bind_ok.
    destruct (bump_ok (c + s) x.1 cs (proj1 Hc) Hx1) as (cs1 & E & _). rewrite E, bind_ok, bind_ok.
    destruct (IH (pre ++ [x]) st1 cs1 Hs1 (counted_bump _ _ _ _ _ Hc E Hx1)) as (st2 & cs2 & E2 & Hs2 & Hc2 & H2); [intros y Hy; apply Hx; by right|]. exists st2, cs2. split; [done|]. split; [done|]. split; [by rewrite <- app_assoc in Hc2|].
    intros l. rewrite H2, H1. unfold values_at. cbn [List.filter]. destruct (decide (l = x.1)) as [-> |Hne]; [rewrite Nat.eqb_refl|rewrite (proj2 (Nat.eqb_neq _ _)) by done; done]. cbn [map]. destruct (map snd _); [done|]. by destruct (get c st x.1).
  Qed.
  (** The state of a rank before the exchanges. *)
  Definition phase_right (c s : nat) (r : rank_in F) (old : list F) (p : phase) : Prop :=
    length (p_owned p) = c /\ length (p_counts p) = c + s /\ p_sent_counts p = drop c (p_counts p) /\ length (p_sent_values p) = s /\
    (forall l, l < c + s -> p_counts p !! l = Some (u16 (length (values_at (ri_border r ++ ri_interior r) l)))) /\
    (forall j, j < s -> p_sent_values p !! j = Some (fsum (values_at (ri_border r ++ ri_interior r) (c + j)))) /\
    (forall i, i < c -> p_owned p !! i = match values_at (ri_border r ++ ri_interior r) i with [] => old !! i | l => Some (fsum l) end).
  Lemma kernel_phase_ok c s r old : length old = c -> rank_ok c s r -> exists p, kernel_phase zero add c s r old = Ok p /\ phase_right c s r old p.
  Proof using A0 AC AA.
    intros Ho [Hb Hi]. unfold kernel_phase.
    destruct (init_ok c s (ri_interior r ++ ri_border r) [] (old, replicate s zero) (replicate (c + s) 0)) as (st & cs & E & Hs & [Hlc Hc] & H0).
    { split; [done|apply replicate_length]. } { apply counted_nil. } { intros x Hx. apply elem_of_app in Hx as [Hx|Hx]; [pose proof (Hi x Hx); lia|by apply Hb]. }
    rewrite E, bind_ok. destruct (adds_ok c s (ri_border r) st Hs Hb) as (st1 & E1 & Hs1 & H1). rewrite E1, bind_ok.
    destruct (adds_ok c s (ri_interior r) st1 Hs1) as (st2 & E2 & Hs2 & H2); [intros x Hx; pose proof (Hi x Hx); lia|]. rewrite E2, bind_ok.
    eexists. split; [reflexivity|]. unfold phase_right. cbn [p_owned p_counts p_sent_counts p_sent_values]. split; [apply Hs2|]. split; [done|]. split; [done|]. split; [apply Hs1|].
    assert (Hperm : forall l, values_at (ri_interior r ++ ri_border r) l ≡ₚ values_at (ri_border r ++ ri_interior r) l) by (intros l; rewrite !values_at_app; apply Permutation_app_comm).
    split; [|split].
    - intros l Hl. rewrite Hc by done. cbn [app]. by rewrite (Hperm l).
    - intros j Hj. assert (En : values_at (ri_interior r) (c + j) = []) by (apply values_at_nil; intros x Hx; pose proof (Hi x Hx); lia).
      specialize (H1 (c + j)). rewrite H0 in H1. rewrite !values_at_app, En, app_nil_r. cbn [app] in H1. rewrite values_at_app, En in H1. cbn [app] in H1.
      unfold get in H1. rewrite (proj2 (Nat.ltb_ge (c + j) c)) in H1 by lia. replace (c + j - c) with j in H1 by lia. cbn [snd] in H1. rewrite H1, lookup_replicate_2 by done. destruct (values_at (ri_border r) (c + j)) as [|v l]; [done|]. cbn [fmap option_fmap option_map]. f_equal. by rewrite foldl_fsum, A0.
    - intros i Hlt. specialize (H2 i). rewrite H1, H0 in H2. unfold get in H2. rewrite (proj2 (Nat.ltb_lt i c) Hlt) in H2. cbn [fst snd] in H2. rewrite H2. destruct (lookup_lt_is_Some_2 old i ltac:(lia)) as [v Hv]. rewrite Hv.
      rewrite !values_at_app. destruct (values_at (ri_interior r) i) as [|x l], (values_at (ri_border r) i) as [|y l']; cbn [app]; [done|..]; cbn [fmap option_fmap option_map]; f_equal; rewrite ?foldl_fsum, ?fsum_nil, ?A0; try done.
      + by rewrite app_nil_r, AC, A0.
      + by rewrite <- fsum_app.
  Qed.
  Lemma each_row (n c : nat) (f : nat -> list F -> res (list F)) (g : nat -> F -> F) : c <= n ->
    (forall i o v, length o = n -> i < c -> o !! i = Some v -> f i o = Ok (<[i := g i v]> o)) ->
    forall k o, k <= c -> length o = n -> exists o', for_each f (seq 0 k) o = Ok o' /\ length o' = n /\ forall i, o' !! i = if decide (i < k) then g i <$> o !! i else o !! i.
  Proof.
    clear. intros Hcn Hf. induction k as [|k IH]; intros o Hk Ho.
    - exists o. split; [done|]. split; [done|]. intros i. by rewrite decide_False by lia.
    - destruct (IH o ltac:(lia) Ho) as (o1 & E & L1 & H1). rewrite seq_S, for_each_app, E, bind_ok, Nat.add_0_l. cbn [for_each].
      destruct (lookup_lt_is_Some_2 o1 k ltac:(lia)) as [v Hv]. rewrite (Hf k o1 v) by (done || lia). rewrite bind_ok. eexists. split; [reflexivity|]. split; [by rewrite insert_length|].
      intros i. destruct (decide (i = k)) as [-> |Hne].
      + rewrite list_lookup_insert by lia. rewrite decide_True by lia. rewrite H1, decide_False in Hv by lia. by rewrite Hv.
      + rewrite list_lookup_insert_ne by done. rewrite H1. destruct (decide (i < k)), (decide (i < S k)); done || lia.
  Qed.
  Lemma zero_foreign_ok c own all owned : length owned = c -> c <= length own -> c <= length all -> exists o, zero_foreign zero c own all owned = Ok o /\ length o = c /\
    forall i nc mine, i < c -> all !! i = Some nc -> own !! i = Some mine -> o !! i = if decide (0 < nc /\ mine = 0) then Some zero else owned !! i.
  Proof.
    clear. intros Ho H1 H2. unfold zero_foreign.
    destruct (each_row c c (fun i o => nc ← rd all i; mine ← rd own i; if (0 <? nc) && negb (0 <? mine) then wr o i zero else Ok o) (fun i v => if decide (0 < default 0 (all !! i) /\ default 0 (own !! i) = 0) then zero else v) ltac:(lia)) with (k := c) (o := owned) as (o' & E & L & H); [|lia|done|].
    - intros i o v Hl Hi Hv. destruct (lookup_lt_is_Some_2 all i ltac:(lia)) as [nc Hn], (lookup_lt_is_Some_2 own i ltac:(lia)) as [m Hm]. rewrite (rd_ok _ _ _ Hn), bind_ok, (rd_ok _ _ _ Hm), bind_ok. rewrite Hn, Hm. cbn [default from_option]. unfold id.
      destruct (Nat.ltb_spec 0 nc), (Nat.ltb_spec 0 m); cbn [andb negb]; (destruct (decide _) as [Hd|Hd]; try lia); try (by rewrite wr_ok by lia); by rewrite list_insert_id.
    - exists o'. split; [done|]. split; [done|]. intros i nc m Hi Hn Hm. rewrite H, decide_True by done. rewrite Hn, Hm. cbn [default from_option]. unfold id. destruct (lookup_lt_is_Some_2 owned i ltac:(lia)) as [v ->]. cbn [fmap option_fmap option_map]. by destruct (decide _).
  Qed.
  Lemma divide_ok c all owned : c <= length owned -> c <= length all -> exists o, divide div of_nat c all owned = Ok o /\ length o = length owned /\
    forall i nc, i < c -> all !! i = Some nc -> o !! i = (fun v => if decide (0 < nc) then div v (of_nat nc) else v) <$> owned !! i.
  Proof.
    clear. intros H1 H2. unfold divide.
    destruct (each_row (length owned) c (fun i o => nc ← rd all i; if 0 <? nc then v ← rd o i; wr o i (div v (of_nat nc)) else Ok o) (fun i v => if decide (0 < default 0 (all !! i)) then div v (of_nat (default 0 (all !! i))) else v) ltac:(lia)) with (k := c) (o := owned) as (o' & E & L & H); [|lia|done|].
    - intros i o v Hl Hi Hv. destruct (lookup_lt_is_Some_2 all i ltac:(lia)) as [nc Hn]. rewrite (rd_ok _ _ _ Hn), bind_ok. rewrite Hn. cbn [default from_option]. unfold id.
      destruct (Nat.ltb_spec 0 nc); (destruct (decide _) as [Hd|Hd]; try lia); [|by rewrite list_insert_id]. rewrite (rd_ok _ _ _ Hv), bind_ok. by rewrite wr_ok by lia.
    - exists o'. split; [done|]. split; [done|]. intros i nc Hi Hn. rewrite H, decide_True by done. rewrite Hn. done.
  Qed.
  Lemma vals_ok n xs : forall vs, length vs = n -> (forall x, x ∈ xs -> x.1 < n) ->
    exists vs', for_each (fun (x : nat * F) vs => v ← rd vs x.1; wr vs x.1 (add v x.2)) xs vs = Ok vs' /\ length vs' = n /\ forall l, vs' !! l = (fun v => foldl add v (values_at xs l)) <$> vs !! l.
  Proof.
    clear. induction xs as [|x xs IH]; intros vs Hl Hx; cbn [for_each].
    - exists vs. split; [done|]. split; [done|]. intros l. by destruct (vs !! l).
    - pose proof (Hx x (elem_of_list_here _ _)) as Hx1. destruct (lookup_lt_is_Some_2 vs x.1 ltac:(lia)) as [v Hv]. rewrite (rd_ok _ _ _ Hv), bind_ok, wr_ok by lia. rewrite bind_ok.
      destruct (IH (<[x.1 := add v x.2]> vs)) as (vs2 & E2 & L2 & H2); [by rewrite insert_length|intros y Hy; apply Hx; by right|]. exists vs2. split; [done|]. split; [done|]. intros l. rewrite H2. unfold values_at. cbn [List.filter].
      destruct (Nat.eqb_spec x.1 l) as [<- |Hne]; [rewrite list_lookup_insert by lia; by rewrite Hv|by rewrite list_lookup_insert_ne].
  Qed.
  Definition manager_right (c s : nat) (r : rank_in F) (ph : list F * list nat) : Prop :=
    length ph.1 = c + s /\ length ph.2 = c + s /\ forall l, l < c + s -> ph.1 !! l = Some (fsum (values_at (ri_border r ++ ri_interior r) l)) /\ ph.2 !! l = Some (u16 (length (values_at (ri_border r ++ ri_interior r) l))).
  Lemma manager_phase_ok c s r : (forall x, x ∈ ri_border r ++ ri_interior r -> x.1 < c + s) -> exists ph, manager_phase zero add c s r = Ok ph /\ manager_right c s r ph.
  Proof using A0 AC AA.
    intros Hx. unfold manager_phase. destruct (counts_ok (c + s) (ri_border r ++ ri_interior r) [] (replicate (c + s) 0) (counted_nil _) Hx) as (cs & E & Lc & Hc). rewrite E, bind_ok.
    destruct (vals_ok (c + s) (ri_border r ++ ri_interior r) (replicate (c + s) zero) (replicate_length _ _) Hx) as (vs & E2 & Lv & Hv). rewrite E2, bind_ok. eexists. split; [reflexivity|]. split; [done|]. split; [done|]. intros l Hl. cbn [fst snd]. split; [|by apply Hc].
    rewrite Hv, lookup_replicate_2 by done. cbn [fmap option_fmap option_map]. by rewrite foldl_fsum, A0.
  Qed.
  Lemma update_vals_ok all news old : length old <= length all -> length old <= length news -> exists o, update_vals div of_nat all news old = Ok o /\ length o = length old /\
    forall i nc v ov, all !! i = Some nc -> news !! i = Some v -> old !! i = Some ov -> o !! i = Some (if decide (0 < nc) then div v (of_nat nc) else ov).
  Proof.
    clear. intros H1 H2. unfold update_vals.
    destruct (each_row (length old) (length old) (fun i o => nc ← rd all i; if 0 <? nc then v ← rd news i; wr o i (div v (of_nat nc)) else Ok o)
      (fun i v => match all !! i, news !! i with Some nc, Some nv => if decide (0 < nc) then div nv (of_nat nc) else v | _, _ => v end) ltac:(lia)) with (k := length old) (o := old) as (o' & E & L & H); [|lia|done|].
    - intros i o v Hl Hi Hv. destruct (lookup_lt_is_Some_2 all i ltac:(lia)) as [nc Hn], (lookup_lt_is_Some_2 news i ltac:(lia)) as [nv Hnv]. rewrite (rd_ok _ _ _ Hn), bind_ok, Hn, Hnv.
      destruct (Nat.ltb_spec 0 nc); (destruct (decide _) as [Hd|Hd]; try lia); [|by rewrite list_insert_id]. rewrite (rd_ok _ _ _ Hnv), bind_ok. by rewrite wr_ok by lia.
    - exists o'. split; [done|]. split; [done|]. intros i nc v ov Hn Hv Ho. rewrite H, decide_True by (by eapply lookup_lt_Some). rewrite Hn, Hv, Ho. done.
  Qed.
End proofs.

(** All ranks. *)
Section world.
  Context {F : Type} (zero : F) (add : F -> F -> F) (div : F -> F -> F) (of_nat : nat -> F).
  Context (A0 : forall x, add zero x = x) (AC : forall x y, add x y = add y x) (AA : forall x y z, add x (add y z) = add (add x y) z).
  Context (counts : list nat) (shareds : list (list nat)) (ins : list (rank_in F)) (HT : tables counts shareds) (Hins : length ins = length counts).
  Notation fsum := (fsum zero add).
  Lemma rank_at b : b < length counts -> exists c sh r, counts !! b = Some c /\ shareds !! b = Some sh /\ ins !! b = Some r.
  Proof using HT Hins. intros Hb. destruct HT as [HL _]. destruct (lookup_lt_is_Some_2 counts b Hb) as [c Hc], (lookup_lt_is_Some_2 shareds b ltac:(lia)) as [sh Hsh], (lookup_lt_is_Some_2 ins b ltac:(lia)) as [r Hr]. by exists c, sh, r. Qed.
  Definition made (b g : nat) : list F := match ins !! b, local_of counts shareds b g with Some r, Some i => values_at (ri_border r ++ ri_interior r) i | _, _ => [] end.
  Definition others (g b : nat) : option (list F) := match shareds !! b with Some sh => if decide (g ∈ sh) then Some (made b g) else None | None => None end.
  Lemma omap_map {X Y Z} (f : X -> option Z) (h : Y -> Z) (T : X -> option Y) ls : (forall b, b ∈ ls -> f b = h <$> T b) -> omap f ls = map h (omap T ls).
  Proof. clear. induction ls as [|b ls IH]; intros H; [done|]. cbn [omap list_omap]. rewrite (H b) by left. rewrite IH by (intros; apply H; by right). by destruct (T b). Qed.
  Lemma local_owned a g : owns counts a g -> local_of counts shareds a g = Some (g - first_owned counts a).
  Proof using HT. intros (c & Hc & Hr). destruct HT as [HL _]. unfold local_of. rewrite Hc. destruct (lookup_lt_is_Some_2 shareds a) as [sh Hsh]; [rewrite HL; by eapply lookup_lt_Some|]. rewrite Hsh. cbn [mbind option_bind]. by rewrite decide_True. Qed.
  Lemma local_shared b c sh g : counts !! b = Some c -> shareds !! b = Some sh -> g ∈ sh -> local_of counts shareds b g = Some (c + entry_of sh g).
  Proof using HT. intros Hc Hsh Hg. destruct HT as [_ HS]. destruct (HS b sh Hsh) as [_ HS']. destruct (HS' g Hg) as [Hn _]. unfold local_of. rewrite Hc, Hsh. cbn [mbind option_bind]. rewrite decide_False by (intros Hr; apply Hn; by exists c). by rewrite decide_True. Qed.
  Lemma local_none b a g : owns counts a g -> b <> a -> (forall sh, shareds !! b = Some sh -> g ∉ sh) -> local_of counts shareds b g = None.
  Proof using HT. intros Ho Hne Hs. unfold local_of. destruct (counts !! b) as [c|] eqn:Hc; [|done]. destruct (shareds !! b) as [sh|] eqn:Hsh; [|done]. cbn [mbind option_bind]. rewrite decide_False; [by rewrite decide_False by (by apply Hs)|]. intros Hr. apply Hne. eapply owns_unique; [|exact Ho]. by exists c. Qed.
  Lemma contributed_split a g : owns counts a g -> contributed counts shareds ins g ≡ₚ made a g ++ concat (omap (others g) (seq 0 (length counts))).
  Proof using HT Hins.
    intros Ho. pose proof (owns_lt _ _ _ Ho) as Ha. unfold contributed. fold made.
    assert (HG : forall ls, NoDup ls -> concat (map (fun b => made b g) ls) ≡ₚ (if decide (a ∈ ls) then made a g else []) ++ concat (omap (others g) ls)).
    { induction ls as [|b ls IH]; intros Hnd; [done|]. apply NoDup_cons in Hnd as [Hb Hnd]. cbn [map concat omap list_omap]. rewrite (IH Hnd). destruct (decide (b = a)) as [-> |Hne].
      - rewrite (decide_False (P := a ∈ ls)) by done. rewrite (decide_True (P := a ∈ a :: ls)) by left. cbn [app].
        assert (En : others g a = None). { unfold others. destruct (shareds !! a) as [sh|] eqn:Hsh; [|done]. cbn [mbind option_bind]. destruct (decide (g ∈ sh)) as [Hg|]; [|done]. destruct HT as [_ HS]. by destruct (proj2 (HS a sh Hsh) g Hg) as [Hn _]. }
        by rewrite En.
      - assert (Ed : (if decide (a ∈ b :: ls) then made a g else []) = if decide (a ∈ ls) then made a g else []).
        { destruct (decide (a ∈ b :: ls)) as [Hd|Hd], (decide (a ∈ ls)) as [He|He]; [done| | |done]; [apply elem_of_cons in Hd as [Hd|Hd]; [by destruct Hne|done]|destruct Hd; by right]. }
        rewrite Ed. unfold others at 2. destruct (shareds !! b) as [sh|] eqn:Hsh; cbn [mbind option_bind].
        + destruct (decide (g ∈ sh)) as [Hg|Hg]; [cbn [concat]; rewrite !app_assoc; apply Permutation_app_tail, Permutation_app_comm|].
          assert (En : made b g = []) by (unfold made; rewrite (local_none b a g Ho Hne) by (intros sh' E; congruence); by destruct (ins !! b)). by rewrite En.
        + assert (En : made b g = []) by (unfold made; rewrite (local_none b a g Ho Hne) by (intros sh' E; congruence); by destruct (ins !! b)). by rewrite En. }
    rewrite (HG (seq 0 (length counts))) by apply NoDup_seq. by rewrite decide_True by (apply elem_of_seq; lia).
  Qed.
  Lemma entry_lt sh g : NoDup sh -> g ∈ sh -> entry_of sh g < length sh.
  Proof. clear. intros Hn Hg. assert (Hs : g ∈ sort sh) by by apply sort_elem. apply elem_of_list_lookup in Hs as [j Hj]. rewrite (entry_of_sorted _ _ _ Hn Hj). apply lookup_lt_Some in Hj. by rewrite sort_length in Hj. Qed.
  Lemma sent_map {V} (h : list F -> V) (arrays : list (list V)) g :
    (forall b c sh r, counts !! b = Some c -> shareds !! b = Some sh -> ins !! b = Some r -> exists ar, arrays !! b = Some ar /\ forall j, j < length sh -> ar !! j = Some (h (values_at (ri_border r ++ ri_interior r) (c + j)))) ->
    sent shareds arrays g = map h (omap (others g) (seq 0 (length counts))).
  Proof using HT Hins.
    intros Ha. unfold sent. destruct HT as [HL HS]. rewrite HL. apply omap_map. intros b Hb. apply elem_of_seq in Hb. destruct (rank_at b ltac:(lia)) as (c & sh & r & Hc & Hsh & Hr).
    destruct (Ha b c sh r Hc Hsh Hr) as (ar & Har & Hv). unfold others. rewrite Hsh, Har. cbn [mbind option_bind]. destruct (decide (g ∈ sh)) as [Hg|Hg]; [|done]. cbn [fmap option_fmap option_map].
    unfold made. rewrite Hr, (local_shared b c sh g Hc Hsh Hg). apply Hv. apply entry_lt; [by apply (HS b)|done].
  Qed.
  (** The two sums. *)
  Lemma total_value a g : owns counts a g -> fsum (contributed counts shareds ins g) = add (fsum (made a g)) (fsum (map fsum (omap (others g) (seq 0 (length counts))))).
  Proof using HT Hins A0 AC AA. intros Ho. rewrite (fsum_perm zero add AC AA _ _ (contributed_split a g Ho)). rewrite (fsum_app zero add A0 AA). by rewrite (fsum_concat zero add A0 AA). Qed.
  Lemma total_count a g : owns counts a g -> length (contributed counts shareds ins g) = length (made a g) + sum (map length (omap (others g) (seq 0 (length counts)))).
  Proof using HT Hins. intros Ho. rewrite (contributed_split a g Ho), app_length. by rewrite length_concat. Qed.
  Lemma count16 a g l : owns counts a g -> l ≡ₚ map (fun x => u16 (length x)) (omap (others g) (seq 0 (length counts))) -> foldl add16 (u16 (length (made a g))) l = u16 (length (contributed counts shareds ins g)).
  Proof using HT Hins.
    intros Ho Hl. rewrite fold16, (total_count a g Ho). rewrite <- (sum16 (map length _)). f_equal. f_equal. rewrite map_map. by apply sum_perm.
  Qed.
  Lemma value_sum a g l v : owns counts a g -> l ≡ₚ map fsum (omap (others g) (seq 0 (length counts))) -> foldl add v l = add v (fsum (map fsum (omap (others g) (seq 0 (length counts))))).
  Proof using HT Hins A0 AC AA. intros Ho Hl. rewrite (foldl_fsum zero add A0 AC AA). f_equal. by apply (fsum_perm zero add AC AA). Qed.

  Section manager.
    Context (mph : list (list F * list nat)) (owneds : list (list F)) (csums : list (list nat)).
    Context (HM : forall b c sh r, counts !! b = Some c -> shareds !! b = Some sh -> ins !! b = Some r -> exists ph, mph !! b = Some ph /\ manager_right zero add c (length sh) r ph).
    Context (HE : exchanged add counts shareds mph owneds csums).
    Lemma sums_at b g o s : owns counts b g -> owneds !! b = Some o -> csums !! b = Some s ->
      o !! (g - first_owned counts b) = Some (fsum (contributed counts shareds ins g)) /\ s !! (g - first_owned counts b) = Some (u16 (length (contributed counts shareds ins g))).
    Proof using HT Hins A0 AC AA HM HE.
      intros Ho HO HS. pose proof (owns_lt _ _ _ Ho) as Hb. destruct (rank_at b Hb) as (c & sh & r & Hc & Hsh & Hr). destruct (HM b c sh r Hc Hsh Hr) as (ph & Hph & L1 & L2 & Hv).
      destruct HE as (_ & _ & HEx). destruct (HEx b ph c o s Hph Hc HO HS) as [(_ & X1 & _) (_ & X2 & _)].
      destruct Ho as (c' & Hc' & Hrange). assert (c' = c) as -> by congruence. assert (Ho : owns counts b g) by by exists c. set (i := g - first_owned counts b) in *. destruct (Hv i ltac:(lia)) as [V1 V2].
      assert (Em : made b g = values_at (ri_border r ++ ri_interior r) i) by (unfold made; by rewrite Hr, (local_owned b g Ho)). rewrite <- Em in V1, V2.
      split.
      - destruct (X1 g (fsum (made b g)) Ho) as (l & Hl & Eo); [rewrite lookup_take by lia; done|]. fold i in Eo. rewrite Eo. clear Eo. rewrite (sent_map fsum) in Hl.
        + by rewrite (value_sum b g l _ Ho Hl), (total_value b g Ho).
        + intros b' cb shb rb Hcb Hshb Hrb. destruct (HM b' cb shb rb Hcb Hshb Hrb) as (pb & Hpb & _ & _ & Hvb). eexists. split; [rewrite lookup_zip_with, Hpb; cbn [mbind option_bind]; by rewrite Hcb|]. intros j Hj. rewrite lookup_drop. apply Hvb. lia.
      - destruct (X2 g (u16 (length (made b g))) Ho) as (l & Hl & Eo); [rewrite lookup_take by lia; done|]. fold i in Eo. rewrite Eo. clear Eo. rewrite (sent_map (fun x => u16 (length x))) in Hl.
        + by rewrite (count16 b g l Ho Hl).
        + intros b' cb shb rb Hcb Hshb Hrb. destruct (HM b' cb shb rb Hcb Hshb Hrb) as (pb & Hpb & _ & _ & Hvb). eexists. split; [rewrite lookup_zip_with, Hpb; cbn [mbind option_bind]; by rewrite Hcb|]. intros j Hj. rewrite lookup_drop. apply Hvb. lia.
    Qed.
    Lemma owned_length b c ph o s : counts !! b = Some c -> mph !! b = Some ph -> owneds !! b = Some o -> csums !! b = Some s -> length o = length (take c ph.1) /\ length s = length (take c ph.2).
    Proof using HE. intros Hc Hph HO HS. destruct HE as (_ & _ & HEx). destruct (HEx b ph c o s Hph Hc HO HS) as [(Y1 & _) (Y2 & _)]. done. Qed.
  End manager.
  Theorem manage_ok mph a c sh old : counts !! a = Some c -> shareds !! a = Some sh -> length old = c + length sh ->
    (forall b c sh r, counts !! b = Some c -> shareds !! b = Some sh -> ins !! b = Some r -> exists ph, mph !! b = Some ph /\ manager_right zero add c (length sh) r ph) ->
    manage add div of_nat counts shareds mph old a (fun new => forall g i, local_of counts shareds a g = Some i -> (N.of_nat (length (contributed counts shareds ins g)) < 65536)%N ->
      exists ov nv, old !! i = Some ov /\ new !! i = Some nv /\ mean_or_old zero add div of_nat (contributed counts shareds ins g) ov nv).
  Proof using HT Hins A0 AC AA.
    intros Hc Hsh Hlo HM. unfold manage. intros owneds csums o s sh' vs cs HE HO HS Hsh' Lv Lc Iv Ic. assert (sh' = sh) as -> by congruence.
    destruct (rank_at a ltac:(by eapply lookup_lt_Some)) as (c' & sh' & r & Hc' & Hsh'' & Hr). assert (c' = c) as -> by congruence. assert (sh' = sh) as -> by congruence. destruct (HM a c sh r Hc Hsh Hr) as (ph & Hph & L1 & L2 & _).
    destruct (owned_length mph owneds csums HE a c ph o s Hc Hph HO HS) as [Lo Ls]. rewrite take_length in Lo. rewrite take_length in Ls.
    destruct (update_vals_ok div of_nat (s ++ cs) (o ++ vs) old) as (new & E & Ln & Hnew); [rewrite app_length; lia..|]. exists new. split; [done|]. intros g i Hl Hsmall.
    assert (Hboth : (o ++ vs) !! i = Some (fsum (contributed counts shareds ins g)) /\ (s ++ cs) !! i = Some (u16 (length (contributed counts shareds ins g))) /\ i < c + length sh).
    { unfold local_of in Hl. rewrite Hc, Hsh in Hl. cbn [mbind option_bind] in Hl. destruct (decide (first_owned counts a <= g < first_owned counts a + c)) as [Hd|Hd].
      - injection Hl as <-. destruct (sums_at mph owneds csums HM HE a g o s ltac:(by exists c) HO HS) as [S1 S2]. rewrite !lookup_app_l by lia. split; [done|]. split; [done|lia].
      - destruct (decide (g ∈ sh)) as [Hg|]; [|done]. injection Hl as <-. destruct HT as [HL HS']. destruct (HS' a sh Hsh) as [Hnd HSg]. destruct (HSg g Hg) as [_ [b Hb]]. pose proof (owns_lt _ _ _ Hb) as Hbl.
        destruct HE as (LE1 & LE2 & HEx). destruct (lookup_lt_is_Some_2 owneds b ltac:(lia)) as [ob Hob], (lookup_lt_is_Some_2 csums b ltac:(lia)) as [sb Hsb].
        destruct (sums_at mph owneds csums HM ltac:(by split) b g ob sb Hb Hob Hsb) as [S1 S2]. rewrite !lookup_app_r by lia. replace (c + entry_of sh g - length o) with (entry_of sh g) by lia. replace (c + entry_of sh g - length s) with (entry_of sh g) by lia.
        rewrite (Iv sh g b ob Hsh Hg Hb Hob), (Ic sh g b sb Hsh Hg Hb Hsb). split; [done|]. split; [done|]. pose proof (entry_lt sh g Hnd Hg). lia. }
    destruct Hboth as (B1 & B2 & B3). destruct (lookup_lt_is_Some_2 old i ltac:(lia)) as [ov Hov]. eexists ov, _. split; [done|]. split; [by apply (Hnew i _ _ _ B2 B1 Hov)|]. rewrite u16_small by done. unfold mean_or_old.
    destruct (contributed counts shareds ins g); cbn [length]; [by rewrite decide_False by lia|by rewrite decide_True by lia].
  Qed.

  Context (olds : list (list F)) (phases : list (phase (F := F))).
  Context (HP : forall b c sh r, counts !! b = Some c -> shareds !! b = Some sh -> ins !! b = Some r -> exists old p, olds !! b = Some old /\ phases !! b = Some p /\ length old = c /\ phase_right zero add c (length sh) r old p).
  Theorem average_ok a : a < length counts -> average zero add div of_nat counts shareds phases a (fun new =>
    forall g, owns counts a g -> (N.of_nat (length (contributed counts shareds ins g)) < 65536)%N -> exists old ov nv, olds !! a = Some old /\ old !! (g - first_owned counts a) = Some ov /\ new !! (g - first_owned counts a) = Some nv /\
      mean_or_old zero add div of_nat (contributed counts shareds ins g) ov nv).
  Proof using HT Hins HP A0 AC AA.
    intros Ha. destruct (rank_at a Ha) as (c & sh & r & Hc & Hsh & Hr). destruct (HP a c sh r Hc Hsh Hr) as (old & p & Hold & Hp & Hlo & P1 & P2 & P3 & P4 & P5 & P6 & P7).
    exists p, c. split; [done|]. split; [done|]. intros cs (Ec1 & Ec2 & _).
    destruct (zero_foreign_ok zero c (p_counts p) cs (p_owned p) P1 ltac:(lia) ltac:(lia)) as (o1 & E1 & L1 & H1). exists o1. split; [done|]. intros o2 (Ev1 & Ev2 & _).
    destruct (divide_ok div of_nat c cs o2 ltac:(lia) ltac:(lia)) as (new & E2 & L2 & H2). exists new. split; [done|]. intros g Ho Hsmall.
    destruct (Ho) as (c' & Hc' & Hrange). assert (c' = c) as -> by congruence. set (i := g - first_owned counts a) in *. assert (Hi : i < c) by lia.
    destruct (lookup_lt_is_Some_2 old i ltac:(lia)) as [ov Hov].
    assert (Em : made a g = values_at (ri_border r ++ ri_interior r) i) by (unfold made; by rewrite Hr, (local_owned a g Ho)).
    pose proof (P5 i ltac:(lia)) as Hcnt. rewrite <- Em in Hcnt. pose proof (P7 i Hi) as Hval. rewrite <- Em in Hval.
    destruct (Ec2 g _ Ho Hcnt) as (lc & Hlc & Hcs). 
    rewrite (sent_map (fun x => u16 (length x))) in Hlc.
    2:{ intros b cb shb rb Hcb Hshb Hrb. destruct (HP b cb shb rb Hcb Hshb Hrb) as (ob & pb & _ & Hpb & _ & _ & Q2 & Q3 & _ & Q5 & _). exists (p_sent_counts pb). split; [change (map ?f phases) with (f <$> phases); by rewrite list_lookup_fmap, Hpb|]. intros j Hj. rewrite Q3, lookup_drop. apply Q5. lia. }
    fold i in Hcs. rewrite (count16 a g lc Ho Hlc), u16_small in Hcs by done.
    assert (Hov1 : exists v1, o1 !! i = Some v1) by (apply lookup_lt_is_Some_2; lia). destruct Hov1 as [v1 Hv1].
    destruct (Ev2 g v1 Ho Hv1) as (lv & Hlv & Ho2). fold i in Ho2.
    rewrite (sent_map fsum) in Hlv.
    2:{ intros b cb shb rb Hcb Hshb Hrb. destruct (HP b cb shb rb Hcb Hshb Hrb) as (ob & pb & _ & Hpb & _ & _ & _ & _ & _ & _ & Q6 & _). exists (p_sent_values pb). split; [change (map ?f phases) with (f <$> phases); by rewrite list_lookup_fmap, Hpb|]. intros j Hj. by apply Q6. }
    rewrite (value_sum a g lv v1 Ho Hlv) in Ho2.
    pose proof (H2 i _ Hi Hcs) as Hnew. rewrite Ho2 in Hnew. cbn [fmap option_fmap option_map] in Hnew.
    eexists old, ov, _. split; [done|]. split; [done|]. split; [exact Hnew|]. unfold mean_or_old.
    pose proof (H1 i _ _ Hi Hcs Hcnt) as Hz. pose proof (total_count a g Ho) as Htc. pose proof (total_value a g Ho) as Htv.
    assert (Hms : (N.of_nat (length (made a g)) < 65536)%N) by lia. rewrite (u16_small _ Hms) in *.
    destruct (contributed counts shareds ins g) as [|x0 rest] eqn:Econ.
    - cbn [length] in *. destruct (decide (0 < 0)) as [Hd|_]; [lia|]. assert (Hm0 : made a g = []) by (apply nil_length_inv; lia). rewrite Hm0 in *. rewrite decide_False in Hz by (intros [? _]; lia). rewrite Hval in Hz. assert (v1 = ov) as -> by congruence.
      rewrite (fsum_nil zero add), A0 in Htv. rewrite <- Htv, AC. apply A0.
    - rewrite decide_True by (cbn [length]; lia). f_equal. rewrite Htv. f_equal. destruct (made a g) as [|y m] eqn:Emm.
      + rewrite decide_True in Hz by (cbn [length]; lia). by assert (v1 = zero) as -> by congruence.
      + rewrite decide_False in Hz by (cbn [length]; lia). rewrite Hval in Hz. congruence.
  Qed.
End world.
