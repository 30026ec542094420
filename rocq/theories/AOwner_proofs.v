From Verif Require Import Base AOwner_model AOwner_spec.

Section proofs.
  Context {T : Type}.
  Notation aheap := (list (option (bool * list T))).
  Notation arr := (option nat * nat)%type.
  Definition refers (h : aheap) (a : arr) (v : option (list T)) : Prop :=
    match v with
    | Some l => a.2 = length l /\ match a.1 with Some p => h !! p = Some (Some (false, l)) | None => l = [] end
    | None => a.1 = None
    end.
  Record good (h : aheap) (os : list arr) (vs : list (option (list T))) : Prop := {
    g_len : length os = length vs;
    g_ref : forall i a v, os !! i = Some a -> vs !! i = Some v -> refers h a v;
    g_diff : forall i j p n m, os !! i = Some (Some p, n) -> os !! j = Some (Some p, m) -> i = j;
    g_live : forall p b, h !! p = Some (Some b) -> exists i n, os !! i = Some (Some p, n) }.
  Lemma refers_block h p n v : refers h (Some p, n) v -> exists l, v = Some l /\ n = length l /\ h !! p = Some (Some (false, l)).
  Proof. destruct v as [l|]; cbn; [|done]. intros [A B]. by exists l. Qed.
  Lemma good_block h os vs i p n : good h os vs -> os !! i = Some (Some p, n) ->
    exists l, vs !! i = Some (Some l) /\ n = length l /\ h !! p = Some (Some (false, l)).
  Proof.
    intros G Hi. destruct (lookup_lt_is_Some_2 vs i) as [v Hv]; [rewrite <- (g_len _ _ _ G); by eapply lookup_lt_Some|].
    destruct (refers_block h p n v (g_ref _ _ _ G i _ v Hi Hv)) as (l & -> & A & B). by exists l.
  Qed.
  (** The heap may change where the array has no block. *)
  Lemma refers_frame h h' a v : refers h a v -> (forall p x, a.1 = Some p -> h !! p = Some x -> h' !! p = Some x) -> refers h' a v.
  Proof.
    intros R F. destruct v as [l|]; [|exact R]. destruct R as [A B]. split; [exact A|].
    destruct a as [[p|] n]; cbn in *; [by apply F|exact B].
  Qed.
  Lemma snoc_inv {A} (l : list A) x i y : (l ++ [x]) !! i = Some y -> (l !! i = Some y /\ i < length l) \/ (i = length l /\ y = x).
  Proof.
    intros H. apply lookup_app_Some in H as [H|[L H]]; [left; split; [done|by eapply lookup_lt_Some]|].
    apply list_lookup_singleton_Some in H as [Z <-]. right. split; [lia|done].
  Qed.
  Lemma good_default h os vs : good h os vs -> good h (os ++ [(None, 0)]) (vs ++ [Some []]).
  Proof.
    intros [A B C D]. split.
    - rewrite (app_length os), (app_length vs), A. done.
    - intros i a v Ha Hv. apply snoc_inv in Ha as [[Ha L]|[-> ->]].
      + rewrite lookup_app_l in Hv by lia. by eapply B.
      + rewrite lookup_app_r, A, Nat.sub_diag in Hv by lia. injection Hv as <-. done.
    - intros i j p n m Hi Hj. apply snoc_inv in Hi as [[Hi _]|[_ Hi]]; [|done]. apply snoc_inv in Hj as [[Hj _]|[_ Hj]]; [|done]. by eapply C.
    - intros p b Hp. destruct (D p b Hp) as (i & n & Hi). exists i, n. by apply lookup_app_l_Some.
  Qed.
  Lemma good_make h os vs l : good h os vs -> good (h ++ [Some (false, l)]) (os ++ [(Some (length h), length l)]) (vs ++ [Some l]).
  Proof.
    intros G. assert (Bd : forall i p n, os !! i = Some (Some p, n) -> p < length h).
    { intros i p n Hi. destruct (good_block h os vs i p n G Hi) as (x & _ & _ & Hx). by eapply lookup_lt_Some. }
    destruct G as [A B C D]. split.
    - rewrite (app_length os), (app_length vs), A. done.
    - intros i a v Ha Hv. apply snoc_inv in Ha as [[Ha L]|[-> ->]].
      + rewrite lookup_app_l in Hv by lia. apply (refers_frame h); [by eapply B|]. intros p x _ Hx. by apply lookup_app_l_Some.
      + rewrite lookup_app_r, A, Nat.sub_diag in Hv by lia. injection Hv as <-. split; [done|]. cbn. rewrite lookup_app_r by done. by rewrite Nat.sub_diag.
    - intros i j p n m Hi Hj. apply snoc_inv in Hi as [[Hi _]|[-> Hi]]; apply snoc_inv in Hj as [[Hj _]|[-> Hj]].
      + by eapply C.
      + injection Hj as -> _. apply Bd in Hi. lia.
      + injection Hi as -> _. apply Bd in Hj. lia.
      + done.
    - intros p b Hp. apply snoc_inv in Hp as [[Hp _]|[-> _]].
      + destruct (D p b Hp) as (i & n & Hi). exists i, n. by apply lookup_app_l_Some.
      + exists (length os), (length l). rewrite lookup_app_r by done. by rewrite Nat.sub_diag.
  Qed.
  (** Deleting the block of one array. *)
  Lemma delete_ok h os vs i a : good h os vs -> os !! i = Some a ->
    exists h', adelete a.1 h = Ok h' /\
      (forall k b v, k <> i -> os !! k = Some b -> vs !! k = Some v -> refers h' b v) /\
      (forall p b, h' !! p = Some (Some b) -> exists k n, k <> i /\ os !! k = Some (Some p, n)).
  Proof.
    intros G Hi. destruct a as [[p|] n]; cbn [fst adelete].
    - destruct (good_block h os vs i p n G Hi) as (l & _ & _ & Hp). rewrite (rd_ok _ _ _ Hp), bind_ok.
      pose proof (lookup_lt_Some _ _ _ Hp) as Lp. rewrite (wr_ok h p None Lp). eexists. split; [done|]. split.
      + intros k b v Hk Hb Hv. apply (refers_frame h); [by eapply (g_ref _ _ _ G)|]. intros q x Hq Hx.
        rewrite list_lookup_insert_ne; [done|]. intros <-. apply Hk. destruct b as [bp m]. cbn in Hq. subst bp. by eapply (g_diff _ _ _ G).
      + intros q b Hq. destruct (decide (p = q)) as [->|N]; [rewrite list_lookup_insert in Hq by done; done|].
        rewrite list_lookup_insert_ne in Hq by done. destruct (g_live _ _ _ G q b Hq) as (k & m & Hk).
        exists k, m. split; [|done]. intros ->. congruence.
    - exists h. split; [done|]. split.
      + intros k b v _ Hb Hv. by eapply (g_ref _ _ _ G).
      + intros q b Hq. destruct (g_live _ _ _ G q b Hq) as (k & m & Hk). exists k, m. split; [|done]. intros ->. congruence.
  Qed.
  Lemma move_ok h os vs i j w v : good h os vs -> vs !! i = Some w -> vs !! j = Some v ->
    exists h' os', amove i j (h, os) = Ok (h', os') /\ good h' os' (if decide (i = j) then vs else <[j := None]> (<[i := v]> vs)).
  Proof.
    intros G Hi Hj. pose proof (g_len _ _ _ G) as L. pose proof (lookup_lt_Some _ _ _ Hi) as Li. pose proof (lookup_lt_Some _ _ _ Hj) as Lj.
    destruct (lookup_lt_is_Some_2 os i) as [a Ha]; [lia|]. destruct (lookup_lt_is_Some_2 os j) as [b Hb]; [lia|].
    unfold amove. cbn [fst snd]. rewrite (rd_ok _ _ _ Ha), bind_ok, (rd_ok _ _ _ Hb), bind_ok.
    case_decide as E; [subst j; rewrite Nat.eqb_refl; by exists h, os|]. rewrite (proj2 (Nat.eqb_neq i j) E).
    destruct (delete_ok h os vs i a G Ha) as (h' & -> & R & Lv). rewrite bind_ok. eexists _, _. split; [done|].
    assert (X : forall k c, <[j := (None, b.2)]> (<[i := b]> os) !! k = Some c ->
      (k = j /\ c = (None, b.2)) \/ (k = i /\ k <> j /\ c = b) \/ (k <> i /\ k <> j /\ os !! k = Some c)).
    { intros k c Hc. destruct (decide (k = j)) as [->|Nj]; [left; rewrite list_lookup_insert in Hc by (rewrite insert_length; lia); split; congruence|].
      rewrite list_lookup_insert_ne in Hc by done. right. destruct (decide (k = i)) as [->|Ni]; [left; rewrite list_lookup_insert in Hc by lia; repeat split; congruence|].
      rewrite list_lookup_insert_ne in Hc by done. by right. }
    split.
    - rewrite (insert_length (<[i := b]> os)), (insert_length os), (insert_length (<[i := v]> vs)), (insert_length vs). exact L.
    - intros k c u Hc Hu. destruct (X k c Hc) as [[-> ->]|[(-> & Nj & ->)|(Ni & Nj & Hk)]].
      + rewrite list_lookup_insert in Hu by (rewrite insert_length; lia). injection Hu as <-. done.
      + rewrite list_lookup_insert_ne in Hu by done. rewrite list_lookup_insert in Hu by lia. injection Hu as <-.
        apply (R j b v); [congruence|done|done].
      + rewrite list_lookup_insert_ne in Hu by done. rewrite list_lookup_insert_ne in Hu by done. by apply (R k c u).
    - intros k k' p n m Hk Hk'. destruct (X k _ Hk) as [[_ ?]|[(-> & Nj & Eb)|(Ni & Nj & Hk1)]]; [done| |];
        destruct (X k' _ Hk') as [[_ ?]|[(-> & Nj' & Eb')|(Ni' & Nj' & Hk1')]]; try done.
      + exfalso. apply Nj'. eapply (g_diff _ _ _ G); [exact Hk1'|]. by rewrite Hb, <- Eb.
      + exfalso. apply Nj. eapply (g_diff _ _ _ G); [exact Hk1|]. by rewrite Hb, <- Eb'.
      + by eapply (g_diff _ _ _ G).
    - intros p x Hp. destruct (Lv p x Hp) as (k & n & Nk & Hk). destruct (decide (k = j)) as [->|Nj].
      + exists i, n. rewrite list_lookup_insert_ne by done. rewrite list_lookup_insert by lia. congruence.
      + exists k, n. rewrite list_lookup_insert_ne by done. by rewrite list_lookup_insert_ne by done.
  Qed.
  Lemma read_ok h a l : refers h a (Some l) -> aread a h = Ok l.
  Proof.
    intros [A B]. unfold aread. destruct a as [[p|] n]; cbn in *.
    - rewrite (rd_ok _ _ _ B), bind_ok, A, Nat.leb_refl. by rewrite firstn_all.
    - subst. done.
  Qed.
  Lemma at_ok h a l k : refers h a (Some l) -> aat a k h = match l !! k with Some v => Ok v | None => Throw end.
  Proof.
    intros [A B]. unfold aat. rewrite A. destruct (Nat.ltb_spec k (length l)) as [L|L].
    - destruct (lookup_lt_is_Some_2 l k L) as [v Hv]. rewrite Hv. destruct a as [[p|] n]; cbn in *; [|subst l; cbn in L; lia].
      rewrite (rd_ok _ _ _ B), bind_ok. by apply rd_ok.
    - by rewrite lookup_ge_None_2.
  Qed.
  Lemma set_ok h os vs i a l k x : good h os vs -> os !! i = Some a -> vs !! i = Some (Some l) ->
    exists h', match aset a k x h with Ok h' => Ok (h', os) | Throw => Ok (h, os) | UB => UB end = Ok (h', os) /\ good h' os (<[i := Some (<[k := x]> l)]> vs).
  Proof.
    intros G Ha Hv. pose proof (g_ref _ _ _ G i a _ Ha Hv) as [A B]. unfold aset. rewrite A.
    destruct (Nat.ltb_spec k (length l)) as [L|L].
    - destruct a as [[p|] n]; cbn in A, B; [|subst l; cbn in L; lia]. cbn [fst]. rewrite (rd_ok _ _ _ B), bind_ok, (wr_ok l k x L), bind_ok.
      pose proof (lookup_lt_Some _ _ _ B) as Lp. rewrite wr_ok by done. eexists. split; [done|]. split.
      + rewrite insert_length. apply G.
      + intros j b v Hb Hu. destruct (decide (i = j)) as [<-|N].
        * rewrite list_lookup_insert in Hu by (by eapply lookup_lt_Some). injection Hu as <-. rewrite Ha in Hb. injection Hb as <-.
          split; cbn; [by rewrite insert_length|by rewrite list_lookup_insert].
        * rewrite list_lookup_insert_ne in Hu by done. apply (refers_frame h); [by eapply (g_ref _ _ _ G)|].
          intros q y Hq Hy. rewrite list_lookup_insert_ne; [done|]. intros <-. apply N. destruct b as [bp m]. cbn in Hq. subst bp. by eapply (g_diff _ _ _ G).
      + apply G.
      + intros q b Hq. destruct (decide (p = q)) as [<-|N]; [by exists i, n|]. rewrite list_lookup_insert_ne in Hq by done. by eapply (g_live _ _ _ G).
    - exists h. split; [done|]. rewrite (list_insert_ge l) by done. by rewrite list_insert_id.
  Qed.
  Lemma astep_ok o h os vs vs' : good h os vs -> aval o vs = Some vs' -> exists h' os', astep o (h, os) = Ok (h', os') /\ good h' os' vs'.
  Proof.
    intros G H. pose proof (g_len _ _ _ G) as L. destruct o as [l|l| |i|i|i j|i k x]; cbn [aval astep fst snd] in *.
    - injection H as <-. eexists _, _. split; [done|]. by apply good_make.
    - done.
    - injection H as <-. eexists _, _. split; [done|]. by apply good_default.
    - destruct (vs !! i) as [[l|]|] eqn:E; try done. injection H as <-. destruct (lookup_lt_is_Some_2 os i) as [a Ha]; [rewrite L; by eapply lookup_lt_Some|].
      rewrite (rd_ok _ _ _ Ha), bind_ok, (read_ok h a l (g_ref _ _ _ G i a _ Ha E)), bind_ok. eexists _, _. split; [done|]. by apply good_make.
    - destruct (vs !! i) as [v|] eqn:E; try done. injection H as <-. pose proof (lookup_lt_Some _ _ _ E) as Li.
      destruct (move_ok h (os ++ [(None, 0)]) (vs ++ [Some []]) (length os) i (Some []) v) as (h' & os' & X & G').
      + by apply good_default.
      + rewrite lookup_app_r by lia. by rewrite L, Nat.sub_diag.
      + by apply lookup_app_l_Some.
      + exists h', os'. split; [exact X|]. rewrite decide_False in G' by lia.
        rewrite (insert_app_r_alt vs) in G' by lia. rewrite L, Nat.sub_diag in G'. cbn in G'. by rewrite insert_app_l in G'.
    - destruct (vs !! i) as [w|] eqn:Ei; [|done]. destruct (vs !! j) as [v|] eqn:Ej; [|done].
      destruct (move_ok h os vs i j w v G Ei Ej) as (h' & os' & X & G'). exists h', os'. split; [exact X|]. case_decide; by injection H as <-.
    - destruct (vs !! i) as [[l|]|] eqn:E; try done. injection H as <-. destruct (lookup_lt_is_Some_2 os i) as [a Ha]; [rewrite L; by eapply lookup_lt_Some|].
      rewrite (rd_ok _ _ _ Ha), bind_ok. destruct (set_ok h os vs i a l k x G Ha E) as (h' & X & G'). by exists h', os.
  Qed.
  Lemma asteps_ok l : forall h os vs vs', good h os vs -> avals l vs = Some vs' -> exists h' os', for_each astep l (h, os) = Ok (h', os') /\ good h' os' vs'.
  Proof.
    induction l as [|o l IH]; intros h os vs vs' G H; cbn [avals for_each] in *; [injection H as <-; eauto|].
    destruct (aval o vs) as [vs1|] eqn:E; [|done]. destruct (astep_ok o h os vs vs1 G E) as (h1 & os1 & -> & G1). rewrite bind_ok. by apply (IH h1 os1 vs1).
  Qed.
  Lemma adestroy_ok os : forall h vs, good h os vs -> exists h', for_each (fun a h => adelete a.1 h) os h = Ok h' /\ forall p b, h' !! p <> Some (Some b).
  Proof.
    induction os as [|a os IH]; intros h vs G; cbn [for_each].
    - exists h. split; [done|]. intros p b Hp. destruct (g_live _ _ _ G p b Hp) as (i & n & Hi). by rewrite lookup_nil in Hi.
    - destruct vs as [|v vs]; [by pose proof (g_len _ _ _ G)|]. destruct (delete_ok h (a :: os) (v :: vs) 0 a G eq_refl) as (h' & -> & R & Lv).
      rewrite bind_ok. apply (IH h' vs). split.
      + pose proof (g_len _ _ _ G) as L. by injection L.
      + intros i b u Hb Hu. by apply (R (S i) b u).
      + intros i j p n m Hi Hj. by pose proof (g_diff _ _ _ G (S i) (S j) p n m Hi Hj) as [= ->].
      + intros p b Hp. destruct (Lv p b Hp) as ([|k] & n & Nk & Hk); [done|]. by exists k, n.
  Qed.
  Lemma good_empty : good [] [] [].
  Proof. split; [done|intros i a v H; by rewrite lookup_nil in H|intros i j p n m H; by rewrite lookup_nil in H|intros p b H; by rewrite lookup_nil in H]. Qed.
End proofs.
