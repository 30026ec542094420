From Verif Require Import Base StdAlgo Ownership_model Ownership_spec Ownership_proofs Elem_model Elem_spec Mesh_model Mesh_spec Mesh_proofs Helpers_model Helpers_proofs Partition_model Partition_spec Redist_spec Graph_model Graph_spec Graph_proofs Dofs_model Dofs_spec Dofs_proofs Dofs2_proofs Dofs4_proofs Periodic_model Periodic_spec Periodic_proofs Periodic2_proofs.
Local Arguments Nat.mul : simpl never.
Local Arguments Nat.add : simpl never.
Local Arguments Nat.sub : simpl never.

Lemma concat_lengths (l : list (list nat * list nat)) : (forall z, z ∈ l -> length z.1 = length z.2) -> length (concat (map fst l)) = length (concat (map snd l)).
Proof. induction l as [|z l IH]; intros H; [done|]. cbn. rewrite !app_length, (H z) by left. f_equal. apply IH. intros y Hy. apply H. by right. Qed.
Lemma joined_sym {G} (matched : list G -> list (list nat * list nat)) gs u v : joined matched gs u v -> joined matched gs v u.
Proof. unfold joined. intros H. induction H as [u|u x v Hl H IH]; [constructor|]. eapply rtc_r; [exact IH|]. unfold listed in *. tauto. Qed.
Lemma joined_in {G} (matched : list G -> list (list nat * list nat)) gs u v : joined matched gs u v -> u <> v -> u ∈ (pairs matched gs).1 \/ u ∈ (pairs matched gs).2.
Proof.
  unfold joined. intros H Hne. inversion H as [|? x ? Hl]; subst; [done|]. destruct Hl as [Hl|[_ Hl]]; apply zip_lookup_in in Hl as (i & H1 & H2); apply elem_of_list_lookup_2 in H1, H2; tauto.
Qed.
Section ctor.
  Context {V G : Type} `{EqDecision G} (D N : nat) (parts : list (mesh V)) (Hd : distributed parts N).
  Context (fill : nat -> nat) (shuffle : list (nat * list nat) -> list (nat * list nat)) (shuffle_row : list nat -> list nat) (Hsh : forall x, shuffle x ≡ₚ x) (Hsr : forall x, shuffle_row x ≡ₚ x).
  Context (srt : list G -> list G) (ord : list (list G * list bool) -> list (list G * list bool)) (Hord : forall l, ord l ≡ₚ l).
  Context (defs : list (G * list bool)) (matched : list G -> list (list nat * list nat)) (Hm : forall j, j < D -> matchable N matched (srt (concerned defs j))).
  Notation sos := (map (@m_own V) parts).
  Lemma own_counts : map numOwned sos = counts parts.
  Proof. unfold counts. by rewrite map_map. Qed.
  Lemma owns_iff r m p : parts !! r = Some m -> p < N -> owns (counts parts) r p <-> owned m p.
  Proof.
    intros Hr Hp. destruct (di_begin _ _ Hd r m Hr) as [Hb1 Hb2]. assert (Hc : counts parts !! r = Some (so_end (m_own m) - so_begin (m_own m))).
    { unfold counts. change (map ?f parts) with (f <$> parts). by rewrite list_lookup_fmap, Hr. }
    unfold owns, first_owned, owned. fold (sum (take r (counts parts))). split.
    - intros (c & Hc' & Hr'). rewrite Hc in Hc'. injection Hc' as <-. lia.
    - intros Ho. exists (so_end (m_own m) - so_begin (m_own m)). split; [done|]. lia.
  Qed.
  Lemma messages_ok gs : matchable N matched gs ->
    exists comps msgs, getComponents fill shuffle shuffle_row (concat (map fst (matched gs))) (concat (map snd (matched gs))) = Ok comps /\ scatterMatched (map numOwned sos) comps = Ok msgs /\
      length msgs = length parts /\ forall r m msg, parts !! r = Some m -> msgs !! r = Some msg -> forall p a, (p, a) ∈ msg <-> owned m p /\ a <> p /\ least matched gs p a.
  Proof.
    intros [Ha Hb Hc]. destruct (components_classes fill shuffle shuffle_row _ _ Hsh Hsr (concat_lengths _ Ha)) as (comps & E & C1 & C2 & C3 & C4).
    change (concat (map fst (matched gs))) with (pairs matched gs).1 in *. change (concat (map snd (matched gs))) with (pairs matched gs).2 in *. rewrite own_counts.
    assert (Hin : forall c n, c ∈ comps -> n ∈ c -> n ∈ (pairs matched gs).1 \/ n ∈ (pairs matched gs).2) by (intros c n Hcc Hn; apply C2, elem_of_concat; by exists c).
    destruct (scatter_ok (counts parts) comps) as (msgs & E' & Hl & Hmsg).
    - intros c Hcc. destruct (C3 c Hcc) as [Hne _]. destruct c as [|u [|v c]]; [done| |cbn; lia]. destruct (Hc u) as (w & Hw & Hwu); [apply (Hin [u]); [done|left]|].
      apply (C4 [u] u w Hcc ltac:(left)) in Hw. apply elem_of_list_singleton in Hw. done.
    - intros c n Hcc Hn. unfold total. fold (sum (counts parts)). rewrite (di_total _ _ Hd). apply Hb. by apply (Hin c).
    - exists comps, msgs. split; [done|]. split; [done|]. split; [rewrite Hl; unfold counts; by rewrite map_length|]. intros r m msg Hr Hmr p a. rewrite (Hmsg r msg Hmr p a). split.
      + intros (Ho & ps & Hcc & Hp). assert (Hpl : p ∈ a :: ps) by (by right). assert (HpN : p < N) by (apply Hb; by apply (Hin (a :: ps))). split; [by eapply owns_iff|]. destruct (C3 _ Hcc) as [_ Hst]. inversion Hst as [|? ? Hst' Hfa]; subst.
        rewrite Forall_forall in Hfa. split; [specialize (Hfa p Hp); lia|]. split; [apply (C4 _ p a Hcc Hpl); left|]. intros c Hj. apply (C4 _ p c Hcc Hpl) in Hj. apply elem_of_cons in Hj as [-> |Hj]; [done|]. specialize (Hfa c Hj). lia.
      + intros (Ho & Hne & [Hj Hmin]). assert (Hpn : p ∈ (pairs matched gs).1 \/ p ∈ (pairs matched gs).2) by (apply (joined_in matched gs p a); [done|done]). split; [apply (owns_iff r m p Hr); [by apply Hb|done]|].
        apply C2, elem_of_concat in Hpn as (c & Hp & Hcc). pose proof (proj2 (C4 c p a Hcc Hp) Hj) as Hac. destruct (C3 c Hcc) as [_ Hst]. destruct c as [|x ps]; [by apply elem_of_nil in Hp|].
        inversion Hst as [|? ? Hst' Hfa]; subst. rewrite Forall_forall in Hfa. assert (a <= x) by (apply Hmin, (C4 (x :: ps) p x Hcc Hp); left).
        assert (x = a) as ->. { apply elem_of_cons in Hac as [-> |Hac]; [done|]. specialize (Hfa a Hac). lia. } exists ps. split; [done|]. apply elem_of_cons in Hp as [-> |Hp]; [done|done].
  Qed.
  Lemma periodic_ctor : exists pbs, PeriodicBC D fill shuffle shuffle_row srt ord defs matched sos = Ok pbs /\ length pbs = length parts /\
    forall r m b, parts !! r = Some m -> pbs !! r = Some b ->
      NoDup (pb_info b).*1 /\ (forall n row, (n, row) ∈ pb_info b -> owned m n /\ length row = D) /\
      (forall n j a, passive b n j a <-> owned m n /\ j < D /\ a <> n /\ least matched (srt (concerned defs j)) n a) /\
      StronglySorted lt (pb_ghosts b) /\
      (forall g, g ∈ pb_ghosts b <-> ~ owned m g /\ g ∉ so_shared (m_own m) /\ exists n j, passive b n j g).
  Proof.
    unfold PeriodicBC. destruct (process_ok D srt ord defs Hord) as (Hp1 & Hp2 & Hp3).
    set (l := processPeriodicDef D srt ord defs) in *.
    assert (Hma : forall bits gs, (bits, gs) ∈ l -> matchable N matched gs).
    { intros bits gs Hg. destruct (Hp1 bits gs Hg) as (Hl & Hj & j & Hbj). apply Hj in Hbj as [HjD ->]. by apply Hm. }
    destruct (for_each_prefix (fun (g : list bool * list G) st =>
           let m := matched g.2 in
           comps ← getComponents fill shuffle shuffle_row (concat (map fst m)) (concat (map snd m));
           msgs ← scatterMatched (map numOwned sos) comps;
           map_res (fun z : ownership * (list (nat * nat) * (list (nat * list (option nat)) * list nat)) => add_message D z.1 g.1 z.2.1 z.2.2) (zip sos (zip msgs st)))
      (fun pre st => length st = length parts /\ forall r m s, parts !! r = Some m -> st !! r = Some s ->
        info_is D (owned m) s.1 (fun n j a => owned m n /\ exists bits gs, (bits, gs) ∈ pre /\ bits !! j = Some true /\ a <> n /\ least matched gs n a) /\
        forall g, g ∈ s.2 <-> isOwned (m_own m) g = false /\ isShared (m_own m) g = false /\ exists n bits gs, (bits, gs) ∈ pre /\ owned m n /\ g <> n /\ least matched gs n g)
      l (replicate (length sos) ([], []))) as (st & E & Hl & Hst).
    - split; [by rewrite replicate_length, map_length|]. intros r m s Hr Hs. apply lookup_replicate in Hs as [-> _]. cbn [fst snd]. split.
      + split; [constructor|]. split; [intros n row H; by apply elem_of_nil in H|]. intros n j a. split; [intros (row & H & _); by apply elem_of_nil in H|]. intros (_ & bits & gs & H & _). by apply elem_of_nil in H.
      + intros g. split; [by intros H%elem_of_nil|]. intros (_ & _ & n & bits & gs & H & _). by apply elem_of_nil in H.
    - intros pre [bits gs] st (post & El) [Hl Hst]. assert (Hg : (bits, gs) ∈ l) by (rewrite El; apply elem_of_app; right; left). destruct (Hp1 bits gs Hg) as (Hbl & Hbj & _). cbv zeta. cbn [fst snd].
      destruct (messages_ok gs (Hma _ _ Hg)) as (comps & msgs & Ec & E & Hml & Hmsg). rewrite Ec, bind_ok, E, bind_ok.
      destruct (stage (zip sos (zip msgs st)) (fun z : ownership * (list (nat * nat) * (list (nat * list (option nat)) * list nat)) => add_message D z.1 bits z.2.1 z.2.2)
        (fun r s => forall m, parts !! r = Some m -> info_is D (owned m) s.1 (fun n j a => owned m n /\ exists bs hs, (bs, hs) ∈ pre ++ [(bits, gs)] /\ bs !! j = Some true /\ a <> n /\ least matched hs n a) /\
        forall g, g ∈ s.2 <-> isOwned (m_own m) g = false /\ isShared (m_own m) g = false /\ exists n bs hs, (bs, hs) ∈ pre ++ [(bits, gs)] /\ owned m n /\ g <> n /\ least matched hs n g)) as (st' & Es & Hl' & Hs').
      + intros r z Hz. apply zip3 in Hz as (so & msg & [info gh] & -> & Hso & Hmr & Hsr'). change (map (@m_own V) parts) with ((@m_own V) <$> parts) in Hso. rewrite list_lookup_fmap in Hso.
        destruct (parts !! r) as [m|] eqn:Hr; [|done]. injection Hso as <-. cbn [fst snd]. destruct (Hst r m (info, gh) Hr Hsr') as [Hi Hgh]. cbn [fst snd] in *. pose proof (Hmsg r m msg Hr Hmr) as Hin.
        destruct (add_message_ok D (owned m) (m_own m) bits msg info gh _ Hi Hbl) as (info' & gh' & Ea & Hi' & Hgh').
        * intros p a Hpa. by apply Hin in Hpa as [Hpa _].
        * intros p a a' Hpa Hpa'. apply Hin in Hpa as (_ & _ & Hj & Hle). apply Hin in Hpa' as (_ & _ & Hj' & Hle'). apply Hle in Hj'. apply Hle' in Hj. lia.
        * intros n j a Hbj' (_ & bs & hs & Hpre & Hbs & _). assert (Hpl : (bs, hs) ∈ l) by (rewrite El; apply elem_of_app; by left). destruct (Hp1 bs hs Hpl) as (_ & Hbj2 & _). apply Hbj2 in Hbs as [_ Ehs]. apply Hbj in Hbj' as [_ Egs].
          rewrite El, fmap_app in Hp3. apply NoDup_app in Hp3 as (_ & Hdis & _). apply (Hdis hs); [apply elem_of_list_fmap; by exists (bs, hs)|]. rewrite Ehs, <- Egs. cbn. left.
        * eexists. split; [exact Ea|]. intros m' Hm'. injection Hm' as <-. cbn [fst snd]. split.
          -- destruct Hi' as (K1 & K2 & K3). split; [done|]. split; [done|]. intros n j a. rewrite K3, Hin. split.
             ++ intros [(Ho & bs & hs & H & H')|(Hb & Ho & H)]; (split; [done|]); [exists bs, hs|exists bits, gs]; (split; [apply elem_of_app|]); [by left|done|right; left|done].
             ++ intros (Ho & bs & hs & H & H'). apply elem_of_app in H as [H|H]; [left; split; [done|]; by exists bs, hs|]. apply elem_of_list_singleton in H as [= -> ->]. right. tauto.
          -- intros g. rewrite Hgh', Hgh. setoid_rewrite Hin. split.
             ++ intros [(H1 & H2 & n & bs & hs & H & H')|(H1 & H2 & n & H)]; (split; [done|]); (split; [done|]); [exists n, bs, hs|exists n, bits, gs]; (split; [apply elem_of_app|]); [by left|done|right; left|done].
             ++ intros (H1 & H2 & n & bs & hs & H & H'). apply elem_of_app in H as [H|H]; [left; split; [done|]; split; [done|]; by exists n, bs, hs|]. apply elem_of_list_singleton in H as [= -> ->]. right. split; [done|]. split; [done|]. by exists n.
      + exists st'. split; [exact Es|]. split; [rewrite Hl', !zip_with_length, map_length; lia|]. intros r m s Hr Hs. by apply (Hs' r s Hs m).
    - match type of E with ?x = _ => match goal with |- context [for_each ?a ?b ?c] => change (for_each a b c) with x end end. rewrite E, bind_ok. eexists. split; [done|]. split; [by rewrite map_length|]. intros r m b Hr Hb. change (map ?f st) with (f <$> st) in Hb. rewrite list_lookup_fmap in Hb. destruct (st !! r) as [s|] eqn:Es; [|done]. injection Hb as <-. cbn [pb_info pb_ghosts].
      destruct (Hst r m s Hr Es) as [(K1 & K2 & K3) Hgh]. assert (Hpas : forall n j a, (exists row, (n, row) ∈ s.1 /\ row !! j = Some (Some a)) <-> owned m n /\ j < D /\ a <> n /\ least matched (srt (concerned defs j)) n a).
      { intros n j a. rewrite K3. split.
        - intros (Ho & bits & gs & Hg & Hbj & Hne & Hle). destruct (Hp1 bits gs Hg) as (_ & Hj & _). apply Hj in Hbj as [HjD ->]. done.
        - intros (Ho & HjD & Hne & Hle). split; [done|]. destruct (Hp2 j HjD) as [bits Hg]. exists bits. eexists. split; [exact Hg|]. destruct (Hp1 bits _ Hg) as (_ & Hj & _). split; [by apply Hj|done]. }
      split; [done|]. split; [done|]. split; [exact Hpas|]. split; [apply unique_strict, sort_sorted|]. intros g. rewrite unique_elem, sort_elem, Hgh. destruct (di_shared _ _ Hd m ltac:(by eapply elem_of_list_lookup_2)) as [Hss _].
      assert (Eo : isOwned (m_own m) g = false <-> ~ owned m g). { unfold owned. rewrite <- isOwned_spec. by destruct (isOwned (m_own m) g). }
      assert (Esh : isShared (m_own m) g = false <-> g ∉ so_shared (m_own m)). { unfold isShared. rewrite <- (binary_search_spec _ g (strict_sorted _ Hss)). by destruct (binary_search _ g). }
      rewrite Eo, Esh. split; intros (H1 & H2 & H3); (split; [done|]); (split; [done|]).
      + destruct H3 as (n & bits & gs & Hg & Ho & Hne & Hle). destruct (Hp1 bits gs Hg) as (_ & Hj & j & Hbj). exists n, j. apply Hpas. apply Hj in Hbj as [HjD ->]. done.
      + destruct H3 as (n & j & H3). apply Hpas in H3 as (Ho & HjD & Hne & Hle). destruct (Hp2 j HjD) as [bits Hg]. exists n, bits. eexists. split; [exact Hg|done].
  Qed.
End ctor.
