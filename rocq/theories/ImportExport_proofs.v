From Verif Require Import Base StdAlgo Ownership_model Ownership_spec Ownership_proofs
  Mpi_model Mpi_proofs ImportExport_model ImportExport_spec.
From Coq Require Import ZArith.

Local Arguments Nat.ltb : simpl never.
Local Arguments Nat.leb : simpl never.
Local Arguments Nat.eqb : simpl never.

(** ** List facts *)
Lemma concat_lookup {A} (ls : list (list A)) k l i x :
  ls !! k = Some l -> l !! i = Some x -> concat ls !! (sum (take k (map length ls)) + i) = Some x.
Proof.
  revert k. induction ls as [|a ls IH]; intros k Hk Hi; [discriminate|].
  destruct k as [|k]; cbn in Hk.
  - injection Hk as ->. rewrite take_0. cbn [sum foldr concat]. rewrite lookup_app_l; [exact Hi|].
    apply lookup_lt_Some in Hi. cbn. exact Hi.
  - cbn [map take concat]. rewrite sum_cons. rewrite lookup_app_r by lia.
    replace (length a + sum (take k (map length ls)) + i - length a) with (sum (take k (map length ls)) + i) by lia.
    apply IH; assumption.
Qed.
Lemma concat_lookup_inv {A} (ls : list (list A)) p x :
  concat ls !! p = Some x ->
  exists k l i, ls !! k = Some l /\ l !! i = Some x /\ p = sum (take k (map length ls)) + i.
Proof.
  revert p. induction ls as [|a ls IH]; intros p H; [discriminate|]. cbn [concat] in H.
  apply lookup_app_Some in H. destruct H as [H|[Hp H]].
  - exists 0, a, p. rewrite take_0. auto.
  - destruct (IH _ H) as (k & l & i & Hk & Hi & E). exists (S k), l, i.
    cbn [map take lookup list_lookup]. rewrite sum_cons. split; [exact Hk|]. split; [exact Hi|]. lia.
Qed.
Lemma concat_length {A} (ls : list (list A)) : length (concat ls) = sum (map length ls).
Proof. induction ls; cbn [concat map]; [reflexivity|]. rewrite app_length, sum_cons. lia. Qed.
Lemma concat_pos_bound {A} (ls : list (list A)) k l :
  ls !! k = Some l -> sum (take k (map length ls)) + length l <= length (concat ls).
Proof.
  intros H. rewrite concat_length. assert (E : map length ls !! k = Some (length l)).
  { change (map length ls) with (length <$> ls). rewrite list_lookup_fmap, H. reflexivity. }
  rewrite <- (sum_take_S _ _ _ E). apply sum_take_le.
Qed.
Lemma concat_pos_mono {A} (ls : list (list A)) k k' l :
  ls !! k = Some l -> k < k' -> sum (take k (map length ls)) + length l <= sum (take k' (map length ls)).
Proof.
  intros H Hk. assert (E : map length ls !! k = Some (length l)).
  { change (map length ls) with (length <$> ls). rewrite list_lookup_fmap, H. reflexivity. }
  rewrite <- (sum_take_S _ _ _ E). apply sum_take_mono. lia.
Qed.

(** list_prod with a leading [seq]. *)
Lemma prod_seq_S {B} a n (L : list B) : list_prod (seq a (S n)) L = map (pair a) L ++ list_prod (seq (S a) n) L.
Proof. reflexivity. Qed.
Lemma prod_elem {B} n (L : list B) v x : (v, x) ∈ list_prod (seq 0 n) L <-> v < n /\ x ∈ L.
Proof.
  rewrite elem_of_list_In, in_prod_iff, in_seq, <- elem_of_list_In. intuition lia.
Qed.
Lemma prod_lookup {B} n (L : list B) v k x a :
  v < n -> L !! k = Some x -> list_prod (seq a n) L !! (v * length L + k) = Some (a + v, x).
Proof.
  revert v a. induction n as [|n IH]; intros v a Hv Hk; [lia|]. rewrite prod_seq_S.
  pose proof (lookup_lt_Some _ _ _ Hk) as Hl. destruct v as [|v].
  - rewrite lookup_app_l by (rewrite map_length; lia). cbn [Nat.mul Nat.add].
    change (map (pair a) L) with (pair a <$> L). rewrite list_lookup_fmap, Hk. cbn. rewrite Nat.add_0_r. reflexivity.
  - rewrite lookup_app_r by (rewrite map_length; nia). rewrite map_length.
    replace (S v * length L + k - length L) with (v * length L + k) by nia.
    rewrite IH by (auto; lia). f_equal. f_equal. lia.
Qed.
Lemma prod_lookup_inv {B} n (L : list B) p v x a :
  list_prod (seq a n) L !! p = Some (v, x) ->
  exists k, L !! k = Some x /\ a <= v < a + n /\ p = (v - a) * length L + k.
Proof.
  revert p a. induction n as [|n IH]; intros p a H; [discriminate|]. rewrite prod_seq_S in H.
  apply lookup_app_Some in H. destruct H as [H|[Hp H]].
  - change (map (pair a) L) with (pair a <$> L) in H. rewrite list_lookup_fmap in H.
    destruct (L !! p) as [y|] eqn:E; [|discriminate]. cbn in H. injection H as -> ->.
    exists p. split; [exact E|]. split; [lia|]. rewrite Nat.sub_diag. reflexivity.
  - rewrite map_length in *. destruct (IH _ _ H) as (k & Hk & Hv & E). exists k.
    split; [exact Hk|]. split; [lia|]. replace (v - a) with (S (v - S a)) by lia. nia.
Qed.
Lemma prod_pos {B} n (L : list B) (f : B -> nat) v k a :
  v < n -> k <= length L ->
  sum (take (v * length L + k) (map (fun ve => f ve.2) (list_prod (seq a n) L)))
  = v * sum (map f L) + sum (take k (map f L)).
Proof.
  revert v a. induction n as [|n IH]; intros v a Hv Hk; [lia|]. rewrite prod_seq_S, map_app, map_map. cbn [snd].
  destruct v as [|v].
  - cbn [Nat.mul Nat.add]. rewrite take_app_le by (rewrite map_length; lia). reflexivity.
  - rewrite take_app_ge by (rewrite map_length; nia). rewrite map_length.
    replace (S v * length L + k - length L) with (v * length L + k) by nia.
    rewrite sum_app, IH by lia. change (map (fun x => f x) L) with (map f L). nia.
Qed.
Lemma prod_sum {B} n (L : list B) (f : B -> nat) a :
  sum (map (fun ve => f ve.2) (list_prod (seq a n) L)) = n * sum (map f L).
Proof.
  revert a. induction n as [|n IH]; intros a; [reflexivity|]. rewrite prod_seq_S, map_app, map_map, sum_app, IH. cbn [snd]. change (map (fun x => f x) L) with (map f L). lia.
Qed.
Lemma prod_length {A B} (l : list A) (L : list B) : length (list_prod l L) = length l * length L.
Proof. induction l; cbn; [reflexivity|]. rewrite app_length, map_length, IHl. lia. Qed.
Lemma prod_nodup {A B} (l : list A) (L : list B) : NoDup l -> NoDup L -> NoDup (list_prod l L).
Proof.
  intros Hl HL. induction Hl as [|a l Ha Hl IH]; cbn; [constructor|]. apply NoDup_app. split; [|split; [|exact IH]].
  - apply (NoDup_fmap_2 (pair a)). exact HL.
  - intros [x y] Hx Hin. change (map (λ y, (a, y)) L) with ((pair a) <$> L) in Hx.
    apply elem_of_list_fmap in Hx. destruct Hx as (z & E & _). injection E as -> ->.
    apply elem_of_list_In, in_prod_iff in Hin. apply Ha, elem_of_list_In, Hin.
Qed.

Lemma entry_of_sorted sh j g : NoDup sh -> sort sh !! j = Some g -> entry_of sh g = j.
Proof.
  intros Hn Hj. unfold entry_of.
  assert (E : length (List.filter (fun x => x <? g) sh) = length (List.filter (fun x => x <? g) (sort sh))).
  { assert (P : forall l l' : list nat, l ≡ₚ l' -> length (List.filter (fun x => x <? g) l) = length (List.filter (fun x => x <? g) l')).
    { induction 1 as [|x l l' HP IHP|x y l|l1 l2 l3 HP1 IH1 HP2 IH2]; cbn.
      - reflexivity.
      - destruct (x <? g); cbn; [f_equal|]; apply IHP.
      - destruct (x <? g), (y <? g); reflexivity.
      - congruence. }
    apply P. symmetry. apply sort_perm. }
  rewrite E. pose proof (sorted_nodup_strict _ (sort_sorted sh) (sort_nodup _ Hn)) as Hs.
  revert Hs Hj. generalize (sort sh). clear. intros l Hs. revert j. induction Hs as [|a l Hs IH Ha]; intros j Hj; [discriminate|].
  destruct j as [|j]; cbn in Hj.
  - injection Hj as ->. cbn. rewrite Nat.ltb_irrefl.
    assert (Z : List.filter (fun x => x <? g) l = []).
    { clear -Ha. induction Ha as [|x l Hx Ha IH]; [reflexivity|]. cbn.
      replace (x <? g) with false by (symmetry; apply Nat.ltb_ge; lia). exact IH. }
    rewrite Z. reflexivity.
  - cbn. assert (a < g). { rewrite Forall_forall in Ha. apply Ha. eapply elem_of_list_lookup_2; eauto. }
    replace (a <? g) with true by (symmetry; apply Nat.ltb_lt; lia). cbn. f_equal. apply IH. exact Hj.
Qed.

(** ** Tags (C13) *)
Lemma tag_bits counter vec i :
  N.testbit (N.lor (N.land (N.of_nat vec) 4095) (tag_id counter)) i
  = if (i <? 12)%N then N.testbit (N.of_nat vec) i else (i <? 20)%N && N.testbit counter (i - 12).
Proof.
  unfold tag_id. rewrite N.lor_spec, N.land_spec.
  change 4095%N with (N.ones 12). change 255%N with (N.ones 8).
  destruct (N.ltb_spec i 12) as [Hi|Hi].
  - rewrite N.ones_spec_low by lia. rewrite N.shiftl_spec_low by lia. rewrite andb_true_r, orb_false_r. reflexivity.
  - rewrite N.ones_spec_high by lia. rewrite andb_false_r. cbn [orb]. rewrite N.shiftl_spec_high' by lia.
    rewrite N.land_spec. destruct (N.ltb_spec i 20).
    + rewrite N.ones_spec_low by lia. reflexivity.
    + rewrite N.ones_spec_high by lia. reflexivity.
Qed.
Lemma tag_value counter vec : makeTag counter vec = N.to_nat ((N.of_nat vec) mod 4096 + 4096 * (counter mod 256)).
Proof.
  unfold makeTag. f_equal. unfold tag_id.
  change 4095%N with (N.ones 12). change 255%N with (N.ones 8).
  rewrite N.land_ones, (N.land_comm (N.ones 8)), N.land_ones, N.shiftl_mul_pow2.
  change (2 ^ 12)%N with 4096%N. change (2 ^ 8)%N with 256%N.
  rewrite <- N.lxor_lor.
  - rewrite <- N.add_nocarry_lxor; [lia|]. apply N.bits_inj_0. intros i. rewrite N.land_spec.
    change 4096%N with (2^12)%N. destruct (N.ltb_spec i 12).
    + rewrite N.mul_pow2_bits_low by lia. apply andb_false_r.
    + rewrite N.mod_pow2_bits_high by lia. reflexivity.
  - apply N.bits_inj_0. intros i. rewrite N.land_spec.
    change 4096%N with (2^12)%N. destruct (N.ltb_spec i 12).
    + rewrite N.mul_pow2_bits_low by lia. apply andb_false_r.
    + rewrite N.mod_pow2_bits_high by lia. reflexivity.
Qed.
Lemma tag_inj c1 v1 c2 v2 :
  (N.of_nat v1 < 4096)%N -> (N.of_nat v2 < 4096)%N ->
  makeTag c1 v1 = makeTag c2 v2 <-> v1 = v2 /\ (c1 mod 256 = c2 mod 256)%N.
Proof.
  intros H1 H2. rewrite !tag_value. rewrite (N.mod_small _ _ H1), (N.mod_small _ _ H2). split.
  - intros E. apply N2Nat.inj in E.
    assert (c1 mod 256 < 256 /\ c2 mod 256 < 256)%N as [B1 B2] by (split; apply N.mod_upper_bound; discriminate).
    revert E B1 B2. generalize (c1 mod 256)%N (c2 mod 256)%N. intros a b. lia.
  - intros [-> ->]. reflexivity.
Qed.

Lemma omap_app {X Y} (f : X -> option Y) l l' : omap f (l ++ l') = omap f l ++ omap f l'.
Proof. induction l as [|x l IH]; [reflexivity|]. cbn. destruct (f x); cbn; rewrite <- IH; reflexivity. Qed.

(** ** One rank *)
Section one_rank.
  Context {V : Type}.
  Implicit Types ie : impexp V.

  Record ready (c : ctx) (nv : nat) (id : N) (ob : list V) (os : nat) (sb : list V) (ss : nat) ie : Prop := {
    rd_ctx : ie_ctx ie = c; rd_nv : ie_nv ie = nv; rd_id : ie_id ie = id;
    rd_owned : ie_owned ie = Some ob; rd_shared : ie_shared ie = Some sb;
    rd_os : ie_ostride ie = os; rd_ss : ie_sstride ie = ss;
    rd_pack : nv * length (getOwnedInds c) <= length (ie_pack ie);
    rd_tag : (N.of_nat nv < 4096)%N;
    rd_osz : forall v j, v < nv -> j ∈ getOwnedInds c -> j < os /\ v * os + j < length ob;
    rd_ssz : forall v r off len, v < nv -> (r, off, len) ∈ cx_shared c -> len <> 0 ->
      off + len <= ss /\ v * ss + off + len <= length sb }.

  Lemma needed_spec c j : j ∈ getOwnedInds c -> j < num_owned_needed c.
  Proof.
    unfold num_owned_needed. induction (getOwnedInds c) as [|i l IH]; intros H; [apply elem_of_nil in H; contradiction|].
    cbn [foldr]. apply elem_of_cons in H. destruct H as [->|H]; [lia|]. specialize (IH H). lia.
  Qed.
  Lemma needed_least c n : (forall j, j ∈ getOwnedInds c -> j < n) -> num_owned_needed c <= n.
  Proof.
    unfold num_owned_needed. induction (getOwnedInds c) as [|i l IH]; intros H; cbn [foldr]; [lia|].
    pose proof (H i ltac:(left)). assert (foldr (fun i n => S i `max` n) 0 l <= n); [|lia].
    apply IH. intros j Hj. apply H. right. exact Hj.
  Qed.
  Lemma suff_spec nv stride needed size :
    sizeSufficient nv stride needed size = true -> needed <> 0 -> 0 < nv ->
    (Z.of_nat nv * Z.of_nat stride + Z.of_nat needed < 2 ^ 64)%Z ->
    (nv - 1) * stride + needed <= size.
  Proof.
    unfold sizeSufficient. destruct (needed =? 0) eqn:E; [apply Nat.eqb_eq in E; lia|].
    intros H _ Hnv Hb. apply Z.leb_le in H. rewrite Z.mod_small in H by nia. nia.
  Qed.

  Lemma setup_ready c nvmax nv id fill ob os sb ss ie :
    setup c nvmax nv id fill ob os sb ss = Ok ie ->
    num_owned_needed c <= os -> getNumSharedInds c <= ss ->
    (Z.of_nat nv * Z.of_nat os + Z.of_nat os < 2 ^ 64)%Z ->
    (Z.of_nat nv * Z.of_nat ss + Z.of_nat ss < 2 ^ 64)%Z ->
    (forall r off len, (r, off, len) ∈ cx_shared c -> off + len <= getNumSharedInds c) ->
    ready c nv id ob os sb ss ie /\ length (ie_pack ie) = nvmax * length (getOwnedInds c).
  Proof.
    intros H Ho Hs Bo Bs Hsh. unfold setup in H.
    apply bind_inv in H. destruct H as (ie0 & H0 & H).
    unfold make_impexp in H0. apply bind_inv in H0. destruct H0 as ([] & A0 & H0). injection H0 as <-.
    unfold throwing_assert in A0. destruct (nvmax <? Z.to_nat 4096) eqn:Hmax; [|discriminate]. clear A0.
    apply Nat.ltb_lt in Hmax.
    apply bind_inv in H. destruct H as (ie1 & H1 & H).
    unfold setNumVecs in H1. apply bind_inv in H1. destruct H1 as ([] & A1 & H1). injection H1 as <-.
    unfold throwing_assert in A1. destruct (nv <=? _) eqn:Hnv; [|discriminate]. clear A1. apply Nat.leb_le in Hnv. cbn in Hnv.
    apply bind_inv in H. destruct H as (ie2 & H2 & H).
    unfold setOwned in H2. apply bind_inv in H2. destruct H2 as ([] & A2 & H2). injection H2 as <-.
    unfold throwing_assert in A2. cbn [ie_nv ie_ctx] in A2. destruct (sizeSufficient nv os _ _) eqn:S2; [|discriminate]. clear A2.
    unfold setShared in H. apply bind_inv in H. destruct H as ([] & A3 & H). injection H as <-.
    unfold throwing_assert in A3. cbn [ie_nv ie_ctx] in A3. destruct (sizeSufficient nv ss _ _) eqn:S3; [|discriminate]. clear A3.
    split; [|cbn; apply replicate_length]. split; cbn; try reflexivity.
    - rewrite replicate_length. apply Nat.mul_le_mono_r. exact Hnv.
    - lia.
    - intros v j Hv Hj. pose proof (needed_spec _ _ Hj).
      pose proof (suff_spec _ _ _ _ S2 ltac:(lia) ltac:(lia) ltac:(lia)). split; [lia|]. nia.
    - intros v r off len Hv Hin Hlen. pose proof (Hsh _ _ _ Hin).
      pose proof (suff_spec _ _ _ _ S3 ltac:(lia) ltac:(lia) ltac:(lia)). split; [lia|]. nia.
  Qed.

  Context (c : ctx) (nv : nat) (id : N) (ob : list V) (os : nat) (sb : list V) (ss : nat) (ie : impexp V).
  Context (R : ready c nv id ob os sb ss ie).
  Notation oi := (getOwnedInds c).
  Notation W := (list_prod (seq 0 nv) (cx_owned c)).
  Notation lens := (map (fun ve : nat * (nat * list nat) => length ve.2.2) W).

  Lemma cell_inj (v i v' i' n : nat) : i < n -> i' < n -> v * n + i = v' * n + i' -> v = v' /\ i = i'.
  Proof. intros. assert (v = v') by nia. subst. split; [reflexivity|lia]. Qed.

  Lemma work_elem n v i : (v, i) ∈ work nv n <-> v < nv /\ i < n.
  Proof. unfold work. rewrite prod_elem, elem_of_list_In, in_seq. intuition lia. Qed.

  Lemma pack_ok order :
    order ≡ₚ work nv (length oi) ->
    exists buf, packSends order ob ie = Ok buf /\ length buf = length (ie_pack ie)
      /\ forall v i j, v < nv -> oi !! i = Some j -> buf !! (v * length oi + i) = ob !! (v * os + j).
  Proof.
    intros Hp. unfold packSends. rewrite (rd_ctx _ _ _ _ _ _ _ _ R), (rd_os _ _ _ _ _ _ _ _ R).
    set (I := fun (pre : list (nat * nat)) (buf : list V) => length buf = length (ie_pack ie)
       /\ forall v i j, (v, i) ∈ pre -> oi !! i = Some j -> buf !! (v * length oi + i) = ob !! (v * os + j)).
    destruct (for_each_inv (pack_one c os ob) I order [] (ie_pack ie)) as (buf & E & [HL HI]).
    - split; [reflexivity|]. intros v i j H. apply elem_of_nil in H. contradiction.
    - intros pre [v i] buf (post & Epost) [HL HI]. cbn [app] in Epost.
      assert (Hin : (v, i) ∈ order) by (rewrite Epost, elem_of_app, elem_of_cons; tauto).
      rewrite Hp, work_elem in Hin. destruct Hin as [Hv Hi].
      destruct (lookup_lt_is_Some_2 _ _ Hi) as [j Hj].
      destruct (rd_osz _ _ _ _ _ _ _ _ R v j Hv ltac:(eapply elem_of_list_lookup_2; eauto)) as [Hjo Hjb].
      destruct (lookup_lt_is_Some_2 _ _ Hjb) as [x Hx].
      pose proof (rd_pack _ _ _ _ _ _ _ _ R) as Hpk.
      assert (Hcell : v * length oi + i < length buf) by (rewrite HL; nia).
      eexists. split.
      + unfold pack_one. cbn [fst snd]. rewrite (rd_ok _ _ _ Hj). cbn [mbind res_bind].
        replace (j <? os) with true by (symmetry; apply Nat.ltb_lt; exact Hjo).
        rewrite (rd_ok _ _ _ Hx). cbn [mbind res_bind].
        replace (v * length oi + i <? length buf) with true by (symmetry; apply Nat.ltb_lt; exact Hcell).
        apply wr_ok. exact Hcell.
      + split; [rewrite insert_length; exact HL|].
        intros v' i' j' H' Hj'. pose proof (lookup_lt_Some _ _ _ Hj') as Hi'.
        destruct (decide (v * length oi + i = v' * length oi + i')) as [Ec|Ec].
        * destruct (cell_inj _ _ _ _ _ Hi Hi' Ec) as [<- <-]. rewrite list_lookup_insert by exact Hcell.
          assert (j' = j) by congruence. subst. symmetry. exact Hx.
        * rewrite list_lookup_insert_ne by exact Ec. apply HI; [|exact Hj'].
          apply elem_of_app in H'. destruct H' as [H'|H']; [exact H'|].
          apply elem_of_list_singleton in H'. injection H' as -> ->. contradiction.
    - exists buf. cbn [app] in HI. split; [exact E|]. split; [exact HL|].
      intros v i j Hv Hj. apply HI; [|exact Hj]. rewrite Hp, work_elem. split; [exact Hv|].
      eapply lookup_lt_Some; eauto.
  Qed.

  Definition send_acts (buf : list V) : list (act V) :=
    imap (fun n (ve : nat * (nat * list nat)) => ASend ve.2.1 (makeTag id ve.1)
            (take (length ve.2.2) (drop (sum (take n lens)) buf))) W.
  Lemma lens_total : sum lens = nv * length oi.
  Proof.
    rewrite (prod_sum nv (cx_owned c) (fun e => length e.2) 0). f_equal.
    unfold getOwnedInds. rewrite concat_length. f_equal.
    change ((cx_owned c).*2) with (map snd (cx_owned c)). rewrite map_map. reflexivity.
  Qed.
  Lemma sends_ok buf : nv * length oi <= length buf -> import_sends buf ie = Ok (send_acts buf).
  Proof.
    intros Hb. unfold import_sends.
    rewrite (rd_ctx _ _ _ _ _ _ _ _ R), (rd_nv _ _ _ _ _ _ _ _ R), (rd_id _ _ _ _ _ _ _ _ R).
    assert (G : forall Ws p acc,
       p + sum (map (fun ve : nat * (nat * list nat) => length ve.2.2) Ws) <= length buf ->
       for_each (fun (ve : nat * (nat * list nat)) (st : nat * list (act V)) =>
            let '(rank, inds) := ve.2 in
            data ← sub buf 0 (length buf) st.1 (length inds);
            Ok (st.1 + length data, st.2 ++ [ASend rank (makeTag id ve.1) data])) Ws (p, acc)
       = Ok (p + sum (map (fun ve : nat * (nat * list nat) => length ve.2.2) Ws),
             acc ++ imap (fun n (ve : nat * (nat * list nat)) => ASend ve.2.1 (makeTag id ve.1)
            (take (length ve.2.2) (drop (p + sum (take n (map (fun ve : nat * (nat * list nat) => length ve.2.2) Ws))) buf))) Ws)).
    { induction Ws as [|[v [rank inds]] Ws IH]; intros p acc Hp.
      - cbn. rewrite app_nil_r, Nat.add_0_r. reflexivity.
      - cbn [map snd] in Hp |- *. rewrite sum_cons in Hp |- *. cbn [for_each fst snd].
        unfold sub. cbn [Nat.add].
        assert (E : (p + length inds <=? length buf) = true) by (apply Nat.leb_le; lia).
        rewrite E. cbn [andb mbind res_bind].
        rewrite IH.
        + rewrite take_length, drop_length. rewrite Nat.min_l by lia.
          f_equal. f_equal; [lia|]. rewrite <- app_assoc. f_equal. rewrite imap_cons. cbn [app fst snd].
          rewrite take_0. cbn [sum foldr]. rewrite Nat.add_0_r. f_equal.
          apply imap_ext. intros n x _. cbn [compose]. unfold compose. cbn [take]. rewrite sum_cons.
          rewrite Nat.add_assoc. reflexivity.
        + rewrite take_length, drop_length. rewrite Nat.min_l by lia. lia. }
    rewrite G; [|rewrite lens_total; lia]. reflexivity.
  Qed.

  Definition recv_acts : list (act V) :=
    map (fun ve : nat * (nat * nat * nat) => ARecv ve.2.1.1 (makeTag id ve.1) (ve.1 * ss + ve.2.1.2) ve.2.2)
        (list_prod (seq 0 nv) (cx_shared c)).
  Lemma recvs_ok : Forall (fun e => e.2 <> 0) (cx_shared c) -> import_recvs ie = Ok recv_acts.
  Proof.
    intros Hne. unfold import_recvs, recv_acts.
    rewrite (rd_ctx _ _ _ _ _ _ _ _ R), (rd_nv _ _ _ _ _ _ _ _ R), (rd_id _ _ _ _ _ _ _ _ R), (rd_ss _ _ _ _ _ _ _ _ R).
    apply map_res_ok. intros [v [[r off] len]] Hin. apply prod_elem in Hin. destruct Hin as [Hv Hin]. cbn [fst snd].
    rewrite Forall_forall in Hne. pose proof (Hne _ Hin) as Hl. cbn in Hl.
    destruct (rd_ssz _ _ _ _ _ _ _ _ R v r off len Hv Hin Hl) as [H _].
    replace (off + len <=? ss) with true by (symmetry; apply Nat.leb_le; exact H). reflexivity.
  Qed.
  Lemma import_post_ok order :
    order ≡ₚ work nv (length oi) -> Forall (fun e => e.2 <> 0) (cx_shared c) ->
    exists buf, import_post order ie = Ok (recv_acts ++ send_acts buf)
      /\ nv * length oi <= length buf
      /\ forall v i j, v < nv -> oi !! i = Some j -> buf !! (v * length oi + i) = ob !! (v * os + j).
  Proof.
    intros Hp Hne. destruct (pack_ok order Hp) as (buf & E & HL & HI).
    pose proof (rd_pack _ _ _ _ _ _ _ _ R) as Hpk.
    exists buf. split; [|split; [lia|exact HI]]. unfold import_post.
    rewrite (rd_owned _ _ _ _ _ _ _ _ R), (rd_shared _ _ _ _ _ _ _ _ R). cbn [non_null mbind res_bind].
    rewrite (recvs_ok Hne). cbn [mbind res_bind]. rewrite E. cbn [mbind res_bind].
    rewrite sends_ok by lia. reflexivity.
  Qed.

  (** Export *)
  Definition xrecv_acts : list (act V) :=
    imap (fun n (ve : nat * (nat * list nat)) =>
       ARecv ve.2.1 (makeTag id ve.1) (sum (take n lens)) (length ve.2.2)) W.
  Lemma export_recvs_ok : export_recvs ie = Ok xrecv_acts.
  Proof.
    unfold export_recvs. rewrite (rd_owned _ _ _ _ _ _ _ _ R). cbn [non_null mbind res_bind].
    rewrite (rd_ctx _ _ _ _ _ _ _ _ R), (rd_nv _ _ _ _ _ _ _ _ R), (rd_id _ _ _ _ _ _ _ _ R).
    assert (G : forall Ws p acc,
       p + sum (map (fun ve : nat * (nat * list nat) => length ve.2.2) Ws) <= length (ie_pack ie) ->
       for_each (fun (ve : nat * (nat * list nat)) (st : nat * list (act V)) =>
            let '(rank, inds) := ve.2 in
            if st.1 + length inds <=? length (ie_pack ie)
            then Ok (st.1 + length inds,
                     st.2 ++ [ARecv rank (makeTag id ve.1) st.1 (length inds)])
            else UB) Ws (p, acc)
       = Ok (p + sum (map (fun ve : nat * (nat * list nat) => length ve.2.2) Ws),
             acc ++ imap (fun n (ve : nat * (nat * list nat)) => ARecv ve.2.1 (makeTag id ve.1)
             (p + sum (take n (map (fun ve : nat * (nat * list nat) => length ve.2.2) Ws))) (length ve.2.2)) Ws)).
    { induction Ws as [|[v [rank inds]] Ws IH]; intros p acc Hp.
      - cbn. rewrite app_nil_r, Nat.add_0_r. reflexivity.
      - cbn [map snd] in Hp |- *. rewrite sum_cons in Hp |- *. cbn [for_each fst snd].
        assert (E : (p + length inds <=? length (ie_pack ie)) = true) by (apply Nat.leb_le; lia).
        rewrite E. cbn [mbind res_bind].
        rewrite IH by lia. f_equal. f_equal; [lia|]. rewrite <- app_assoc. f_equal. rewrite imap_cons. cbn [app fst snd].
        rewrite take_0. cbn [sum foldr]. rewrite Nat.add_0_r. f_equal.
        apply imap_ext. intros n x _. unfold compose. cbn [take]. rewrite sum_cons.
        rewrite Nat.add_assoc. reflexivity. }
    rewrite G; [|rewrite lens_total; apply (rd_pack _ _ _ _ _ _ _ _ R)]. reflexivity.
  Qed.
  Definition xsend_acts : list (act V) :=
    map (fun ve : nat * (nat * nat * nat) => ASend ve.2.1.1 (makeTag id ve.1)
           (take ve.2.2 (drop (ve.1 * ss + ve.2.1.2) sb)))
        (list_prod (seq 0 nv) (cx_shared c)).
  Lemma export_sends_ok : Forall (fun e => e.2 <> 0) (cx_shared c) -> export_sends ie = Ok xsend_acts.
  Proof.
    intros Hne. unfold export_sends, xsend_acts. rewrite (rd_shared _ _ _ _ _ _ _ _ R). cbn [non_null mbind res_bind].
    rewrite (rd_ctx _ _ _ _ _ _ _ _ R), (rd_nv _ _ _ _ _ _ _ _ R), (rd_id _ _ _ _ _ _ _ _ R), (rd_ss _ _ _ _ _ _ _ _ R).
    apply map_res_ok. intros [v [[r off] len]] Hin. apply prod_elem in Hin. destruct Hin as [Hv Hin]. cbn [fst snd].
    rewrite Forall_forall in Hne. pose proof (Hne _ Hin) as Hl. cbn in Hl.
    destruct (rd_ssz _ _ _ _ _ _ _ _ R v r off len Hv Hin Hl) as [H1 H2]. unfold sub.
    replace (off + len <=? ss) with true by (symmetry; apply Nat.leb_le; exact H1).
    replace (v * ss + off + len <=? length sb) with true by (symmetry; apply Nat.leb_le; exact H2). reflexivity.
  Qed.
  Lemma export_post_ok : Forall (fun e => e.2 <> 0) (cx_shared c) -> export_post ie = Ok (xrecv_acts ++ xsend_acts).
  Proof.
    intros Hne. unfold export_post. rewrite export_recvs_ok. cbn [mbind res_bind].
    rewrite (export_sends_ok Hne). reflexivity.
  Qed.

  (** Unpacking: every owned entry is combined with exactly the buffer entries
      that target it, in the order of execution. *)
  Definition targets (p : nat) (vi : nat * nat) : bool :=
    match oi !! vi.2 with Some j => vi.1 * os + j =? p | None => false end.
  Lemma unpack_ok combine order pack :
    order ≡ₚ work nv (length oi) ->
    (forall v i, v < nv -> i < length oi -> is_Some (pack !! (length oi * v + i))) ->
    exists ob', unpack combine order pack ie = Ok ob' /\ length ob' = length ob
      /\ forall p old, ob !! p = Some old ->
           ob' !! p = Some (foldl combine old (omap (fun vi => pack !! (length oi * vi.1 + vi.2)) (List.filter (targets p) order))).
  Proof.
    intros Hp Hval. unfold unpack. rewrite (rd_owned _ _ _ _ _ _ _ _ R). cbn [non_null mbind res_bind].
    set (I := fun (pre : list (nat * nat)) (o : list V) => length o = length ob
       /\ forall p old, ob !! p = Some old -> o !! p = Some (foldl combine old (omap (fun vi => pack !! (length oi * vi.1 + vi.2)) (List.filter (targets p) pre)))).
    destruct (for_each_inv (unpack_one combine pack ie) I order [] ob) as (o & E & [HL HI]).
    - split; [reflexivity|]. intros p old H. exact H.
    - intros pre [v i] o (post & Epost) [HL HI]. cbn [app] in Epost.
      assert (Hin : (v, i) ∈ order) by (rewrite Epost, elem_of_app, elem_of_cons; tauto).
      rewrite Hp, work_elem in Hin. destruct Hin as [Hv Hi].
      destruct (lookup_lt_is_Some_2 _ _ Hi) as [j Hj].
      destruct (rd_osz _ _ _ _ _ _ _ _ R v j Hv ltac:(eapply elem_of_list_lookup_2; eauto)) as [Hjo Hjb].
      destruct (lookup_lt_is_Some_2 _ _ Hjb) as [x Hx].
      destruct (Hval _ _ Hv Hi) as [y Hy].
      eexists. split.
      + unfold unpack_one. cbn [fst snd]. rewrite (rd_ctx _ _ _ _ _ _ _ _ R), (rd_os _ _ _ _ _ _ _ _ R).
        rewrite (rd_ok _ _ _ Hj). cbn [mbind res_bind].
        replace (j <? os) with true by (symmetry; apply Nat.ltb_lt; exact Hjo).
        rewrite (rd_ok _ _ _ (HI _ _ Hx)). cbn [mbind res_bind].
        rewrite (rd_ok _ _ _ Hy). cbn [mbind res_bind].
        apply wr_ok. rewrite HL. exact Hjb.
      + split; [rewrite insert_length; exact HL|].
        intros p old Hold. rewrite List.filter_app, omap_app, foldl_app. cbn [List.filter].
        assert (T : targets p (v, i) = (v * os + j =? p)) by (unfold targets; cbn [fst snd]; rewrite Hj; reflexivity).
        rewrite T.
        destruct (v * os + j =? p) eqn:Ep.
        * apply Nat.eqb_eq in Ep. subst p. rewrite list_lookup_insert by lia.
          assert (x = old) by congruence. subst. cbn. rewrite Hy. reflexivity.
        * apply Nat.eqb_neq in Ep. rewrite list_lookup_insert_ne by exact Ep. cbn. apply HI. exact Hold.
    - exists o. cbn [app] in HI. split; [exact E|]. split; [exact HL|]. exact HI.
  Qed.
End one_rank.
