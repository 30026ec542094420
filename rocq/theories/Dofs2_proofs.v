From Verif Require Import Base StdAlgo Ownership_model Ownership_spec Ownership_proofs Elem_model Elem_spec Mesh_model Mesh_spec Mesh_proofs Helpers_model Partition_model Partition_spec Redist_spec Dofs_model Dofs_spec Dofs_proofs.
Local Arguments Nat.mul : simpl never.
Local Arguments Nat.add : simpl never.
Local Arguments Nat.sub : simpl never.

Lemma stage {Z B} (z : list Z) (f : Z -> res B) (R : nat -> B -> Prop) :
  (forall r c, z !! r = Some c -> exists b, f c = Ok b /\ R r b) -> exists bs, map_res f z = Ok bs /\ length bs = length z /\ forall r b, bs !! r = Some b -> R r b.
Proof.
  intros H. destruct (map_res_total f z) as [bs Hb].
  { intros c Hc. apply elem_of_list_lookup in Hc as [r Hr]. destruct (H r c Hr) as (b & E & _). eauto. }
  exists bs. split; [done|]. apply map_res_inv in Hb. split; [by rewrite (Forall2_length _ _ _ Hb)|]. intros r b Hr. destruct (Forall2_lookup_r _ _ _ _ _ Hb Hr) as (c & Hc & E).
  destruct (H r c Hc) as (b' & E' & HR). rewrite E in E'. by injection E' as <-.
Qed.
Lemma concat_at {A} (ls : list (list A)) r l i : ls !! r = Some l -> i < length l ->
  concat ls !! (sum (take r (map length ls)) + i) = l !! i /\ take (sum (take r (map length ls)) + i) (concat ls) = concat (take r ls) ++ take i l.
Proof.
  revert r. induction ls as [|k ls IH]; intros r Hr Hi; [done|]. destruct r as [|r].
  - injection Hr as ->. cbn [map take concat]. unfold sum. cbn [foldr]. rewrite Nat.add_0_l, app_nil_l. split; [by rewrite lookup_app_l|]. by rewrite take_app_le by lia.
  - cbn in Hr. destruct (IH r Hr Hi) as [H1 H2]. cbn [map take concat]. rewrite sum_cons.
    replace (length k + sum (take r (map length ls)) + i) with (length k + (sum (take r (map length ls)) + i)) by lia. split.
    + rewrite lookup_app_r by lia. rewrite <- H1. f_equal. lia.
    + rewrite take_app_ge by lia. replace (length k + (sum (take r (map length ls)) + i) - length k) with (sum (take r (map length ls)) + i) by lia. by rewrite H2, app_assoc.
Qed.
Lemma nodup_fst {A B} (l : list (A * B)) k a b : NoDup l.*1 -> (k, a) ∈ l -> (k, b) ∈ l -> a = b.
Proof.
  intros Hnd [i Hi]%elem_of_list_lookup [j Hj]%elem_of_list_lookup. assert (i = j) as ->. { eapply (NoDup_lookup l.*1 i j k Hnd); rewrite list_lookup_fmap; by (rewrite Hi || rewrite Hj). } congruence.
Qed.

Section world.
  Context {V : Type} (D : nat) (ranks : list (mesh V * pbc)) (pdef : list (list nat * list bool)) (N : nat) (HN : numberable D ranks pdef N).
  Notation rk := (mesh V * pbc)%type.
  Notation sos := (map nso ranks).
  Notation lid x n := (getLocalIndex (nso x) n).
  Notation isview := (isview D).
  Notation setview := (setview D).
  Lemma sos_at r so : sos !! r = Some so <-> exists x, ranks !! r = Some x /\ so = nso x.
  Proof. change (map nso ranks) with (nso <$> ranks). rewrite list_lookup_fmap. destruct (ranks !! r); cbn; naive_solver. Qed.
  Lemma counts_eq : map numOwned sos = counts ranks.*1.
  Proof. unfold counts. change (ranks.*1) with (map fst ranks). rewrite !map_map. apply map_ext. intros x. apply nso_num. Qed.
  Lemma parts_at r x : ranks !! r = Some x -> ranks.*1 !! r = Some x.1.
  Proof. intros H. by rewrite list_lookup_fmap, H. Qed.
  Lemma owner_ok n : n < N -> exists x, ranks !! node_owner sos n = Some x /\ owned x.1 n.
  Proof.
    intros Hn. unfold node_owner. rewrite counts_eq. rewrite <- (di_total _ _ (nb_dist _ _ _ _ HN)) in Hn. destruct (get_owner_spec (counts ranks.*1) n Hn) as (c & Hc & Hr).
    set (q := get_owner _ n) in *. pose proof (lookup_lt_Some _ _ _ Hc) as Hlt. unfold counts in Hlt. rewrite map_length, fmap_length in Hlt. destruct (lookup_lt_is_Some_2 ranks _ Hlt) as [x Hx].
    exists x. split; [done|]. unfold counts in Hc. change (map ?f ranks.*1) with (f <$> ranks.*1) in Hc. rewrite list_lookup_fmap, (parts_at _ _ Hx) in Hc. cbn in Hc. injection Hc as <-.
    destruct (di_begin _ _ (nb_dist _ _ _ _ HN) q x.1 (parts_at _ _ Hx)) as [Hb1 Hb2]. unfold first_owned in Hr. fold (sum (take q (counts ranks.*1))) in Hr. unfold owned. lia.
  Qed.
  Lemma owner_uniq r x n : ranks !! r = Some x -> owned x.1 n -> n < N /\ node_owner sos n = r /\ n = sum (take r (counts ranks.*1)) + lid x n.
  Proof.
    intros Hx Ho. destruct (di_begin _ _ (nb_dist _ _ _ _ HN) r x.1 (parts_at _ _ Hx)) as [Hb1 Hb2]. pose proof Ho as Ho'. unfold owned in Ho'. specialize (Hb2 ltac:(lia)).
    assert (How : owns (counts ranks.*1) r n). { exists (so_end (m_own x.1) - so_begin (m_own x.1)). split.
      - unfold counts. change (map ?f ranks.*1) with (f <$> ranks.*1). by rewrite list_lookup_fmap, (parts_at _ _ Hx).
      - unfold first_owned. fold (sum (take r (counts ranks.*1))). lia. }
    pose proof (owns_total _ _ _ How) as Ht. unfold total in Ht. fold (sum (counts ranks.*1)) in Ht. rewrite (di_total _ _ (nb_dist _ _ _ _ HN)) in Ht. split; [done|]. split.
    - unfold node_owner. rewrite counts_eq. eapply owns_unique; [apply get_owner_spec|exact How]. unfold total. fold (sum (counts ranks.*1)). by rewrite (di_total _ _ (nb_dist _ _ _ _ HN)).
    - destruct (lid_owned x n Ho) as (_ & _ & H). rewrite <- Hb2, <- H at 1. f_equal. unfold nso. cbn. destruct (numOwned (m_own x.1) =? 0) eqn:E; [|done]. apply Nat.eqb_eq in E. unfold numOwned in E. lia.
  Qed.
  Lemma loc_lt r x n : ranks !! r = Some x -> loc x n -> n < N.
  Proof. intros Hx Hl. apply loc_cases in Hl as [H|H]; [by eapply owner_uniq|]. eapply not_owned; [exact HN|by eapply elem_of_list_lookup_2|done]. Qed.

  (** *** Export of the marks *)
  Lemma setview_or x v P n row : x ∈ ranks -> loc x n -> length row = D -> setview x v P ->
    exists v', (r ← rd v (lid x n); wr v (lid x n) (zip_with orb r row)) = Ok v' /\ setview x v' (fun t j => P t j \/ t = n /\ row !! j = Some true).
  Proof.
    intros Hx Hn Hl (H1 & H2 & H3). destruct (H3 n Hn I) as (r & Hr & Hp). rewrite (rd_ok _ _ _ Hr), bind_ok. assert (Hlr : length r = D) by (rewrite Forall_lookup in H2; by eapply H2).
    assert (Hlt := lid_lt D ranks pdef N HN x n Hx Hn). rewrite wr_ok by lia. eexists. split; [done|]. split; [by rewrite insert_length|]. split.
    - apply Forall_insert; [done|]. rewrite zip_with_length. lia.
    - intros t Ht _. destruct (decide (t = n)) as [-> |Hne].
      + rewrite list_lookup_insert by lia. eexists. split; [done|]. intros j Hj. destruct (Hp j Hj) as (a & Ha & HP). destruct (lookup_lt_is_Some_2 row j) as [b Hb]; [lia|].
        exists (a || b). split; [apply lookup_zip_with_Some; by exists a, b|]. rewrite orb_true_iff, HP, Hb. naive_solver.
      + rewrite list_lookup_insert_ne. 2:{ intros E. apply Hne. symmetry. eapply lid_inj; [exact HN|exact Hx|done|done|done]. } destruct (H3 t Ht I) as (r' & Hr' & Hp'). exists r'. split; [done|].
        intros j Hj. destruct (Hp' j Hj) as (a & Ha & HP). exists a. split; [done|]. rewrite HP. naive_solver.
  Qed.
  Lemma sent_elem (bmps : list (list (list bool))) q n row : length bmps = length ranks -> (n, row) ∈ sent_to sos bmps q <->
    node_owner sos n = q /\ exists r x v i, ranks !! r = Some x /\ bmps !! r = Some v /\ so_shared (nso x) !! i = Some n /\ v !! (numOwned (nso x) + i) = Some row.
  Proof.
    intros Hl. unfold sent_to. rewrite elem_of_concat. split.
    - intros (l & Hin & Hl'). apply (elem_of_list_fmap (fun z : ownership * list (list bool) => List.filter (fun s => node_owner sos s.1 =? q) (zip (so_shared z.1) (drop (numOwned z.1) z.2)))) in Hl' as ([so v] & -> & Hz).
      apply elem_of_list_lookup in Hz as [r Hz]. apply lookup_zip_with_Some in Hz as (so' & v' & [= <- <-] & Hso & Hv). apply sos_at in Hso as (x & Hx & ->).
      rewrite elem_of_list_In, filter_In, <- elem_of_list_In in Hin. destruct Hin as [Hin Hq]. apply Nat.eqb_eq in Hq. split; [done|]. apply elem_of_list_lookup in Hin as [i Hi].
      apply lookup_zip_with_Some in Hi as (n' & row' & [= <- <-] & Hn & Hr). rewrite lookup_drop in Hr. by exists r, x, v, i.
    - intros (Hq & r & x & v & i & Hx & Hv & Hn & Hr). eexists. split; [|apply (elem_of_list_fmap_1 (fun z : ownership * list (list bool) => List.filter (fun s => node_owner sos s.1 =? q) (zip (so_shared z.1) (drop (numOwned z.1) z.2))) _ (nso x, v))].
      + rewrite elem_of_list_In, filter_In, <- elem_of_list_In. split; [|by apply Nat.eqb_eq]. eapply elem_of_list_lookup_2. apply lookup_zip_with_Some. exists n, row. cbn [fst snd]. split; [done|]. split; [exact Hn|]. by rewrite lookup_drop.
      + eapply elem_of_list_lookup_2. apply lookup_zip_with_Some. exists (nso x), v. split; [done|]. split; [|exact Hv]. apply sos_at. eauto.
  Qed.
  Lemma export_ok arr (bmps : list (list (list bool))) (M : rk -> nat -> nat -> Prop) : (forall l, arr l ≡ₚ l) -> length bmps = length ranks ->
    (forall r x v, ranks !! r = Some x -> bmps !! r = Some v -> setview x v (M x)) ->
    exists bmps', exportDofBmp arr sos bmps = Ok bmps' /\ length bmps' = length ranks /\
      forall r x v, ranks !! r = Some x -> bmps' !! r = Some v -> setview x v (fun n j => M x n j \/ owned x.1 n /\ exists x', x' ∈ ranks /\ n ∈ so_shared (nso x') /\ M x' n j).
  Proof.
    intros Harr Hl Hv. unfold exportDofBmp.
    destruct (stage (zip (seq 0 (length sos)) (zip sos bmps)) (fun z : nat * (ownership * list (list bool)) =>
      for_each (fun s bmp => let l := getLocalIndex z.2.1 s.1 in row ← rd bmp l; wr bmp l (zip_with orb row s.2)) (arr (sent_to sos bmps z.1)) z.2.2)
      (fun r v => forall x, ranks !! r = Some x -> setview x v (fun n j => M x n j \/ owned x.1 n /\ exists x', x' ∈ ranks /\ n ∈ so_shared (nso x') /\ M x' n j))) as (bs & E & Hlb & H).
    - intros r [q [so v]] Hz. apply lookup_zip_with_Some in Hz as (q' & z & [= <- <-] & Hq & Hz). apply lookup_zip_with_Some in Hz as (so' & v' & [= <- <-] & Hso & Hvr).
      apply lookup_seq in Hq as [-> Hq]. rewrite Nat.add_0_l in *. apply sos_at in Hso as (x & Hx & ->). cbn [fst snd]. assert (Hxi : x ∈ ranks) by (by eapply elem_of_list_lookup_2).
      assert (Hs : forall n row, (n, row) ∈ sent_to sos bmps r -> owned x.1 n /\ length row = D).
      { intros n row Hs. apply sent_elem in Hs as (Ho & r' & x' & v' & i & Hx' & Hv' & Hn & Hr); [|done]. destruct (Hv r' x' v' Hx' Hv') as (Hvl & Hvf & _). rewrite Forall_lookup in Hvf.
        split; [|by eapply Hvf]. destruct (owner_ok n) as (y & Hy & Hoy). { apply (loc_lt r' x' n Hx'). apply loc_cases. right. by eapply elem_of_list_lookup_2. }
        rewrite Ho in Hy. congruence. }
      destruct (setview_fold D x (fun (s : nat * list bool) bmp => let l := lid x s.1 in row ← rd bmp l; wr bmp l (zip_with orb row s.2)) (fun s t j => t = s.1 /\ s.2 !! j = Some true)
        (arr (sent_to sos bmps r)) v (M x)) as (v' & E & H); [|by apply (Hv r)|].
      + intros [n row] w P Hin Hw. rewrite Harr in Hin. destruct (Hs n row Hin) as [Ho Hrl]. cbv zeta. cbn [fst snd]. apply setview_or; [done|by left|done|done].
      + exists v'. split; [exact E|]. intros x' Hx'. assert (x' = x) as -> by congruence. eapply setview_ext, H. intros n j Hn Hj. split.
        * intros [HM|([n' row] & Hin & -> & Hr)]; [by left|]. right. cbn [fst snd] in *. rewrite Harr in Hin. destruct (Hs n' row Hin) as [Ho Hrl]. split; [done|].
          apply sent_elem in Hin as (_ & r' & x' & w & i & Hx'' & Hw & Hni & Hri); [|done]. exists x'. assert (Hin' : x' ∈ ranks) by (by eapply elem_of_list_lookup_2). split; [done|].
          assert (Hns : n' ∈ so_shared (nso x')) by (by eapply elem_of_list_lookup_2). split; [done|]. destruct (Hv r' x' w Hx'' Hw) as (_ & _ & Hv3).
          destruct (Hv3 n') as (row' & Hr' & Hj'); [apply loc_cases; by right|done|].
          assert (Hlid : lid x' n' = numOwned (nso x') + i). { destruct (lid_shared D ranks pdef N HN x' n' Hin' Hns) as [Hl1 Hl2]. assert (Hnd : NoDup (so_shared (nso x'))) by (apply sort_nodup; eapply nso_nodup; done).
            pose proof (NoDup_lookup _ _ _ _ Hnd Hni Hl2). lia. }
          rewrite Hlid, Hri in Hr'. injection Hr' as <-. destruct (Hj' j Hj) as (a & Ha & HP). rewrite Ha in Hr. injection Hr as ->. by apply HP.
        * intros [HM|(Ho & x' & Hx'' & Hns & HM)]; [by left|]. right. apply elem_of_list_lookup in Hx'' as [r' Hr']. destruct (lookup_lt_is_Some_2 bmps r') as [w Hw]; [rewrite Hl; by eapply lookup_lt_Some|].
          destruct (Hv r' x' w Hr' Hw) as (_ & _ & Hv3). destruct (Hv3 n) as (row & Hrow & Hj'); [apply loc_cases; by right|done|]. exists (n, row). cbn [fst snd]. split.
          -- rewrite Harr. apply sent_elem; [done|]. split; [by eapply owner_uniq|]. assert (Hin' : x' ∈ ranks) by (by eapply elem_of_list_lookup_2).
             destruct (lid_shared D ranks pdef N HN x' n Hin' Hns) as [Hl1 Hl2]. exists r', x', w, (lid x' n - numOwned (nso x')). split; [done|]. split; [done|]. split; [done|].
             replace (numOwned (nso x') + (lid x' n - numOwned (nso x'))) with (lid x' n) by lia. done.
          -- split; [done|]. destruct (Hj' j Hj) as (a & Ha & HP). rewrite Ha. f_equal. by apply HP.
    - exists bs. split; [exact E|]. split; [rewrite Hlb, !zip_with_length, seq_length, map_length; lia|]. intros r x v Hx Hb. by apply (H r v Hb).
  Qed.

  (** *** Import *)
  Lemma comm_ok {A} (rows : list (list (list A))) (f : nat -> nat -> A) : length rows = length ranks ->
    (forall r x v, ranks !! r = Some x -> rows !! r = Some v -> isview x (owned x.1) v (fun n j a => a = f n j)) ->
    exists rows', communicateShared sos rows = Ok rows' /\ length rows' = length ranks /\
      forall r x v, ranks !! r = Some x -> rows' !! r = Some v -> isview x (fun _ => True) v (fun n j a => a = f n j).
  Proof.
    intros Hl Hv. unfold communicateShared.
    assert (Hi : forall r x n, ranks !! r = Some x -> n ∈ so_shared (nso x) -> exists row, import_row sos rows n = Ok row /\ length row = D /\ forall j, j < D -> row !! j = Some (f n j)).
    { intros r x n Hx Hn. destruct (owner_ok n) as (y & Hy & Ho). { apply (loc_lt r x n Hx). apply loc_cases. by right. }
      unfold import_row. rewrite (rd_ok sos _ (nso y)) by (apply sos_at; eauto). rewrite bind_ok. destruct (lookup_lt_is_Some_2 rows (node_owner sos n)) as [v Hvr]; [rewrite Hl; by eapply lookup_lt_Some|].
      rewrite (rd_ok _ _ _ Hvr), bind_ok. destruct (Hv _ _ _ Hy Hvr) as (H1 & H2 & H3). destruct (H3 n) as (row & Hr & Hj); [by left|done|]. exists row. split; [by apply rd_ok|].
      split; [rewrite Forall_lookup in H2; by eapply H2|]. intros j Hjd. destruct (Hj j Hjd) as (a & Ha & ->). done. }
    destruct (stage (zip sos rows) (fun z : ownership * list (list A) => sh ← map_res (import_row sos rows) (so_shared z.1); Ok (take (numOwned z.1) z.2 ++ sh))
      (fun r v => forall x, ranks !! r = Some x -> isview x (fun _ => True) v (fun n j a => a = f n j))) as (bs & E & Hlb & H).
    - intros r [so v] Hz. apply lookup_zip_with_Some in Hz as (so' & v' & [= <- <-] & Hso & Hvr). apply sos_at in Hso as (x & Hx & ->). cbn [fst snd]. assert (Hxi : x ∈ ranks) by (by eapply elem_of_list_lookup_2).
      destruct (stage (so_shared (nso x)) (import_row sos rows) (fun i row => exists n, so_shared (nso x) !! i = Some n /\ length row = D /\ forall j, j < D -> row !! j = Some (f n j))) as (sh & Es & Hls & Hsh).
      { intros i n Hn. destruct (Hi r x n Hx) as (row & E & H1 & H2); [by eapply elem_of_list_lookup_2|]. exists row. split; [done|]. eauto. }
      rewrite Es, bind_ok. eexists. split; [done|]. intros x' Hx'. assert (x' = x) as -> by congruence. destruct (Hv r x v Hx Hvr) as (H1 & H2 & H3).
      assert (Hno : numOwned (nso x) <= length v) by (rewrite H1; unfold localSize; lia). split; [|split].
      + rewrite app_length, take_length, Hls. unfold localSize. lia.
      + apply Forall_app. split; [by apply Forall_take|]. apply Forall_lookup. intros i row Hr. by destruct (Hsh i row Hr) as (_ & _ & ? & _).
      + intros n Hn _. apply loc_cases in Hn as [Ho|Hs].
        * destruct (H3 n) as (row & Hr & Hj); [by left|done|]. exists row. split; [|done]. destruct (lid_owned x n Ho) as (_ & Hlt & _). rewrite lookup_app_l by (rewrite take_length; lia). by rewrite lookup_take.
        * destruct (lid_shared D ranks pdef N HN x n Hxi Hs) as [Hl1 Hl2]. rewrite lookup_app_r by (rewrite take_length; lia). rewrite take_length, Nat.min_l by lia.
          destruct (lookup_lt_is_Some_2 sh (lid x n - numOwned (nso x))) as [row Hr]; [rewrite Hls; by eapply lookup_lt_Some|]. exists row. split; [done|].
          destruct (Hsh _ _ Hr) as (n' & Hn' & _ & Hj). assert (n' = n) as -> by congruence. intros j Hjd. exists (f n j). split; [by apply Hj|done].
    - exists bs. split; [exact E|]. split; [rewrite Hlb, zip_with_length, map_length; lia|]. intros r x v Hx Hb. by apply (H r v Hb).
  Qed.

  (** *** Numbers of the owned unknowns *)
  Definition frow (x : rk) (i : nat) (row : list bool) : list bool := zip_with (fun p y => is_invalid p && y) (pb_lookup D x.2 (so_begin (nso x) + i)) row.
  Definition frows (x : rk) (v : list (list bool)) : list (list bool) := zip_with (frow x) (seq 0 (numOwned (nso x))) v.
  Lemma frows_ok x v : x ∈ ranks -> length v = localSize (nso x) -> Forall (fun r => length r = D) v ->
    length (frows x v) = numOwned (nso x) /\ Forall (fun r => length r = D) (frows x v) /\
    forall i, i < numOwned (nso x) -> exists row, v !! i = Some row /\ length row = D /\ frows x v !! i = Some (frow x i row).
  Proof.
    intros Hx H1 H2. assert (Hno : numOwned (nso x) <= length v) by (rewrite H1; unfold localSize; lia).
    assert (H3 : forall i, i < numOwned (nso x) -> exists row, v !! i = Some row /\ length row = D /\ frows x v !! i = Some (frow x i row)).
    { intros i Hi. destruct (lookup_lt_is_Some_2 v i) as [row Hr]; [lia|]. exists row. split; [done|]. split; [rewrite Forall_lookup in H2; by eapply H2|].
      apply lookup_zip_with_Some. exists i, row. split; [done|]. split; [by apply lookup_seq|done]. }
    assert (Hl : length (frows x v) = numOwned (nso x)) by (unfold frows; rewrite zip_with_length, seq_length; lia).
    split; [done|]. split; [|done]. apply Forall_lookup. intros i r Hr. destruct (H3 i) as (row & _ & Hlr & E); [rewrite <- Hl; by eapply lookup_lt_Some|]. rewrite Hr in E. injection E as ->.
    unfold frow. rewrite zip_with_length. destruct x as [m b]. destruct (lookup_ok D ranks pdef N HN m b (so_begin (nso (m, b)) + i) Hx) as [Hlk _]. cbn [snd] in *. lia.
  Qed.
  Lemma concat_take_S {A} (ls : list (list A)) i l : ls !! i = Some l -> concat (take (S i) ls) = concat (take i ls) ++ l.
  Proof. intros H. rewrite (take_S_r _ _ _ H), concat_app. cbn. by rewrite app_nil_r. Qed.
  Lemma num_owned_ok x v : x ∈ ranks -> length v = localSize (nso x) -> Forall (fun r => length r = D) v ->
    computeNumOwnedDofs D (nso x) x.2 v = Ok (count_true (concat (frows x v))).
  Proof.
    intros Hx H1 H2. destruct (frows_ok x v Hx H1 H2) as (Hl & _ & H3). unfold computeNumOwnedDofs.
    set (f := fun i s => row ← rd v i; Ok (s + count_true (zip_with (fun p y => is_invalid p && y) (pb_lookup D x.2 (so_begin (nso x) + i)) row))).
    assert (H : forall k, k <= numOwned (nso x) -> for_each f (seq 0 k) 0 = Ok (count_true (concat (take k (frows x v))))).
    { induction k as [|k IH]; intros Hk; [done|]. rewrite seq_S, for_each_app, IH, bind_ok by lia. cbn [for_each]. rewrite Nat.add_0_l. destruct (H3 k) as (row & Hr & _ & Hf); [lia|].
      unfold f. rewrite (rd_ok _ _ _ Hr), !bind_ok. f_equal. rewrite (concat_take_S _ _ _ Hf), count_app. done. }
    rewrite H by done. rewrite <- Hl, take_ge by done. done.
  Qed.
  Definition entry (base : nat) (rows : list (list bool)) (i j : nat) : option nat :=
    match rows !! i with Some row => match row !! j with Some true => Some (base + count_true (concat (take i rows)) + count_true (take j row)) | _ => None end | None => None end.
  Lemma owned_dofs_ok x v base : x ∈ ranks -> length v = localSize (nso x) -> Forall (fun r => length r = D) v ->
    exists w, computeOwnedDofs D (nso x) x.2 v base = Ok w /\ isview x (owned x.1) w (fun n j a => a = entry base (frows x v) (lid x n) j).
  Proof.
    intros Hx H1 H2. destruct (frows_ok x v Hx H1 H2) as (Hl & Hfr & H3). unfold computeOwnedDofs.
    set (f := fun i st => row ← rd v i; let r := number_row (pb_lookup D x.2 (so_begin (nso x) + i)) row st.2 in w ← wr st.1 i r.1; Ok (w, r.2)).
    assert (H : forall k, k <= numOwned (nso x) -> exists w, for_each f (seq 0 k) (replicate (localSize (nso x)) (replicate D (Some 0)), base) = Ok (w, base + count_true (concat (take k (frows x v)))) /\
      length w = localSize (nso x) /\ Forall (fun r => length r = D) w /\ forall i, i < k -> exists row, w !! i = Some row /\ forall j, j < D -> row !! j = Some (entry base (frows x v) i j)).
    { induction k as [|k IH]; intros Hk.
      - eexists. split; [cbn [seq for_each take concat]; rewrite Nat.add_0_r; done|]. split; [apply replicate_length|]. split; [|intros i Hi; lia].
        apply Forall_forall. intros r Hr. apply elem_of_replicate in Hr as [-> _]. apply replicate_length.
      - destruct IH as (w & E & Hlw & Hwf & Hw); [lia|]. rewrite seq_S, for_each_app, E, bind_ok. cbn [for_each]. rewrite Nat.add_0_l. destruct (H3 k) as (row & Hr & Hlr & Hf); [lia|].
        unfold f at 1. rewrite (rd_ok _ _ _ Hr), bind_ok. cbv zeta. cbn [fst snd]. assert (Hlk : length (pb_lookup D x.2 (so_begin (nso x) + k)) = length row) by (destruct x as [m b]; rewrite Hlr; eapply lookup_ok; done).
        destruct (number_row_ok _ row (base + count_true (concat (take k (frows x v)))) Hlk) as (Hn1 & Hn2 & Hn3). rewrite wr_ok by (unfold localSize in *; lia). rewrite !bind_ok, Hn2. fold (frow x k row).
        eexists. split; [rewrite (concat_take_S _ _ _ Hf), count_app, Nat.add_assoc; reflexivity|]. split; [by rewrite insert_length|]. split; [apply Forall_insert; [done|by rewrite Hn1]|].
        intros i Hi. destruct (decide (i = k)) as [-> |Hne].
        + rewrite list_lookup_insert by (unfold localSize in *; lia). eexists. split; [done|]. intros j Hj. unfold entry. rewrite Hf. assert (Hfl : length (frow x k row) = D) by (rewrite Forall_lookup in Hfr; by eapply Hfr).
          destruct (lookup_lt_is_Some_2 (frow x k row) j) as [y Hy]; [lia|]. rewrite (Hn3 j y Hy), Hy. by destruct y.
        + rewrite list_lookup_insert_ne by done. apply Hw. lia. }
    destruct (H (numOwned (nso x)) ltac:(done)) as (w & E & Hlw & Hwf & Hw). rewrite E, bind_ok. exists w. split; [done|]. split; [done|]. split; [done|].
    intros n _ Ho. destruct (lid_owned x n Ho) as (_ & Hlt & _). destruct (Hw _ Hlt) as (row & Hr & Hj). exists row. split; [done|]. intros j Hjd. exists (entry base (frows x v) (lid x n) j). split; [by apply Hj|done].
  Qed.

  (** *** Periodic nodes *)
  Definition subst (b : pbc) (f : nat -> nat -> option nat) (n j : nat) : option nat :=
    match pb_lookup D b n !! j with Some (Some t) => f t j | _ => f n j end.
  Definition partly (x : rk) (f : nat -> nat -> option nat) (L : list (nat * nat)) (v : list (list (option nat))) : Prop :=
    isview x (fun _ => True) v (fun n j a => a = if decide ((n, j) ∈ L) then subst x.2 f n j else f n j).
  Lemma fix_step x f L v n j p : x ∈ ranks -> loc x n -> j < D -> pb_lookup D x.2 n !! j = Some p -> partly x f L v ->
    exists v', match p with
        | None => Ok v
        | Some a => src ← rd v (lid x a); y ← rd src j; row ← rd v (lid x n); row' ← wr row j y; wr v (lid x n) row'
        end = Ok v' /\ partly x f ((n, j) :: L) v'.
  Proof.
    intros Hx Hn Hj Hp (H1 & H2 & H3). destruct p as [a|].
    - destruct x as [m b]. destruct (lookup_ok D ranks pdef N HN m b n Hx) as [_ Hlk]. pose proof (proj1 (Hlk j (Some a) Hp a) eq_refl) as Hpa. destruct (nb_target _ _ _ _ HN m b n j a Hx Hpa) as [Hla Hna].
      destruct (H3 a Hla I) as (src & Hs & Hsj). rewrite (rd_ok _ _ _ Hs), bind_ok. destruct (Hsj j Hj) as (y & Hy & Ey). rewrite (rd_ok _ _ _ Hy), bind_ok.
      assert (Ha : y = f a j). { rewrite Ey. case_decide; [|done]. unfold subst. cbn [snd]. destruct (pb_lookup D b a !! j) as [[a'|]|] eqn:E; [|done|done].
        destruct (lookup_ok D ranks pdef N HN m b a Hx) as [_ Hlk']. pose proof (proj1 (Hlk' j (Some a') E a') eq_refl) as Hc. destruct (Hna a'). by exists m, b. }
      destruct (H3 n Hn I) as (row & Hr & Hrj). rewrite (rd_ok _ _ _ Hr), bind_ok. assert (Hlr : length row = D) by (rewrite Forall_lookup in H2; by eapply H2). rewrite wr_ok by lia.
      assert (Hlt := lid_lt D ranks pdef N HN (m, b) n Hx Hn). rewrite bind_ok, wr_ok by lia. eexists. split; [done|]. split; [by rewrite insert_length|].
      split; [apply Forall_insert; [done|by rewrite insert_length]|]. intros t Ht _. destruct (decide (t = n)) as [-> |Hne].
      + rewrite list_lookup_insert by lia. eexists. split; [done|]. intros j' Hj'. destruct (decide (j' = j)) as [-> |Hne].
        * rewrite list_lookup_insert by lia. exists y. split; [done|]. rewrite decide_True by left. unfold subst. cbn [snd] in *. by rewrite Hp.
        * rewrite list_lookup_insert_ne by done. destruct (Hrj j' Hj') as (z & Hz & Ez). exists z. split; [done|]. rewrite Ez. apply decide_ext. rewrite elem_of_cons. naive_solver.
      + rewrite list_lookup_insert_ne. 2:{ intros E. apply Hne. symmetry. by apply (lid_inj D ranks pdef N HN (m, b) n t). } destruct (H3 t Ht I) as (r' & Hr' & Hp'). exists r'. split; [done|].
        intros j' Hj'. destruct (Hp' j' Hj') as (z & Hz & Ez). exists z. split; [done|]. rewrite Ez. apply decide_ext. rewrite elem_of_cons. naive_solver.
    - exists v. split; [done|]. split; [done|]. split; [done|]. intros t Ht _. destruct (H3 t Ht I) as (r' & Hr' & Hp'). exists r'. split; [done|]. intros j' Hj'.
      destruct (Hp' j' Hj') as (z & Hz & Ez). exists z. split; [done|]. rewrite Ez. destruct (decide ((t, j') = (n, j))) as [[= -> ->]|Hne].
      + rewrite (decide_True (P := (n, j) ∈ (n, j) :: L)) by left. unfold subst. rewrite Hp. by destruct (decide _).
      + apply decide_ext. rewrite elem_of_cons. naive_solver.
  Qed.
  Lemma fix_ok x f v : x ∈ ranks -> isview x (fun _ => True) v (fun n j a => a = f n j) ->
    exists v', fixPeriodicDofs D (nso x) x.2 v = Ok v' /\ isview x (fun _ => True) v' (fun n j a => a = subst x.2 f n j).
  Proof.
    intros Hx Hv. unfold fixPeriodicDofs.
    assert (H0 : partly x f [] v).
    { destruct Hv as (H1 & H2 & H3). split; [done|]. split; [done|]. intros n Hn _. destruct (H3 n Hn I) as (row & Hr & Hj). exists row. split; [done|]. intros j Hjd. destruct (Hj j Hjd) as (a & Ha & ->).
      exists (f n j). split; [done|]. done. }
    set (inner := fun (n : nat) (c : nat * option nat) (dofs : list (list (option nat))) => match c.2 with
        | None => Ok dofs
        | Some a => src ← rd dofs (lid x a); y ← rd src c.1; row ← rd dofs (lid x n); row' ← wr row c.1 y; wr dofs (lid x n) row'
        end).
    assert (Hinner : forall n row l L v, (n, row) ∈ pb_info x.2 -> (forall j p, (j, p) ∈ l -> j < D /\ row !! j = Some p) -> partly x f L v ->
      exists v' L', for_each (inner n) l v = Ok v' /\ partly x f L' v' /\ L ⊆ L' /\ forall j p, (j, p) ∈ l -> (n, j) ∈ L').
    { intros n row l. assert (Hlk : (n, row) ∈ pb_info x.2 -> pb_lookup D x.2 n = row /\ loc x n).
      { intros Hin. destruct x as [m b]. destruct (nb_keys _ _ _ _ HN m b Hx) as [Hnd Hk]. cbn [snd] in *. destruct (Hk n row Hin) as [Ho Hrl]. split; [|by left].
        destruct (lookup_ok D ranks pdef N HN m b n Hx) as [Hl Hp]. apply list_eq_same_length with (length row); [done|by rewrite Hl, Hrl|]. intros i p q Hi Hpi Hqi.
        destruct p as [a|].
        - pose proof (proj1 (Hp i (Some a) Hpi a) eq_refl) as (row' & Hin' & Hr'). assert (row' = row) as -> by (by apply (nodup_fst (pb_info b) n)). congruence.
        - destruct q as [a|]; [|done]. assert (Hpa : passive b n i a) by (by exists row). by apply (Hp i None Hpi a) in Hpa. }
      induction l as [|[j p] l IH]; intros L w Hin Hl Hw.
      - exists w, L. split; [done|]. split; [done|]. split; [done|]. intros j p Hj. by apply elem_of_nil in Hj.
      - destruct (Hlk Hin) as [Hrow Hloc]. destruct (Hl j p) as [Hj Hjp]; [left|]. rewrite <- Hrow in Hjp. destruct (fix_step x f L w n j p Hx Hloc Hj Hjp Hw) as (w1 & E1 & H1).
        destruct (IH ((n, j) :: L) w1 Hin) as (w' & L' & E & H & Hs & Ha); [|done|].
        { intros j' p' H'. apply Hl. by right. }
        exists w', L'. cbn [for_each]. change (inner n (j, p) w) with (match p with | None => Ok w | Some a => src ← rd w (lid x a); y ← rd src j; row ← rd w (lid x n); row' ← wr row j y; wr w (lid x n) row' end).
        rewrite E1, bind_ok. split; [done|]. split; [done|]. split; [intros z Hz; apply Hs; by right|]. intros j' p' H'. apply elem_of_cons in H' as [[= -> ->]|H']; [apply Hs; left|by eapply Ha]. }
    assert (Houter : forall l L v, (forall z, z ∈ l -> z ∈ pb_info x.2) -> partly x f L v ->
      exists v' L', for_each (fun (p : nat * list (option nat)) dofs => for_each (inner p.1) (zip (seq 0 D) p.2) dofs) l v = Ok v' /\ partly x f L' v' /\ L ⊆ L' /\
        forall n row j, (n, row) ∈ l -> j < D -> (n, j) ∈ L').
    { induction l as [|[n row] l IH]; intros L w Hl Hw.
      - exists w, L. split; [done|]. split; [done|]. split; [done|]. intros n row j Hj. by apply elem_of_nil in Hj.
      - assert (Hin : (n, row) ∈ pb_info x.2) by (apply Hl; left). destruct (Hinner n row (zip (seq 0 D) row) L w Hin) as (w1 & L1 & E1 & H1 & Hs1 & Ha1); [|done|].
        { intros j p Hz. apply elem_of_list_lookup in Hz as [i Hz]. apply lookup_zip_with_Some in Hz as (j' & p' & [= <- <-] & Hj & Hp). apply lookup_seq in Hj as [-> Hj]. done. }
        destruct (IH L1 w1) as (w' & L' & E & H & Hs & Ha); [|done|]. { intros z Hz. apply Hl. by right. }
        exists w', L'. cbn [for_each fst snd]. rewrite E1, bind_ok. split; [done|]. split; [done|]. split; [by transitivity L1|]. intros n' row' j H' Hj. apply elem_of_cons in H' as [[= -> ->]|H']; [|by eapply Ha].
        apply Hs. destruct x as [m b]. destruct (nb_keys _ _ _ _ HN m b Hx) as [_ Hk]. destruct (Hk n row Hin) as [_ Hrl]. destruct (lookup_lt_is_Some_2 row j) as [p Hp]; [lia|].
        apply (Ha1 j p). apply elem_of_list_lookup. exists j. apply lookup_zip_with_Some. exists j, p. split; [done|]. split; [by apply lookup_seq|done]. }
    destruct (Houter (pb_info x.2) [] v ltac:(done) H0) as (v' & L' & E & (H1 & H2 & H3) & _ & Ha). exists v'. split; [exact E|]. split; [done|]. split; [done|]. intros n Hn _.
    destruct (H3 n Hn I) as (row & Hr & Hj). exists row. split; [done|]. intros j Hjd. destruct (Hj j Hjd) as (a & Hra & ->). eexists. split; [done|]. case_decide as Hd; [done|].
    unfold subst. destruct (pb_lookup D x.2 n !! j) as [[t|]|] eqn:Ep; [|done|done]. destruct Hd. destruct x as [m b]. destruct (lookup_ok D ranks pdef N HN m b n Hx) as [_ Hlk].
    pose proof (proj1 (Hlk j (Some t) Ep t) eq_refl) as (row' & Hin & _). by eapply Ha.
  Qed.
End world.
