(** Proofs about saved meshes. *)
From Coq Require Import String Ascii.
From Verif Require Import Base StdAlgo Ownership_model Ownership_spec Ownership_proofs Elem_model Serial_model Serial_proofs Mesh_model Mesh_spec Mesh_proofs
  MeshSerial_model MeshSerial_spec MeshSerial_proofs Partition_spec Partition2_proofs Store_model Store_spec Store_proofs.
Local Open Scope nat_scope.
Local Open Scope list_scope.

Local Arguments serializeMesh : simpl never.
Local Arguments w8 : simpl never.
Local Arguments preamble : simpl never.

Lemma words_app k ws rest : length ws = k -> Forall (fun n => (n < 2 ^ 64)%N) ws -> words k (concat (map w8 ws) ++ rest) = ws.
Proof.
  intros <-. induction ws as [|w ws IH]; intros H; [done|]. inversion H as [|?? Hw Hws Ew]. subst.
  cbn [map concat length words]. rewrite <- app_assoc. rewrite take_w8, drop_w8, w8_round by done. f_equal. by apply IH.
Qed.
Lemma extract_header comment sizes rest : fits64 (length sizes) -> Forall fits64 sizes ->
  extractSavedPartitionInfo (mesh_header comment sizes ++ rest) = Ok (exclusive_scan 0 sizes, sizes, rest).
Proof.
  intros Hn Hs. unfold extractSavedPartitionInfo, mesh_header. rewrite <- !app_assoc.
  rewrite skip_preamble by (apply (bool_decide_unpack _); by vm_compute). rewrite bind_ok.
  rewrite app_length, w8_length. rewrite (proj2 (Nat.leb_le 8 _)) by lia. change (throwing_assert true) with (Ok tt). rewrite bind_ok. cbv zeta.
  rewrite take_w8, drop_w8, w8_round by done. rewrite Nat2N.id.
  set (ws := map N.of_nat sizes). replace (map (fun s => w8 (N.of_nat s)) sizes) with (map w8 ws) by (unfold ws; by rewrite map_map).
  assert (length (concat (map w8 ws)) = length sizes * 8) as Hl by (rewrite concat_w8_length; unfold ws; rewrite map_length; lia).
  rewrite app_length, Hl. rewrite (proj2 (Nat.leb_le (length sizes * 8) _)) by lia. change (throwing_assert true) with (Ok tt). rewrite bind_ok.
  rewrite words_app. 2:{ unfold ws. by rewrite map_length. }
  2:{ unfold ws. apply Forall_fmap. exact Hs. }
  rewrite (drop_app_alt (concat (map w8 ws)) rest (length sizes * 8)) by (by rewrite Hl).
  unfold ws. rewrite map_map. rewrite (map_ext _ (fun x => x)) by (intros; apply Nat2N.id). by rewrite map_id.
Qed.
Lemma serial_pos x : 0 < length (serializeMesh x).
Proof.
  unfold serializeMesh, v_mesh. cbv zeta. rewrite ser_tuple. unfold ser_all; cbn [map concat]. rewrite ser_range, !app_length, le_length. unfold szsz. lia.
Qed.
Section meshfile.
  Context (comment : list byte) (parts : list (mesh point)).
  Let sizes := map length (map serializeMesh parts).
  Let hdr := mesh_header comment sizes.
  Lemma size_at r p : parts !! r = Some p -> sizes !! r = Some (length (serializeMesh p)).
  Proof. intros H. unfold sizes. rewrite map_map. rewrite (list_lookup_fmap (fun x => length (serializeMesh x))). by rewrite H. Qed.
  Lemma mesh_writes w : w ∈ save_mesh comment parts <-> w = (0, hdr) \/
    exists r p, parts !! r = Some p /\ w = (length hdr + sum (take r sizes), serializeMesh p).
  Proof.
    unfold save_mesh. cbv zeta. fold sizes. fold hdr. rewrite elem_of_cons. apply ZifyClasses.or_morph; [done|].
    assert (length sizes = length parts) as Hl by (unfold sizes; by rewrite !map_length). split.
    - intros H. apply elem_of_list_lookup in H as (r & Hr). apply lookup_zip_with_Some in Hr as (o & s & -> & Ho & Hs).
      rewrite (list_lookup_fmap serializeMesh) in Hs. destruct (parts !! r) as [p|] eqn:Ep; [|done]. injection Hs as <-.
      rewrite exclusive_scan_lookup in Ho by (rewrite Hl; by apply lookup_lt_Some in Ep). injection Ho as <-. by exists r, p.
    - intros (r & p & Hp & ->). apply elem_of_list_lookup. exists r. apply lookup_zip_with_Some. eexists _, _. split; [reflexivity|]. split.
      + apply exclusive_scan_lookup. rewrite Hl. by apply lookup_lt_Some in Hp.
      + rewrite (list_lookup_fmap serializeMesh). by rewrite Hp.
  Qed.
  Lemma mesh_apart : apart (save_mesh comment parts).
  Proof.
    intros w w' Hw Hw'. apply mesh_writes in Hw. apply mesh_writes in Hw'.
    destruct Hw as [-> |(r & p & Hp & ->)]; destruct Hw' as [-> |(r' & p' & Hp' & ->)]; cbn [fst snd].
    - by left.
    - right. left. lia.
    - right. right. lia.
    - destruct (lt_eq_lt_dec r r') as [[Hlt| ->]|Hlt]; [right; left| |right; right].
      + pose proof (sum_take_S _ _ _ (size_at _ _ Hp)). pose proof (sum_take_mono sizes (S r) r' Hlt). lia.
      + left. congruence.
      + pose proof (sum_take_S _ _ _ (size_at _ _ Hp')). pose proof (sum_take_mono sizes (S r') r Hlt). lia.
  Qed.
  Lemma mesh_hdr_pos : 0 < length hdr.
  Proof. unfold hdr, mesh_header. rewrite app_length. pose proof (preamble_pos "L3STER mesh file" comment). lia. Qed.
  (** The saved file. *)
  Lemma mesh_file order f0 : order ≡ₚ save_mesh comment parts -> fits64 (length parts) -> Forall (fun p => fits64 (length (serializeMesh p))) parts ->
    exists contents, extractSavedPartitionInfo (write_all order f0) = Ok (exclusive_scan 0 sizes, sizes, contents) /\
      forall r p, parts !! r = Some p -> substr contents (sum (take r sizes)) (length (serializeMesh p)) = Ok (serializeMesh p).
  Proof.
    intros Hp Hn Hs. assert (apart order) as Ha by (apply (apart_perm (save_mesh comment parts)); [by symmetry|apply mesh_apart]).
    set (F := write_all order f0). pose proof mesh_hdr_pos as Hpos.
    destruct (write_all_slice order f0 (0, hdr) Ha) as [Hle Htk].
    { rewrite Hp. apply mesh_writes. by left. } { cbn [snd]. intros E. by rewrite E in Hpos. }
    cbn [fst snd] in Hle, Htk. rewrite drop_0 in Htk. fold F in Hle, Htk.
    assert (F = hdr ++ drop (length hdr) F) as HF by (rewrite <- Htk at 1; by rewrite take_drop).
    exists (drop (length hdr) F). split.
    - rewrite HF at 1. apply extract_header; [unfold sizes; by rewrite !map_length|]. unfold sizes. rewrite map_map. apply Forall_fmap. exact Hs.
    - intros r p Hr. destruct (write_all_slice order f0 (length hdr + sum (take r sizes), serializeMesh p) Ha) as [Hle' Htk'].
      { rewrite Hp. apply mesh_writes. right. by exists r, p. } { cbn [snd]. pose proof (serial_pos p) as Hx. intros E. rewrite E in Hx. cbn [length] in Hx. lia. }
      cbn [fst snd] in Hle', Htk'. fold F in Hle', Htk'. unfold substr. rewrite drop_length. rewrite (proj2 (Nat.leb_le _ _)) by lia.
      f_equal. rewrite drop_drop. exact Htk'.
  Qed.
End meshfile.

(** ** Incomplete files *)
Lemma zip_cut {A B} (l : list A) (k : list B) n : take n (zip l k) = zip (take n l) (take n k).
Proof. revert l k. induction n as [|n IH]; intros [|a l] [|b k]; try done. cbn. by rewrite IH. Qed.
Lemma Ok_inj {A} (a b : A) : Ok a = Ok b -> a = b.
Proof. by intros [= ->]. Qed.
Lemma skip_cut a b n : newline ∉ a -> skipLine (take n (a ++ newline :: b)) = if n <=? length a then Throw else Ok (take (n - length a - 1) b).
Proof.
  revert n. induction a as [|c a IH]; intros n H.
  - destruct n as [|n]; [done|]. cbn [app length take skipLine Nat.leb]. rewrite decide_True by done. by replace (S n - 0 - 1) with n by lia.
  - apply not_elem_of_cons in H as [H1 H2]. destruct n as [|n]; [done|]. cbn [app length take skipLine Nat.leb]. rewrite decide_False by congruence. by rewrite IH.
Qed.
Lemma skip3_cut title comment rest n : newline ∉ text title ->
  skip3 (take n (preamble title comment ++ rest)) = if n <? length (preamble title comment) then Throw else Ok (take (n - length (preamble title comment)) rest).
Proof.
  intros Ht. unfold skip3, preamble. rewrite <- !app_assoc. cbn [app]. set (cm := map _ comment).
  assert (newline ∉ text "// " ++ cm) as Hc.
  { rewrite not_elem_of_app. split; [apply (bool_decide_unpack _); by vm_compute|].
    intros H. apply elem_of_list_fmap in H as (c & Hc & _). case_decide; [by vm_compute in Hc|congruence]. }
  rewrite skip_cut by done.
  replace (length (text title ++ newline :: text "v1.0" ++ newline :: text "// " ++ cm ++ [newline])) with (length (text title) + 1 + 5 + (length (text "// " ++ cm) + 1)).
  2:{ rewrite !app_length. cbn [length]. rewrite !app_length. cbn [length]. rewrite !app_length. cbn [length]. change (length (text "v1.0")) with 4. lia. }
  destruct (Nat.leb_spec n (length (text title))).
  { rewrite (proj2 (Nat.ltb_lt _ _)) by lia. done. }
  rewrite bind_ok. rewrite skip_cut by (apply (bool_decide_unpack _); by vm_compute). change (length (text "v1.0")) with 4.
  destruct (Nat.leb_spec (n - length (text title) - 1) 4).
  { rewrite (proj2 (Nat.ltb_lt _ _)) by lia. done. }
  rewrite bind_ok. rewrite app_assoc. rewrite skip_cut by done.
  destruct (Nat.leb_spec (n - length (text title) - 1 - 4 - 1) (length (text "// " ++ cm))).
  { rewrite (proj2 (Nat.ltb_lt _ _)) by lia. done. }
  rewrite (proj2 (Nat.ltb_ge _ _)) by lia. do 2 f_equal. lia.
Qed.
Lemma extract_cut comment sizes rest n : fits64 (length sizes) -> Forall fits64 sizes ->
  extractSavedPartitionInfo (take n (mesh_header comment sizes ++ rest)) =
    if n <? length (mesh_header comment sizes) then Throw else Ok (exclusive_scan 0 sizes, sizes, take (n - length (mesh_header comment sizes)) rest).
Proof.
  intros Hn Hs. destruct (Nat.ltb_spec n (length (mesh_header comment sizes))) as [Hlt|Hge].
  - unfold extractSavedPartitionInfo. unfold mesh_header in *. rewrite <- !app_assoc in *. rewrite skip3_cut by (apply (bool_decide_unpack _); by vm_compute).
    destruct (Nat.ltb_spec n (length (preamble "L3STER mesh file" comment))) as [|Hp]; [done|]. rewrite bind_ok. rewrite app_length in Hlt.
    set (k := n - length (preamble "L3STER mesh file" comment)) in *.
    set (cs := concat (map (fun s => w8 (N.of_nat s)) sizes)) in *.
    assert (length cs = length sizes * 8) as Hcs.
    { unfold cs. replace (map (fun s => w8 (N.of_nat s)) sizes) with (map w8 (map N.of_nat sizes)) by (by rewrite map_map). rewrite concat_w8_length, map_length. lia. }
    rewrite app_length, w8_length in Hlt.
    destruct (Nat.leb_spec 8 (length (take k (w8 (N.of_nat (length sizes)) ++ cs ++ rest)))) as [H8|]; [|done].
    change (throwing_assert true) with (Ok tt). rewrite bind_ok. cbv zeta. rewrite take_length in H8.
    rewrite take_take. replace (8 `min` k) with 8 by lia. rewrite take_w8, w8_round by done. rewrite Nat2N.id.
    rewrite skipn_firstn_comm, drop_w8. rewrite (proj2 (Nat.leb_gt _ _)); [done|]. rewrite take_length. lia.
  - rewrite take_app_ge by done. by apply extract_header.
Qed.
Lemma first_cut sizes m : m < sum sizes -> exists r n, sizes !! r = Some n /\ sum (take r sizes) <= m < sum (take r sizes) + n.
Proof.
  revert m. induction sizes as [|a sizes IH]; intros m H; [cbn in H; lia|]. rewrite sum_cons in H. destruct (decide (m < a)).
  - exists 0, a. cbn [take]. split; [done|]. change (sum []) with 0. lia.
  - destruct (IH (m - a)) as (r & n' & Hr & Hm); [lia|]. exists (S r), n'. cbn [take]. rewrite sum_cons. split; [done|lia].
Qed.

(** ** Joining the parts *)
Section join.
  Context (orders : list nat) (Hord : NoDup orders).
  Notation el := (element point).
  Notation doms := (dmap (domain point)).
  Notation slot e := (el_type e, el_order e).
  Lemma push_all es es' : (forall e : el, e ∈ es' -> slot e ∈ slots orders) ->
    (forall e e', e ∈ es ++ es' -> e' ∈ es ++ es' -> native_dim (el_type e) = native_dim (el_type e')) ->
    for_each (fun e d => pushToDomain orders d e) es' (d_of orders es) = Ok (d_of orders (es ++ es')).
  Proof using Hord.
    revert es. induction es' as [|e es' IH]; intros es Hs Hd; [by rewrite app_nil_r|]. cbn [for_each].
    rewrite d_of_push; [|done|apply Hs; left|]. 2:{ intros e' He'. apply Hd; apply elem_of_app; [by left|right; left]. }
    rewrite bind_ok. rewrite IH; [by rewrite <- app_assoc| |].
    - intros e' He'. apply Hs. by right.
    - intros a b Ha Hb. rewrite <- app_assoc in Ha. rewrite <- app_assoc in Hb. by apply Hd.
  Qed.
  (** [m] holds the domains of [ds], each with its elements in order. *)
  Definition union_of (ds : list doms) (id : nat) : list el := concat (map (fun d => visit_elems d [id]) ds).
  Definition joined (ds : list doms) (m : doms) : Prop :=
    StronglySorted lt m.*1 /\ forall id, dm_find id m = if decide (id ∈ concat (map (fun d : doms => d.*1) ds)) then Some (d_of orders (union_of ds id)) else None.
  Definition agree (ds : list doms) : Prop :=
    forall d d' id (e e' : el), d ∈ ds -> d' ∈ ds -> in_domain d id e -> in_domain d' id e' -> native_dim (el_type e) = native_dim (el_type e').
  Lemma union_elem ds id e : (forall d, d ∈ ds -> StronglySorted lt d.*1) -> e ∈ union_of ds id <-> exists d, d ∈ ds /\ in_domain d id e.
  Proof.
    intros Hs. unfold union_of. rewrite elem_of_concat. split.
    - intros (l & He & Hl). apply (elem_of_list_fmap (fun d => visit_elems d [id])) in Hl as (d & -> & Hd). exists d. split; [done|].
      apply visit_elem in He as (id' & Hid & He); [|by apply strict_nodup, Hs]. by apply elem_of_list_singleton in Hid as ->.
    - intros (d & Hd & He). exists (visit_elems d [id]). split.
      + apply visit_elem; [by apply strict_nodup, Hs|]. exists id. split; [left|done].
      + apply (elem_of_list_fmap (fun d => visit_elems d [id])). by exists d.
  Qed.
  Lemma slot_in d id (e : el) : valid_doms orders d -> in_domain d id e -> slot e ∈ slots orders /\ typed_el e.
  Proof.
    intros [_ Hv] (dd & v & Hd & Hv' & He). rewrite Forall_forall in Hv. destruct (Hv _ Hd) as [Ht _]. cbn [snd] in Ht.
    apply elem_of_list_lookup in Hv' as (k & Hk). destruct (Forall2_lookup_r _ _ _ _ _ Ht Hk) as (s & Hs & Hf). rewrite Forall_forall in Hf.
    destruct (Hf e He) as [<- Hty]. split; [by apply elem_of_list_lookup_2 in Hs|done].
  Qed.
  Lemma add_part_ok ds m p ids : Forall (valid_doms orders) (ds ++ [m_domains p]) -> agree (ds ++ [m_domains p]) -> joined ds m ->
    exists m', add_part orders p (m, ids) = Ok (m', if length ids =? 0 then (m_bnds p).*1 else ids) /\ joined (ds ++ [m_domains p]) m'.
  Proof using Hord.
    intros Hv Ha [Hs Hj]. unfold add_part. cbn [fst snd]. set (D := m_domains p) in *.
    apply Forall_app in Hv as [Hv HvD]. rewrite Forall_singleton in HvD.
    assert (StronglySorted lt D.*1) as HD by apply HvD.
    assert (forall d, d ∈ ds -> StronglySorted lt d.*1) as Hds by (intros d Hd; rewrite Forall_forall in Hv; by apply Hv).
    destruct (for_each_inv (fun id m =>
          d ← for_each (fun e d => pushToDomain orders d e) (visit_elems D [id]) (default (empty_domain orders) (dm_find id m));
          Ok (dm_set id d m))
      (fun pre m => StronglySorted lt m.*1 /\ forall id, dm_find id m =
         if decide (id ∈ pre) then Some (d_of orders (union_of ds id ++ visit_elems D [id]))
         else if decide (id ∈ concat (map (fun d : doms => d.*1) ds)) then Some (d_of orders (union_of ds id)) else None)
      D.*1 [] m) as (m' & Hm' & Hs' & Hf').
    - split; [done|]. intros id. rewrite decide_False by apply not_elem_of_nil. apply Hj.
    - intros pre k m1 (post & Hpost) [Hs1 Hf1]. cbn [app] in Hpost.
      assert (k ∉ pre) as Hk. { pose proof (strict_nodup _ HD) as Hnd. rewrite Hpost in Hnd. apply NoDup_app in Hnd as (_ & Hx & _). intros Hin. apply (Hx k Hin). left. }
      assert (default (empty_domain orders) (dm_find k m1) = d_of orders (union_of ds k)) as Hdef.
      { rewrite Hf1. rewrite decide_False by done. case_decide as Hin; [done|]. change (empty_domain orders = d_of orders (union_of ds k)).
        rewrite <- d_of_nil. f_equal. destruct (union_of ds k) as [|e es] eqn:E; [done|]. exfalso.
        assert (e ∈ union_of ds k) as He by (rewrite E; left). apply union_elem in He as (d & Hd & dd & v & Hdd & _); [|done].
        apply Hin, elem_of_concat. exists d.*1. split; [|apply (elem_of_list_fmap (fun d : doms => d.*1)); by exists d]. apply elem_of_list_fmap. by exists (k, dd). }
      rewrite Hdef. rewrite push_all.
      + rewrite bind_ok. eexists. split; [reflexivity|]. split; [by apply dm_set_sorted|]. intros id. rewrite dm_find_set by done.
        destruct (Nat.eqb_spec id k) as [-> |Hne].
        * rewrite decide_True; [done|]. apply elem_of_app. right. left.
        * rewrite Hf1. destruct (decide (id ∈ pre)) as [Hin|Hnin].
          -- rewrite decide_True; [done|]. apply elem_of_app. by left.
          -- rewrite (decide_False (P := id ∈ pre ++ [k])); [done|]. rewrite elem_of_app, elem_of_list_singleton. tauto.
      + intros e He. apply visit_elem in He as (id & _ & He); [|by apply strict_nodup]. by eapply slot_in.
      + assert (forall e, e ∈ union_of ds k ++ visit_elems D [k] -> exists d, d ∈ ds ++ [D] /\ in_domain d k e) as Hin.
        { intros e He. apply elem_of_app in He as [He|He].
          - apply union_elem in He as (d & Hd & He); [|done]. exists d. split; [apply elem_of_app; by left|done].
          - apply visit_elem in He as (id & Hid & He); [|by apply strict_nodup]. apply elem_of_list_singleton in Hid as ->. exists D. split; [apply elem_of_app; right; left|done]. }
        intros e e' He He'. apply Hin in He as (d & Hd & He). apply Hin in He' as (d' & Hd' & He'). exact (Ha d d' k e e' Hd Hd' He He').
    - cbn [app] in Hf'. rewrite Hm', bind_ok. exists m'. split; [done|]. split; [done|]. intros id. rewrite Hf'.
      rewrite map_app, concat_app. cbn [map concat]. rewrite app_nil_r. unfold union_of. rewrite map_app, concat_app. cbn [map concat]. rewrite app_nil_r.
      destruct (decide (id ∈ D.*1)) as [Hin|Hnin].
      + rewrite decide_True; [done|]. apply elem_of_app. by right.
      + assert (visit_elems D [id] = []) as ->.
        { unfold visit_elems. cbn [map concat]. rewrite (proj2 (dm_find_none id D)) by done. done. }
        rewrite app_nil_r. destruct (decide (id ∈ concat (map (fun d : doms => d.*1) ds))) as [Hi|Hi].
        * rewrite decide_True; [done|]. apply elem_of_app. by left.
        * rewrite decide_False; [done|]. rewrite elem_of_app. tauto.
  Qed.
  Lemma joined_valid ds m : Forall (valid_doms orders) ds -> agree ds -> joined ds m -> valid_doms orders m /\
    (forall id, id ∈ m.*1 <-> exists d, d ∈ ds /\ id ∈ d.*1) /\ (forall id, visit_elems m [id] ≡ₚ union_of ds id) /\
    (forall id e, in_domain m id e <-> exists d, d ∈ ds /\ in_domain d id e).
  Proof using Hord.
    intros Hv Ha [Hs Hj].
    assert (forall d, d ∈ ds -> StronglySorted lt d.*1) as Hds by (intros d Hd; rewrite Forall_forall in Hv; by apply Hv).
    assert (forall id e, e ∈ union_of ds id -> slot e ∈ slots orders /\ typed_el e) as Hsl.
    { intros id e He. apply union_elem in He as (d & Hd & He); [|done]. rewrite Forall_forall in Hv. eapply slot_in; [by apply Hv|done]. }
    assert (forall id, id ∈ m.*1 <-> exists d, d ∈ ds /\ id ∈ d.*1) as Hk.
    { intros id. destruct (decide (id ∈ m.*1)) as [Hin|Hin].
      - split; [|done]. intros _. destruct (dm_find id m) as [d|] eqn:E; [|by apply dm_find_none in E]. rewrite Hj in E. case_decide as Hi; [|done].
        apply elem_of_concat in Hi as (l & Hl & Hll). apply (elem_of_list_fmap (fun d : doms => d.*1)) in Hll as (d' & -> & Hd'). by exists d'.
      - split; [done|]. intros (d & Hd & Hid). apply dm_find_none in Hin. rewrite Hj in Hin. rewrite decide_True in Hin; [done|].
        apply elem_of_concat. exists d.*1. split; [done|]. apply (elem_of_list_fmap (fun d : doms => d.*1)). by exists d. }
    assert (forall id, visit_elems m [id] ≡ₚ union_of ds id) as Hvis.
    { intros id. unfold visit_elems. cbn [map concat]. rewrite app_nil_r. rewrite Hj. case_decide as Hi.
      - apply d_of_perm; [done|]. intros e He. by apply (Hsl id).
      - destruct (union_of ds id) as [|e es] eqn:E; [done|]. exfalso. assert (e ∈ union_of ds id) as He by (rewrite E; left).
        apply union_elem in He as (d & Hd & dd & v & Hdd & _); [|done].
        apply Hi, elem_of_concat. exists d.*1. split; [|apply (elem_of_list_fmap (fun d : doms => d.*1)); by exists d]. apply elem_of_list_fmap. by exists (id, dd). }
    assert (forall id e, in_domain m id e <-> e ∈ union_of ds id) as Hin.
    { intros id e. rewrite <- Hvis. rewrite visit_elem by (by apply strict_nodup). split.
      - intros He. exists id. split; [left|done].
      - intros (id' & Hid & He). by apply elem_of_list_singleton in Hid as ->. }
    split; [|split; [done|split; [done|]]].
    2:{ intros id e. rewrite Hin. by apply union_elem. }
    split; [done|]. apply Forall_forall. intros [id d] Hd. cbn [snd]. apply (dm_find_iff _ _ _ Hs) in Hd. rewrite Hj in Hd. case_decide; [|done]. injection Hd as <-. split.
    - unfold typed_domain, d_of. cbn [d_els]. change (map ?f ?l) with (f <$> l). rewrite Forall2_fmap_r. apply Forall_Forall2_diag, Forall_forall. intros s _.
      apply Forall_forall. intros e He. apply elem_of_list_In, filter_In in He as [He Hb]. apply bool_decide_eq_true in Hb. split; [done|]. by apply (Hsl id), elem_of_list_In.
    - intros v e Hvv He. assert (e ∈ union_of ds id) as Hu. { apply (d_of_elem orders); [intros e' He'; by apply (Hsl id)|eauto]. }
      unfold d_of. cbn [d_dim]. destruct (union_of ds id) as [|e0 es] eqn:E; [by apply elem_of_nil in Hu|]. f_equal.
      assert (e0 ∈ union_of ds id) as H0 by (rewrite E; left). rewrite <- E in Hu.
      apply union_elem in H0 as (d0 & Hd0 & H0); [|done]. apply union_elem in Hu as (d1 & Hd1 & H1); [|done]. by apply (Ha d0 d1 id).
  Qed.
End join.

(** ** Loading the saved meshes *)
Lemma dom_visit {V} (m : dmap (domain V)) k : StronglySorted lt m.*1 -> dom_elems m k = visit_elems m [k].
Proof.
  intros Hsrt. unfold visit_elems. cbn [map concat]. rewrite app_nil_r. unfold dom_elems. induction m as [|[k' d] m IH]; [done|].
  cbn [map concat dm_find fst snd]. inversion Hsrt as [|? ? Hs1 Hs2]; subst. rewrite Nat.eqb_sym. destruct (Nat.eqb_spec k k') as [->|Hne]; [|by apply IH].
  assert (E : concat (map (fun p0 : nat * domain V => if p0.1 =? k' then concat (d_els p0.2) else []) m) = []); [|by rewrite E, app_nil_r].
  clear IH Hs1 Hsrt. induction m as [|[j d'] m IH]; [done|]. cbn in Hs2. apply Forall_cons in Hs2 as [Hk Hs2]. cbn [map concat fst snd].
  destruct (Nat.eqb_spec j k'); [lia|]. cbn [app]. by apply IH.
Qed.
Section load.
  Context (orders : list nat) (sched : list (element point) -> list (element point)) (shuffle shuffle' : list nat -> list nat).
  Context (Hord : NoDup orders) (Hs : forall l, sched l ≡ₚ l) (Hsh : forall l, shuffle l ≡ₚ l) (Hsh' : forall l, shuffle' l ≡ₚ l).
  Lemma sound_made x : sound_part orders sched shuffle x -> exists b n ids, valid_doms orders (m_domains x) /\ make_mesh2 sched shuffle (m_domains x) b n ids = Ok x.
  Proof using Hs Hsh.
    intros (m & b & n & ids & Hv & Hx & _). exists b, n, ids.
    assert (m_domains x = m) as ->; [|done].
    pose proof (mesh2_ok orders sched shuffle m b n ids Hv Hs Hsh) as H. destruct (initBoundaryViews sched m ids); [|congruence|congruence].
    destruct H as (so & Hso & _). rewrite Hx in Hso. by injection Hso as ->.
  Qed.
  Lemma sound_load x : sound_part orders sched shuffle x ->
    exists y, deserializeMesh orders sched shuffle' (serializeMesh x) = Ok y /\ same_part x y.
  Proof using Hord Hs Hsh Hsh'.
    intros Hx. destruct (sound_made x Hx) as (b & n & ids & Hv & Hm). destruct Hx as (_ & _ & _ & _ & _ & _ & Hf & Hst & _).
    pose proof (mesh_round orders sched shuffle' x [] Hord Hv Hf Hst) as Hr. rewrite app_nil_r in Hr. rewrite Hr.
    destruct (copy_ok orders sched shuffle shuffle' (m_domains x) b n ids x Hv Hs Hsh Hsh' Hm) as (so & Hc & H1 & H2 & H3). rewrite Hc.
    eexists. split; [reflexivity|]. repeat split; done.
  Qed.
  Lemma sound_cut x p q : sound_part orders sched shuffle x -> serializeMesh x = p ++ q -> q <> [] -> deserializeMesh orders sched shuffle' p = Throw.
  Proof using Hs Hsh.
    intros Hx E Hq. destruct (sound_made x Hx) as (b & n & ids & Hv & _). destruct Hx as (_ & _ & _ & _ & _ & _ & Hf & _).
    unfold deserializeMesh. by rewrite (truncated (t_mesh orders) (v_mesh x) p q (mesh_type orders x Hv Hf) E Hq).
  Qed.
  (** What the loop over the parts computes. *)
  Lemma join_loop contents parts offs sizes :
    Forall (sound_part orders sched shuffle) parts -> agree (map m_domains parts) ->
    Forall2 (fun os p => substr contents os.1 os.2 = Ok (serializeMesh p)) (zip offs sizes) parts ->
    exists st, for_each (fun (on : nat * nat) st => s ← substr contents on.1 on.2; part ← deserializeMesh orders sched shuffle' s; add_part orders part st)
        (zip offs sizes) ([], []) = Ok st /\ joined orders (map m_domains parts) st.1 /\
      (forall k, k ∈ st.2 -> exists p, p ∈ parts /\ k ∈ (m_bnds p).*1) /\
      ((forall p p' k, p ∈ parts -> p' ∈ parts -> k ∈ (m_bnds p).*1 -> k ∈ (m_bnds p').*1) -> forall p k, p ∈ parts -> k ∈ (m_bnds p).*1 -> k ∈ st.2).
  Proof using Hord Hs Hsh Hsh'.
    intros Hp Ha HF. remember (zip offs sizes) as os eqn:Eos. clear Eos offs sizes.
    revert os Hp Ha HF. induction parts as [|p parts IH] using rev_ind; intros os Hp Ha HF.
    - apply Forall2_nil_inv_r in HF as ->. eexists. split; [reflexivity|]. cbn [fst snd map]. split; [split; [constructor|done]|]. split.
      + intros k Hk. by apply elem_of_nil in Hk.
      + intros _ p k Hk. by apply elem_of_nil in Hk.
    - apply Forall2_app_inv_r in HF as (os1 & os2 & HF1 & HF2 & ->). apply Forall2_cons_inv_r in HF2 as (o & os3 & Ho & H3 & ->).
      apply Forall2_nil_inv_r in H3 as ->. rewrite Forall_app in Hp. destruct Hp as [Hp Hpp]. rewrite Forall_singleton in Hpp. rewrite map_app in Ha. cbn [map] in Ha.
      destruct (IH os1) as (st & Hst & Hj & Hb & Hb').
      { done. } { intros d d' k e e' Hd Hd'. apply Ha; apply elem_of_app; by left. } { done. }
      rewrite for_each_app, Hst, bind_ok. cbn [for_each]. rewrite Ho, bind_ok. destruct (sound_load p Hpp) as (y & Hy & Hsame). rewrite Hy, bind_ok.
      destruct Hsame as (Hyd & Hyb & _). destruct st as [m ids]. cbn [fst snd] in *.
      destruct (add_part_ok orders Hord (map m_domains parts) m y ids) as (m' & Hm' & Hj').
      { rewrite Hyd. apply Forall_app. split; [|apply Forall_singleton; by destruct (sound_made p Hpp) as (? & ? & ? & ? & _)].
        apply Forall_fmap. eapply Forall_impl; [exact Hp|]. intros x Hx. by destruct (sound_made x Hx) as (? & ? & ? & ? & _). }
      { by rewrite Hyd. } { done. }
      rewrite Hm', bind_ok. eexists. split; [reflexivity|]. cbn [fst snd]. rewrite Hyd in Hj'. rewrite map_app. split; [done|]. rewrite Hyb. split.
      + intros k Hk. destruct (length ids =? 0).
        * exists p. split; [apply elem_of_app; right; left|done].
        * destruct (Hb k Hk) as (q & Hq & Hkq). exists q. split; [apply elem_of_app; by left|done].
      + intros Hall q k Hq Hk. destruct (length ids =? 0) eqn:E.
        * apply (Hall q p k Hq); [apply elem_of_app; right; left|done].
        * assert (forall q k, q ∈ parts -> k ∈ (m_bnds q).*1 -> k ∈ ids) as Hold.
          { apply Hb'. intros p1 p2 j H1 H2. apply Hall; apply elem_of_app; by left. }
          apply elem_of_app in Hq as [Hq|Hq]; [by apply (Hold q)|]. apply elem_of_list_singleton in Hq as ->.
          destruct ids as [|i ids]; [done|]. destruct (Hb i ltac:(left)) as (q & Hq & _). apply (Hold q k Hq).
          apply (Hall p q k); [apply elem_of_app; right; left|apply elem_of_app; by left|done].
  Qed.
  Lemma zip_scan (parts : list (mesh point)) contents : let sizes := map length (map serializeMesh parts) in
    (forall r p, parts !! r = Some p -> substr contents (sum (take r sizes)) (length (serializeMesh p)) = Ok (serializeMesh p)) ->
    Forall2 (fun os p => substr contents os.1 os.2 = Ok (serializeMesh p)) (zip (exclusive_scan 0 sizes) sizes) parts.
  Proof using.
    intros sizes H. assert (length sizes = length parts) as Hl by (unfold sizes; by rewrite !map_length).
    apply Forall2_same_length_lookup_2.
    - rewrite zip_with_length, exclusive_scan_length. lia.
    - intros r os p Hos Hp. apply lookup_zip_with_Some in Hos as (o & n & -> & Ho & Hn). cbn [fst snd].
      rewrite exclusive_scan_lookup in Ho by (rewrite Hl; by apply lookup_lt_Some in Hp). injection Ho as <-.
      unfold sizes in Hn. rewrite (size_at parts r p Hp) in Hn. injection Hn as <-. by apply H.
  Qed.
  Section file.
    Context (comment : list byte) (parts : list (mesh point)) (order : list (nat * list byte)) (f0 : list byte).
    Context (Hp : Forall (sound_part orders sched shuffle) parts) (Hn : fits64 (length parts)) (Ho : order ≡ₚ save_mesh comment parts).
    Lemma parts_fit : Forall (fun p => fits64 (length (serializeMesh p))) parts.
    Proof using Hp. eapply Forall_impl; [exact Hp|]. by intros x (_ & _ & _ & _ & _ & _ & _ & _ & H). Qed.
    Lemma load_direct r x : parts !! r = Some x ->
      exists y, loadPartitionedMesh orders sched shuffle' (write_all order f0) (length parts) r = Ok y /\ same_part x y.
    Proof using Hord Hs Hsh Hsh' Hp Hn Ho.
      intros Hr. destruct (mesh_file comment parts order f0 Ho Hn parts_fit) as (contents & He & Hsub). unfold loadPartitionedMesh. rewrite He, bind_ok.
      rewrite !map_length, Nat.eqb_refl. change (throwing_assert true) with (Ok tt). rewrite bind_ok.
      rewrite exclusive_scan_lookup by (rewrite !map_length; by apply lookup_lt_Some in Hr). rewrite (size_at parts r x Hr). cbn [Nat.add].
      rewrite (Hsub r x Hr), bind_ok. apply sound_load. rewrite Forall_forall in Hp. apply Hp. by apply elem_of_list_lookup_2 in Hr.
    Qed.
    Lemma load_wrong n r : n <> length parts -> loadPartitionedMesh orders sched shuffle' (write_all order f0) n r = Throw.
    Proof using Hp Hn Ho.
      intros Hne. destruct (mesh_file comment parts order f0 Ho Hn parts_fit) as (contents & He & Hsub). unfold loadPartitionedMesh. rewrite He, bind_ok.
      rewrite !map_length. rewrite (proj2 (Nat.eqb_neq _ _)) by congruence. done.
    Qed.
    Lemma load_unified b n : one_mesh parts b n ->
      exists x, loadUnifiedMesh orders sched shuffle' (write_all order f0) = Ok x /\ valid_doms orders (m_domains x) /\
        (forall k, k ∈ (m_domains x).*1 <-> exists p, p ∈ parts /\ k ∈ (m_domains p).*1) /\
        (forall k, dom_elems (m_domains x) k ≡ₚ concat (map (fun p => dom_elems (m_domains p) k) parts)) /\
        so_shared (m_own x) = [] /\ numOwned (m_own x) = n /\ (forall i, isOwned (m_own x) i = true <-> b <= i < b + n) /\
        StronglySorted lt (m_bnds x).*1 /\ (forall k, k ∈ (m_bnds x).*1 <-> exists p, p ∈ parts /\ k ∈ (m_bnds p).*1) /\
        (forall k vs, (k, vs) ∈ m_bnds x -> makeBoundaryElementViews sched (m_domains x) [k] = Ok vs).
    Proof using Hord Hs Hsh Hsh' Hp Hn Ho.
      intros (Ha & Hnodes & Hbn). destruct (mesh_file comment parts order f0 Ho Hn parts_fit) as (contents & He & Hsub). unfold loadUnifiedMesh. rewrite He, bind_ok.
      assert (agree (map m_domains parts)) as Hag.
      { intros d d' k e e' Hd Hd'. apply (elem_of_list_fmap m_domains) in Hd as (p & -> & Hd). apply (elem_of_list_fmap m_domains) in Hd' as (p' & -> & Hd'). by apply Ha. }
      destruct (join_loop contents parts _ _ Hp Hag (zip_scan parts contents Hsub)) as ([m ids] & -> & Hj & Hb1 & Hb2). cbn [fst snd] in *. rewrite bind_ok. cbn [fst snd].
      assert (Forall (valid_doms orders) (map m_domains parts)) as Hvs.
      { apply Forall_fmap. eapply Forall_impl; [exact Hp|]. intros x Hx. by destruct (sound_made x Hx) as (? & ? & ? & ? & _). }
      destruct (joined_valid orders Hord _ m Hvs Hag Hj) as (Hv & Hkeys & Hvis & Hin).
      assert (forall k e, in_domain m k e <-> exists p, p ∈ parts /\ in_domain (m_domains p) k e) as Hin'.
      { intros k e. rewrite Hin. split.
        - intros (d & Hd & He'). apply (elem_of_list_fmap m_domains) in Hd as (p & -> & Hd). by exists p.
        - intros (p & Hd & He'). exists (m_domains p). split; [apply (elem_of_list_fmap m_domains); by exists p|done]. }
      assert (forall i, is_node m i <-> b <= i < b + n) as Hnd.
      { intros i. rewrite <- Hnodes. split.
        - intros (e & (k & He') & Hi). apply Hin' in He' as (p & Hpp & He'). exists p. split; [done|]. exists e. split; [by exists k|done].
        - intros (p & Hpp & e & (k & He') & Hi). exists e. split; [|done]. exists k. apply Hin'. by exists p. }
      assert (forall k, k ∈ ids <-> exists p, p ∈ parts /\ k ∈ (m_bnds p).*1) as Hids.
      { intros k. split; [apply Hb1|]. intros (p & Hpp & Hk). by apply (Hb2 Hbn p). }
      pose proof (mesh1_ok orders sched m ids b n Hv Hs Hnd) as Hm1.
      destruct (init_ok orders sched m ids Hv Hs) as [(r & Hr & R1 & R2 & R3)|(_ & k & Hk & Hthrow)].
      - rewrite Hr in Hm1. destruct Hm1 as (so & Hm & M1 & M2 & M3). rewrite Hm. eexists. split; [reflexivity|]. cbn [m_domains m_own m_bnds].
        split; [done|]. split.
        { intros k. rewrite Hkeys. split.
          - intros (d & Hd & Hk). apply (elem_of_list_fmap m_domains) in Hd as (p & -> & Hd). by exists p.
          - intros (p & Hd & Hk). exists (m_domains p). split; [apply (elem_of_list_fmap m_domains); by exists p|done]. }
        split.
        { intros k. rewrite dom_visit by apply Hv. rewrite Hvis. unfold union_of. rewrite map_map. match goal with |- ?a ≡ₚ ?b => replace a with b; [done|] end. f_equal. symmetry.
          apply map_ext_in. intros p Hpp. rewrite dom_visit; [done|]. apply elem_of_list_In in Hpp. rewrite Forall_forall in Hp. by destruct (sound_made p (Hp p Hpp)) as (? & ? & ? & [? _] & _). }
        split; [done|]. split; [done|]. split; [intros i; rewrite M2; apply Hnd|]. split; [done|]. split; [|done]. intros k. by rewrite R2.
      - exfalso.
        assert (exists views, makeBoundaryElementViews sched m [k] = Ok views) as [views Hviews]; [|congruence].
        rewrite (views_ok_iff orders sched m [k] Hv Hs).
        (* facts about each part that holds the boundary *)
        assert (forall p, p ∈ parts -> parents_exist (m_domains p) [k] /\ forall e, in_domain (m_domains p) k e -> exists e' s, attached (m_domains p) e e' s) as Hpart.
        { intros p Hpp. rewrite Forall_forall in Hp. destruct (sound_made p (Hp p Hpp)) as (pb & pn & pids & Hpv & Hpm).
          assert (k ∈ (m_bnds p).*1) as Hkp. { apply Hids in Hk as (q & Hq & Hkq). by apply (Hbn q p k). }
          pose proof (mesh2_ok orders sched shuffle (m_domains p) pb pn pids Hpv Hs Hsh) as H2.
          destruct (init_ok orders sched (m_domains p) pids Hpv Hs) as [(r & Hr & R1 & R2 & R3)|(Hr & _)]; rewrite Hr in H2; [|congruence].
          destruct H2 as (so & H2 & _). rewrite Hpm in H2. assert (m_bnds p = r) as Hbr. { assert (p = mk_mesh (m_domains p) so r) as Hpe by congruence. by rewrite Hpe. }
          rewrite Hbr in Hkp. apply elem_of_list_fmap in Hkp as ([k' vs] & -> & Hkv). cbn [fst] in *. specialize (R3 _ _ Hkv).
          destruct (proj1 (views_ok_iff orders sched (m_domains p) [k'] Hpv Hs)) as [P1 P2]; [by exists vs|]. split; [done|].
          intros e He'. apply P2. apply visit_elem; [apply strict_nodup, Hpv|]. exists k'. split; [left|done]. }
        assert (forall p k d dim, p ∈ parts -> (k, d) ∈ m_domains p -> d_dim d = Some dim -> exists d', (k, d') ∈ m /\ d_dim d' = Some dim) as Hdim.
        { intros p j d dim Hpp Hd Hdd. rewrite Forall_forall in Hp. pose proof (Hp p Hpp) as Hsp.
          destruct (sound_made p Hsp) as (_ & _ & _ & [Hpv1 Hpv2] & _). destruct Hsp as (_ & _ & _ & _ & _ & _ & _ & Hst & _).
          unfold no_stale_dim in Hst. rewrite Forall_forall in Hst. specialize (Hst _ Hd). cbn [fst snd] in Hst.
          destruct (concat (d_els d)) as [|e es] eqn:Ed.
          - exfalso. rewrite Hst in Hdd; [done|]. intros e (d' & v & Hd' & Hvv & He'). apply elem_of_list_singleton in Hd'. injection Hd' as <-.
            assert (e ∈ concat (d_els d')) as Hx by (apply elem_of_concat; by exists v). rewrite Ed in Hx. by apply elem_of_nil in Hx.
          - assert (e ∈ concat (d_els d)) as Hx by (rewrite Ed; left). apply elem_of_concat in Hx as (v & Hev & Hvd).
            assert (in_domain m j e) as (d' & v' & Hd' & Hv' & He'). { apply Hin'. exists p. split; [done|]. by exists d, v. }
            exists d'. split; [done|]. rewrite Forall_forall in Hpv2. destruct (Hpv2 _ Hd) as [_ Hdimd]. cbn [snd] in Hdimd. rewrite (Hdimd v e Hvd Hev) in Hdd. injection Hdd as <-.
            destruct Hv as [_ Hv2]. rewrite Forall_forall in Hv2. destruct (Hv2 _ Hd') as [_ Hdimd']. cbn [snd] in Hdimd'. by apply (Hdimd' v' e). }
        split.
        + intros j d Hj' Hd. apply elem_of_list_singleton in Hj' as ->.
          assert (k ∈ m.*1) as Hkm by (apply elem_of_list_fmap; by exists (k, d)).
          apply Hkeys in Hkm as (dd & Hdd & Hkd). apply (elem_of_list_fmap m_domains) in Hdd as (p & -> & Hpp).
          apply elem_of_list_fmap in Hkd as ([k' dp] & -> & Hdp). cbn [fst] in *.
          destruct (Hpart p Hpp) as [Hpe _]. destruct (Hpe k' dp ltac:(left) Hdp) as (dim & Hdim1 & k2 & d2 & Hd2 & Hdim2).
          exists dim. destruct (Hdim p k' dp dim Hpp Hdp Hdim1) as (d' & Hd' & Hdim').
          assert (d = d') as ->. { destruct Hv as [Hsrt _]. apply (dm_find_iff _ _ _ Hsrt) in Hd. apply (dm_find_iff _ _ _ Hsrt) in Hd'. congruence. }
          split; [done|]. destruct (Hdim p k2 d2 (dim + 1) Hpp Hd2 Hdim2) as (d2' & ? & ?). by exists k2, d2'.
        + intros e He'. apply visit_elem in He' as (j & Hj' & He'); [|apply strict_nodup, Hv]. apply elem_of_list_singleton in Hj' as ->.
          apply Hin' in He' as (p & Hpp & He'). destruct (Hpart p Hpp) as [_ Hat]. destruct (Hat e He') as (e' & s & (j & Hje) & Hrest).
          exists e', s. split; [|done]. exists j. apply Hin'. by exists p.
    Qed.
    Lemma cut_file n : n < length (mesh_header comment (map length (map serializeMesh parts))) + sum (map length (map serializeMesh parts)) ->
      extractSavedPartitionInfo (take n (write_all order f0)) = Throw \/
      let sizes := map length (map serializeMesh parts) in
      exists contents m, extractSavedPartitionInfo (take n (write_all order f0)) = Ok (exclusive_scan 0 sizes, sizes, take m contents) /\ m < sum sizes /\
        m = n - length (mesh_header comment sizes) /\ length (mesh_header comment sizes) <= n /\
        forall r p, parts !! r = Some p -> substr contents (sum (take r sizes)) (length (serializeMesh p)) = Ok (serializeMesh p).
    Proof using Hp Hn Ho.
      intros Hlt. set (sizes := map length (map serializeMesh parts)) in *. cbv zeta.
      destruct (mesh_file comment parts order f0 Ho Hn parts_fit) as (contents & He & Hsub).
      assert (apart order) as Ha by (apply (apart_perm (save_mesh comment parts)); [by symmetry|apply mesh_apart]).
      pose proof (mesh_hdr_pos comment parts) as Hpos. fold sizes in Hpos. set (hdr := mesh_header comment sizes) in *.
      destruct (write_all_slice order f0 (0, hdr) Ha) as [Hle Htk].
      { rewrite Ho. apply mesh_writes. by left. } { cbn [snd]. intros E. by rewrite E in Hpos. }
      cbn [fst snd] in Hle, Htk. rewrite drop_0 in Htk. set (F := write_all order f0) in *.
      assert (F = hdr ++ drop (length hdr) F) as HF by (rewrite <- Htk at 1; by rewrite take_drop).
      assert (fits64 (length sizes)) as H1 by (unfold sizes; by rewrite !map_length).
      assert (Forall fits64 sizes) as H2 by (unfold sizes; rewrite map_map; apply Forall_fmap; exact parts_fit).
      rewrite HF in He. unfold hdr at 1 in He. rewrite extract_header in He by done.
      pose proof (f_equal (fun r : res (list nat * list nat * list byte) => match r with Ok t => t.2 | _ => [] end) He) as He2. cbv beta iota in He2. cbn [snd] in He2.
      pose proof (extract_cut comment sizes (drop (length hdr) F) n H1 H2) as Hcut. fold hdr in Hcut. rewrite <- HF in Hcut. rewrite Hcut.
      destruct (Nat.ltb_spec n (length hdr)); [by left|].
      right. exists contents, (n - length hdr). rewrite He2. split; [done|]. split; [lia|]. done.
    Qed.
    Lemma cut_part contents m r x : sound_part orders sched shuffle x -> substr contents r (length (serializeMesh x)) = Ok (serializeMesh x) -> m < r + length (serializeMesh x) ->
      (s ← substr (take m contents) r (length (serializeMesh x)); deserializeMesh orders sched shuffle' s) = Throw.
    Proof using Hs Hsh.
      intros Hx Hsub Hm. unfold substr in *. destruct (Nat.leb_spec r (length contents)); [|done]. apply Ok_inj in Hsub.
      destruct (Nat.leb_spec r (length (take m contents))) as [Hr|]; [|done]. rewrite take_length in Hr. rewrite bind_ok.
      rewrite skipn_firstn_comm, take_take. set (L := length (serializeMesh x)) in *.
      assert (L <= length (drop r contents)). { assert (length (take L (drop r contents)) = L) as HL by (rewrite Hsub; done). rewrite take_length in HL. lia. }
      apply (sound_cut x (take (L `min` (m - r)) (drop r contents)) (drop (L `min` (m - r)) (serializeMesh x)) Hx).
      - rewrite <- Hsub. rewrite <- (take_drop (L `min` (m - r)) (take L (drop r contents))) at 1. f_equal. rewrite take_take. f_equal. lia.
      - intros E. assert (length (drop (L `min` (m - r)) (serializeMesh x)) = 0) as E' by (by rewrite E). rewrite drop_length in E'. fold L in E'. lia.
    Qed.
    Lemma cut_unified n b k : one_mesh parts b k ->
      n < length (mesh_header comment (map length (map serializeMesh parts))) + sum (map length (map serializeMesh parts)) ->
      loadUnifiedMesh orders sched shuffle' (take n (write_all order f0)) = Throw.
    Proof using Hord Hs Hsh Hsh' Hp Hn Ho.
      intros (Ha & _ & _) Hlt. unfold loadUnifiedMesh. destruct (cut_file n Hlt) as [-> |(contents & m & -> & Hm & _ & _ & Hsub)]; [done|]. rewrite bind_ok.
      set (sizes := map length (map serializeMesh parts)) in *. destruct (first_cut sizes m Hm) as (r & n' & Hr & Hrm).
      assert (length sizes = length parts) as Hl by (unfold sizes; by rewrite !map_length).
      destruct (lookup_lt_is_Some_2 parts r) as [p Hpr]; [rewrite <- Hl; by apply lookup_lt_Some in Hr|].
      assert (n' = length (serializeMesh p)) as ->. { pose proof (size_at parts r p Hpr) as Hx. fold sizes in Hx. congruence. }
      pose proof (zip_scan parts contents Hsub) as HF. fold sizes in HF.
      assert (zip (exclusive_scan 0 sizes) sizes !! r = Some (sum (take r sizes), length (serializeMesh p))) as Hzr.
      { apply lookup_zip_with_Some. eexists _, _. split; [reflexivity|]. split; [|done]. rewrite exclusive_scan_lookup by (by apply lookup_lt_Some in Hr). done. }
      rewrite <- (take_drop_middle _ _ _ Hzr). rewrite for_each_app.
      destruct (join_loop (take m contents) (take r parts) (take r (exclusive_scan 0 sizes)) (take r sizes)) as (st & Hst & _).
      { by apply Forall_take. }
      { intros d d' j e e' Hd Hd'. apply (elem_of_list_fmap m_domains) in Hd as (q & -> & Hd). apply (elem_of_list_fmap m_domains) in Hd' as (q' & -> & Hd').
        apply Ha; [by apply elem_of_take in Hd as (i & Hi & _); apply elem_of_list_lookup_2 in Hi|by apply elem_of_take in Hd' as (i & Hi & _); apply elem_of_list_lookup_2 in Hi]. }
      { apply Forall2_same_length_lookup_2.
        - rewrite zip_with_length, !take_length, exclusive_scan_length. lia.
        - intros i os q Hos Hq. apply lookup_zip_with_Some in Hos as (o & n' & -> & Ho' & Hn'). cbn [fst snd].
          assert (i < r) as Hir. { apply lookup_lt_Some in Hq. rewrite take_length in Hq. lia. }
          rewrite lookup_take in Ho' by done. rewrite lookup_take in Hn' by done. rewrite lookup_take in Hq by done.
          rewrite exclusive_scan_lookup in Ho' by (by apply lookup_lt_Some in Hn'). injection Ho' as <-.
          pose proof (size_at parts i q Hq) as Hx. fold sizes in Hx. assert (n' = length (serializeMesh q)) as -> by congruence.
          specialize (Hsub i q Hq). cbn [Nat.add]. pose proof (sum_take_S _ _ _ Hx) as HS. pose proof (sum_take_mono sizes (S i) r Hir) as HM.
          unfold substr in *. destruct (Nat.leb_spec (sum (take i sizes)) (length contents)); [|done]. apply Ok_inj in Hsub.
          assert (length (serializeMesh q) <= length (drop (sum (take i sizes)) contents)) as HL.
          { assert (length (take (length (serializeMesh q)) (drop (sum (take i sizes)) contents)) = length (serializeMesh q)) as HL by (rewrite Hsub; done). rewrite take_length in HL. lia. }
          rewrite drop_length in HL. rewrite take_length. rewrite (proj2 (Nat.leb_le _ _)) by lia. 
          rewrite skipn_firstn_comm, take_take. replace (length (serializeMesh q) `min` (m - sum (take i sizes))) with (length (serializeMesh q)) by lia. by rewrite Hsub. }
      rewrite zip_cut, Hst, bind_ok. cbn [for_each fst snd].
      rewrite Forall_forall in Hp. pose proof (cut_part contents m (sum (take r sizes)) p (Hp p (elem_of_list_lookup_2 _ _ _ Hpr)) (Hsub r p Hpr)) as Hc.
      specialize (Hc ltac:(lia)). destruct (substr (take m contents) (sum (take r sizes)) (length (serializeMesh p))) as [s| |]; [|done|done].
      rewrite bind_ok in Hc. rewrite bind_ok, Hc. done.
    Qed.
    Lemma cut_direct n r x : parts !! r = Some x -> 
      n < length (mesh_header comment (map length (map serializeMesh parts))) + sum (take (S r) (map length (map serializeMesh parts))) ->
      loadPartitionedMesh orders sched shuffle' (take n (write_all order f0)) (length parts) r = Throw.
    Proof using Hs Hsh Hp Hn Ho.
      intros Hr Hlt. set (sizes := map length (map serializeMesh parts)) in *. unfold loadPartitionedMesh.
      pose proof (sum_take_le sizes (S r)) as Hle. destruct (cut_file n) as [-> |(contents & m & -> & Hm & Em & Hge & Hsub)]; [fold sizes; lia|done|]. rewrite bind_ok.
      fold sizes in Em, Hge, Hsub |- *. replace (length sizes) with (length parts) by (unfold sizes; by rewrite !map_length). rewrite Nat.eqb_refl. change (throwing_assert true) with (Ok tt). rewrite bind_ok.
      pose proof (size_at parts r x Hr) as Hx. fold sizes in Hx. rewrite exclusive_scan_lookup by (by apply lookup_lt_Some in Hx). rewrite Hx. cbn [Nat.add].
      rewrite (sum_take_S _ _ _ Hx) in Hlt. rewrite Forall_forall in Hp.
      apply (cut_part contents m); [apply Hp; by apply elem_of_list_lookup_2 in Hr|by apply Hsub|lia].
    Qed.
  End file.
End load.
(** The nodes listed by a part. *)
Lemma direct_nodes orders sched shuffle x g : (forall l, sched l ≡ₚ l) -> (forall l, shuffle l ≡ₚ l) ->
  sound_part orders sched shuffle x -> (isOwned (m_own x) g = true \/ g ∈ so_shared (m_own x)) ->
  old_nodes_direct x !! getLocalIndex (m_own x) g = Some g.
Proof.
  intros Hs Hsh (m & b & n & ids & Hv & Hx & _) Hg. pose proof (mesh2_ok orders sched shuffle m b n ids Hv Hs Hsh) as H.
  destruct (initBoundaryViews sched m ids); [|congruence|congruence]. destruct H as (so & Hso & Hb & He & Hss & Hin). rewrite Hx in Hso. injection Hso as ->. cbn [m_own] in *.
  unfold old_nodes_direct, getLocalIndex. cbn [m_own]. destruct (isOwned so g) eqn:E.
  - unfold isOwned in E. apply andb_prop in E as [E1%Nat.leb_le E2%Nat.ltb_lt]. rewrite lookup_app_l by (rewrite seq_length; unfold numOwned; lia).
    rewrite lookup_seq_lt by (unfold numOwned; lia). f_equal. lia.
  - destruct Hg as [?|Hg]; [done|]. rewrite lookup_app_r by (rewrite seq_length; lia). rewrite seq_length.
    replace (numOwned so + lower_bound (so_shared so) g - numOwned so) with (lower_bound (so_shared so) g) by lia.
    apply lower_bound_found; [by apply strict_sorted|done].
Qed.
