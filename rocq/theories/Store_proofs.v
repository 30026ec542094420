(** Proofs about saved files. *)
From Coq Require Import String Ascii.
From Verif Require Import Base StdAlgo Ownership_model Ownership_spec Ownership_proofs Elem_model Serial_model Serial_proofs Mesh_model Mesh_spec
  MeshSerial_model MeshSerial_spec MeshSerial_proofs Store_model Store_spec.
Local Open Scope nat_scope.
Local Open Scope list_scope.

(** ** Writing *)
Definition apart (ws : list (nat * list byte)) : Prop :=
  forall w w', w ∈ ws -> w' ∈ ws -> w = w' \/ w.1 + length w.2 <= w'.1 \/ w'.1 + length w'.2 <= w.1.
Lemma write_in w f j : j < length w.2 -> write_at w f !! (w.1 + j) = w.2 !! j.
Proof.
  intros Hj. unfold write_at.
  assert (length (take w.1 (f ++ replicate (w.1 - length f) 0%N)) = w.1) as Hl.
  { rewrite take_length, app_length, replicate_length. lia. }
  rewrite lookup_app_r by lia. rewrite Hl. replace (w.1 + j - w.1) with j by lia. by rewrite lookup_app_l.
Qed.
Lemma write_out w f k b : k < w.1 \/ w.1 + length w.2 <= k -> f !! k = Some b -> write_at w f !! k = Some b.
Proof.
  intros Hk Hb. unfold write_at. pose proof (lookup_lt_Some _ _ _ Hb) as Hf.
  assert (length (take w.1 (f ++ replicate (w.1 - length f) 0%N)) = w.1) as Hl.
  { rewrite take_length, app_length, replicate_length. lia. }
  destruct Hk as [Hk|Hk].
  - rewrite lookup_app_l by lia. rewrite lookup_take by lia. by rewrite lookup_app_l.
  - rewrite lookup_app_r by lia. rewrite lookup_app_r by lia. rewrite lookup_drop, Hl.
    by replace (w.1 + length w.2 + (k - w.1 - length w.2)) with k by lia.
Qed.
Lemma write_all_ok ws f w j b : apart ws -> w ∈ ws -> w.2 !! j = Some b -> write_all ws f !! (w.1 + j) = Some b.
Proof.
  induction ws as [|w' ws IH] using rev_ind; intros Ha Hw Hb; [by apply elem_of_nil in Hw|].
  pose proof (lookup_lt_Some _ _ _ Hb) as Hj. unfold write_all. rewrite foldl_app. cbn [foldl].
  destruct (Ha w w' Hw) as [-> |Hd]; [apply elem_of_app; right; left| |].
  - by rewrite write_in.
  - apply elem_of_app in Hw as [Hw|Hw].
    + apply write_out; [lia|]. apply IH; [|done|done]. intros x y Hx Hy. apply Ha; apply elem_of_app; by left.
    + apply elem_of_list_singleton in Hw as ->. rewrite write_in by done. done.
Qed.
(** A write is found in the file. *)
Lemma write_all_slice ws f w : apart ws -> w ∈ ws -> w.2 <> [] ->
  w.1 + length w.2 <= length (write_all ws f) /\ take (length w.2) (drop w.1 (write_all ws f)) = w.2.
Proof.
  intros Ha Hw Hne. assert (forall j, j < length w.2 -> write_all ws f !! (w.1 + j) = w.2 !! j) as H.
  { intros j Hj. destruct (lookup_lt_is_Some_2 _ _ Hj) as [b Hb]. rewrite Hb. by apply write_all_ok. }
  split.
  - destruct (w.2) as [|x l] eqn:E; [done|]. rewrite <- E in *.
    assert (length w.2 - 1 < length w.2) as Hl by (rewrite E; cbn [length]; lia).
    specialize (H _ Hl). destruct (lookup_lt_is_Some_2 _ _ Hl) as [b Hb]. rewrite Hb in H.
    apply lookup_lt_Some in H. lia.
  - apply list_eq. intros j. destruct (decide (j < length w.2)).
    + rewrite lookup_take by done. rewrite lookup_drop. by apply H.
    + rewrite lookup_take_ge by lia. symmetry. apply lookup_ge_None. lia.
Qed.
Lemma apart_perm ws ws' : ws ≡ₚ ws' -> apart ws -> apart ws'.
Proof. intros Hp Ha w w' Hw Hw'. apply Ha; by rewrite Hp. Qed.

(** ** The start of a file *)
Lemma skip_line a b : newline ∉ a -> skipLine (a ++ newline :: b) = Ok b.
Proof.
  induction a as [|c a IH]; intros H; cbn [app skipLine].
  - by rewrite decide_True.
  - apply not_elem_of_cons in H as [H1 H2]. rewrite decide_False by congruence. by apply IH.
Qed.
Lemma skip_preamble title comment rest : newline ∉ text title -> skip3 (preamble title comment ++ rest) = Ok rest.
Proof.
  intros Ht. unfold skip3, preamble. rewrite <- !app_assoc. cbn [app].
  rewrite skip_line by done. rewrite bind_ok. rewrite skip_line by (apply (bool_decide_unpack _); by vm_compute). rewrite bind_ok.
  rewrite app_assoc. apply skip_line. rewrite not_elem_of_app. split; [apply (bool_decide_unpack _); by vm_compute|].
  intros H. apply elem_of_list_fmap in H as (c & Hc & _). case_decide; [by vm_compute in Hc|congruence].
Qed.

(** ** Results *)
Lemma max_lt l n : l <> [] -> (foldr Nat.max 0 l <? n) = true <-> Forall (fun i => i < n) l.
Proof.
  intros Hne. rewrite Nat.ltb_lt. split.
  - clear Hne. induction l as [|a l IH]; [by constructor|]. cbn [foldr]. intros H. constructor; [lia|apply IH; lia].
  - destruct l as [|a l]; [done|]. clear Hne. revert a. induction l as [|b l IH]; intros a H; cbn [foldr] in *.
    + inversion H; lia.
    + inversion H as [|?? Ha H' Ea]. specialize (IH b H'). lia.
Qed.
Lemma exclusive_first counts r : r < length counts -> rd (exclusive_scan 0 counts) r = Ok (first_owned counts r).
Proof. intros H. apply rd_ok. rewrite exclusive_scan_lookup by done. by rewrite first_owned_sum. Qed.
Lemma first_last counts r c : counts !! r = Some c -> first_owned counts r + c <= total counts.
Proof.
  intros H. rewrite first_owned_sum, <- (sum_take_S _ _ _ H). apply sum_take_le.
Qed.
Lemma first_next counts r c r' : counts !! r = Some c -> r < r' -> first_owned counts r + c <= first_owned counts r'.
Proof. intros H Hr. rewrite !first_owned_sum, <- (sum_take_S _ _ _ H). apply sum_take_mono. lia. Qed.
Lemma all_counted counts : counts <> [] -> exists c, rd counts (length counts - 1) = Ok c /\ c + first_owned counts (length counts - 1) = total counts.
Proof.
  intros Hne. destruct (lookup_lt_is_Some_2 counts (length counts - 1)) as [c Hc]; [destruct counts; [done|cbn [length]; lia]|].
  exists c. split; [by apply rd_ok|]. rewrite first_owned_sum, Nat.add_comm, <- (sum_take_S _ _ _ Hc). rewrite sum_take_all; [done|lia].
Qed.
Lemma zip_seq_elem {A} (l : list A) i a k : (i, a) ∈ zip (seq k (length l)) l <-> exists j, i = k + j /\ l !! j = Some a.
Proof.
  revert k. induction l as [|b l IH]; intros k; cbn [length seq zip_with].
  - split; [by intros H%elem_of_nil|]. by intros (j & _ & H).
  - rewrite elem_of_cons, IH. split.
    + intros [[= -> ->]|(j & -> & Hj)]; [exists 0; split; [lia|done]|exists (S j); split; [lia|done]].
    + intros ([|j] & -> & Hj); cbn in Hj; [left; injection Hj as ->; f_equal; lia|right; exists j; split; [lia|done]].
Qed.

Section save.
  Context (comment : list byte) (counts inds : list nat) (nf : nat) (fields : list (list (list (list byte)))).
  Context (Hc : counts <> []) (Hi : inds <> []) (Hin : Forall (fun i => i < nf) inds) (Hf : proper_fields counts nf fields).
  Let G := total counts.
  Let hdr := results_header comment (length inds) G.
  Definition data_write (r c i : nat) (f : list (list byte)) : nat * list byte :=
    (length hdr + 8 * (G * i + first_owned counts r), concat (take c f)).
  Lemma save_rank_ok r fs c : fields !! r = Some fs -> counts !! r = Some c ->
    exists ws, save_rank comment counts inds r fs = Ok ws /\
      forall w, w ∈ ws <-> (r = 0 /\ w = (0, hdr)) \/ exists i ind f, inds !! i = Some ind /\ fs !! ind = Some f /\ w = data_write r c i f.
  Proof using Hc Hi Hin Hf.
    intros Hfs Hcr. destruct (Forall2_lookup_lr _ _ _ _ _ _ Hf Hcr Hfs) as [Hl Hall].
    unfold save_rank. replace (length inds =? 0) with false by (symmetry; apply Nat.eqb_neq; destruct inds; [done|cbn [length]; lia]).
    cbn [negb]. change (throwing_assert true) with (Ok tt). rewrite bind_ok.
    rewrite (proj2 (max_lt inds (length fs) Hi)) by (by rewrite Hl). change (throwing_assert true) with (Ok tt). rewrite bind_ok.
    rewrite (rd_ok _ _ _ Hcr), bind_ok. rewrite (exclusive_first counts r) by (by apply lookup_lt_Some in Hcr). rewrite bind_ok.
    rewrite (exclusive_first counts (length counts - 1)) by (destruct counts; [done|cbn [length]; lia]). rewrite bind_ok.
    destruct (all_counted counts Hc) as (lc & Hlc & Hsum). rewrite Hlc, bind_ok. cbv zeta. rewrite Hsum.
    rewrite (map_res_ok _ (fun i_ind => data_write r c i_ind.1 (nth i_ind.2 fs []))).
    2:{ intros [i ind] Hx. cbn [fst snd]. apply zip_seq_elem in Hx as (j & _ & Hj).
        rewrite Forall_forall in Hin. pose proof (Hin ind (elem_of_list_lookup_2 _ _ _ Hj)) as Hlt. rewrite <- Hl in Hlt.
        destruct (lookup_lt_is_Some_2 _ _ Hlt) as [f Hff]. rewrite (rd_ok _ _ _ Hff), bind_ok.
        rewrite Forall_forall in Hall. destruct (Hall f (elem_of_list_lookup_2 _ _ _ Hff)) as [Hle _].
        rewrite (proj2 (Nat.leb_le _ _)) by done. unfold data_write. by rewrite (nth_lookup_Some _ _ _ _ Hff). }
    rewrite bind_ok. eexists. split; [reflexivity|]. intros w. rewrite elem_of_app. rewrite (elem_of_list_fmap (fun i_ind => data_write r c i_ind.1 (nth i_ind.2 fs []))).
    apply ZifyClasses.or_morph.
    - destruct (Nat.eqb_spec r 0) as [-> |Hr].
      + rewrite elem_of_list_singleton. unfold hdr, G. naive_solver.
      + rewrite elem_of_nil. naive_solver.
    - split.
      + intros ([i ind] & -> & Hx). cbn [fst snd]. apply zip_seq_elem in Hx as (j & -> & Hj).
        rewrite Forall_forall in Hin. pose proof (Hin ind (elem_of_list_lookup_2 _ _ _ Hj)) as Hlt. rewrite <- Hl in Hlt.
        destruct (lookup_lt_is_Some_2 _ _ Hlt) as [f Hff]. exists j, ind, f. split; [done|]. split; [done|]. by rewrite (nth_lookup_Some _ _ _ _ Hff).
      + intros (i & ind & f & Hj & Hff & ->). exists (i, ind). cbn [fst snd]. rewrite (nth_lookup_Some _ _ _ _ Hff). split; [done|].
        apply zip_seq_elem. by exists i.
  Qed.
  Lemma save_ok : exists ws, save_results comment counts inds fields = Ok ws /\
    forall w, w ∈ ws <-> w = (0, hdr) \/ exists r c fs i ind f, counts !! r = Some c /\ fields !! r = Some fs /\
       inds !! i = Some ind /\ fs !! ind = Some f /\ w = data_write r c i f.
  Proof using Hc Hi Hin Hf.
    unfold save_results.
    assert (length counts = length fields) as Hlen by (by apply Forall2_length in Hf).
    destruct (Mesh_proofs.map_res_total (fun z : nat * list (list (list byte)) => save_rank comment counts inds z.1 z.2) (zip (seq 0 (length counts)) fields)) as [wss Hw].
    { intros [r fs] Hx. rewrite Hlen in Hx. apply zip_seq_elem in Hx as (j & Ej & Hj). cbn [fst snd]. cbn in Ej. subst j.
      destruct (lookup_lt_is_Some_2 counts r) as [c Hcr]; [rewrite Hlen; by apply lookup_lt_Some in Hj|].
      destruct (save_rank_ok r fs c Hj Hcr) as (ws & Hws & _). by exists ws. }
    rewrite Hw, bind_ok. exists (concat wss). split; [done|]. intros w. rewrite elem_of_concat.
    apply map_res_inv in Hw. rewrite Hlen in Hw. split.
    - intros (ws & Hw' & Hws). apply elem_of_list_lookup in Hws as (r & Hr).
      destruct (Forall2_lookup_r _ _ _ _ _ Hw Hr) as ([r' fs] & Hz & Hs). cbn [fst snd] in Hs.
      pose proof (elem_of_list_lookup_2 _ _ _ Hz) as Hx. apply zip_seq_elem in Hx as (j & -> & Hj). cbn [Nat.add] in *.
      destruct (lookup_lt_is_Some_2 counts j) as [c Hcr]; [rewrite Hlen; by apply lookup_lt_Some in Hj|].
      destruct (save_rank_ok j fs c Hj Hcr) as (ws' & Hws' & Hel). rewrite Hs in Hws'. injection Hws' as ->.
      apply Hel in Hw' as [[_ ->]|(i & ind & f & ? & ? & ?)]; [by left|right; by exists j, c, fs, i, ind, f].
    - intros [-> |(r & c & fs & i & ind & f & Hcr & Hfs & H)].
      + destruct (lookup_lt_is_Some_2 counts 0) as [c Hcr]; [destruct counts; [done|cbn [length]; lia]|].
        destruct (lookup_lt_is_Some_2 fields 0) as [fs Hfs]; [rewrite <- Hlen; destruct counts; [done|cbn [length]; lia]|].
        destruct (save_rank_ok 0 fs c Hfs Hcr) as (ws & Hs & Hel).
        assert ((0, fs) ∈ zip (seq 0 (length fields)) fields) as Hx by (apply zip_seq_elem; by exists 0).
        apply elem_of_list_lookup in Hx as (k & Hk). destruct (Forall2_lookup_l _ _ _ _ _ Hw Hk) as (ws' & Hk' & Hs').
        cbn [fst snd] in Hs'. rewrite Hs in Hs'. injection Hs' as <-. exists ws. split; [|by apply elem_of_list_lookup_2 in Hk'].  
        apply Hel. by left.
      + destruct (save_rank_ok r fs c Hfs Hcr) as (ws & Hs & Hel).
        assert ((r, fs) ∈ zip (seq 0 (length fields)) fields) as Hx by (apply zip_seq_elem; by exists r).
        apply elem_of_list_lookup in Hx as (k & Hk). destruct (Forall2_lookup_l _ _ _ _ _ Hw Hk) as (ws' & Hk' & Hs').
        cbn [fst snd] in Hs'. rewrite Hs in Hs'. injection Hs' as <-. exists ws. split; [|by apply elem_of_list_lookup_2 in Hk'].  
        apply Hel. right. by exists i, ind, f.
  Qed.
End save.
Lemma concat_values l : Forall value l -> length (concat l) = 8 * length l.
Proof. induction 1 as [|v l Hv _ IH]; [done|]. unfold value in Hv. cbn [concat length]. rewrite app_length. lia. Qed.
Lemma concat_slice l j v : Forall value l -> l !! j = Some v -> take 8 (drop (8 * j) (concat l)) = v.
Proof.
  intros Hl. revert j. induction Hl as [|x l Hx Hl IH]; intros j Hj; [done|]. cbn [concat]. unfold value in Hx. destruct j as [|j].
  - injection Hj as ->. rewrite Nat.mul_0_r, drop_0, take_app_alt; done.
  - cbn in Hj. rewrite drop_app_ge by lia. rewrite Hx. replace (8 * S j - 8) with (8 * j) by lia. by apply IH.
Qed.
Lemma header_length comment n g : length (results_header comment n g) = length (preamble "L3STER results file" comment) + 16.
Proof. unfold results_header. rewrite !app_length, !w8_length. lia. Qed.
Lemma preamble_pos title comment : 0 < length (preamble title comment).
Proof. unfold preamble. rewrite !app_length. cbn [length]. lia. Qed.
Lemma take_w8 n k : take 8 (w8 n ++ k) = w8 n.
Proof. apply take_app_alt. by rewrite w8_length. Qed.
Lemma drop_w8 n k : drop 8 (w8 n ++ k) = k.
Proof. apply drop_app_alt. by rewrite w8_length. Qed.
Lemma load_header comment n g rest : fits64 n -> fits64 g ->
  LoadedResults (results_header comment n g ++ rest) = Ok {| lr_contents := rest; lr_fields := n; lr_nodes := g |}.
Proof.
  intros Hn Hg. unfold LoadedResults, results_header. rewrite <- !app_assoc. rewrite skip_preamble by (apply (bool_decide_unpack _); by vm_compute).
  rewrite bind_ok. rewrite !app_length, !w8_length. rewrite (proj2 (Nat.leb_le 16 _)) by lia.
  change (throwing_assert true) with (Ok tt). rewrite bind_ok.
  replace (drop 16 (w8 (N.of_nat n) ++ w8 (N.of_nat g) ++ rest)) with rest by (change 16 with (8 + 8); by rewrite <- drop_drop, !drop_w8).
  rewrite take_w8, drop_w8, take_w8.
  rewrite !w8_round by done. by rewrite !Nat2N.id.
Qed.
Section save2.
  Context (comment : list byte) (counts inds : list nat) (nf : nat) (fields : list (list (list (list byte)))).
  Context (Hc : counts <> []) (Hi : inds <> []) (Hin : Forall (fun i => i < nf) inds) (Hf : proper_fields counts nf fields).
  Let G := total counts.
  Let hdr := results_header comment (length inds) G.
  Notation dw := (data_write comment counts inds).
  Lemma dw_length r c fs ind f i : counts !! r = Some c -> fields !! r = Some fs -> fs !! ind = Some f ->
    length (dw r c i f).2 = 8 * c /\ Forall value (take c f).
  Proof using Hf.
    intros Hcr Hfs Hff. destruct (Forall2_lookup_lr _ _ _ _ _ _ Hf Hcr Hfs) as [_ Hall]. rewrite Forall_forall in Hall.
    destruct (Hall f (elem_of_list_lookup_2 _ _ _ Hff)) as [Hle Hv]. assert (Forall value (take c f)) as Ht by (by apply Forall_take).
    split; [|done]. unfold data_write. cbn [snd]. rewrite concat_values by done. rewrite take_length. lia.
  Qed.
  Lemma slot_apart r c i r' c' i' : counts !! r = Some c -> counts !! r' = Some c' -> (r, i) <> (r', i') ->
    G * i + first_owned counts r + c <= G * i' + first_owned counts r' \/ G * i' + first_owned counts r' + c' <= G * i + first_owned counts r.
  Proof using.
    intros H H' Hne. pose proof (first_last _ _ _ H) as L. pose proof (first_last _ _ _ H') as L'. fold G in L, L'.
    destruct (lt_eq_lt_dec i i') as [[Hlt| ->]|Hlt].
    - left. assert (G * i' = G * i + G * (i' - i)) by nia. assert (G <= G * (i' - i)) by nia. lia.
    - destruct (lt_eq_lt_dec r r') as [[Hlt| ->]|Hlt]; [left|done|right].
      + pose proof (first_next _ _ _ _ H Hlt). lia.
      + pose proof (first_next _ _ _ _ H' Hlt). lia.
    - right. assert (G * i = G * i' + G * (i - i')) by nia. assert (G <= G * (i - i')) by nia. lia.
  Qed.
  Lemma save_apart ws : (forall w, w ∈ ws <-> w = (0, hdr) \/ exists r c fs i ind f, counts !! r = Some c /\ fields !! r = Some fs /\
       inds !! i = Some ind /\ fs !! ind = Some f /\ w = dw r c i f) -> apart ws.
  Proof using Hf.
    intros Hel w w' Hw Hw'. apply Hel in Hw. apply Hel in Hw'.
    destruct Hw as [-> |(r & c & fs & i & ind & f & H1 & H2 & H3 & H4 & ->)]; destruct Hw' as [-> |(r' & c' & fs' & i' & ind' & f' & H1' & H2' & H3' & H4' & ->)].
    - by left.
    - right. left. unfold data_write. cbn [fst snd]. fold G. fold hdr. lia.
    - right. right. unfold data_write. cbn [fst snd]. fold G. fold hdr. lia.
    - destruct (decide ((r, i) = (r', i'))) as [[= -> ->]|Hne]; [left; congruence|]. right.
      destruct (dw_length r c fs ind f i) as [-> _]; [done..|]. destruct (dw_length r' c' fs' ind' f' i') as [-> _]; [done..|].
      unfold data_write. cbn [fst]. fold G. fold hdr. destruct (slot_apart r c i r' c' i' H1 H1' Hne); [left|right]; lia.
  Qed.
  Lemma save_load ws order f0 : save_results comment counts inds fields = Ok ws -> order ≡ₚ ws -> fits64 (length inds) -> fits64 G ->
    exists l, LoadedResults (write_all order f0) = Ok l /\ lr_fields l = length inds /\ lr_nodes l = G /\
      forall i ind g v, inds !! i = Some ind -> field_value counts fields ind g v -> result_at l g i = Ok v.
  Proof using Hc Hi Hin Hf.
    intros Hs Hp Hn Hg. destruct (save_ok comment counts inds nf fields Hc Hi Hin Hf) as (ws' & Hws & Hel). rewrite Hs in Hws. injection Hws as <-.
    fold G in Hel. fold hdr in Hel.
    assert (apart order) as Ha by (apply (apart_perm ws); [by symmetry|by apply save_apart]).
    set (F := write_all order f0).
    assert (0 < length hdr) as Hpos by (unfold hdr; rewrite header_length; lia).
    destruct (write_all_slice order f0 (0, hdr) Ha) as [Hle Htk].
    { rewrite Hp. apply Hel. by left. } { cbn [snd]. intros E. by rewrite E in Hpos. }
    cbn [fst snd] in Hle, Htk. rewrite drop_0 in Htk. fold F in Hle, Htk.
    assert (F = hdr ++ drop (length hdr) F) as HF by (rewrite <- Htk at 1; by rewrite take_drop).
    rewrite HF. unfold hdr at 1. rewrite load_header by done. eexists. split; [reflexivity|]. cbn [lr_fields lr_nodes lr_contents].
    split; [done|]. split; [done|]. intros i ind g v Hi' (r & fs & f & (c & Hcr & Hlo) & Hfs & Hff & Hv).
    destruct (dw_length r c fs ind f i Hcr Hfs Hff) as [Hlen Hval].
    destruct (write_all_slice order f0 (dw r c i f) Ha) as [Hle' Htk'].
    { rewrite Hp. apply Hel. right. by exists r, c, fs, i, ind, f. } { intros E. rewrite E in Hlen. cbn [length] in Hlen. lia. }
    rewrite Hlen in Hle', Htk'. fold F in Hle', Htk'. unfold data_write in Hle', Htk'. fold G hdr in Hle', Htk'. cbn [fst snd] in Hle', Htk'.
    unfold result_at. cbn [lr_contents lr_nodes]. rewrite drop_length.
    set (fo := first_owned counts r) in *. 
    rewrite (proj2 (Nat.leb_le _ _)) by nia. f_equal.
    rewrite drop_drop.
    assert (take c f !! (g - fo) = Some v) as Hv' by (by rewrite lookup_take by lia).
    pose proof (concat_slice _ _ _ Hval Hv') as Hcs. rewrite <- Htk' in Hcs. rewrite <- Hcs.
    rewrite skipn_firstn_comm, drop_drop. rewrite take_take. f_equal; [lia|]. f_equal. nia.
  Qed.
End save2.
(** ** Loading results *)
Section loadres.
  Context (l : loaded) (V : nat -> nat -> list byte).
  Definition put_col (old : list nat) (s : nat) (col : list (list byte)) : list (list byte) := map (fun n => V n s) old ++ drop (length old) col.
  Lemma load_col s d sol col : sol !! d = Some col -> forall pre old,
    (forall n, n ∈ old -> result_at l n s = Ok (V n s)) -> length pre + length old <= length col -> take (length pre) col = pre ->
    for_each (fun (io : nat * nat) sol => v ← result_at l io.2 s; col ← rd sol d; col ← wr col io.1 v; wr sol d col)
      (zip (seq (length pre) (length old)) old) sol = Ok (<[d := pre ++ map (fun n => V n s) old ++ drop (length pre + length old) col]> sol).
  Proof.
    intros Hd pre old. revert pre sol col Hd. induction old as [|n old IH]; intros pre sol col Hd HV Hle Hpre; cbn [length seq zip_with for_each map].
    - rewrite Nat.add_0_r. cbn [app]. rewrite <- Hpre at 1. by rewrite take_drop, list_insert_id.
    - cbn [fst snd]. rewrite (HV n) by left. rewrite bind_ok. rewrite (rd_ok _ _ _ Hd), bind_ok. cbn [length] in Hle.
      rewrite wr_ok by lia. rewrite bind_ok. rewrite wr_ok by (by apply lookup_lt_Some in Hd). rewrite bind_ok.
      assert (length pre + 0 < length col) as Hlt by lia. 
      set (col' := <[length pre := V n s]> col).
      assert (length col' = length col) as Hl' by apply insert_length.
      specialize (IH (pre ++ [V n s]) (<[d := col']> sol) col').
      rewrite app_length in IH. cbn [length] in IH. rewrite Nat.add_1_r in IH. rewrite IH.
      + rewrite list_insert_insert. do 2 f_equal. rewrite <- app_assoc. cbn [app]. do 3 f_equal.
        apply list_eq. intros k. rewrite !lookup_drop. unfold col'. rewrite list_lookup_insert_ne by lia. f_equal. lia.
      + apply list_lookup_insert. by apply lookup_lt_Some in Hd.
      + intros m Hm. apply HV. by right.
      + rewrite Hl'. lia.
      + apply list_eq. intros k. unfold col'. destruct (decide (k < length pre)).
        * rewrite lookup_take by lia. rewrite list_lookup_insert_ne by lia. rewrite lookup_app_l by done. rewrite <- Hpre. by rewrite lookup_take by lia.
        * destruct (decide (k = length pre)) as [-> |].
          -- rewrite lookup_take by lia. rewrite list_lookup_insert by lia. by rewrite lookup_app_r, Nat.sub_diag by lia.
          -- rewrite lookup_take_ge by lia. symmetry. apply lookup_ge_None. rewrite app_length. cbn [length]. lia.
  Qed.
  Definition put_all (old : list nat) (sds : list (nat * nat)) (sol : list (list (list byte))) : list (list (list byte)) :=
    foldl (fun sol sd => alter (put_col old sd.1) sd.2 sol) sol sds.
  Lemma load_cols old sds sol : (forall n sd, n ∈ old -> sd ∈ sds -> result_at l n sd.1 = Ok (V n sd.1)) ->
    (forall sd, sd ∈ sds -> sd.2 < length sol) -> Forall (fun col : list (list byte) => length old <= length col) sol ->
    for_each (fun (sd : nat * nat) sol =>
      for_each (fun (io : nat * nat) sol => v ← result_at l io.2 sd.1; col ← rd sol sd.2; col ← wr col io.1 v; wr sol sd.2 col)
        (zip (seq 0 (length old)) old) sol) sds sol = Ok (put_all old sds sol).
  Proof.
    revert sol. induction sds as [|[s d] sds IH]; intros sol HV Hd Hc; [done|]. cbn [for_each fst snd].
    destruct (lookup_lt_is_Some_2 sol d) as [col Hcol]; [apply (Hd (s, d)); left|].
    assert (length old <= length col) as Hlc by (rewrite Forall_forall in Hc; apply Hc; by apply elem_of_list_lookup_2 in Hcol).
    pose proof (load_col s d sol col Hcol [] old) as H. cbn [length Nat.add app] in H. rewrite H; [|intros n Hn; apply (HV n (s, d) Hn); left|done|done].
    rewrite bind_ok. rewrite IH.
    - unfold put_all. cbn [foldl fst snd]. f_equal. f_equal. apply list_eq. intros k. destruct (decide (k = d)) as [-> |].
      + rewrite list_lookup_insert by (by apply lookup_lt_Some in Hcol). by rewrite list_lookup_alter, Hcol.
      + by rewrite list_lookup_insert_ne, list_lookup_alter_ne by done.
    - intros n sd Hn Hsd. apply HV; [done|by right].
    - intros sd Hsd. rewrite insert_length. apply Hd. by right.
    - apply Forall_insert; [done|]. rewrite app_length, map_length, drop_length. lia.
  Qed.
  Lemma put_all_out old sds sol d : d ∉ sds.*2 -> put_all old sds sol !! d = sol !! d.
  Proof.
    unfold put_all. revert sol. induction sds as [|[s d'] sds IH]; intros sol Hd; [done|]. cbn [foldl fst snd fmap list_fmap] in *.
    apply not_elem_of_cons in Hd as [H1 H2]. rewrite IH by done. by rewrite list_lookup_alter_ne.
  Qed.
  Lemma put_all_in old sds sol s d : NoDup sds.*2 -> (s, d) ∈ sds -> put_all old sds sol !! d = put_col old s <$> sol !! d.
  Proof.
    unfold put_all. revert sol. induction sds as [|[s' d'] sds IH]; intros sol Hnd Hin; [by apply elem_of_nil in Hin|].
    cbn [foldl fst snd fmap list_fmap] in *. apply NoDup_cons in Hnd as [Hn Hnd]. apply elem_of_cons in Hin as [[= -> ->]|Hin].
    - fold (put_all old sds (alter (put_col old s') d' sol)). rewrite put_all_out by done. by rewrite list_lookup_alter.
    - rewrite IH by done. f_equal. rewrite list_lookup_alter_ne; [done|]. intros ->. apply Hn. apply elem_of_list_fmap. by exists (s, d).
  Qed.
  Lemma put_all_length old sds sol : length (put_all old sds sol) = length sol.
  Proof. unfold put_all. revert sol. induction sds as [|sd sds IH]; intros sol; [done|]. cbn [foldl]. by rewrite IH, alter_length. Qed.
End loadres.
