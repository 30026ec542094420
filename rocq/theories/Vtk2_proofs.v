(** Proofs about VTK files: coordinates, fields, files. *)
From Coq Require Import String Ascii.
From Verif Require Import Base StdAlgo Ownership_model Ownership_proofs Elem_model Serial_model Serial_proofs Mesh_model MeshSerial_model MeshSerial_proofs
  Base64_model Base64_spec Base64_proofs Store_model Store_spec Store_proofs LocalView_spec LocalView_proofs Vtk_model Vtk_spec Vtk_proofs.
Local Open Scope nat_scope.
Local Open Scope list_scope.

(** ** Stores in any order *)
Lemma for_each_ext {A S} (f f' : A -> S -> res S) l s : (forall x s, x ∈ l -> f x s = f' x s) -> for_each f l s = for_each f' l s.
Proof.
  revert s. induction l as [|x l IH]; intros s H; [done|]. cbn [for_each]. rewrite H by left. destruct (f' x s) as [s'| |]; [|done..]. rewrite !bind_ok. apply IH. intros y t Hy. apply H. by right.
Qed.
Lemma for_each_concat {A B S} (f : B -> S -> res S) (h : A -> list B) l s :
  for_each (fun x => for_each f (h x)) l s = for_each f (concat (map h l)) s.
Proof.
  revert s. induction l as [|x l IH]; intros s; [done|]. cbn [map concat for_each]. rewrite for_each_app. destruct (for_each f (h x) s) as [s'| |]; [|done..]. rewrite !bind_ok. apply IH.
Qed.
Lemma stores_ok {A} (g : nat -> A) st c : (forall iv, iv ∈ st -> iv.1 < length c /\ iv.2 = g iv.1) ->
  exists c', for_each (fun iv c => wr c iv.1 iv.2) st c = Ok c' /\ length c' = length c /\ forall i, i ∈ st.*1 \/ c !! i = Some (g i) -> i < length c -> c' !! i = Some (g i).
Proof.
  revert c. induction st as [|[i v] st IH]; intros c H.
  - exists c. split; [done|]. split; [done|]. intros i [Hi|Hi]; [by apply elem_of_nil in Hi|done].
  - destruct (H (i, v)) as [Hi Hv]; [left|]. cbn [fst snd] in Hi, Hv. subst v. destruct (IH (<[i := g i]> c)) as (c' & E & Hl & Hc').
    { intros iv Hiv. rewrite insert_length. apply H. by right. }
    rewrite insert_length in Hl, Hc'. exists c'. split. { cbn [for_each fst snd]. rewrite wr_ok by done. rewrite bind_ok. exact E. }
    split; [done|]. intros k Hk Hlt. destruct (decide (k = i)) as [-> |Hne].
    + apply Hc'; [|done]. right. by apply list_lookup_insert.
    + apply Hc'; [|done]. destruct Hk as [Hk|Hk]; [|right; by rewrite list_lookup_insert_ne]. rewrite fmap_cons in Hk. apply elem_of_cons in Hk as [Hk|Hk]; [done|]. by left.
Qed.
Lemma stores_all {A} (g : nat -> A) st (junk : nat -> A) n : (forall iv, iv ∈ st -> iv.1 < n /\ iv.2 = g iv.1) -> (forall i, i < n -> i ∈ st.*1) ->
  for_each (fun iv c => wr c iv.1 iv.2) st (map junk (seq 0 n)) = Ok (map g (seq 0 n)).
Proof.
  intros H Hall. destruct (stores_ok g st (map junk (seq 0 n))) as (c' & E & Hl & Hc'). { intros iv Hiv. rewrite map_length, seq_length. by apply H. }
  rewrite map_length, seq_length in Hl, Hc'. rewrite E. f_equal. apply list_eq. intros i. destruct (decide (i < n)) as [Hi|Hi].
  - rewrite Hc' by (try left; auto). rewrite (list_lookup_fmap g), lookup_seq_lt by done. done.
  - rewrite !lookup_ge_None_2; [done|rewrite map_length, seq_length; lia|lia].
Qed.
Lemma nth_seq {A} (l : list A) d : map (fun j => nth j l d) (seq 0 (length l)) = l.
Proof. induction l as [|x l IH]; [done|]. cbn [length seq map nth]. f_equal. etransitivity; [|exact IH]. rewrite (map_seq_shift _ 1). done. Qed.
Lemma triples {A} (h : nat -> list A) d n : (forall k, k < n -> length (h k) = 3) ->
  map (fun i => nth (i mod 3) (h (i / 3)) d) (seq 0 (n * 3)) = concat (map h (seq 0 n)).
Proof.
  intros H. rewrite <- (grid_flat (fun r j => nth j (h r) d) 3 n). f_equal. apply map_ext_in. intros r Hr. apply in_seq in Hr. etransitivity; [|exact (nth_seq (h r) d)]. rewrite (H r) by lia. done.
Qed.
Lemma val8_concat ls : Forall val8 ls -> is_bytes (concat ls) /\ length (concat ls) = length ls * 8.
Proof.
  intros H. split.
  - apply bytes_concat. eapply Forall_impl; [exact H|]. by intros ? [].
  - apply concat_len. eapply Forall_impl; [exact H|]. by intros ? [].
Qed.
Lemma triple_index k j : j < 3 -> (k * 3 + j) / 3 = k /\ (k * 3 + j) mod 3 = j.
Proof. intros H. rewrite Nat.div_add_l by lia. rewrite (Nat.add_comm (k * 3)), Nat.mod_add by lia. rewrite Nat.div_small, Nat.mod_small by done. lia. Qed.

Section enc.
  Context (pa : nat -> path) (ord : nat -> list nat).
  Hypothesis Hord : forall k, ord k ≡ₚ seq 0 k.
  Lemma encode_vals vals : Forall val8 vals -> encode pa ord 8 (length vals + 1) (w8 (N.of_nat (length vals * 8)) ++ concat vals) = Ok (sec (concat vals)).
  Proof.
    intros H. destruct (val8_concat _ H) as [Hb Hl]. rewrite (encode_ok pa ord Hord).
    - unfold sec. by rewrite Hl.
    - apply bytes_app; [apply w8_bytes|done].
    - rewrite app_length, w8_length, Hl. lia.
  Qed.

  (** ** Coordinates *)
  Lemma coords_ok {V} sched junk own (els : list (element V)) locs at_node : (forall l, sched l ≡ₚ l) -> vtk_mesh own els -> all_covered own els -> locations els locs at_node ->
    makeCoordsSerialized pa ord sched junk (localSize own) own locs els = Ok (sec (concat (concat (map at_node (local_nodes own))))).
  Proof.
    intros Hsch (Hg & Hel & _) Hcov [Hloc Hat]. unfold makeCoordsSerialized.
    set (ids := local_nodes own). assert (Hids : length ids = localSize own) by (subst ids; unfold local_nodes; by rewrite app_length, seq_length).
    set (h := fun k => at_node (nth k ids 0)). set (g := fun i => nth (i mod 3) (h (i / 3)) []).
    assert (Hin : forall n, known own n -> ids !! getLocalIndex own n = Some n) by (intros n Hn; exact (known_local own n Hg Hn)).
    set (st1 := fun n => let k := getLocalIndex own n in let p := at_node n in [(k * 3, nth 0 p []); (k * 3 + 1, nth 1 p []); (k * 3 + 2, nth 2 p [])]).
    assert (E : map_res (coord_stores own locs) els = Ok (map (fun e => concat (map st1 (el_nodes e))) els)).
    { apply map_res_ok. intros e He. unfold coord_stores. rewrite (Hloc e He). rewrite map_length.
      rewrite (map_res_ok _ (fun ip : nat * list (list byte) => st1 (nth ip.1 (el_nodes e) 0))).
      - rewrite bind_ok. do 2 f_equal. etransitivity; [|apply (f_equal (map st1)), (nth_seq (el_nodes e) 0)]. rewrite map_map.
        assert (forall (B : Type) (f : nat -> B) (l : list (list (list byte))) a, map (fun ip : nat * list (list byte) => f ip.1) (zip (seq a (length l)) l) = map f (seq a (length l))) as Hz.
        { clear. intros B f l. induction l as [|x l IH]; intros a; [done|]. cbn [length seq zip zip_with map fst]. f_equal. apply IH. }
        specialize (Hz _ (fun i => st1 (nth i (el_nodes e) 0)) (map at_node (el_nodes e)) 0). rewrite map_length in Hz. exact Hz.
      - intros [i p] Hip. cbn [fst snd]. apply elem_of_list_lookup in Hip as [j Hj]. apply lookup_zip_with_Some in Hj as (i' & p' & Heq & Hi & Hp). injection Heq as <- <-.
        apply lookup_seq in Hi as [-> Hi]. cbn [Nat.add]. rewrite (list_lookup_fmap at_node) in Hp. destruct (el_nodes e !! j) as [n|] eqn:En; [|done]. injection Hp as <-.
        rewrite (rd_ok _ _ _ En), bind_ok. rewrite (nth_lookup_Some _ _ _ _ En). destruct (Hat n) as [Hl3 _]. subst st1. cbv beta zeta.
        destruct (at_node n) as [|x [|y [|z [|]]]]; try discriminate Hl3. done. }
    rewrite E, bind_ok.
    rewrite (stores_all g).
    - rewrite bind_ok. assert (Eg : map g (seq 0 (localSize own * 3)) = concat (map at_node ids)).
      { subst g. rewrite triples by (intros; apply Hat). f_equal. subst h. rewrite <- (map_map (fun k => nth k ids 0) at_node). rewrite <- Hids, nth_seq. done. }
      rewrite Eg. assert (Hv : Forall val8 (concat (map at_node ids))).
      { apply Forall_forall. intros v Hv. apply elem_of_concat in Hv as (l & Hv & Hl). apply (elem_of_list_fmap at_node) in Hl as (n & -> & _). destruct (Hat n) as [_ H]. rewrite Forall_forall in H. by apply H. }
      assert (El : length (concat (map at_node ids)) = localSize own * 3). { rewrite (concat_len _ 3), map_length; [by rewrite Hids|]. apply Forall_forall. intros l Hl. apply (elem_of_list_fmap at_node) in Hl as (n & -> & _). apply Hat. }
      rewrite <- El. by apply encode_vals.
    - intros iv Hiv. rewrite Hsch in Hiv. apply elem_of_concat in Hiv as (l & Hiv & Hl). apply (elem_of_list_fmap (fun e => _)) in Hl as (e & -> & He).
      apply elem_of_concat in Hiv as (l & Hiv & Hl). apply (elem_of_list_fmap st1) in Hl as (n & -> & Hn). rewrite Forall_forall in Hel. destruct (Hel e He) as [_ Hk]. rewrite Forall_forall in Hk.
      pose proof (Hin n (Hk n Hn)) as Hi. pose proof (lookup_lt_Some _ _ _ Hi) as Hlt. rewrite Hids in Hlt. subst st1. cbv beta zeta in Hiv.
      assert (exists j, j < 3 /\ iv = (getLocalIndex own n * 3 + j, nth j (at_node n) [])) as (j & Hj & ->).
      { rewrite !elem_of_cons, elem_of_nil in Hiv. destruct Hiv as [-> |[-> |[-> |[]]]]; [exists 0|exists 1|exists 2]; rewrite ?Nat.add_0_r; split; (lia || done). }
      cbn [fst snd]. split; [lia|]. subst g h. cbv beta. destruct (triple_index (getLocalIndex own n) j Hj) as [-> ->]. by rewrite (nth_lookup_Some _ _ _ _ Hi).
    - intros i Hi. destruct (lookup_lt_is_Some_2 ids (i / 3)) as [n Hn]. { rewrite Hids. apply Nat.div_lt_upper_bound; lia. }
      assert (known own n) as Hkn. { apply elem_of_list_lookup_2 in Hn. subst ids. unfold local_nodes in Hn. apply elem_of_app in Hn as [Hn|Hn]; [left|by right]. apply elem_of_seq in Hn. lia. }
      destruct (Hcov n Hkn) as (e & He & Hne). assert (getLocalIndex own n = i / 3) as Hli by (by apply local_index_fun).
      assert (exists v, (i, v) ∈ concat (map (fun e => concat (map st1 (el_nodes e))) els)) as [v Hv].
      { exists (nth (i mod 3) (at_node n) []). apply elem_of_concat. exists (concat (map st1 (el_nodes e))). split; [|apply (elem_of_list_fmap (fun e => _)); by exists e].
        apply elem_of_concat. exists (st1 n). split; [|apply (elem_of_list_fmap st1); by exists n]. subst st1. cbv beta zeta. rewrite Hli.
        pose proof (Nat.div_mod i 3 ltac:(lia)) as Hdm. pose proof (Nat.mod_upper_bound i 3 ltac:(lia)) as Hm. assert (i mod 3 = 0 \/ i mod 3 = 1 \/ i mod 3 = 2) as [Em|[Em|Em]] by lia; rewrite Em; rewrite !elem_of_cons; [left|right; left|right; right; left]; f_equal; lia. }
      apply elem_of_list_fmap. exists (i, v). split; [done|]. by rewrite Hsch.
  Qed.

  (** ** Fields *)
  Lemma scalar_ok vals : Forall val8 vals -> encodeScalar pa ord vals = Ok (sec (concat vals)).
  Proof.
    intros H. destruct (val8_concat _ H) as [Hb Hl]. unfold encodeScalar. cbv zeta.
    set (hdr := w8 (N.of_nat (length vals * 8))).
    assert (Ep : take (length vals + 1) (take 3 ([hdr] ++ take 2 vals ++ replicate 2 (replicate 8 0%N))) = hdr :: take 2 vals).
    { destruct vals as [|a [|b vals]]; [done|done|]. cbn [take app length replicate]. replace (S (S (length vals)) + 1) with (S (S (S (length vals)))) by lia. cbn [take app]. by destruct (length vals). }
    rewrite Ep. set (d1 := concat (hdr :: take 2 vals)). set (d2 := concat (drop 2 vals)).
    assert (Ed : d1 ++ d2 = hdr ++ concat vals). { subst d1 d2. cbn [concat]. rewrite <- app_assoc, <- concat_app, take_drop. done. }
    assert (Hd1 : is_bytes d1). { subst d1. cbn [concat]. apply bytes_app; [apply w8_bytes|]. apply val8_concat. by apply Forall_take. }
    assert (Hd2 : is_bytes d2) by (apply val8_concat; by apply Forall_drop).
    assert (Es : rfc4648_encode (d1 ++ d2) = rfc4648_encode d1 ++ rfc4648_encode d2).
    { destruct vals as [|a [|b vals]]; [by rewrite app_nil_r; subst d2; cbn [drop concat]; rewrite rfc_nil, app_nil_r..|]. apply rfc_app.
      subst d1. cbn [take concat]. rewrite !app_length. rewrite !Forall_cons in H. destruct H as ([-> _] & [-> _] & _). done. }
    assert (Esec : sec (concat vals) = rfc4648_encode d1 ++ rfc4648_encode d2). { unfold sec. rewrite <- Es, Ed, Hl. done. }
    assert (Hroom : getBase64EncodingSize 8 (length vals + 1) = length (rfc4648_encode d1) + length (rfc4648_encode d2)).
    { rewrite <- app_length, <- Es, rfc_length, size_scale, Ed, app_length, Hl. subst hdr. rewrite w8_length. f_equal. lia. }
    rewrite Hroom, replicate_add.
    pose proof (encode_in_place (pa 0) ord d1 [] (replicate (length (rfc4648_encode d1)) 0%N) (replicate (length (rfc4648_encode d2)) 0%N) Hd1 Hord ltac:(by rewrite replicate_length)) as E1.
    cbn [app length] in E1. rewrite E1, bind_ok. cbn [fst snd].
    pose proof (encode_in_place (pa 1) ord d2 (rfc4648_encode d1) (replicate (length (rfc4648_encode d2)) 0%N) [] Hd2 Hord ltac:(by rewrite replicate_length)) as E2.
    rewrite !app_nil_r in E2. rewrite E2, bind_ok. cbn [snd]. by rewrite Esec.
  Qed.
  Definition at_k (fields : list (list (list byte))) (k : nat) : list (list byte) :=
    map (fun f => nth k f []) fields ++ (if length fields =? 2 then [replicate 8 0%N] else []).
  Lemma vector_ok pfor junk fields n : (forall n, pfor n ≡ₚ seq 0 n) -> 2 <= length fields <= 3 -> Forall (fun f => length f = n /\ Forall val8 f) fields ->
    encodeVector pa ord pfor junk fields = Ok (sec (concat (concat (map (at_k fields) (seq 0 n))))).
  Proof.
    intros Hpf Hlf Hf. unfold encodeVector. destruct (Nat.ltb_spec 3 (length fields)); [lia|].
    destruct (lookup_lt_is_Some_2 fields 0) as [front Hfr]; [lia|]. rewrite (rd_ok _ _ _ Hfr), bind_ok. cbv zeta.
    assert (Hfn : length front = n). { rewrite Forall_forall in Hf. by apply Hf, (elem_of_list_lookup_2 _ 0). } rewrite Hfn.
    assert (Hk3 : forall k, length (at_k fields k) = 3). { intros k. unfold at_k. rewrite app_length, map_length. destruct (Nat.eqb_spec (length fields) 2); cbn [length]; lia. }
    assert (Hkv : forall k, k < n -> Forall val8 (at_k fields k)).
    { intros k Hk. unfold at_k. apply Forall_app. split.
      - apply Forall_forall. intros v Hv. apply (elem_of_list_fmap (fun f => _)) in Hv as (f & -> & Hfi). rewrite Forall_forall in Hf. destruct (Hf f Hfi) as [Hl Hv]. rewrite Forall_forall in Hv. apply Hv. apply elem_of_list_In, nth_In. lia.
      - destruct (length fields =? 2); [|constructor]. constructor; [|constructor]. split; [done|]. repeat constructor. }
    set (st1 := fun node => [(node * 3 + 0, nth 0 (at_k fields node) []); (node * 3 + 1, nth 1 (at_k fields node) []); (node * 3 + 2, nth 2 (at_k fields node) [])]).
    rewrite (for_each_ext _ (fun node => for_each (fun (iv : nat * list byte) c => wr c iv.1 iv.2) (st1 node))).
    - rewrite for_each_concat. set (g := fun i => nth (i mod 3) (at_k fields (i / 3)) []). replace (3 * n) with (n * 3) by lia. rewrite (stores_all g).
      + rewrite bind_ok. subst g. rewrite triples by (intros; apply Hk3).
        assert (Hv : Forall val8 (concat (map (at_k fields) (seq 0 n)))).
        { apply Forall_forall. intros v Hv. apply elem_of_concat in Hv as (l & Hv & Hl). apply (elem_of_list_fmap (at_k fields)) in Hl as (k & -> & Hk). apply elem_of_seq in Hk. assert (k < n) as Hk' by lia. specialize (Hkv k Hk'). rewrite Forall_forall in Hkv. by apply Hkv. }
        assert (El : length (concat (map (at_k fields) (seq 0 n))) = n * 3). { rewrite (concat_len _ 3), map_length, seq_length; [done|]. apply Forall_forall. intros l Hl. apply (elem_of_list_fmap (at_k fields)) in Hl as (k & -> & _). apply Hk3. }
        rewrite <- El. by apply encode_vals.
      + intros iv Hiv. apply elem_of_concat in Hiv as (l & Hiv & Hl). apply (elem_of_list_fmap st1) in Hl as (k & -> & Hk). rewrite Hpf in Hk. apply elem_of_seq in Hk. subst st1. cbv beta in Hiv.
        assert (exists j, j < 3 /\ iv = (k * 3 + j, nth j (at_k fields k) [])) as (j & Hj & ->).
        { rewrite !elem_of_cons, elem_of_nil in Hiv. destruct Hiv as [-> |[-> |[-> |[]]]]; [exists 0|exists 1|exists 2]; split; (lia || done). }
        cbn [fst snd]. split; [lia|]. subst g. cbv beta. by destruct (triple_index k j Hj) as [-> ->].
      + intros i Hi. apply elem_of_list_fmap. exists (i, nth (i mod 3) (at_k fields (i / 3)) []). split; [done|]. apply elem_of_concat. exists (st1 (i / 3)). split.
        * subst st1. cbv beta. pose proof (Nat.div_mod i 3 ltac:(lia)) as Hdm. pose proof (Nat.mod_upper_bound i 3 ltac:(lia)) as Hm.
          assert (i mod 3 = 0 \/ i mod 3 = 1 \/ i mod 3 = 2) as [Em|[Em|Em]] by lia; rewrite Em; rewrite !elem_of_cons; [left|right; left|right; right; left]; f_equal; lia.
        * apply (elem_of_list_fmap st1). exists (i / 3). split; [done|]. rewrite Hpf. apply elem_of_seq. split; [lia|]. apply Nat.div_lt_upper_bound; lia.
    - intros k buf Hk. rewrite Hpf in Hk. apply elem_of_seq in Hk. subst st1. cbv beta. unfold at_k.
      assert (Hrd : forall f, f ∈ fields -> rd f k = Ok (nth k f [])).
      { intros f Hfi. rewrite Forall_forall in Hf. destruct (Hf f Hfi) as [Hl _]. destruct (lookup_lt_is_Some_2 f k) as [v Hv]; [lia|]. rewrite (rd_ok _ _ _ Hv). by rewrite (nth_lookup_Some _ _ _ _ Hv). }
      destruct fields as [|a [|b [|c [|]]]]; cbn [length] in Hlf; try lia; cbn [length seq zip zip_with for_each Nat.eqb map app nth fst snd].
      + rewrite (Hrd a), (Hrd b) by (repeat (left || right)). rewrite !bind_ok.
        destruct (wr buf (k * 3 + 0) (nth k a [])) as [buf1| |]; [|done..]. rewrite !bind_ok. destruct (wr buf1 (k * 3 + 1) (nth k b [])) as [buf2| |]; [|done..]. rewrite !bind_ok.
        by destruct (wr buf2 (k * 3 + 2) _).
      + rewrite (Hrd a), (Hrd b), (Hrd c) by (repeat (left || right)). rewrite !bind_ok.
        destruct (wr buf (k * 3 + 0) (nth k a [])) as [buf1| |]; [|done..]. rewrite !bind_ok. destruct (wr buf1 (k * 3 + 1) (nth k b [])) as [buf2| |]; [|done..]. rewrite !bind_ok.
        by destruct (wr buf2 (k * 3 + 2) _).
  Qed.
  Lemma field_ok pfor junk sol inds n : (forall n, pfor n ≡ₚ seq 0 n) -> solution n sol -> proper_group sol inds ->
    encodeField pa ord pfor junk sol inds = Ok (sec (group_data sol n inds)).
  Proof.
    intros Hpf Hs [Hl Hi]. unfold encodeField.
    assert (negb (length inds =? 0) && (length inds <=? 3) = true) as ->. { destruct (Nat.eqb_spec (length inds) 0); [lia|]. destruct (Nat.leb_spec (length inds) 3); [done|lia]. }
    cbn [throwing_assert]. rewrite bind_ok. assert (Hnth : forall i, i < length sol -> nth i sol [] ∈ sol) by (intros i Hil; by apply elem_of_list_In, nth_In).
    rewrite (map_res_ok (rd sol) (fun i => nth i sol [])).
    2: { intros i Hii. rewrite Forall_forall in Hi. destruct (lookup_lt_is_Some_2 sol i (Hi i Hii)) as [f Hf]. rewrite (rd_ok _ _ _ Hf). by rewrite (nth_lookup_Some _ _ _ _ Hf). }
    rewrite bind_ok. assert (Hf : Forall (fun f => length f = n /\ Forall val8 f) (map (fun i => nth i sol []) inds)).
    { apply Forall_forall. intros f Hf. apply (elem_of_list_fmap (fun i => _)) in Hf as (i & -> & Hii). rewrite Forall_forall in Hi. unfold solution in Hs. rewrite Forall_forall in Hs. apply Hs, Hnth, Hi, Hii. }
    destruct inds as [|i [|j inds]]; cbn [length] in Hl; [lia| |].
    - cbn [map] in Hf |- *. apply Forall_inv in Hf as [Hfl Hfv]. rewrite scalar_ok by done. do 3 f_equal. unfold group_data, group_value. cbn [map length Nat.eqb app].
      rewrite <- (nth_seq (nth i sol []) []) at 1. rewrite Hfl. clear. induction (seq 0 n) as [|k l IH]; [done|]. cbn [map concat app]. by rewrite <- IH.
    - assert (E : forall k, at_k (map (fun i => nth i sol []) (i :: j :: inds)) k = group_value sol (i :: j :: inds) k).
      { intros k. unfold at_k, group_value. by rewrite map_map, map_length. }
      cbn [map] in E, Hf |- *. fold (map (fun i => nth i sol []) inds).
      rewrite (vector_ok pfor junk _ n Hpf); [|cbn [length]; rewrite map_length; lia|exact Hf]. unfold group_data. rewrite (map_ext _ _ E). reflexivity.
  Qed.
End enc.

(** ** Files *)
Lemma place_lookup pos ls w : w ∈ place pos ls <-> exists i x, ls !! i = Some x /\ w = (pos + length (concat (take i ls)), x).
Proof.
  revert pos. induction ls as [|y ls IH]; intros pos; cbn [place].
  - rewrite elem_of_nil. split; [done|]. intros (i & x & Hx & _). done.
  - rewrite elem_of_cons, IH. split.
    + intros [-> |(i & x & Hx & ->)]. { exists 0, y. split; [done|]. cbn [take concat length]. by rewrite Nat.add_0_r. }
      exists (S i), x. split; [done|]. cbn [take concat]. rewrite app_length. f_equal. lia.
    + intros ([|i] & x & Hx & ->). { injection Hx as ->. left. cbn [take concat length]. by rewrite Nat.add_0_r. }
      right. exists i, x. split; [done|]. cbn [take concat]. rewrite app_length. f_equal. lia.
Qed.
Lemma concat_take_le {A} (ls : list (list A)) i j x : i < j -> ls !! i = Some x -> length (concat (take i ls)) + length x <= length (concat (take j ls)).
Proof.
  intros Hij Hx. replace j with (S i + (j - S i)) by lia. rewrite <- take_take_drop, concat_app, app_length. rewrite (take_S_r _ _ _ Hx), concat_app, app_length. cbn [concat]. rewrite app_nil_r. lia.
Qed.
Lemma place_apart pos ls : apart (place pos ls).
Proof.
  intros w w' (i & x & Hx & ->)%place_lookup (j & y & Hy & ->)%place_lookup. cbn [fst snd]. destruct (lt_eq_lt_dec i j) as [[H|H]|H].
  - right. left. pose proof (concat_take_le ls i j x H Hx). lia.
  - subst j. left. rewrite Hx in Hy. injection Hy as ->. done.
  - right. right. pose proof (concat_take_le ls j i y H Hy). lia.
Qed.
Lemma concat_index {A} (ls : list (list A)) k b : concat ls !! k = Some b -> exists i x j, ls !! i = Some x /\ x !! j = Some b /\ k = length (concat (take i ls)) + j.
Proof.
  revert k. induction ls as [|y ls IH]; intros k; cbn [concat]; [done|]. intros [H|[Hl H]]%lookup_app_Some.
  - exists 0, y, k. done.
  - destruct (IH _ H) as (i & x & j & Hi & Hj & Hk). exists (S i), x, j. split; [done|]. split; [done|]. cbn [take concat]. rewrite app_length. lia.
Qed.
Lemma write_length w f : length (write_at w f) = Nat.max (length f) (w.1 + length w.2).
Proof. unfold write_at. rewrite !app_length, take_length, app_length, replicate_length, drop_length. lia. Qed.
Lemma write_all_length ws f m : (forall w, w ∈ ws -> w.1 + length w.2 <= m) -> length f <= length (write_all ws f) <= Nat.max (length f) m.
Proof.
  induction ws as [|w ws IH] using rev_ind; intros H; [cbn; lia|]. unfold write_all. rewrite foldl_app. cbn [foldl]. fold (write_all ws f). rewrite write_length.
  assert (w.1 + length w.2 <= m) by (apply H, elem_of_app; right; left). assert (length f <= length (write_all ws f) <= Nat.max (length f) m) by (apply IH; intros v Hv; apply H, elem_of_app; by left). lia.
Qed.
Lemma write_all_out ws f m k b : (forall w, w ∈ ws -> w.1 + length w.2 <= m) -> m <= k -> f !! k = Some b -> write_all ws f !! k = Some b.
Proof.
  induction ws as [|w ws IH] using rev_ind; intros H Hm Hb; [done|]. unfold write_all. rewrite foldl_app. cbn [foldl]. fold (write_all ws f). apply write_out.
  - right. assert (w.1 + length w.2 <= m) by (apply H, elem_of_app; right; left). lia.
  - apply IH; [|done|done]. intros v Hv. apply H, elem_of_app. by left.
Qed.
Lemma place_file order ls f : order ≡ₚ place 0 ls -> write_all order f = concat ls ++ drop (length (concat ls)) f.
Proof.
  intros Hp. set (m := length (concat ls)).
  assert (Hb : forall w, w ∈ order -> w.1 + length w.2 <= m).
  { intros w Hw. rewrite Hp in Hw. apply place_lookup in Hw as (i & x & Hx & ->). cbn [fst snd]. pose proof (concat_take_le ls i (length ls) x (lookup_lt_Some _ _ _ Hx) Hx) as H. rewrite firstn_all in H. subst m. lia. }
  assert (Ha : apart order) by (apply (apart_perm (place 0 ls)); [by symmetry|apply place_apart]).
  assert (Hin : forall k, k < m -> write_all order f !! k = concat ls !! k).
  { intros k Hk. destruct (lookup_lt_is_Some_2 (concat ls) k Hk) as [b E]. rewrite E. destruct (concat_index ls k b E) as (i & x & j & Hx & Hj & ->).
    apply (write_all_ok order f (length (concat (take i ls)), x) j b Ha); [|done]. rewrite Hp. apply place_lookup. by exists i, x. }
  pose proof (write_all_length order f m Hb) as HL.
  apply list_eq. intros k. destruct (decide (k < m)) as [Hk|Hk].
  - rewrite Hin by done. by rewrite lookup_app_l.
  - rewrite lookup_app_r by (subst m; lia). rewrite lookup_drop. replace (m + (k - length (concat ls))) with k by (subst m; lia).
    destruct (f !! k) as [b|] eqn:E. { apply (write_all_out order f m); [done|lia|done]. }
    apply lookup_ge_None in E. destruct (decide (length (write_all order f) <= k)) as [H|H]; [by apply lookup_ge_None|]. lia.
Qed.
Lemma arrays_ok body pre (l : list (array_name * nat * nat)) (x : list (array_name * nat * list byte)) post :
  l = map (fun z => (z.1.1, z.1.2, length (sec z.2))) x -> Forall (fun z => is_bytes z.2) x ->
  body = pre ++ concat (map (fun z => sec z.2) x) ++ post -> Forall2 (array_ok body) (append_arrays (length pre) l) x.
Proof.
  intros -> Hb. revert pre. induction Hb as [|z x Hz _ IH]; intros pre Hbody; cbn [map append_arrays]; [constructor|].
  constructor.
  - split; [done|]. split; [done|]. cbn [da_offset]. cbn [map concat] in Hbody. rewrite <- app_assoc in Hbody. subst body. by apply sec_at.
  - rewrite <- app_length. apply IH. rewrite Hbody. cbn [map concat]. by rewrite <- !app_assoc.
Qed.
Lemma zip_map_r {A B C} (f : B -> C) (l : list A) (l' : list B) : zip l (map f l') = map (fun z => (z.1, f z.2)) (zip l l').
Proof. revert l'. induction l as [|a l IH]; intros [|b l']; [done..|]. cbn [zip zip_with map fst snd]. f_equal. apply IH. Qed.
Lemma zip_self {A B C} (f : A -> B) (g : A -> C) (l : list A) : zip (map f l) (map g l) = map (fun a => (f a, g a)) l.
Proof. induction l as [|a l IH]; [done|]. cbn [zip zip_with map]. f_equal. apply IH. Qed.
Lemma zip_seq_map {A B} (f : A -> B) (l : list A) a : map (fun z : nat * A => f z.2) (zip (seq a (length l)) l) = map f l.
Proof. revert a. induction l as [|x l IH]; intros a; [done|]. cbn [length seq zip zip_with map snd]. f_equal. apply IH. Qed.

Section file.
  Context {V : Type} (own : ownership) (els : list (element V)) (at_node : nat -> list (list byte)) (sol : list (list (list byte))) (defs : list (list nat)).
  Context (pa : nat -> nat -> path) (ord pfor : nat -> list nat) (junk : nat -> list byte) (render : description -> list byte).
  Hypothesis Hm : vtk_mesh own els.
  Hypothesis Hat : forall n, length (at_node n) = 3 /\ Forall val8 (at_node n).
  Hypothesis Hsol : solution (localSize own) sol.
  Hypothesis Hdefs : Forall (proper_group sol) defs.
  Hypothesis Hord : forall k, ord k ≡ₚ seq 0 k.
  Hypothesis Hpfor : forall n, pfor n ≡ₚ seq 0 n.
  Lemma group_bytes inds : proper_group sol inds -> is_bytes (group_data sol (localSize own) inds).
  Proof.
    intros [_ Hi]. unfold group_data. apply bytes_concat. apply Forall_forall. intros v Hv. apply elem_of_concat in Hv as (l & Hv & Hl). apply (elem_of_list_fmap (group_value sol inds)) in Hl as (k & -> & Hk).
    apply elem_of_seq in Hk. unfold group_value in Hv. apply elem_of_app in Hv as [Hv|Hv].
    - apply (elem_of_list_fmap (fun i => _)) in Hv as (i & -> & Hii). rewrite Forall_forall in Hi. unfold solution in Hsol. rewrite Forall_forall in Hsol. destruct (Hsol (nth i sol [])) as [Hl Hv]; [apply elem_of_list_In, nth_In, Hi, Hii|].
      rewrite Forall_forall in Hv. apply Hv. apply elem_of_list_In, nth_In. lia.
    - destruct (length inds =? 2); [|by apply elem_of_nil in Hv]. apply elem_of_list_singleton in Hv as ->. repeat constructor.
  Qed.
  Lemma export_ok coords tp conn offs types : coords = sec (concat (concat (map at_node (local_nodes own)))) ->
    tp = {| st_cells := length types; st_topo_sz := length (sec (words32 conn)); st_offs_sz := length (sec (words32 offs)); st_type_sz := length (sec types);
            st_data := sec (words32 conn) ++ sec (words32 offs) ++ sec types |} -> is_bytes types ->
    exists d ws, exportSolution pa ord pfor junk render (localSize own) coords tp sol defs = Ok ws /\
      ds_points d = localSize own /\ ds_cells d = length types /\
      forall order old, order ≡ₚ ws -> exists body, write_all order old = render d ++ body ++ vtu_postamble ++ drop (length (render d ++ body ++ vtu_postamble)) old /\
        Forall2 (array_ok body) (ds_arrays d) (file_arrays own at_node conn offs types sol defs).
  Proof.
    intros Ec Et Hty. unfold exportSolution.
    assert (forallb (forallb (fun i => i <? length sol)) defs = true) as ->.
    { apply forallb_forall. intros inds Hi. apply elem_of_list_In in Hi. rewrite Forall_forall in Hdefs. destruct (Hdefs inds Hi) as [_ H]. apply forallb_forall. intros i Hii. apply elem_of_list_In in Hii. rewrite Forall_forall in H. apply Nat.ltb_lt. auto. }
    cbn [throwing_assert]. rewrite bind_ok. rewrite (map_res_ok _ (fun z : nat * list nat => sec (group_data sol (localSize own) z.2))).
    2: { intros [i inds] Hz. cbn [fst snd]. apply (field_ok (pa i) ord Hord pfor junk sol inds (localSize own) Hpfor Hsol). rewrite Forall_forall in Hdefs. apply Hdefs. apply elem_of_list_lookup in Hz as [j Hj]. apply lookup_zip_with_Some in Hj as (? & ? & Heq & _ & Hj). injection Heq as <- <-. by eapply elem_of_list_lookup_2. }
    rewrite bind_ok. rewrite (zip_seq_map (fun inds => sec (group_data sol (localSize own) inds))). cbv zeta.
    set (enc := map (fun inds => sec (group_data sol (localSize own) inds)) defs).
    set (d := makeDataDescription (localSize own) coords tp (map n_comps defs) enc).
    exists d. eexists. split; [reflexivity|]. split; [done|]. split; [by subst d tp|]. intros order old Hp.
    set (body := coords ++ st_data tp ++ concat enc). exists body. split.
    - rewrite (place_file _ _ _ Hp). rewrite concat_app. cbn [concat app]. rewrite concat_app. cbn [concat]. rewrite !app_nil_r. subst body. rewrite <- !app_assoc. done.
    - subst d. unfold makeDataDescription. cbn [ds_arrays]. apply (arrays_ok body [] _ (file_arrays own at_node conn offs types sol defs) []).
      + unfold file_arrays. rewrite map_app. subst tp coords. cbn [map st_topo_sz st_offs_sz st_type_sz fst snd]. f_equal. rewrite map_length. subst enc. rewrite zip_self, zip_map_r, !map_map. apply map_ext. intros [i inds]. done.
      + unfold file_arrays. apply Forall_app. split.
        * assert (forall l, is_bytes (words32 l)) as Hw by (intros l; apply bytes_concat, words32_bytes). repeat apply Forall_cons_2; try apply Forall_nil_2; cbn [snd]; [|apply Hw|apply Hw|exact Hty]. apply bytes_concat. apply Forall_forall. intros v Hv. apply elem_of_concat in Hv as (l & Hv & Hl). apply (elem_of_list_fmap at_node) in Hl as (n & -> & _). destruct (Hat n) as [_ H3]. rewrite Forall_forall in H3. by apply H3.
        * apply Forall_forall. intros z Hz. apply (elem_of_list_fmap (fun z => (_, _, _))) in Hz as ([i inds] & -> & Hz). cbn [snd]. apply group_bytes. rewrite Forall_forall in Hdefs. apply Hdefs. apply elem_of_list_lookup in Hz as [j Hj]. apply lookup_zip_with_Some in Hj as (? & ? & Heq & _ & Hj). injection Heq as <- <-. by eapply elem_of_list_lookup_2.
      + rewrite app_nil_r. cbn [app]. unfold file_arrays. rewrite map_app, concat_app. subst body coords tp enc. cbn [map concat st_data snd]. rewrite app_nil_r, <- !app_assoc. do 4 f_equal. rewrite map_map. cbn [snd]. by rewrite (zip_seq_map (fun inds => sec (group_data sol (localSize own) inds))).
  Qed.
End file.
