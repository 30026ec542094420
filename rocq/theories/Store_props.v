(** Properties C65 and C66: saved results and saved meshes. *)
From Verif Require Import Base StdAlgo Ownership_model Ownership_spec Elem_model Serial_model Mesh_model Mesh_spec Partition_spec
  MeshSerial_model MeshSerial_spec MeshSerial_props Store_model Store_spec Store_proofs Store2_proofs.

(** C65.  save succeeds, and whatever the file held before and in whatever order the
    ranks' writes reach it, opening it gives the numbers of fields and nodes, and reading
    field number [i] of the file at node [g] gives the value of the field saved as number
    [i] on the rank that owns [g]. *)
Theorem saved_results_read_back (comment : list byte) (counts inds : list nat) (nf : nat) (fields : list (list (list (list byte)))) :
  counts <> [] -> inds <> [] -> Forall (fun i => i < nf) inds -> proper_fields counts nf fields ->
  fits64 (length inds) -> fits64 (total counts) ->
  exists ws, save_results comment counts inds fields = Ok ws /\
    forall order old_file, order ≡ₚ ws ->
    exists l, LoadedResults (write_all order old_file) = Ok l /\ lr_fields l = length inds /\ lr_nodes l = total counts /\
      forall i ind g v, inds !! i = Some ind -> field_value counts fields ind g v -> result_at l g i = Ok v.
Proof.
  intros H1 H2 H3 H4 H5 H6. destruct (save_ok comment counts inds nf fields H1 H2 H3 H4) as (ws & Hws & _). exists ws. split; [done|].
  intros order f0 Ho. by apply (save_load comment counts inds nf fields H1 H2 H3 H4 ws order f0).
Qed.
Print Assumptions saved_results_read_back.
(** C65.  loadResults: with values present for all nodes asked for, exactly the listed
    columns change, and in them exactly the entries of the mesh's nodes. *)
Theorem load_results_fills_columns (l : loaded) (old src dest : list nat) (sol : list (list (list byte))) :
  length src = length dest -> src <> [] -> NoDup dest -> Forall (fun s => s < lr_fields l) src -> Forall (fun d => d < length sol) dest ->
  0 < lr_nodes l -> Forall (fun n => n < lr_nodes l) old -> Forall (fun col : list (list byte) => length old <= length col) sol ->
  (forall n s, n ∈ old -> s ∈ src -> exists v, result_at l n s = Ok v) ->
  exists sol', loadResultsImpl (Some old) l src dest sol = Ok sol' /\ length sol' = length sol /\
    (forall j s d i n v, src !! j = Some s -> dest !! j = Some d -> old !! i = Some n -> result_at l n s = Ok v ->
       exists col, sol' !! d = Some col /\ col !! i = Some v) /\
    (forall d i, (d ∈ dest -> length old <= i) -> (sol' !! d ≫= fun col => col !! i) = (sol !! d ≫= fun col => col !! i)).
Proof.
  intros Hlen Hne Hnd Hsrc Hdest Hpos Hold Hcol HV.
  set (V := fun n s => match result_at l n s with Ok v => v | _ => [] end).
  exists (put_all V old (zip src dest) sol).
  assert (dest <> []) as Hne' by (destruct src, dest; done).
  assert ((zip src dest).*2 = dest) as Hz by (apply snd_zip; lia).
  split; [|split; [apply put_all_length|split]].
  - unfold loadResultsImpl. rewrite Hlen, Nat.eqb_refl. change (throwing_assert true) with (Ok tt). rewrite bind_ok.
    rewrite (proj2 (Nat.eqb_neq _ _)) by (by destruct dest). cbn [negb]. change (throwing_assert true) with (Ok tt). rewrite bind_ok.
    rewrite (proj2 (max_lt src _ Hne)) by done. change (throwing_assert true) with (Ok tt). rewrite bind_ok.
    rewrite (proj2 (max_lt dest _ Hne')) by done. change (throwing_assert true) with (Ok tt). rewrite bind_ok.
    assert ((foldr Nat.max 0 old <? lr_nodes l) = true) as ->.
    { destruct old as [|a old]; [by apply Nat.ltb_lt|]. by apply max_lt. }
    change (throwing_assert true) with (Ok tt). rewrite bind_ok. apply load_cols.
    + intros n [s d] Hn Hsd. cbn [fst]. destruct (HV n s Hn) as [v Hv].
      * apply elem_of_list_lookup in Hsd as (k & Hk). apply lookup_zip_with_Some in Hk as (? & ? & [= <- <-] & Hk & _). by apply elem_of_list_lookup_2 in Hk.
      * unfold V. by rewrite Hv.
    + intros [s d] Hsd. cbn [snd]. rewrite Forall_forall in Hdest. apply Hdest. rewrite <- Hz. apply elem_of_list_fmap. by exists (s, d).
    + done.
  - intros j s d i n v Hs Hd Hi Hv.
    assert ((s, d) ∈ zip src dest) as Hsd. { apply elem_of_list_lookup. exists j. apply lookup_zip_with_Some. by exists s, d. }
    rewrite (put_all_in V old (zip src dest) sol s d) by (by rewrite ?Hz). rewrite Forall_forall in Hdest.
    destruct (lookup_lt_is_Some_2 sol d) as [col Hc]; [by apply Hdest, elem_of_list_lookup_2 with j|]. rewrite Hc. eexists. split; [reflexivity|].
    unfold put_col. rewrite lookup_app_l by (rewrite map_length; by apply lookup_lt_Some in Hi). rewrite (list_lookup_fmap (fun n => V n s)). rewrite Hi. cbn. unfold V. by rewrite Hv.
  - intros d i Hdi. destruct (decide (d ∈ dest)) as [Hd|Hd].
    + specialize (Hdi Hd). pose proof Hd as Hd'. rewrite <- Hz in Hd'. apply elem_of_list_fmap in Hd' as ([s d'] & -> & Hsd). cbn [snd] in *.
      rewrite (put_all_in V old (zip src dest) sol s d') by (by rewrite ?Hz). destruct (sol !! d') as [col|] eqn:Hc; [|done]. cbn.
      rewrite Forall_forall in Hcol. pose proof (Hcol col (elem_of_list_lookup_2 _ _ _ Hc)) as Hl. unfold put_col.
      rewrite lookup_app_r by (rewrite map_length; lia). rewrite map_length, lookup_drop. f_equal. lia.
    + by rewrite put_all_out by (by rewrite Hz).
Qed.
Print Assumptions load_results_fills_columns.
(** C65.  A restart: results saved by any number of ranks and loaded for a mesh whose
    node number [i] has the saved number [old !! i].  Column [dest !! j] receives the
    values of field [inds !! (src !! j)] at the mesh's nodes. *)
Theorem results_survive_restart (comment : list byte) (counts inds : list nat) (nf : nat) (fields : list (list (list (list byte))))
    (old src dest : list nat) (sol : list (list (list byte))) (ws order : list (nat * list byte)) (old_file : list byte) :
  counts <> [] -> Forall (fun i => i < nf) inds -> proper_fields counts nf fields -> fits64 (length inds) -> fits64 (total counts) ->
  save_results comment counts inds fields = Ok ws -> order ≡ₚ ws ->
  length src = length dest -> src <> [] -> NoDup dest -> Forall (fun s => s < length inds) src -> Forall (fun d => d < length sol) dest ->
  0 < total counts -> Forall (fun n => n < total counts) old -> Forall (fun col : list (list byte) => length old <= length col) sol ->
  exists sol', (l ← LoadedResults (write_all order old_file); loadResultsImpl (Some old) l src dest sol) = Ok sol' /\
    forall j s d i n, src !! j = Some s -> dest !! j = Some d -> old !! i = Some n ->
      exists ind v col, inds !! s = Some ind /\ field_value counts fields ind n v /\ sol' !! d = Some col /\ col !! i = Some v.
Proof.
  intros Hc Hin Hf F1 F2 Hw Ho Hlen Hne Hnd Hsrc Hdest Hpos Hold Hcol.
  assert (inds <> []) as Hi. { intros ->. destruct src as [|s src]; [done|]. inversion Hsrc. cbn [length] in *. lia. }
  destruct (save_load comment counts inds nf fields Hc Hi Hin Hf ws order old_file Hw Ho F1 F2) as (l & Hl & L1 & L2 & L3).
  rewrite Hl, bind_ok.
  assert (forall n s, n < total counts -> s < length inds -> exists ind v, inds !! s = Some ind /\ field_value counts fields ind n v /\ result_at l n s = Ok v) as Hval.
  { intros n s Hn Hs. destruct (lookup_lt_is_Some_2 _ _ Hs) as [ind Hind].
    assert (exists r, owns counts r n) as [r Hr].
    { destruct (first_cut counts n Hn) as (r & c & Hrc & Hrn). exists r, c. rewrite <- Ownership_proofs.first_owned_sum in Hrn. done. }
    pose proof Hr as (c & Hrc & Hrn). destruct (Forall2_lookup_l _ _ _ _ _ Hf Hrc) as (fs & Hfs & Hnf & Hall).
    rewrite Forall_forall in Hin. pose proof (Hin ind (elem_of_list_lookup_2 _ _ _ Hind)) as Hlt. rewrite <- Hnf in Hlt.
    destruct (lookup_lt_is_Some_2 _ _ Hlt) as [f Hff]. rewrite Forall_forall in Hall. destruct (Hall f (elem_of_list_lookup_2 _ _ _ Hff)) as [Hle _].
    destruct (lookup_lt_is_Some_2 f (n - first_owned counts r)) as [v Hv]; [lia|].
    assert (field_value counts fields ind n v) as Hfv by (by exists r, fs, f). exists ind, v. split; [done|]. split; [done|]. by apply (L3 s ind). }
  rewrite Forall_forall in Hold. rewrite Forall_forall in Hsrc.
  destruct (load_results_fills_columns l old src dest sol) as (sol' & Hsol & _ & Hset & _); [done|done|done| |done|by rewrite L2| |done| |].
  - apply Forall_forall. intros s Hs. rewrite L1. by apply Hsrc.
  - apply Forall_forall. intros n Hn. rewrite L2. by apply Hold.
  - intros n s Hn Hs. destruct (Hval n s (Hold n Hn) (Hsrc s Hs)) as (ind & v & _ & _ & Hv). by exists v.
  - exists sol'. split; [done|]. intros j s d i n Hs Hd Hi'.
    destruct (Hval n s) as (ind & v & Hind & Hfv & Hv); [by apply Hold, elem_of_list_lookup_2 with i|by apply Hsrc, elem_of_list_lookup_2 with j|].
    destruct (Hset j s d i n v Hs Hd Hi' Hv) as (col & Hcol' & Hcv). by exists ind, v, col.
Qed.
Print Assumptions results_survive_restart.
(** C65.  For a mesh loaded with its saved parts the list of saved numbers follows the
    mesh's local numbering. *)
Theorem direct_load_node_numbers (orders : list nat) (sched : list (element point) -> list (element point)) (shuffle : list nat -> list nat) (x : mesh point) (g : nat) :
  (forall l, sched l ≡ₚ l) -> (forall l, shuffle l ≡ₚ l) -> sound_part orders sched shuffle x ->
  isOwned (m_own x) g = true \/ g ∈ so_shared (m_own x) -> old_nodes_direct x !! getLocalIndex (m_own x) g = Some g.
Proof. intros H1 H2 Hx Hg. by apply (direct_nodes orders sched shuffle). Qed.
Print Assumptions direct_load_node_numbers.
(** C65.  The size of the file is not checked: a results file without its last byte is
    opened, all checks of loadResults pass, and the last value is read past its end. *)
Definition ex_val (k : N) : list byte := [k; 1; 2; 3; 4; 5; 6; 7]%N.
Definition ex_fields : list (list (list (list byte))) :=
  [[[ex_val 10; ex_val 11; ex_val 12]; [ex_val 20; ex_val 21; ex_val 22]]; [[ex_val 32; ex_val 30]; [ex_val 42; ex_val 40]]].
Theorem results_truncated_refuted : exists ws l,
  proper_fields [2; 1] 2 ex_fields /\ save_results [72; 10; 73]%N [2; 1] [1; 0] ex_fields = Ok ws /\
  LoadedResults (removelast (write_all ws [])) = Ok l /\ lr_fields l = 2 /\ lr_nodes l = 3 /\
  loadResultsImpl (Some [2]) l [1] [0] [[ex_val 0]] = UB.
Proof.
  eexists _, _. split.
  - constructor; [|constructor; [|constructor]]; (split; [done|]); repeat constructor.
  - split; [vm_compute; reflexivity|]. split; [vm_compute; reflexivity|]. split; [done|]. split; [done|]. vm_compute. reflexivity.
Qed.
Print Assumptions results_truncated_refuted.
(** Three nodes on two ranks; the second rank also holds a shared node.  The comment has a
    line break, the file existed, the writes arrive in reverse. *)
Example saved_results_example : exists ws l,
  proper_fields [2; 1] 2 ex_fields /\ save_results [72; 10; 73]%N [2; 1] [1; 0] ex_fields = Ok ws /\ length ws = 5 /\
  LoadedResults (write_all (rev ws) (repeat 7%N 130)) = Ok l /\
  loadResultsImpl (Some [2; 0]) l [1; 0] [0; 2] [[ex_val 1; ex_val 2; ex_val 3]; [ex_val 0; ex_val 0]; [ex_val 4; ex_val 5]] =
    Ok [[ex_val 32; ex_val 10; ex_val 3]; [ex_val 0; ex_val 0]; [ex_val 42; ex_val 20]].
Proof.
  eexists _, _. split.
  - constructor; [|constructor; [|constructor]]; (split; [done|]); repeat constructor.
  - split; [vm_compute; reflexivity|]. split; [done|]. split; [vm_compute; reflexivity|]. vm_compute. reflexivity.
Qed.

(** C66.  A saved mesh loaded by the same number of ranks: every rank gets its part, with
    the same domains, elements, boundary views, owned and shared nodes. *)
Theorem saved_mesh_direct (orders : list nat) (sched : list (element point) -> list (element point)) (shuffle shuffle' : list nat -> list nat)
    (comment : list byte) (parts : list (mesh point)) (order : list (nat * list byte)) (old_file : list byte) (r : nat) (x : mesh point) :
  NoDup orders -> (forall l, sched l ≡ₚ l) -> (forall l, shuffle l ≡ₚ l) -> (forall l, shuffle' l ≡ₚ l) ->
  Forall (sound_part orders sched shuffle) parts -> fits64 (length parts) -> order ≡ₚ save_mesh comment parts -> parts !! r = Some x ->
  exists y, loadPartitionedMesh orders sched shuffle' (write_all order old_file) (length parts) r = Ok y /\ same_part x y.
Proof. intros. by apply (load_direct orders sched shuffle shuffle' H H0 H1 H2 comment). Qed.
Print Assumptions saved_mesh_direct.
(** C66.  Any other number of ranks is rejected. *)
Theorem saved_mesh_wrong_ranks (orders : list nat) (sched : list (element point) -> list (element point)) (shuffle shuffle' : list nat -> list nat)
    (comment : list byte) (parts : list (mesh point)) (order : list (nat * list byte)) (old_file : list byte) (n r : nat) :
  Forall (sound_part orders sched shuffle) parts -> fits64 (length parts) -> order ≡ₚ save_mesh comment parts -> n <> length parts ->
  loadPartitionedMesh orders sched shuffle' (write_all order old_file) n r = Throw.
Proof. intros. by apply (load_wrong orders sched shuffle shuffle' comment parts). Qed.
Print Assumptions saved_mesh_wrong_ranks.
(** C66.  A saved mesh loaded as a whole (to be distributed anew): the domains are those
    of the parts, each with exactly the elements the parts have in it, all nodes are
    owned, the boundaries are those of the parts, and their views are found. *)
Theorem saved_mesh_unified (orders : list nat) (sched : list (element point) -> list (element point)) (shuffle shuffle' : list nat -> list nat)
    (comment : list byte) (parts : list (mesh point)) (order : list (nat * list byte)) (old_file : list byte) (b n : nat) :
  NoDup orders -> (forall l, sched l ≡ₚ l) -> (forall l, shuffle l ≡ₚ l) -> (forall l, shuffle' l ≡ₚ l) ->
  Forall (sound_part orders sched shuffle) parts -> fits64 (length parts) -> order ≡ₚ save_mesh comment parts -> one_mesh parts b n ->
  exists x, loadUnifiedMesh orders sched shuffle' (write_all order old_file) = Ok x /\ valid_doms orders (m_domains x) /\
    (forall k, k ∈ (m_domains x).*1 <-> exists p, p ∈ parts /\ k ∈ (m_domains p).*1) /\
    (forall k, dom_elems (m_domains x) k ≡ₚ concat (map (fun p => dom_elems (m_domains p) k) parts)) /\
    so_shared (m_own x) = [] /\ numOwned (m_own x) = n /\ (forall i, isOwned (m_own x) i = true <-> b <= i < b + n) /\
    StronglySorted lt (m_bnds x).*1 /\ (forall k, k ∈ (m_bnds x).*1 <-> exists p, p ∈ parts /\ k ∈ (m_bnds p).*1) /\
    (forall k vs, (k, vs) ∈ m_bnds x -> exists bs, bs ≡ₚ dom_elems (m_domains x) k /\ Forall2 (fun b v => attached (m_domains x) b v.1 v.2) bs vs).
Proof.
  intros H1 H2 H3 H4 H5 H6 H7 H8.
  destruct (load_unified orders sched shuffle shuffle' H1 H2 H3 H4 comment parts order old_file H5 H6 H7 b n H8) as (x & Hx & Hv & A1 & A2 & A3 & A4 & A5 & A6 & A7 & A8).
  exists x. repeat (split; [done|]). intros k vs Hk. specialize (A8 k vs Hk). pose proof (Mesh_proofs.views_ok orders sched (m_domains x) [k] Hv H2) as Hok. cbv zeta in Hok.
  rewrite A8 in Hok. destruct Hok as [(views & bs & [= <-] & Hp & Hf & _)|[? _]]; [|done]. exists bs. split; [|done]. rewrite dom_visit; [done|apply Hv].
Qed.
Print Assumptions saved_mesh_unified.
(** C66.  A file that lacks bytes at its end is rejected: loading the whole mesh throws,
    and so does loading a part that is not completely there. *)
Theorem saved_mesh_truncated (orders : list nat) (sched : list (element point) -> list (element point)) (shuffle shuffle' : list nat -> list nat)
    (comment : list byte) (parts : list (mesh point)) (order : list (nat * list byte)) (old_file : list byte) (k : nat) :
  NoDup orders -> (forall l, sched l ≡ₚ l) -> (forall l, shuffle l ≡ₚ l) -> (forall l, shuffle' l ≡ₚ l) ->
  Forall (sound_part orders sched shuffle) parts -> fits64 (length parts) -> order ≡ₚ save_mesh comment parts ->
  let sizes := map (fun p => length (serializeMesh p)) parts in
  let header := length (mesh_header comment sizes) in
  (forall b n, one_mesh parts b n -> k < header + sum sizes -> loadUnifiedMesh orders sched shuffle' (take k (write_all order old_file)) = Throw) /\
  (forall r, r < length parts -> k < header + sum (take (S r) sizes) ->
     loadPartitionedMesh orders sched shuffle' (take k (write_all order old_file)) (length parts) r = Throw).
Proof.
  intros H1 H2 H3 H4 H5 H6 H7 sizes header. unfold header, sizes. rewrite <- (map_map serializeMesh length). split.
  - intros b n Ho Hk. by apply (cut_unified orders sched shuffle shuffle' H1 H2 H3 H4 comment parts order old_file H5 H6 H7 k b n).
  - intros r Hr Hk. destruct (lookup_lt_is_Some_2 _ _ Hr) as [x Hx]. by apply (cut_direct orders sched shuffle shuffle' H2 H3 comment parts order old_file H5 H6 H7 k r x).
Qed.
Print Assumptions saved_mesh_truncated.

(** Four quadrilaterals in a row, the lower side of each on the boundary, in two parts. *)
Definition ex_q (i : nat) : element point := ex_sq [i; S i; 5 + i; 6 + i] i.
Definition ex_b (i : nat) : element point := ex_ln [i; S i] (4 + i).
Definition ex_half (is : list nat) : dmap (domain point) :=
  [(1, mk_dom [[]; map ex_q is; []] (Some 2)); (2, mk_dom [[]; []; map ex_b is] (Some 1))].
Definition ex_get (r : res (mesh point)) : mesh point := match r with Ok x => x | _ => mk_mesh [] {| so_begin := 0; so_end := 0; so_shared := [] |} [] end.
Definition ex_part (is : list nat) (b n : nat) : mesh point := ex_get (make_mesh2 (fun l => l) (fun l => l) (ex_half is) b n [2]).
Lemma ex_half_valid is : valid_doms [1] (ex_half is).
Proof.
  split; [repeat constructor|]. constructor; [|constructor; [|constructor]]; cbn [snd]; split.
  - constructor; [constructor|]. constructor; [|constructor; [constructor|constructor]]. apply Forall_forall. intros e He.
    apply (elem_of_list_fmap ex_q) in He as (i & -> & _). repeat split.
  - intros v e Hv He. cbn [d_els d_dim] in *. rewrite !elem_of_cons, elem_of_nil in Hv. destruct Hv as [-> |[-> |[-> |[]]]]; try (by apply elem_of_nil in He).
    apply (elem_of_list_fmap ex_q) in He as (i & -> & _). done.
  - constructor; [constructor|]. constructor; [constructor|]. constructor; [|constructor]. apply Forall_forall. intros e He.
    apply (elem_of_list_fmap ex_b) in He as (i & -> & _). repeat split.
  - intros v e Hv He. cbn [d_els d_dim] in *. rewrite !elem_of_cons, elem_of_nil in Hv. destruct Hv as [-> |[-> |[-> |[]]]]; try (by apply elem_of_nil in He).
    apply (elem_of_list_fmap ex_b) in He as (i & -> & _). done.
Qed.
Lemma ex_sound is b n : (exists i l, is = i :: l) -> make_mesh2 (fun l => l) (fun l => l) (ex_half is) b n [2] = Ok (ex_part is b n) ->
  m_domains (ex_part is b n) = ex_half is -> mesh_fits (ex_part is b n) -> fits64 (length (serializeMesh (ex_part is b n))) ->
  sound_part [1] (fun l => l) (fun l => l) (ex_part is b n).
Proof.
  intros (i & l & ->) Hm Hd Hf Hl. exists (ex_half (i :: l)), b, n, [2]. split; [apply ex_half_valid|]. split; [done|]. split; [done|]. split; [|done].
  unfold no_stale_dim. rewrite Hd. constructor; [|constructor; [|constructor]]; cbn [fst snd]; intros H; exfalso.
  - apply (H (ex_q i)). eexists _, _. split; [left|]. split; [right; left|left].
  - apply (H (ex_b i)). eexists _, _. split; [left|]. split; [right; right; left|left].
Qed.
Lemma ex_parts_sound : Forall (sound_part [1] (fun l => l) (fun l => l)) [ex_part [0; 2] 0 5; ex_part [1; 3] 5 5].
Proof.
  constructor; [|constructor; [|constructor]]; (apply ex_sound; [by eexists _, _|vm_compute; reflexivity|vm_compute; reflexivity| |by vm_compute]);
    repeat split; repeat constructor.
Qed.
Lemma ex_parts_one : one_mesh [ex_part [0; 2] 0 5; ex_part [1; 3] 5 5] 0 10.
Proof.
  assert (forall p, p ∈ [ex_part [0; 2] 0 5; ex_part [1; 3] 5 5] -> exists is, m_domains p = ex_half is /\ (m_bnds p).*1 = [2] /\ (is = [0; 2] \/ is = [1; 3])) as Hp.
  { intros p H. rewrite !elem_of_cons, elem_of_nil in H. destruct H as [-> |[-> |[]]]; [exists [0; 2]|exists [1; 3]]; (split; [vm_compute; reflexivity|split; [vm_compute; reflexivity|auto]]). }
  assert (forall is k e, in_domain (ex_half is) k e -> (k = 1 /\ exists i, i ∈ is /\ e = ex_q i) \/ (k = 2 /\ exists i, i ∈ is /\ e = ex_b i)) as Hin.
  { intros is k e (d & v & Hd & Hv & He). unfold ex_half in Hd. rewrite !elem_of_cons, elem_of_nil in Hd. destruct Hd as [[= -> ->]|[[= -> ->]|[]]]; cbn [d_els] in Hv;
      rewrite !elem_of_cons, elem_of_nil in Hv; (destruct Hv as [-> |[-> |[-> |[]]]]; try (by apply elem_of_nil in He)); apply elem_of_list_fmap in He as (i & -> & Hi); [left|right]; eauto. }
  split; [|split].
  - intros p p' k e e' H H' He He'. destruct (Hp p H) as (is & E & _). destruct (Hp p' H') as (is' & E' & _). rewrite E in He. rewrite E' in He'.
    apply Hin in He. apply Hin in He'. destruct He as [[-> (i & _ & ->)]|[-> (i & _ & ->)]]; destruct He' as [[Hk (i' & _ & ->)]|[Hk (i' & _ & ->)]]; done.
  - intros i. split.
    + intros (p & H & e & (k & He) & Hi). destruct (Hp p H) as (is & E & _ & His). rewrite E in He. apply Hin in He.
      destruct He as [[_ (j & Hj & ->)]|[_ (j & Hj & ->)]]; (assert (j < 4) by (destruct His as [-> | ->]; rewrite !elem_of_cons, elem_of_nil in Hj; lia));
        cbn [el_nodes ex_q ex_b ex_sq ex_ln] in Hi; rewrite !elem_of_cons, elem_of_nil in Hi; lia.
    + intros Hi. assert (exists j, j < 4 /\ i ∈ el_nodes (ex_q j)) as (j & Hj & Hij).
      { assert (forallb (fun i => existsb (fun j => bool_decide (i ∈ el_nodes (ex_q j))) [0; 1; 2; 3]) (seq 0 10) = true) as Hb by (vm_compute; reflexivity).
        rewrite forallb_forall in Hb. specialize (Hb i ltac:(apply in_seq; lia)). apply existsb_exists in Hb as (j & Hj & Hij). apply bool_decide_eq_true in Hij.
        exists j. split; [|done]. apply elem_of_list_In in Hj. rewrite !elem_of_cons, elem_of_nil in Hj. lia. }
      assert (forall is, j ∈ is -> is_node (ex_half is) i) as Hn.
      { intros is Hjs. exists (ex_q j). split; [|done]. exists 1. eexists _, _. split; [left|]. split; [right; left|]. apply (elem_of_list_fmap ex_q). by exists j. }
      destruct (decide (j ∈ [0; 2])) as [H|H].
      * exists (ex_part [0; 2] 0 5). split; [left|]. replace (m_domains (ex_part [0; 2] 0 5)) with (ex_half [0; 2]) by (vm_compute; reflexivity). by apply Hn.
      * exists (ex_part [1; 3] 5 5). split; [right; left|]. replace (m_domains (ex_part [1; 3] 5 5)) with (ex_half [1; 3]) by (vm_compute; reflexivity). apply Hn.
        rewrite !elem_of_cons, elem_of_nil in *. lia.
  - intros p p' k H H'. destruct (Hp p H) as (_ & _ & -> & _). destruct (Hp p' H') as (_ & _ & -> & _). done.
Qed.
Example saved_mesh_example : let parts := [ex_part [0; 2] 0 5; ex_part [1; 3] 5 5] in
  Forall (sound_part [1] (fun l => l) (fun l => l)) parts /\ one_mesh parts 0 10 /\
  map length (map serializeMesh parts) = [502; 502] /\
  loadPartitionedMesh [1] (fun l => l) (@rev nat) (write_all (save_mesh [67]%N parts) [9]%N) 2 1 = Ok (ex_part [1; 3] 5 5) /\
  exists x, loadUnifiedMesh [1] (fun l => l) (@rev nat) (write_all (rev (save_mesh [67]%N parts)) []) = Ok x /\
    map el_id (dom_elems (m_domains x) 1) = [0; 2; 1; 3] /\ (m_bnds x).*1 = [2] /\ m_own x = {| so_begin := 0; so_end := 10; so_shared := [] |}.
Proof.
  split; [exact ex_parts_sound|]. split; [exact ex_parts_one|]. split; [vm_compute; reflexivity|]. split; [vm_compute; reflexivity|].
  eexists. split; [vm_compute; reflexivity|]. repeat split.
Qed.
(** C66.  The parts are appended one after another, so element ids that ascend in every
    part need not ascend in the whole mesh, and find(id) (C27) returns another element. *)
Theorem saved_mesh_unified_order_refuted : let parts := [ex_part [0; 2] 0 5; ex_part [1; 3] 5 5] in
  Forall (sound_part [1] (fun l => l) (fun l => l)) parts /\ one_mesh parts 0 10 /\ (forall p, p ∈ parts -> ascending (m_domains p)) /\
  exists x, loadUnifiedMesh [1] (fun l => l) (fun l => l) (write_all (save_mesh [] parts) []) = Ok x /\
    unique_ids (m_domains x) /\ is_elem (m_domains x) (ex_q 1) /\ find_id 1 (m_domains x) = Ok (Some (ex_q 2)).
Proof.
  split; [exact ex_parts_sound|]. split; [exact ex_parts_one|]. split.
  - intros p Hp. assert (exists i, m_domains p = ex_half [i; i + 2]) as [i ->].
    { rewrite !elem_of_cons, elem_of_nil in Hp. destruct Hp as [-> |[-> |[]]]; [exists 0|exists 1]; vm_compute; reflexivity. }
    intros k d v Hd Hv. unfold ex_half in Hd. rewrite !elem_of_cons, elem_of_nil in Hd. destruct Hd as [[= -> ->]|[[= -> ->]|[]]]; cbn [d_els] in Hv;
      rewrite !elem_of_cons, elem_of_nil in Hv; destruct Hv as [-> |[-> |[-> |[]]]]; cbn; repeat first [lia | constructor].
  - exists (ex_get (make_mesh1 (fun l => l) (ex_half [0; 2; 1; 3]) [2])). split; [vm_compute; reflexivity|].
    replace (m_domains (ex_get (make_mesh1 (fun l => l) (ex_half [0; 2; 1; 3]) [2]))) with (ex_half [0; 2; 1; 3]) by (vm_compute; reflexivity).
    split; [|split; [|vm_compute; reflexivity]].
    + assert (NoDup (map el_id (all_elems (ex_half [0; 2; 1; 3])))) as Hnd by (apply (bool_decide_unpack _); by vm_compute).
      intros e1 e2 H1 H2 Hid. apply (Mesh_proofs.all_elems_elem _ _ (strict_nodup _ (proj1 (ex_half_valid _)))) in H1. apply (Mesh_proofs.all_elems_elem _ _ (strict_nodup _ (proj1 (ex_half_valid _)))) in H2.
      apply elem_of_list_lookup in H1 as (i & H1). apply elem_of_list_lookup in H2 as (j & H2).
      assert (i = j) as ->. { apply (NoDup_lookup _ i j (el_id e1) Hnd); rewrite (list_lookup_fmap el_id); [by rewrite H1|rewrite H2; cbn; by rewrite Hid]. }
      congruence.
    + exists 1. eexists _, _. split; [left|]. split; [right; left|]. apply (elem_of_list_fmap ex_q). exists 1. split; [done|]. apply (bool_decide_unpack _). by vm_compute.
Qed.
Print Assumptions saved_mesh_unified_order_refuted.
