(** Proofs about VTK files. *)
From Coq Require Import String Ascii.
From Verif Require Import Base StdAlgo Ownership_model Ownership_proofs Elem_model Serial_model Serial_proofs Mesh_model MeshSerial_model MeshSerial_proofs
  Base64_model Base64_spec Base64_proofs Store_model Store_spec Store_proofs LocalView_spec LocalView_proofs Vtk_model Vtk_spec.
Local Open Scope nat_scope.
Local Open Scope list_scope.

(** ** Cells *)
Lemma map_seq_shift {A} (f : nat -> A) a n : map f (seq a n) = map (fun i => f (a + i)) (seq 0 n).
Proof.
  revert a f. induction n as [|n IH]; intros a f; [done|]. cbn [seq map]. rewrite Nat.add_0_r. f_equal.
  rewrite (IH (S a) f), (IH 1 (fun i => f (a + i))). apply map_ext. intros i. f_equal. lia.
Qed.
Lemma grid_flat {A} (g : nat -> nat -> A) n m :
  concat (map (fun r => map (g r) (seq 0 n)) (seq 0 m)) = map (fun c => g (c / n) (c mod n)) (seq 0 (m * n)).
Proof.
  destruct n as [|n]. { rewrite Nat.mul_0_r. cbn [seq map]. induction (seq 0 m) as [|? ? IH]; [done|]. cbn [map concat app]. done. }
  induction m as [|m IH]; [done|]. rewrite (seq_S m 0), map_app, concat_app, IH. cbn [map concat]. rewrite app_nil_r.
  replace (S m * S n) with (m * S n + S n) by lia. rewrite seq_app, map_app. f_equal.
  cbn [Nat.add]. rewrite (map_seq_shift (fun c => g (c / S n) (c mod S n))). apply map_ext_in. intros i Hi. apply in_seq in Hi.
  rewrite Nat.div_add_l by lia. rewrite (Nat.add_comm (m * S n) i), Nat.mod_add by lia. rewrite Nat.div_small, Nat.mod_small by lia. f_equal. lia.
Qed.
Lemma subtopo_grid t O : subtopo_inds t O (nodes_per_element t O) =
  map (fun c => map (fun q => grid_node O (shift (cell_at O c) q)) (vtk_corners t)) (seq 0 (cell_count t O)).
Proof.
  destruct t; unfold subtopo_inds, nodes_per_element, cell_count, native_dim, vtk_corners; cbv zeta; replace (O + 1 - 1) with O by lia.
  - assert (E : forall f : nat -> nat -> nat -> list nat, concat (map (fun l => concat (map (fun r => map (f l r) (seq 0 O)) (seq 0 O))) (seq 0 O)) =
        map (fun c => f (c / (O * O)) ((c / O) mod O) (c mod O)) (seq 0 (O ^ 3))).
    { intros f. etransitivity.
      { apply (f_equal (@concat _)). apply map_ext. intros l. exact (grid_flat (f l) O O). }
      rewrite (grid_flat (fun l c => f l (c / O) (c mod O)) (O * O) O). replace (O ^ 3) with (O * (O * O)) by (cbn [Nat.pow]; lia).
      apply map_ext_in. intros c Hc. apply in_seq in Hc. assert (O <> 0) by nia.
      rewrite Nat.mod_mul_r by done. f_equal.
      - rewrite (Nat.mul_comm O ((c / O) mod O)), Nat.div_add by done. rewrite Nat.div_small by (by apply Nat.mod_upper_bound). done.
      - rewrite (Nat.mul_comm O ((c / O) mod O)), Nat.mod_add by done. by apply Nat.mod_mod. }
    etransitivity; [exact (E (fun l r col => let base := l * ((O + 1) * (O + 1)) + r * (O + 1) + col in
      [base; base + 1; base + (O + 1) + 1; base + (O + 1); base + (O + 1) * (O + 1); base + 1 + (O + 1) * (O + 1); base + (O + 1) + 1 + (O + 1) * (O + 1); base + (O + 1) + (O + 1) * (O + 1)]))|].
    apply map_ext. intros c. unfold grid_node, shift, cell_at. cbn [map fst snd]. cbv zeta. repeat (f_equal; [lia|]). f_equal. lia.
  - etransitivity; [exact (grid_flat (fun r col => let base := r * (O + 1) + col in [base; base + 1; base + (O + 1) + 1; base + (O + 1)]) O O)|].
    replace (O ^ 2) with (O * O) by (cbn [Nat.pow]; lia). apply map_ext_in. intros c Hc. apply in_seq in Hc. assert (O <> 0) by nia.
    unfold grid_node, shift, cell_at. cbn [map fst snd]. rewrite (Nat.mod_small (c / O) O), (Nat.div_small c (O * O)) by (try apply Nat.div_lt_upper_bound; nia). cbv zeta.
    cbv zeta. repeat (f_equal; [lia|]). f_equal. lia.
  - replace (O ^ 1) with O by (cbn [Nat.pow]; lia). apply map_ext_in. intros c Hc. apply in_seq in Hc. assert (O <> 0) by nia.
    unfold grid_node, shift, cell_at. cbn [map fst snd]. rewrite (Nat.mod_small c O), (Nat.div_small c O), (Nat.div_small c (O * O)), Nat.mod_0_l by nia. cbv zeta. repeat (f_equal; [lia|]). f_equal. lia.
Qed.
Lemma cell_count_ok t O : numSubels t O = cell_count t O.
Proof. destruct t; cbn [numSubels cell_count native_dim]; unfold cell_count, native_dim; cbn [Nat.pow]; lia. Qed.
Lemma corners_ok t : numSubelNodes t = length (vtk_corners t).
Proof. by destruct t. Qed.
Lemma grid_bound t O c q : c < cell_count t O -> q ∈ vtk_corners t -> grid_node O (shift (cell_at O c) q) < nodes_per_element t O.
Proof.
  unfold cell_count. intros Hc Hq. assert (O <> 0) by (intros ->; destruct t; cbn in Hc; lia).
  assert (c mod O < O) as Hx by (by apply Nat.mod_upper_bound). assert ((c / O) mod O < O) as Hy by (by apply Nat.mod_upper_bound).
  unfold grid_node, shift, cell_at. cbn [fst snd].
  assert (q.1.1 <= 1 /\ q.1.2 <= (if decide (t = Line) then 0 else 1) /\ q.2 <= (if decide (t = Hex) then 1 else 0)) as (H1 & H2 & H3).
  { revert q Hq. apply Forall_forall. destruct t; repeat constructor. }
  destruct t; cbn [native_dim nodes_per_element Nat.pow] in *.
  - rewrite decide_False in H2 by done. rewrite decide_True in H3 by done. assert (c / (O * O) < O) as Hz by (apply Nat.div_lt_upper_bound; nia).
    generalize dependent (c / (O * O)). generalize dependent (c mod O). generalize dependent ((c / O) mod O). intros. nia.
  - rewrite decide_False in H2 by done. rewrite decide_False in H3 by done. rewrite (Nat.div_small c (O * O)) by nia.
    generalize dependent (c mod O). generalize dependent ((c / O) mod O). intros. nia.
  - rewrite decide_True in H2 by done. rewrite decide_False in H3 by done. rewrite (Nat.div_small c (O * O)), (Nat.div_small c O), Nat.mod_0_l by nia.
    generalize dependent (c mod O). intros. nia.
Qed.
Lemma map_concat {A B} (f : A -> B) ls : map f (concat ls) = concat (map (map f) ls).
Proof. induction ls as [|l ls IH]; [done|]. cbn [concat map]. by rewrite map_app, IH. Qed.
Lemma concat_len {A} (ls : list (list A)) k : Forall (fun l => length l = k) ls -> length (concat ls) = length ls * k.
Proof. induction 1 as [|l ls Hl _ IH]; [done|]. cbn [concat length]. rewrite app_length, Hl, IH. lia. Qed.
Lemma cells_length {V} (e : element V) : length (concat (map snd (element_cells e))) = numSerialTopoEntries (el_type e) (el_order e).
Proof.
  unfold numSerialTopoEntries. rewrite cell_count_ok, corners_ok. rewrite (concat_len _ (length (vtk_corners (el_type e)))).
  - unfold element_cells. by rewrite !map_length, seq_length.
  - apply Forall_forall. intros l Hl. unfold element_cells in Hl. rewrite map_map in Hl. apply (elem_of_list_fmap (fun _ => _)) in Hl as (c & -> & _). cbn [snd]. by rewrite map_length.
Qed.
Lemma subtopo_ok {V} (e : element V) : length (el_nodes e) = nodes_per_element (el_type e) (el_order e) ->
  serializeElementSubtopo e = Ok (concat (map snd (element_cells e))).
Proof.
  intros HL. unfold serializeElementSubtopo. rewrite HL, subtopo_grid.
  assert (map_res (rd (el_nodes e)) (concat (map (fun c => map (fun q => grid_node (el_order e) (shift (cell_at (el_order e) c) q)) (vtk_corners (el_type e)))
            (seq 0 (cell_count (el_type e) (el_order e))))) = Ok (concat (map snd (element_cells e)))) as E.
  { rewrite (map_res_ok (rd (el_nodes e)) (fun g => nth g (el_nodes e) 0)).
    - f_equal. rewrite map_concat. unfold element_cells. rewrite !map_map. f_equal. apply map_ext. intros c. cbn [snd]. rewrite map_map. done.
    - intros g Hg. apply elem_of_concat in Hg as (l & Hgl & Hl). apply (elem_of_list_fmap (fun c => _)) in Hl as (c & -> & Hc).
      apply (elem_of_list_fmap (fun c => _)) in Hgl as (q & -> & Hq). apply elem_of_seq in Hc. apply rd_ok.
      destruct (lookup_lt_is_Some_2 (el_nodes e) (grid_node (el_order e) (shift (cell_at (el_order e) c) q))) as [x Hx]. { rewrite HL. apply grid_bound; [lia|done]. }
      rewrite Hx. f_equal. symmetry. by apply nth_lookup_Some. }
  rewrite E. rewrite bind_ok. rewrite cells_length, Nat.eqb_refl. done.
Qed.

(** ** The topology *)
Fixpoint ends {A} (a : nat) (cs : list (list A)) : list nat :=
  match cs with [] => [] | c :: cs => (a + length c) :: ends (a + length c) cs end.
Lemma ends_app {A} a (cs cs' : list (list A)) : ends a (cs ++ cs') = ends a cs ++ ends (a + length (concat cs)) cs'.
Proof.
  revert a. induction cs as [|c cs IH]; intros a; cbn [app ends concat length].
  - f_equal. lia.
  - rewrite IH, app_length. do 3 f_equal. lia.
Qed.
Lemma ends_length {A} a (cs : list (list A)) : length (ends a cs) = length cs.
Proof. revert a. induction cs as [|c cs IH]; intros a; [done|]. cbn [ends length]. by rewrite IH. Qed.
Lemma ends_const {A} a k (cs : list (list A)) : Forall (fun c => length c = k) cs -> ends a cs = map (fun i => a + (i + 1) * k) (seq 0 (length cs)).
Proof.
  intros H. revert a. induction H as [|c cs Hc _ IH]; intros a; [done|]. cbn [ends length seq map]. rewrite Hc, IH. f_equal; [lia|].
  rewrite (map_seq_shift _ 1). apply map_ext. intros i. lia.
Qed.
Lemma ends_last {A} a (cs : list (list A)) x : x ∈ ends a cs -> x <= a + length (concat cs).
Proof.
  revert a. induction cs as [|c cs IH]; intros a; cbn [ends]; [by intros ?%elem_of_nil|]. intros [-> |H]%elem_of_cons; cbn [concat]; rewrite app_length; [lia|].
  apply IH in H. lia.
Qed.
Lemma read_cells_ok {A} (f : A -> N) pre cs ts : length ts = length cs ->
  read_cells (pre ++ map f (concat cs)) (N.of_nat (length pre)) (map N.of_nat (ends (length pre) cs)) ts = zip ts (map (map f) cs).
Proof.
  revert pre ts. induction cs as [|c cs IH]; intros pre [|t ts]; intros H; try discriminate H; [done|].
  cbn [ends map read_cells zip zip_with concat]. injection H as H. f_equal.
  - f_equal. rewrite Nat2N.id, drop_app. rewrite map_app. rewrite <- Nat2N.inj_sub, Nat2N.id. replace (length pre + length c - length pre) with (length (map f c)) by (rewrite map_length; lia). by rewrite take_app.
  - rewrite map_app, app_assoc. replace (length pre + length c) with (length (pre ++ map f c)) by (rewrite app_length, map_length; lia). by apply IH.
Qed.
Section topo.
  Context {V : Type} (own : ownership).
  Implicit Types e : element V.
  Notation cells els := (concat (map element_cells els)).
  Lemma cells_const e : Forall (fun c => length c = numSubelNodes (el_type e)) (map snd (element_cells e)).
  Proof.
    apply Forall_forall. intros l Hl. unfold element_cells in Hl. rewrite map_map in Hl. apply (elem_of_list_fmap (fun _ => _)) in Hl as (c & -> & _). cbn [snd]. by rewrite map_length, corners_ok.
  Qed.
  Lemma cells_number e : length (element_cells e) = numSubels (el_type e) (el_order e).
  Proof. unfold element_cells. by rewrite map_length, seq_length, cell_count_ok. Qed.
  Lemma cells_types e : map fst (element_cells e) = replicate (numSubels (el_type e) (el_order e)) (subelCellType (el_type e)).
  Proof.
    rewrite <- cells_number. unfold element_cells. rewrite map_length, map_map. cbn [fst]. rewrite seq_length.
    replace (vtk_type (el_type e)) with (subelCellType (el_type e)) by (by destruct (el_type e)).
    generalize 0. induction (cell_count (el_type e) (el_order e)) as [|n IH]; intros a; [done|]. cbn [seq map replicate]. by rewrite IH.
  Qed.
  Lemma process_ok els s a : Forall (fun e => length (el_nodes e) = nodes_per_element (el_type e) (el_order e)) els ->
    tp_off s = N.of_nat a -> (N.of_nat (a + length (concat (map snd (cells els)))) < 2 ^ 32)%N ->
    for_each (process_element own) els s = Ok
      {| tp_nodes := tp_nodes s ++ map (fun x => u32 (getLocalIndex own x)) (concat (map snd (cells els)));
         tp_offsets := tp_offsets s ++ map N.of_nat (ends a (map snd (cells els)));
         tp_types := tp_types s ++ map fst (cells els);
         tp_off := N.of_nat (a + length (concat (map snd (cells els)))) |}.
  Proof.
    intros H. revert s a. induction H as [|e els He _ IH]; intros s a Ho Hb.
    - cbn [for_each map concat ends length]. rewrite !app_nil_r, Nat.add_0_r, <- Ho. by destruct s.
    - cbn [for_each map concat] in Hb |- *. unfold process_element at 2. rewrite (subtopo_ok e He). rewrite !bind_ok. cbv zeta.
      rewrite map_app, concat_app, app_length in Hb.
      pose proof (cells_length e) as HL. unfold numSerialTopoEntries in HL.
      assert (Eo : ((tp_off s + N.of_nat (numSubels (el_type e) (el_order e)) * N.of_nat (numSubelNodes (el_type e))) mod two32)%N = N.of_nat (a + length (concat (map snd (element_cells e))))).
      { rewrite HL, Ho. rewrite N.mod_small; [lia|]. change two32 with (2 ^ 32)%N. lia. }
      rewrite (IH _ (a + length (concat (map snd (element_cells e))))); cbn [tp_nodes tp_offsets tp_types tp_off].
      + rewrite !map_app, !concat_app, !map_app, ends_app, map_app, !app_length, <- !app_assoc. rewrite cells_types. f_equal. f_equal; [|lia].
        do 2 f_equal. rewrite (ends_const _ _ _ (cells_const e)), map_map, map_length, cells_number. apply map_ext_in. intros i Hi. apply in_seq in Hi.
        rewrite Ho, N.mod_small; [lia|]. change two32 with (2 ^ 32)%N. assert ((i + 1) * numSubelNodes (el_type e) <= numSubels (el_type e) (el_order e) * numSubelNodes (el_type e)) by (apply Nat.mul_le_mono_r; lia). lia.
      + exact Eo.
      + lia.
  Qed.
  Lemma total_app l l' : total_of (l ++ l') = total_of l + total_of l'.
  Proof. induction l as [|x l IH]; [done|]. cbn [app total_of foldr] in *. unfold total_of in *. cbn [foldr]. lia. Qed.
  Lemma n_cells_ok (els : list (element V)) : n_cells els = length (cells els).
  Proof. induction els as [|e els IH]; [done|]. unfold n_cells in *. cbn [map concat]. rewrite app_length, <- IH, cells_number. done. Qed.
  Lemma topo_size_ok (els : list (element V)) : topo_size els = length (concat (map snd (cells els))).
  Proof. induction els as [|e els IH]; [done|]. unfold topo_size in *. cbn [map concat]. rewrite map_app, concat_app, app_length, <- IH, cells_length. done. Qed.
  Lemma cell_nodes (els : list (element V)) x : Forall (fun e => length (el_nodes e) = nodes_per_element (el_type e) (el_order e)) els ->
    x ∈ concat (map snd (cells els)) -> exists e, e ∈ els /\ x ∈ el_nodes e.
  Proof.
    intros H Hx. apply elem_of_concat in Hx as (l & Hx & Hl). apply (elem_of_list_fmap snd) in Hl as (c & -> & Hc). apply elem_of_concat in Hc as (cs & Hc & Hcs).
    apply (elem_of_list_fmap element_cells) in Hcs as (e & -> & He). exists e. split; [done|]. rewrite Forall_forall in H. specialize (H e He).
    unfold element_cells in Hc. apply (elem_of_list_fmap (fun c => (_, _))) in Hc as (i & -> & Hi). cbn [snd] in Hx. apply (elem_of_list_fmap (fun c => _)) in Hx as (q & -> & Hq).
    apply elem_of_seq in Hi. apply elem_of_list_In, nth_In. rewrite H. apply grid_bound; [lia|done].
  Qed.
End topo.

(** ** Encoding *)
Lemma w8_bytes n : is_bytes (w8 n).
Proof. apply le_bytes_ok. Qed.
Lemma bytes_app l l' : is_bytes l -> is_bytes l' -> is_bytes (l ++ l').
Proof. intros. by apply Forall_app. Qed.
Lemma bytes_concat ls : Forall is_bytes ls -> is_bytes (concat ls).
Proof. induction 1; [constructor|]. cbn [concat]. by apply bytes_app. Qed.
Definition sec (data : list byte) : list byte := rfc4648_encode (w8 (N.of_nat (length data)) ++ data).
Lemma sec_length data : length (sec data) = 4 * ((length data + 8 + 2) / 3).
Proof.
  unfold sec. rewrite rfc_length, app_length, w8_length. unfold getBase64EncodingSize. rewrite Nat.mul_1_r.
  set (n := 8 + length data). replace (length data + 8 + 2) with (n + 2) by lia. pose proof (Nat.div_mod n 3 ltac:(lia)). pose proof (Nat.mod_upper_bound n 3 ltac:(lia)).
  destruct (Nat.ltb_spec 0 (n mod 3)).
  - assert ((n + 2) / 3 = n / 3 + 1); [|lia]. symmetry. apply (Nat.div_unique _ _ _ (n mod 3 - 1)); lia.
  - assert ((n + 2) / 3 = n / 3); [|lia]. symmetry. apply (Nat.div_unique _ _ _ 2); lia.
Qed.
Lemma sec_at pre data post : is_bytes data -> section_at (pre ++ sec data ++ post) (length pre) data.
Proof.
  intros Hb. unfold section_at. rewrite drop_app, <- sec_length, take_app. apply decode_encode. apply bytes_app; [apply w8_bytes|done].
Qed.
Lemma sec_at_iff txt off data : is_bytes data -> take (length (sec data)) (drop off txt) = sec data -> section_at txt off data.
Proof. intros Hb E. unfold section_at. rewrite <- sec_length, E. apply decode_encode. apply bytes_app; [apply w8_bytes|done]. Qed.
Lemma sec_nonempty data : sec data <> [].
Proof. intros E. pose proof (sec_length data) as H. rewrite E in H. cbn [length] in H. assert (1 <= (length data + 8 + 2) / 3) by (apply Nat.div_le_lower_bound; lia). lia. Qed.
Section encode.
  Context (pa : nat -> path) (ord : nat -> list nat).
  Hypothesis Hord : forall k, ord k ≡ₚ seq 0 k.
  Lemma encode_ok sizeof size bs : is_bytes bs -> length bs = size * sizeof -> encode pa ord sizeof size bs = Ok (rfc4648_encode bs).
  Proof.
    intros Hb Hl. unfold encode. destruct (encode_props (pa 0) ord bs [] (replicate (getBase64EncodingSize sizeof size) 0%N) [] size sizeof Hb Hl Hord) as [E _]; [by rewrite replicate_length|].
    cbn [app length] in E. rewrite !app_nil_r in E. rewrite E. done.
  Qed.
  Lemma encode_b64_ok k sizeof vs old : Forall is_bytes vs -> Forall (fun v => length v = sizeof) vs ->
    encode_b64 pa ord k sizeof vs old = Ok (old ++ rfc4648_encode (concat vs), length (rfc4648_encode (concat vs))).
  Proof.
    intros Hb Hl. unfold encode_b64.
    destruct (encode_props (pa k) ord (concat vs) old (replicate (getBase64EncodingSize sizeof (length vs)) 0%N) [] (length vs) sizeof (bytes_concat _ Hb)) as [E El]; [by apply concat_len|done|by rewrite replicate_length|].
    cbv zeta. rewrite !app_nil_r in E. rewrite E, El. done.
  Qed.
  Lemma split4 n : concat (split8 4 (w8 n)) = w8 n /\ Forall (fun v => length v = 4) (split8 4 (w8 n)).
  Proof. split; [done|repeat constructor]. Qed.
  Lemma split1 n : concat (split8 1 (w8 n)) = w8 n /\ Forall (fun v => length v = 1) (split8 1 (w8 n)).
  Proof. split; [done|repeat constructor]. Qed.
  Lemma split_bytes k n : Forall is_bytes (split8 k (w8 n)).
  Proof. apply Forall_forall. intros v Hv. unfold split8 in Hv. apply (elem_of_list_fmap (fun i => _)) in Hv as (i & -> & _). apply Forall_take, Forall_drop, w8_bytes. Qed.
  Lemma words32_length l : length (words32 l) = length l * 4.
  Proof. unfold words32. rewrite (concat_len _ 4), map_length; [done|]. apply Forall_forall. intros v Hv. apply (elem_of_list_fmap (le_bytes 4)) in Hv as (x & -> & _). apply le_length. Qed.
  Lemma words32_bytes l : Forall is_bytes (map w4 l).
  Proof. apply Forall_forall. intros v Hv. apply (elem_of_list_fmap w4) in Hv as (x & -> & _). apply le_bytes_ok. Qed.
  Lemma topology_ok {V} own (els : list (element V)) : vtk_mesh own els ->
    let conn := map (fun x => N.of_nat (getLocalIndex own x)) (concat (map snd (concat (map element_cells els)))) in
    let offs := map N.of_nat (ends 0 (map snd (concat (map element_cells els)))) in
    let types := map fst (concat (map element_cells els)) in
    serializeTopology pa ord own els = Ok {| st_cells := length types; st_topo_sz := length (sec (words32 conn)); st_offs_sz := length (sec (words32 offs));
      st_type_sz := length (sec types); st_data := sec (words32 conn) ++ sec (words32 offs) ++ sec types |} /\
    is_bytes types /\
    read_cells conn 0 offs types = map (fun c => (c.1, map (fun x => N.of_nat (getLocalIndex own x)) c.2)) (concat (map element_cells els)).
  Proof.
    intros (Hg & Hel & Hs & Hc) conn offs types.
    assert (HelN : Forall (fun e => length (el_nodes e) = nodes_per_element (el_type e) (el_order e)) els) by (eapply Forall_impl; [exact Hel|]; by intros ? []).
    assert (Ec : map (fun x => u32 (getLocalIndex own x)) (concat (map snd (concat (map element_cells els)))) = conn).
    { apply map_ext_in. intros x Hx. apply elem_of_list_In, cell_nodes in Hx as (e & He & Hx); [|done]. rewrite Forall_forall in Hel. destruct (Hel e He) as [_ Hk]. rewrite Forall_forall in Hk.
      pose proof (known_local own x Hg (Hk x Hx)) as Hl. apply lookup_lt_Some in Hl. rewrite app_length, seq_length in Hl. unfold u32. apply N.mod_small. change two32 with (2 ^ 32)%N.
      unfold localSize, numOwned in Hs. lia. }
    assert (Hty : is_bytes types).
    { apply Forall_forall. intros b Hb. subst types. apply (elem_of_list_fmap fst) in Hb as (c & -> & Hcc). apply elem_of_concat in Hcc as (cs & Hcc & Hcs).
      apply (elem_of_list_fmap element_cells) in Hcs as (e & -> & _). unfold element_cells in Hcc. apply (elem_of_list_fmap (fun i => (_, _))) in Hcc as (i & -> & _). cbn [fst]. by destruct (el_type e). }
    split; [|split; [done|]].
    - unfold serializeTopology. rewrite (process_ok own els _ 0 HelN); [|done|done]. rewrite bind_ok. cbn [tp_nodes tp_offsets tp_types app]. cbv zeta. rewrite Ec. fold offs. fold types.
      rewrite n_cells_ok, topo_size_ok.
      set (L1 := length (concat (map snd (concat (map element_cells els))))). set (L2 := length (concat (map element_cells els))).
      assert (E1 : rfc4648_encode (concat (split8 4 (w8 (N.of_nat (L1 * 4))) ++ map w4 conn)) = sec (words32 conn)).
      { unfold sec. rewrite words32_length. subst conn L1. rewrite map_length, concat_app, (proj1 (split4 _)). done. }
      assert (E2 : rfc4648_encode (concat (split8 4 (w8 (N.of_nat (L2 * 4))) ++ map w4 offs)) = sec (words32 offs)).
      { unfold sec. rewrite words32_length. subst offs L2. rewrite map_length, ends_length, map_length, concat_app, (proj1 (split4 _)). done. }
      assert (E3 : rfc4648_encode (concat (split8 1 (w8 (N.of_nat L2)) ++ map (fun x => [x]) types)) = sec types).
      { unfold sec. rewrite concat_app, (proj1 (split1 _)). subst L2. replace (length types) with (length (concat (map element_cells els))) by (subst types; by rewrite map_length).
        do 2 f_equal. clear. induction types as [|x l IH]; [done|]. cbn [map concat app]. by rewrite IH. }
      rewrite encode_b64_ok; [|apply Forall_app; split; [apply split_bytes|apply words32_bytes]|apply Forall_app; split; [apply split4|]; apply Forall_forall; intros v Hv; apply (elem_of_list_fmap w4) in Hv as (x & -> & _); apply le_length].
      rewrite bind_ok. cbn [fst snd]. rewrite E1.
      rewrite encode_b64_ok; [|apply Forall_app; split; [apply split_bytes|apply words32_bytes]|apply Forall_app; split; [apply split4|]; apply Forall_forall; intros v Hv; apply (elem_of_list_fmap w4) in Hv as (x & -> & _); apply le_length].
      rewrite bind_ok. cbn [fst snd]. rewrite E2.
      rewrite encode_b64_ok; [|apply Forall_app; split; [apply split_bytes|]|apply Forall_app; split; [apply split1|]].
      2: { apply Forall_forall; intros v Hv; apply (elem_of_list_fmap (fun x => [x])) in Hv as (x & -> & Hx). constructor; [|constructor]. unfold is_bytes in Hty. rewrite Forall_forall in Hty. by apply Hty. }
      2: { apply Forall_forall; intros v Hv; apply (elem_of_list_fmap (fun x => [x])) in Hv as (x & -> & Hx). done. }
      rewrite bind_ok. cbn [fst snd]. rewrite E3. cbn [app]. rewrite <- app_assoc. do 2 f_equal. subst types L2. by rewrite map_length.
    - pose proof (read_cells_ok (fun x => N.of_nat (getLocalIndex own x)) [] (map snd (concat (map element_cells els))) types) as E. cbn [app length] in E.
      etransitivity; [apply E; subst types; by rewrite !map_length|]. subst types. clear. induction (concat (map element_cells els)) as [|c l IH]; [done|]. cbn [map zip zip_with]. f_equal. exact IH.
  Qed.
End encode.
