(** C71: VTK files. *)
From Coq Require Import String Ascii.
From Verif Require Import Base StdAlgo Ownership_model Ownership_proofs Elem_model Elem_spec Serial_model Serial_proofs Mesh_model MeshSerial_model MeshSerial_proofs
  Base64_model Base64_spec Base64_proofs Store_model Store_spec Store_proofs LocalView_spec LocalView_proofs Vtk_model Vtk_spec Vtk_proofs Vtk2_proofs.
Local Open Scope nat_scope.
Local Open Scope list_scope.

(** An element is written as the cells its nodes cut it into, corners in VTK's order. *)
Theorem vtk_subtopology : forall V (e : element V), length (el_nodes e) = nodes_per_element (el_type e) (el_order e) ->
  serializeElementSubtopo e = Ok (concat (map snd (element_cells e))) /\ length (element_cells e) = numSubels (el_type e) (el_order e) /\
  (forall c, c ∈ element_cells e -> length c.2 = numSubelNodes (el_type e) /\ c.1 = subelCellType (el_type e)).
Proof.
  intros V e H. split; [by apply subtopo_ok|]. split; [apply cells_number|]. intros c Hc. split.
  - pose proof (cells_const e) as F. rewrite Forall_forall in F. apply F. apply (elem_of_list_fmap snd). by exists c.
  - unfold element_cells in Hc. apply (elem_of_list_fmap (fun i => (_, _))) in Hc as (i & -> & _). by destruct (el_type e).
Qed.
Print Assumptions vtk_subtopology.
Lemma grid_coords O p : p.1.1 <= O -> p.1.2 <= O -> grid_x O (grid_node O p) = p.1.1 /\ grid_y O (grid_node O p) = p.1.2 /\ grid_z O (grid_node O p) = p.2.
Proof.
  intros Hx Hy. unfold grid_x, grid_y, grid_z, grid_node. destruct p as [[x y] z]. cbn [fst snd] in *.
  assert (E : (x + (O + 1) * (y + (O + 1) * z)) / (O + 1) = y + (O + 1) * z). { rewrite Nat.mul_comm, Nat.div_add, Nat.div_small by lia. lia. }
  split; [rewrite Nat.mul_comm, Nat.mod_add, Nat.mod_small by lia; done|]. split.
  - rewrite E. rewrite (Nat.mul_comm (O + 1) z), Nat.mod_add, Nat.mod_small by lia. done.
  - rewrite <- Nat.div_div, E by lia. rewrite (Nat.mul_comm (O + 1) z), Nat.div_add, Nat.div_small by lia. lia.
Qed.
(** The cells fill the element without overlap: cell numbers below O^dim correspond to the
    grid positions (x, y, z) with coordinates below O (zero in missing directions), and the
    node in the place of corner q is the one with the grid coordinates cell + q. *)
Theorem vtk_cells_tile : forall t O,
  (forall x y z, x < O -> y < (if native_dim t <=? 1 then 1 else O) -> z < (if native_dim t <=? 2 then 1 else O) ->
     exists c, c < cell_count t O /\ cell_at O c = (x, y, z) /\ forall c', c' < cell_count t O -> cell_at O c' = (x, y, z) -> c' = c) /\
  (forall c q, c < cell_count t O -> q ∈ vtk_corners t ->
     let g := grid_node O (shift (cell_at O c) q) in let p := shift (cell_at O c) q in
     g < nodes_per_element t O /\ (grid_x O g, grid_y O g, grid_z O g) = p).
Proof.
  intros t O. split.
  - intros x y z Hx Hy Hz. assert (Hy' : y < O) by (destruct (native_dim t <=? 1); lia). exists (x + O * (y + O * z)).
    assert (E : (x + O * (y + O * z)) / O = y + O * z). { rewrite Nat.mul_comm, Nat.div_add, Nat.div_small by lia. lia. }
    split; [|split].
    + destruct t; cbn [native_dim cell_count Nat.pow Nat.leb] in *; unfold cell_count, native_dim; cbn [Nat.pow]; [|replace z with 0 by lia; nia|replace z with 0 by lia; replace y with 0 by lia; nia].
      assert (y + O * z < O * O) by nia. nia.
    + unfold cell_at. rewrite E. f_equal; [f_equal|].
      * rewrite Nat.mul_comm, Nat.mod_add, Nat.mod_small by lia. done.
      * rewrite (Nat.mul_comm O z), Nat.mod_add, Nat.mod_small by lia. done.
      * rewrite <- Nat.div_div, E by lia. rewrite (Nat.mul_comm O z), Nat.div_add, Nat.div_small by lia. lia.
    + intros c' _ [= <- <- <-]. rewrite <- Nat.div_div by lia. rewrite <- (Nat.add_comm (O * _)). rewrite (Nat.add_comm (c' / O mod O)), <- Nat.div_mod by lia. apply Nat.div_mod. lia.
  - intros c q Hc Hq g p. split; [by apply grid_bound|]. assert (O <> 0) by (intros ->; destruct t; cbn in Hc; lia).
    assert (Forall (fun q => q.1.1 <= 1 /\ q.1.2 <= 1) (vtk_corners t)) as H1 by (destruct t; repeat constructor). rewrite Forall_forall in H1. destruct (H1 q Hq) as [H1a H1b].
    subst g. fold p. destruct (grid_coords O p) as (-> & -> & ->); [| |by destruct p as [[]]].
    + subst p. cbn [shift cell_at fst snd]. pose proof (Nat.mod_upper_bound c O ltac:(done)). lia.
    + subst p. cbn [shift cell_at fst snd]. pose proof (Nat.mod_upper_bound (c / O) O ltac:(done)). lia.
Qed.
Print Assumptions vtk_cells_tile.
(** A quadrilateral of order 2: four cells. *)
Definition quad2 : element unit := mk_el Quad 2 [20; 21; 22; 23; 24; 25; 26; 27; 28] [] 0.
Example vtk_subtopology_example : length (el_nodes quad2) = nodes_per_element Quad 2 /\
  serializeElementSubtopo quad2 = Ok [20; 21; 24; 23; 21; 22; 25; 24; 23; 24; 27; 26; 24; 25; 28; 27].
Proof. split; [done|]. by vm_compute. Qed.

(** The three topology sections: their texts are found at the recorded offsets, and a
    reader gets the cells of all elements in order, with local node numbers. *)
Theorem vtk_topology : forall V pa ord own (els : list (element V)), (forall k, ord k ≡ₚ seq 0 k) -> vtk_mesh own els ->
  exists conn offs types st, serializeTopology pa ord own els = Ok st /\
    section_at (st_data st) 0 (words32 conn) /\ section_at (st_data st) (st_topo_sz st) (words32 offs) /\
    section_at (st_data st) (st_topo_sz st + st_offs_sz st) types /\
    length (st_data st) = st_topo_sz st + st_offs_sz st + st_type_sz st /\
    st_cells st = length (concat (map element_cells els)) /\ length offs = st_cells st /\ length types = st_cells st /\
    Forall2 (fun c r => r.1 = c.1 /\ Forall2 (fun n i => local_index own n (N.to_nat i)) c.2 r.2)
      (concat (map element_cells els)) (read_cells conn 0 offs types).
Proof.
  intros V pa ord own els Hord Hm. destruct (topology_ok pa ord Hord own els Hm) as (E & Hty & Hr). cbv zeta in *.
  set (conn := map (fun x => N.of_nat (getLocalIndex own x)) (concat (map snd (concat (map element_cells els))))) in *. set (offs := map N.of_nat (ends 0 (map snd (concat (map element_cells els))))) in *.
  set (types := map fst (concat (map element_cells els))) in *. exists conn, offs, types. eexists. split; [exact E|]. cbn [st_data st_topo_sz st_offs_sz st_type_sz st_cells].
  assert (Hw : forall l, is_bytes (words32 l)) by (intros l; apply bytes_concat, words32_bytes).
  split. { apply (sec_at [] (words32 conn) (sec (words32 offs) ++ sec types)), Hw. }
  split. { apply (sec_at (sec (words32 conn)) (words32 offs) (sec types)), Hw. }
  split. { rewrite <- app_length. pose proof (sec_at (sec (words32 conn) ++ sec (words32 offs)) types [] Hty) as H. by rewrite app_nil_r, <- app_assoc in H. }
  split. { rewrite !app_length. lia. }
  split. { subst types. by rewrite map_length. }
  split. { subst offs types. by rewrite !map_length, ends_length, map_length. }
  split; [done|]. rewrite Hr. apply Forall2_fmap_r. apply Forall_Forall2_diag. apply Forall_forall. intros c Hc. split; [done|]. cbn [snd]. apply Forall2_fmap_r, Forall_Forall2_diag. apply Forall_forall. intros n Hn.
  change (local_index own n (N.to_nat (N.of_nat (getLocalIndex own n)))). rewrite Nat2N.id. destruct Hm as (Hg & Hel & _).
  destruct (cell_nodes els n) as (e & He & Hne). { eapply Forall_impl; [exact Hel|]. by intros ? []. } { apply elem_of_concat. exists c.2. split; [done|]. apply (elem_of_list_fmap snd). by exists c. }
  rewrite Forall_forall in Hel. destruct (Hel e He) as [_ Hk]. rewrite Forall_forall in Hk. apply known_local; [done|auto].
Qed.
Print Assumptions vtk_topology.

(** A scalar, or a group of two or three fields, is encoded as one section: the size, then
    the values node by node, padded to three components unless a scalar. *)
Theorem vtk_field : forall pa ord pfor junk sol inds n, (forall k, ord k ≡ₚ seq 0 k) -> (forall n, pfor n ≡ₚ seq 0 n) -> solution n sol ->
  (proper_group sol inds -> exists txt, encodeField pa ord pfor junk sol inds = Ok txt /\ section_at txt 0 (group_data sol n inds) /\
     length txt = 4 * ((length (group_data sol n inds) + 8 + 2) / 3)) /\
  (length inds = 0 \/ 3 < length inds -> encodeField pa ord pfor junk sol inds = Throw).
Proof.
  intros pa ord pfor junk sol inds n Hord Hpf Hs. split.
  - intros Hg. exists (sec (group_data sol n inds)). split; [by apply field_ok|]. split; [|apply sec_length]. pose proof (sec_at [] (group_data sol n inds) []) as H. rewrite app_nil_r in H. apply H.
    destruct Hg as [_ Hi]. unfold group_data. apply bytes_concat. apply Forall_forall. intros v Hv. apply elem_of_concat in Hv as (l & Hv & Hl). apply (elem_of_list_fmap (group_value sol inds)) in Hl as (k & -> & Hk).
    apply elem_of_seq in Hk. unfold group_value in Hv. apply elem_of_app in Hv as [Hv|Hv].
    + apply (elem_of_list_fmap (fun i => _)) in Hv as (i & -> & Hii). rewrite Forall_forall in Hi. unfold solution in Hs. rewrite Forall_forall in Hs. destruct (Hs (nth i sol [])) as [Hl Hv]; [apply elem_of_list_In, nth_In, Hi, Hii|].
      rewrite Forall_forall in Hv. apply Hv. apply elem_of_list_In, nth_In. lia.
    + destruct (length inds =? 2); [|by apply elem_of_nil in Hv]. apply elem_of_list_singleton in Hv as ->. repeat constructor.
  - intros Hl. unfold encodeField. assert (negb (length inds =? 0) && (length inds <=? 3) = false) as ->; [|done].
    destruct (Nat.eqb_spec (length inds) 0); [done|]. cbn [negb andb]. apply Nat.leb_gt. lia.
Qed.
Print Assumptions vtk_field.

(** The whole export: the members set by the constructor, and the file after the writes of
    exportSolution have been performed in any order over any old file.  The file is the
    description, the appended data, the closing text, and whatever the old file had beyond;
    every array named by the description is found at its offset; a reader gets the cells
    of the mesh. *)
Theorem vtu_file : forall V pa1 pa2 pa ord pfor sched junk render own (els : list (element V)) locs at_node sol defs,
  (forall k, ord k ≡ₚ seq 0 k) -> (forall n, pfor n ≡ₚ seq 0 n) -> (forall l, sched l ≡ₚ l) ->
  vtk_mesh own els -> all_covered own els -> locations els locs at_node -> solution (localSize own) sol -> Forall (proper_group sol) defs ->
  exists coords tp d ws conn offs types,
    makeCoordsSerialized pa1 ord sched junk (localSize own) own locs els = Ok coords /\
    serializeTopology pa2 ord own els = Ok tp /\
    exportSolution pa ord pfor junk render (localSize own) coords tp sol defs = Ok ws /\
    ds_points d = localSize own /\ ds_cells d = length (concat (map element_cells els)) /\
    Forall2 (fun c r => r.1 = c.1 /\ Forall2 (fun n i => local_index own n (N.to_nat i)) c.2 r.2)
      (concat (map element_cells els)) (read_cells conn 0 offs types) /\
    forall order old, order ≡ₚ ws -> exists body,
      write_all order old = render d ++ body ++ vtu_postamble ++ drop (length (render d ++ body ++ vtu_postamble)) old /\
      Forall2 (array_ok body) (ds_arrays d) (file_arrays own at_node conn offs types sol defs).
Proof.
  intros V pa1 pa2 pa ord pfor sched junk render own els locs at_node sol defs Hord Hpf Hsch Hm Hcov Hloc Hsol Hdefs.
  destruct (topology_ok pa2 ord Hord own els Hm) as (E & Hty & Hr). cbv zeta in *.
  set (conn := map (fun x => N.of_nat (getLocalIndex own x)) (concat (map snd (concat (map element_cells els))))) in *. set (offs := map N.of_nat (ends 0 (map snd (concat (map element_cells els))))) in *.
  set (types := map fst (concat (map element_cells els))) in *.
  pose proof (coords_ok pa1 ord Hord sched junk own els locs at_node Hsch Hm Hcov Hloc) as Ec.
  destruct (export_ok own at_node sol defs pa ord pfor junk render (proj2 Hloc) Hsol Hdefs Hord Hpf _ _ conn offs types eq_refl eq_refl Hty) as (d & ws & Ew & H1 & H2 & H3).
  eexists _, _, d, ws, conn, offs, types. split; [exact Ec|]. split; [exact E|]. split; [exact Ew|]. split; [done|]. split; [rewrite H2; subst types; by rewrite map_length|]. split; [|exact H3].
  rewrite Hr. apply Forall2_fmap_r. apply Forall_Forall2_diag. apply Forall_forall. intros c Hc. split; [done|]. cbn [snd]. apply Forall2_fmap_r, Forall_Forall2_diag. apply Forall_forall. intros n Hn.
  change (local_index own n (N.to_nat (N.of_nat (getLocalIndex own n)))). rewrite Nat2N.id. destruct Hm as (Hg & Hel & _).
  destruct (cell_nodes els n) as (e & He & Hne). { eapply Forall_impl; [exact Hel|]. by intros ? []. } { apply elem_of_concat. exists c.2. split; [done|]. apply (elem_of_list_fmap snd). by exists c. }
  rewrite Forall_forall in Hel. destruct (Hel e He) as [_ Hk]. rewrite Forall_forall in Hk. apply known_local; [done|auto].
Qed.
Print Assumptions vtu_file.

(** Two lines of order 1 and 2; node 4 shared; a scalar and a two-component vector. *)
Definition ex_own : ownership := {| so_begin := 5; so_end := 8; so_shared := [4] |}.
Definition ex_els : list (element unit) := [mk_el Line 1 [4; 5] [] 0; mk_el Line 2 [5; 6; 7] [] 1].
Definition ex_val (n : N) : list byte := le_bytes 8 n.
Definition ex_at (n : nat) : list (list byte) := [ex_val (N.of_nat n); ex_val 1; ex_val 2].
Definition ex_sol : list (list (list byte)) := map (fun i => map (fun k => ex_val (N.of_nat (10 * i + k))) (seq 0 4)) (seq 0 3).
Definition ex_render (d : description) : list byte := text "head _"%string.
Example vtu_file_hypotheses : vtk_mesh ex_own ex_els /\ all_covered ex_own ex_els /\
  locations ex_els (fun e => map ex_at (el_nodes e)) ex_at /\ solution (localSize ex_own) ex_sol /\ Forall (proper_group ex_sol) [[1]; [0; 2]].
Proof.
  assert (Hv : forall n, val8 (ex_val n)) by (intros n; split; [apply le_length|apply le_bytes_ok]).
  split; [|split; [|split; [|split]]].
  - split; [|split; [|split]].
    + split; [repeat constructor|]. intros n Hn. apply elem_of_list_singleton in Hn as ->. cbn [so_begin so_end ex_own]. lia.
    + assert (known ex_own 4 /\ known ex_own 5 /\ known ex_own 6 /\ known ex_own 7) as (? & ? & ? & ?) by (unfold known; cbn [so_begin so_end so_shared ex_own]; rewrite !elem_of_list_singleton; lia).
      repeat apply Forall_cons_2; try apply Forall_nil_2; (split; [done|]); repeat apply Forall_cons_2; done || apply Forall_nil_2.
    + by vm_compute.
    + by vm_compute.
  - intros n [Hn|Hn]; cbn [so_begin so_end ex_own so_shared] in Hn.
    + assert (n = 5 \/ n = 6 \/ n = 7) as [-> |[-> | ->]] by lia; (exists (mk_el Line 2 [5; 6; 7] [] 1); split; [right; left|]; apply (bool_decide_unpack _); by vm_compute).
    + apply elem_of_list_singleton in Hn as ->. exists (mk_el Line 1 [4; 5] [] 0). split; left.
  - split; [done|]. intros n. split; [done|]. repeat apply Forall_cons_2; try apply Forall_nil_2; apply Hv.
  - apply Forall_forall. intros f Hf. apply (elem_of_list_fmap (fun i => _)) in Hf as (i & -> & _). split; [done|]. apply Forall_forall. intros v Hv'. apply (elem_of_list_fmap (fun k => _)) in Hv' as (k & -> & _). apply Hv.
  - repeat constructor.
Qed.
Example vtu_file_example :
  read_cells [3; 0; 0; 1; 1; 2]%N 0 [2; 4; 6]%N [3; 3; 3]%N = [(3, [3; 0]); (3, [0; 1]); (3, [1; 2])]%N /\
  concat (map element_cells ex_els) = [(3%N, [4; 5]); (3%N, [5; 6]); (3%N, [6; 7])] /\
  match serializeTopology (fun _ => NoAvx2) (seq 0) ex_own ex_els with Ok st => st_cells st = 3 /\ st_topo_sz st = 44 /\ st_offs_sz st = 28 /\ st_type_sz st = 16 | _ => False end.
Proof. split; [by vm_compute|]. split; by vm_compute. Qed.

(** Finding (491-496): an existing file is not truncated, so a shorter export leaves the
    end of the old file after the closing tag. *)
Theorem vtu_file_truncated_refuted :
  ~ (forall pa ord pfor junk render n coords tp sol defs ws order old,
       (forall k, ord k ≡ₚ seq 0 k) -> (forall n, pfor n ≡ₚ seq 0 n) ->
       exportSolution pa ord pfor junk render n coords tp sol defs = Ok ws -> order ≡ₚ ws -> write_all order old = concat (map snd ws)).
Proof.
  intros H. specialize (H (fun _ _ => NoAvx2) (seq 0) (seq 0) (fun _ => []) (fun _ => []) 0 [] {| st_cells := 0; st_topo_sz := 0; st_offs_sz := 0; st_type_sz := 0; st_data := [] |} [] []
    _ _ (replicate 40 7%N) (fun _ => reflexivity _) (fun _ => reflexivity _) eq_refl (reflexivity _)). by vm_compute in H.
Qed.
Print Assumptions vtu_file_truncated_refuted.

(** Attributes of the .pvtu file: the first scalar and the first vector, as in the .vtu
    files ... *)
Definition first_index (P : nat -> Prop) (l : list nat) (o : option nat) : Prop :=
  match o with
  | Some i => exists x, l !! i = Some x /\ P x /\ forall j y, j < i -> l !! j = Some y -> ~ P y
  | None => forall j y, l !! j = Some y -> ~ P y
  end.
Lemma find_first_ok f l : first_index (fun x => f x = true) l (find_first f l).
Proof.
  unfold find_first. assert (forall a, match List.find (fun ix : nat * nat => f ix.2) (zip (seq a (length l)) l) with
      | Some ix => a <= ix.1 /\ first_index (fun x => f x = true) l (Some (ix.1 - a)) | None => first_index (fun x => f x = true) l None end) as H.
  { induction l as [|x l IH]; intros a; cbn [length seq zip zip_with List.find snd]; [done|]. destruct (f x) eqn:E.
    - cbn [fst]. split; [done|]. rewrite Nat.sub_diag. exists x. split; [done|]. split; [done|]. intros; lia.
    - specialize (IH (S a)). unfold zip in IH. destruct (List.find _ _) as [[i y]|] eqn:Ef.
      + cbn [fst] in *. destruct IH as (Hi & z & Hz & Hf & Hn). split; [lia|]. replace (i - a) with (S (i - S a)) by lia. exists z. split; [done|]. split; [done|]. intros [|j] w Hj Hw.
        * injection Hw as <-. by rewrite E.
        * apply (Hn j w); [lia|done].
      + intros [|j] w Hw; [injection Hw as <-; by rewrite E|]. by apply (IH j). }
  specialize (H 0). destruct (List.find _ _) as [[i x]|]; cbn [mbind option_bind]; [|done]. cbn [fst] in *. destruct H as [_ H]. by rewrite Nat.sub_0_r in H.
Qed.
Theorem vtu_attributes : forall n coords tp comps encoded, let d := makeDataDescription n coords tp comps encoded in
  first_index (fun c => c = 1) comps (ds_scalars d) /\ first_index (fun c => 1 < c) comps (ds_vectors d).
Proof.
  intros n coords tp comps encoded d. subst d. cbn [makeDataDescription ds_scalars ds_vectors].
  assert (forall P Q l o, (forall x, P x <-> Q x) -> first_index P l o -> first_index Q l o) as Himp.
  { intros P Q l [i|] HPQ; cbn [first_index].
    - intros (x & Hx & HP & Hn). exists x. split; [done|]. split; [by apply HPQ|]. intros j y Hj Hy HQ. by apply (Hn j y Hj Hy), HPQ.
    - intros Hn j y Hy HQ. by apply (Hn j y Hy), HPQ. }
  split; [apply (Himp (fun x => (x =? 1) = true)); [intros; apply Nat.eqb_eq|]|apply (Himp (fun x => (1 <? x) = true)); [intros; apply Nat.ltb_lt|]]; apply find_first_ok.
Qed.
Print Assumptions vtu_attributes.
(** ... fails when two vectors come before the first scalar (appendPvtuPointDataDef,
    125-139): the second vector is announced as the active scalar. *)
Theorem pvtu_attributes_refuted :
  ~ (forall comps, Forall (fun c => c = 1 \/ c = 3) comps -> first_index (fun c => c = 1) comps (pvtu_attrs 0 comps None None).1).
Proof. intros H. assert (Forall (fun c => c = 1 \/ c = 3) [3; 3; 1]) as F by (repeat apply Forall_cons_2; try apply Forall_nil_2; lia). specialize (H [3; 3; 1] F). cbn in H. destruct H as (x & Hx & -> & _). discriminate Hx. Qed.
Print Assumptions pvtu_attributes_refuted.
(** Otherwise they agree. *)
Lemma first_shift P x l o : ~ P x -> first_index P l o -> first_index P (x :: l) (S <$> o).
Proof.
  intros Hx. destruct o as [i|]; cbn [fmap option_fmap option_map first_index].
  - intros (y & Hy & HP & Hn). exists y. split; [done|]. split; [done|]. intros [|j] z Hj Hz; [by injection Hz as <-|]. apply (Hn j z); [lia|done].
  - intros Hn [|j] y Hy; [by injection Hy as <-|]. by apply (Hn j).
Qed.
Theorem pvtu_attributes_partial : forall comps, Forall (fun c => c = 1 \/ c = 3) comps ->
  (forall i j, i < j -> comps !! i = Some 3 -> comps !! j = Some 3 -> exists k, k < j /\ comps !! k = Some 1) ->
  first_index (fun c => c = 1) comps (pvtu_attrs 0 comps None None).1 /\ first_index (fun c => 1 < c) comps (pvtu_attrs 0 comps None None).2.
Proof.
  assert (HA : forall l i s, Forall (fun c => c = 1 \/ c = 3) l -> exists o, pvtu_attrs i l (Some s) None = (Some s, (fun k => i + k) <$> o) /\ first_index (fun c => 1 < c) l o).
  { induction l as [|x l IH]; intros i s H; [exists None; done|]. inversion_clear H as [|? ? Hx Hl]. destruct Hx as [-> | ->]; cbn [pvtu_attrs Nat.ltb Nat.leb andb negb].
    - destruct (IH (i + 1) s Hl) as (o & -> & Ho). exists (S <$> o). split; [|apply first_shift; [lia|done]]. destruct o as [k|]; [|done]. cbn [fmap option_fmap option_map]. do 2 f_equal. lia.
    - exists (Some 0). split; [cbn [fmap option_fmap option_map]; by rewrite Nat.add_0_r|]. exists 3. split; [done|]. split; [lia|]. intros; lia. }
  assert (HB : forall l i v, Forall (fun c => c = 1 \/ c = 3) l -> (forall j, l !! j = Some 3 -> exists k, k < j /\ l !! k = Some 1) -> exists o, pvtu_attrs i l None (Some v) = ((fun k => i + k) <$> o, Some v) /\ first_index (fun c => c = 1) l o).
  { intros [|x l] i v H Hc; [exists None; done|]. inversion_clear H as [|? ? Hx Hl]. destruct Hx as [-> | ->].
    - cbn [pvtu_attrs Nat.ltb Nat.leb andb negb]. exists (Some 0). split; [cbn [fmap option_fmap option_map]; by rewrite Nat.add_0_r|]. exists 1. split; [done|]. split; [done|]. intros; lia.
    - destruct (Hc 0 eq_refl) as (k & Hk & _). lia. }
  intros [|x l] H Hc; [done|]. inversion_clear H as [|? ? Hx Hl]. destruct Hx as [-> | ->]; cbn [pvtu_attrs Nat.ltb Nat.leb andb negb].
  - destruct (HA l 1 0 Hl) as (o & E & Ho). change (0 + 1) with 1. rewrite E. split.
    + exists 1. split; [done|]. split; [done|]. intros; lia.
    + cbn [snd]. apply (first_shift (fun c => 1 < c)); [lia|done].
  - destruct (HB l 1 0 Hl) as (o & E & Ho). { intros j Hj. destruct (Hc 0 (S j)) as ([|k] & Hk & Hk1); [lia|done|done|discriminate Hk1|]. exists k. split; [lia|done]. }
    change (0 + 1) with 1. rewrite E. split.
    + cbn [fst]. apply (first_shift (fun c => c = 1)); [lia|done].
    + exists 3. split; [done|]. split; [lia|]. intros; lia.
Qed.
Print Assumptions pvtu_attributes_partial.
Example pvtu_attributes_example : pvtu_attrs 0 [3; 1; 3; 1] None None = (Some 1, Some 0) /\ pvtu_attrs 0 [1; 1; 3] None None = (Some 0, Some 2) /\
  pvtu_attrs 0 [3; 3; 1] None None = (Some 1, Some 0).
Proof. done. Qed.
