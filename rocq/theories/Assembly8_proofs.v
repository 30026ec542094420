(** C79: everything from the mesh parts; the constrained unknowns in the assembly. *)
From Verif Require Import Base StdAlgo Ownership_model Ownership_proofs Elem_model Mesh_model Mesh_spec Mesh_proofs Helpers_model Helpers_proofs Partition_model Partition_spec Redist_spec Dofs_model Dofs_spec Dofs_props Sparsity_model Sparsity_spec Sparsity_proofs Sparsity2_proofs Sparsity4_proofs Sparsity_props Cond_model Cond_spec Dirichlet_model Dirichlet_spec Dirichlet_proofs LocalBC_model Assembly_model Assembly_spec Assembly_proofs Assembly2_proofs Assembly3_proofs Assembly4_proofs Assembly5_proofs Assembly6_proofs Assembly7_proofs.
Local Arguments Nat.mul : simpl never.
Local Arguments Nat.add : simpl never.
Local Arguments Nat.sub : simpl never.

Section world.
  Context {V : Type}.
  Lemma ranks_world D (meshes : list (mesh V)) maps ss pdef T : length maps = length meshes -> usable D (zip meshes maps) pdef T ->
    Forall2 (fun x s => pattern_ok (dm_own x.2) (coupled false pdef x.1 x.2) (Sparsity_props.coupled_any false (zip meshes maps) pdef) s) (zip meshes maps) ss -> aworld D meshes (zip_with Build_arank maps ss) pdef T.
  Proof.
    intros L U HF. pose proof (Forall2_length _ _ _ HF) as Ls. rewrite zip_with_length in Ls. assert (Hm : map ar_map (zip_with Build_arank maps ss) = maps). { clear - L Ls. assert (length maps = length ss) as E by lia. clear L Ls. revert ss E. induction maps as [|g maps IH]; intros [|s ss] E; try done. cbn. f_equal. apply IH. by injection E. }
    assert (Hr : forall r, ar_map r = ar_map r) by done. constructor; [by rewrite Hm|rewrite zip_with_length; lia|].
    intros m r Hx. apply elem_of_list_lookup in Hx as [b Hb]. apply lookup_zip_with_Some in Hb as (m' & r' & E & Hmb & Hrb). injection E as <- <-. apply lookup_zip_with_Some in Hrb as (g & s & -> & Hg & Hs). assert (Hz : zip meshes maps !! b = Some (m, g)) by (apply lookup_zip_with_Some; by exists m, g). pose proof (Forall2_lookup_lr _ _ _ _ _ _ HF Hz Hs) as P. cbn [fst snd ar_map ar_sp] in *.
    assert (Hany : forall k c, Sparsity_props.coupled_any false (zip meshes maps) pdef k c <-> exists m' r', (m', r') ∈ zip meshes (zip_with Build_arank maps ss) /\ coupled false pdef m' (ar_map r') k c).
    { intros k c. split.
      - intros (m' & g' & Hi & Hc). apply elem_of_list_lookup in Hi as [i Hi]. apply lookup_zip_with_Some in Hi as (? & ? & [= <- <-] & H1 & H2). destruct (lookup_lt_is_Some_2 ss i) as [s' Hs']; [pose proof (lookup_lt_Some _ _ _ H2); lia|]. exists m', (Build_arank g' s'). split; [|done]. apply (elem_of_list_lookup_2 _ i). apply lookup_zip_with_Some. exists m', (Build_arank g' s'). split; [done|]. split; [done|]. apply lookup_zip_with_Some. by exists g', s'.
      - intros (m' & r' & Hi & Hc). apply elem_of_list_lookup in Hi as [i Hi]. apply lookup_zip_with_Some in Hi as (? & ? & [= <- <-] & H1 & H2). apply lookup_zip_with_Some in H2 as (g' & s' & -> & H2 & _). exists m', g'. split; [|done]. apply (elem_of_list_lookup_2 _ i). apply lookup_zip_with_Some. by exists m', g'. }
    destruct P as [P1 P2 P3 P4 P5 P6]. constructor; [done|done|done| |done|].
    - intros c. rewrite P4. split; intros [H1 [H2|(k & H2 & H3)]]; (split; [done|]); [by left|right; exists k; split; [done|by apply Hany]|by left|right; exists k; split; [done|by apply Hany]].
    - intros l row Hl. destruct (P6 l row Hl) as (H1 & H2 & k & H3 & H4 & H5). split; [done|]. split; [done|]. exists k. split; [done|]. split; [|done]. intros Hk c. rewrite <- (H4 Hk c). symmetry. apply Hany.
  Qed.
  Lemma used_map D (ranks : list (mesh V * pbc)) pdef N T num maps : numberable D ranks pdef N -> numbering D N T (fun n j => (forall a, ~ identified ranks n j a) /\ wanted false ranks pdef n j) num ->
    Forall2 (fun x g => dof_map_ok D ranks num x.1 x.2 g) ranks maps -> forall k, k < T -> exists m g, (m, g) ∈ zip ranks.*1 maps /\ coupled false pdef m g k k.
  Proof.
    intros HN Hnu HF k Hk. apply (nu_onto _ _ _ _ _ Hnu) in Hk as (n & j & Hn & Hj & Hnum). destruct (proj1 (nu_def _ _ _ _ _ Hnu n j Hn Hj) ltac:(by exists k)) as (Hni & m & b & t & Hmb & (ids & bits & dom & e & Hd & Hbit & Hdom & He & Hp) & Ht). cbn [primary] in Hp.
    apply elem_of_list_lookup in Hmb as [i Hi]. destruct (Forall2_lookup_l _ _ _ _ _ HF Hi) as (g & Hg & [[K1 K2] K3 _ _ _]). cbn [fst snd] in *. exists m, g. split; [apply (elem_of_list_lookup_2 _ i); apply lookup_zip_with_Some; exists m, g; split; [done|]; split; [|done]; by rewrite list_lookup_fmap, Hi|].
    assert (Hkey : t ∈ (dm_map g).*1). { apply K2. apply (di_nodes _ _ (nb_dist _ _ _ _ HN)); [apply elem_of_list_fmap; exists (m, b); split; [done|by eapply elem_of_list_lookup_2]|]. exists e. split; [by exists dom|done]. }
    apply elem_of_list_fmap in Hkey as ([t' row] & E & Hrow). cbn in E. subst t'. destruct (K3 t row Hrow) as [Lr Hd']. destruct (Hd' j Hj) as (d & Hdj & U1 & U2). assert (d = Some k) as ->.
    { rewrite <- Hnum. destruct Ht as [Ht|[Ht ->]]; [apply U1; exists m, b; split; [by eapply elem_of_list_lookup_2|done]|]. by apply U2. }
    assert (Hu : el_unknown false g bits e k) by (exists t, row, j; done). by exists ids, bits, dom, e.
  Qed.
  Lemma mesh_world D (ranks : list (mesh V * pbc)) pdef N sched arr sc : numberable D ranks pdef N -> (forall l, sched l ≡ₚ l) -> (forall l, arr l ≡ₚ l) -> (forall r, fair (sc r)) ->
    exists maps ss T, NodeToGlobalDofMap D sched arr false ranks pdef = Ok maps /\ makeSparsityGraph sc false (zip ranks.*1 maps) pdef = Ok ss /\
      aworld D ranks.*1 (zip_with Build_arank maps ss) pdef T /\ all_used ranks.*1 (zip_with Build_arank maps ss) pdef T.
  Proof.
    intros HN Hs Ha Hf. destruct (periodic_dofs_numbered D ranks pdef N sched arr false HN Hs Ha) as (maps & num & T & E & Hnu & F & Hc). pose proof (numbered_usable D ranks pdef N T _ num maps HN Hnu F Hc) as U. destruct (sparsity_exact D _ pdef T sc false U Hf) as (ss & Ess & Fss). pose proof (Forall2_length _ _ _ F) as Lm.
    exists maps, ss, T. split; [done|]. split; [done|]. split; [apply ranks_world; [by rewrite fmap_length|done|exact Fss]|]. intros k Hk. destruct (used_map D ranks pdef N T num maps HN Hnu F k Hk) as (m & g & Hx & Hcp). apply elem_of_list_lookup in Hx as [i Hi]. destruct (Forall2_lookup_l _ _ _ _ _ Fss Hi) as (s & Hsi & _). apply lookup_zip_with_Some in Hi as (? & ? & [= <- <-] & H1 & H2).
    exists m, (Build_arank g s). split; [|done]. apply (elem_of_list_lookup_2 _ i). apply lookup_zip_with_Some. exists m, (Build_arank g s). split; [done|]. split; [done|]. apply lookup_zip_with_Some. by exists g, s.
  Qed.
End world.

Section all.
  Context {F : Type} (zero one : F) (add mul sub : F -> F -> F) (opp : F -> F) (Rth : ring_theory zero one add mul sub opp (@eq F)).
  Context {V : Type} (D : nat) (meshes : list (mesh V)) (ranks : list arank) (pdef : list (list nat * list bool)) (T : nat) (W : aworld D meshes ranks pdef T) (nr : nat) (fc : list nat -> list nat) (Hfc : forall l, fc l ≡ₚ l).
  Lemma make_all b r rows cols : ranks !! b = Some r -> exists d, make_dbc fc (owned_graph r) rows cols = Ok d.
  Proof using W Hfc.
    intros Hr. destruct (rows_at _ _ _ _ _ W b r Hr) as (R1 & R2 & R3 & R4). eexists. apply (make_ok fc Hfc (owned_graph r) rows cols).
    - cbn [owned_graph g_inds g_row]. rewrite !take_length. unfold row_map. rewrite all_ids_length. destruct (mesh_at _ _ _ _ _ W b r Hr) as [m Hm]. rewrite (proj1 (po_len _ _ _ _ (graph_at _ _ _ _ _ W b m r Hm Hr))). done.
    - intros q l Hl. unfold indsr in Hl. destruct (g_inds (owned_graph r) !! q) as [inds|] eqn:E; [|by apply elem_of_nil in Hl]. cbn [owned_graph g_inds g_col] in *. apply lookup_take_iff in E as [_ E]. destruct (mesh_at _ _ _ _ _ W b r Hr) as [m Hm]. destruct (po_rows _ _ _ _ (graph_at _ _ _ _ _ W b m r Hm Hr) q inds E) as (_ & HF & _). unfold col_map. rewrite all_ids_length. exact (proj1 (Forall_forall _ _) HF l Hl).
  Qed.
  Context (def : bc_def) (HD : def_ok D meshes ranks def) (top : nat) (Htop : T <= top) (Hself : all_used meshes ranks pdef T).
  Lemma constrained_lt d : constrained meshes ranks def d -> d < T.
  Proof using W.
    clear Htop. intros H. assert (exists b r n f, ranks !! b = Some r /\ unknown_no (ar_map r) n f = Some d) as (b & r & n & f & Hr & Hu).
    { destruct H as [(m & r & doms & inds & dom & e & n & f & Hx & _ & _ & _ & _ & _ & Hu)|(f & _ & (m & r & n & Hx & _ & Hu) & _)]; apply elem_of_list_lookup in Hx as [b Hb]; apply lookup_zip_with_Some in Hb as (? & ? & [= <- <-] & _ & Hr); by exists b, r, n, f. }
    apply (local_lt _ _ _ _ _ W b r d Hr). by apply (unknown_local _ _ _ _ _ W b r n f d Hr).
  Qed.
  Lemma all_ok : exists dofs ds, getDirichletDofs top (zip meshes ranks) def = Ok dofs /\
    map_res (fun z : arank * (list nat * list nat) => make_dbc fc (owned_graph z.1) z.2.1 z.2.2) (zip ranks dofs) = Ok ds /\
    forall s runs from dolds, as_stage s = OpenForAssembly -> as_sys s = map (zeros zero nr) ranks -> (forall p, p ∈ runs -> calls_ok meshes ranks pdef p.2 /\ forall b l, p.1 b l ≡ₚ l) -> (forall a l, from a l ≡ₚ seq 0 (length ranks)) ->
      Forall2 (fun d o => Forall2 (fun (s : list nat) (o : list F) => length o = length s) (db_sub d) o) ds dolds ->
      exists C s1 s2 sys, (forall i, C i = true <-> constrained meshes ranks def i) /\ for_each (fun p s => assembleProblem add nr p.1 ranks p.2 s) runs s = Ok s1 /\ endAssembly zero one add mul sub nr from (Some ds) dolds ranks s1 = Ok s2 /\ as_stage s2 = Closed /\ getSystem ranks s2 = Ok sys /\
        is_system zero nr T (Adir zero one C (Amat zero add ranks (together runs.*2 (length ranks)))) (Bdir zero add mul sub T C (Amat zero add ranks (together runs.*2 (length ranks))) (Bvec zero add ranks (together runs.*2 (length ranks))) (as_bcv s)) (parts sys).
  Proof using Rth W Hfc HD Htop Hself.
    destruct (dirichlet_ok D meshes ranks pdef T W def HD top Htop) as (dofs & Ed & Ld & Hd). exists dofs. set (f := fun z : arank * (list nat * list nat) => make_dbc fc (owned_graph z.1) z.2.1 z.2.2).
    destruct (map_res_ex f (zip ranks dofs)) as (ds & E & HF). { intros [r [rows cols]] Hx. apply elem_of_list_lookup in Hx as [b Hb]. apply lookup_zip_with_Some in Hb as (? & ? & [= <- <-] & Hr & _). unfold f. cbn [fst snd]. by apply (make_all b). }
    exists ds. split; [done|]. split; [done|]. intros s runs from dolds H1 H2 H3 H4 H5. pose proof (Forall2_length _ _ _ HF) as Lds. rewrite zip_with_length in Lds. pose proof (Forall2_length _ _ _ H5) as Ldo.
    set (C := fun i => existsb (fun x : list nat * list nat => existsb (Nat.eqb i) x.1) dofs).
    assert (HC : forall i, C i = true <-> constrained meshes ranks def i).
    { intros i. unfold C. rewrite existsb_exists. split.
      - intros ([rows cols] & Hx & Hi). apply elem_of_list_In, elem_of_list_lookup in Hx as [b Hb]. destruct (lookup_lt_is_Some_2 ranks b) as [r Hr]; [rewrite <- Ld; by eapply lookup_lt_Some|]. destruct (Hd b r rows cols Hr Hb) as (_ & _ & Hrow & _). apply (Hrow i). cbn [fst] in Hi. apply existsb_exists in Hi as (x & Hx & Ex). apply Nat.eqb_eq in Ex as ->. by apply elem_of_list_In.
      - intros Hi. destruct (owner_some _ _ _ _ _ W i (constrained_lt i Hi)) as (b & r & Hr & Ho). destruct (lookup_lt_is_Some_2 dofs b) as [[rows cols] Hb]; [rewrite Ld; by eapply lookup_lt_Some|]. exists (rows, cols). split; [apply elem_of_list_In; by eapply elem_of_list_lookup_2|]. cbn [fst]. apply existsb_exists. exists i. split; [|apply Nat.eqb_refl]. apply elem_of_list_In. destruct (Hd b r rows cols Hr Hb) as (_ & _ & Hrow & _). by apply Hrow. }
    destruct (system_dirichlet zero one add mul sub opp Rth D meshes ranks pdef T W nr fc Hfc C (fun i _ => Hself i) s runs from ds dolds H1 H2 H3 H4) as (s1 & s2 & sys & G); [lia|lia| |exists C, s1, s2, sys; split; [exact HC|exact G]].
    intros b r d o Hr Hdb Hob. destruct (lookup_lt_is_Some_2 dofs b) as [[rows cols] Hb]; [rewrite Ld; by eapply lookup_lt_Some|]. assert (Hz : zip ranks dofs !! b = Some (r, (rows, cols))) by (apply lookup_zip_with_Some; by exists r, (rows, cols)). pose proof (Forall2_lookup_lr _ _ _ _ _ _ HF Hz Hdb) as Em. destruct (Hd b r rows cols Hr Hb) as (S1 & S2 & S3 & S4).
    exists rows, cols. split; [|split; [exact Em|exact (Forall2_lookup_lr _ _ _ _ _ _ H5 Hdb Hob)]]. split; [done|]. split; [done|]. split; [intros i Hi; rewrite HC, S3; tauto|intros j Hj; rewrite HC, S4; tauto].
  Qed.
End all.
