(** C79: assembly of the global system. *)
From Coq Require Import ZArith.
From Verif Require Import Base StdAlgo Ownership_model Ownership_proofs Elem_model Elem_spec Mesh_model Mesh_spec Mesh_proofs Helpers_model Helpers_proofs Partition_model Partition_spec Redist_spec Redist_props Dofs_model Dofs_spec Dofs_props Sparsity_model Sparsity_spec Sparsity_proofs Sparsity2_proofs Sparsity4_proofs Sparsity_props Cond_model Cond_spec Dirichlet_model Dirichlet_spec Dirichlet_proofs LocalBC_model Assembly_model Assembly_spec Assembly_proofs Assembly2_proofs Assembly3_proofs Assembly4_proofs Assembly5_proofs Assembly6_proofs Assembly7_proofs Assembly8_proofs.
Local Arguments Nat.mul : simpl never.
Local Arguments Nat.add : simpl never.
Local Arguments Nat.sub : simpl never.

(** C79.  The constructor: from the parts of a mesh, the numbering and the graph succeed,
    and the result is what assembly needs; every unknown is used. *)
Theorem assembly_world {V} D (ranks : list (mesh V * pbc)) pdef N sched arr sc : numberable D ranks pdef N -> (forall l, sched l ≡ₚ l) -> (forall l, arr l ≡ₚ l) -> (forall r, fair (sc r)) ->
  exists maps ss T, NodeToGlobalDofMap D sched arr false ranks pdef = Ok maps /\ makeSparsityGraph sc false (zip ranks.*1 maps) pdef = Ok ss /\
    aworld D ranks.*1 (zip_with Build_arank maps ss) pdef T /\ all_used ranks.*1 (zip_with Build_arank maps ss) pdef T.
Proof. apply mesh_world. Qed.
Print Assumptions assembly_world.

Section props.
  Context {F : Type} (zero one : F) (add mul sub : F -> F -> F) (opp : F -> F) (Rth : ring_theory zero one add mul sub opp (@eq F)).
  Context {V : Type} (D : nat) (meshes : list (mesh V)) (ranks : list arank) (pdef : list (list nat * list bool)) (T nr : nat).
  Notation Sig := (Cond_spec.Sig zero add).
  (** Several calls of assembleProblem, each with an order of the atomic additions. *)
  Notation assemble_all := (for_each (fun (p : (nat -> list (step F) -> list (step F)) * list (list (call F))) s => assembleProblem add nr p.1 ranks p.2 s)).
  Definition runs_ok (runs : list ((nat -> list (step F) -> list (step F)) * list (list (call F)))) : Prop :=
    forall p, p ∈ runs -> calls_ok meshes ranks pdef p.2 /\ forall b l, p.1 b l ≡ₚ l.
  (** A new system, or one that is assembled again. *)
  Definition ready (s : asys F) : Prop := s = construct zero nr ranks \/ exists s0, as_stage s0 = Closed /\ s = beginAssembly zero nr ranks s0.
  Lemma ready_zero s : ready s -> as_stage s = OpenForAssembly /\ as_sys s = map (zeros zero nr) ranks.
  Proof. intros [-> |(s0 & H & ->)]; [done|]. unfold beginAssembly. by rewrite H. Qed.

  (** C79.  For every order of the threads' additions and of the messages: assembly
      succeeds, and the system is the sum of all local systems.  It is the same after the
      second beginAssembly: nothing remains of the first assembly.  Partial: only for kernels
      whose components belong to one definition ([covered]), see [assembly_coupling_refuted]
      and [assembly_missing_refuted]; without static condensation. *)
  Theorem assembly_exact_partial s runs from dolds : aworld D meshes ranks pdef T -> ready s -> runs_ok runs -> (forall a l, from a l ≡ₚ seq 0 (length ranks)) ->
    exists s1 s2 sys, assemble_all runs s = Ok s1 /\ endAssembly zero one add mul sub nr from None dolds ranks s1 = Ok s2 /\ as_stage s2 = Closed /\ getSystem ranks s2 = Ok sys /\
      is_system zero nr T (Amat zero add ranks (together runs.*2 (length ranks))) (Bvec zero add ranks (together runs.*2 (length ranks))) (parts sys).
  Proof using Rth.
    intros W Hs Hr Hf. destruct (ready_zero s Hs) as [H1 H2]. exact (system_plain zero one add mul sub opp Rth D meshes ranks pdef T W nr s runs from dolds H1 H2 Hr Hf).
  Qed.
  (** A system in the sense of [is_system] has the solutions of the linear equations. *)
  Theorem system_solutions A B ps k x : is_system zero nr T A B ps -> k < nr -> solves zero add mul ps k x <-> forall i, i < T -> Sig (seq 0 T) (fun j => mul (A i j) (x j)) = B i k.
  Proof using Rth. apply (solves_iff zero one add mul sub opp Rth). Qed.

  (** C79.  getDirichletDofs: every rank finds the constrained unknowns among its rows and
      its columns, also those that only other ranks know to be constrained.  Partial: only if
      the components exist ([def_ok]), see [dirichlet_dofs_refuted]. *)
  Theorem dirichlet_dofs_exact_partial def top : aworld D meshes ranks pdef T -> def_ok D meshes ranks def -> T <= top ->
    exists out, getDirichletDofs top (zip meshes ranks) def = Ok out /\ length out = length ranks /\
      forall b r rows cols, ranks !! b = Some r -> out !! b = Some (rows, cols) -> Sorted Nat.le rows /\ Sorted Nat.le cols /\
        (forall i, i ∈ rows <-> dof_owned (dm_own (ar_map r)) i /\ constrained meshes ranks def i) /\ (forall j, j ∈ cols <-> j ∈ col_map r /\ constrained meshes ranks def j).
  Proof using Type. intros W HD Ht. exact (dirichlet_ok D meshes ranks pdef T W def HD top Ht). Qed.

  (** C79.  The whole: the constructor finds the constrained unknowns and prepares their
      elimination; after any assembly, the solutions of the system are the vectors that have
      the prescribed values at constrained unknowns and satisfy the equations of the sum of
      all local systems at the others.  Partial for the same reasons. *)
  Theorem assembly_dirichlet_partial def top fc : aworld D meshes ranks pdef T -> all_used meshes ranks pdef T -> def_ok D meshes ranks def -> T <= top -> (forall l, fc l ≡ₚ l) ->
    exists dofs ds, getDirichletDofs top (zip meshes ranks) def = Ok dofs /\
      map_res (fun z : arank * (list nat * list nat) => make_dbc fc (owned_graph z.1) z.2.1 z.2.2) (zip ranks dofs) = Ok ds /\
      forall s X s' runs from dolds, ready s -> setDirichletBCValues (Some ds) X s = Ok s' -> runs_ok runs -> (forall a l, from a l ≡ₚ seq 0 (length ranks)) ->
        Forall2 (fun d o => Forall2 (fun (s : list nat) (o : list F) => length o = length s) (db_sub d) o) ds dolds ->
        exists s1 s2 sys, assemble_all runs s' = Ok s1 /\ endAssembly zero one add mul sub nr from (Some ds) dolds ranks s1 = Ok s2 /\ as_stage s2 = Closed /\ getSystem ranks s2 = Ok sys /\
          forall k x, k < nr -> solves zero add mul (parts sys) k x <->
            (forall i, i < T -> constrained meshes ranks def i -> x i = X k i) /\
            (forall i, i < T -> ~ constrained meshes ranks def i -> Sig (seq 0 T) (fun j => mul (Amat zero add ranks (together runs.*2 (length ranks)) i j) (x j)) = Bvec zero add ranks (together runs.*2 (length ranks)) i k).
  Proof using Rth.
    intros W Hu HD Ht Hfc. destruct (all_ok zero one add mul sub opp Rth D meshes ranks pdef T W nr fc Hfc def HD top Ht Hu) as (dofs & ds & E1 & E2 & H). exists dofs, ds. split; [done|]. split; [done|].
    intros s X s' runs from dolds Hs Hset Hr Hf Hd. destruct (ready_zero s Hs) as [H1 H2]. cbn in Hset. injection Hset as <-. destruct (H {| as_stage := as_stage s; as_sys := as_sys s; as_bcv := X |} runs from dolds H1 H2 Hr Hf Hd) as (C & s1 & s2 & sys & HC & G1 & G2 & G3 & G4 & G5). exists s1, s2, sys. split; [done|]. split; [done|]. split; [done|]. split; [done|].
    intros k x Hk. rewrite (solves_dirichlet zero one add mul sub opp Rth nr T C _ _ _ _ k x G5 Hk). cbn [as_bcv]. split; intros [P Q]; (split; intros i Hi Ci).
    - apply P; [done|by apply HC].
    - apply Q; [done|]. destruct (C i) eqn:E; [|done]. by destruct Ci; apply HC.
    - apply P; [done|by apply HC].
    - apply Q; [done|]. intros Hx. apply HC in Hx. congruence.
  Qed.

  (** C79.  Every function checks the stage; beginAssembly leaves an open system alone. *)
  Theorem stages_checked s : match as_stage s with
    | OpenForAssembly => getSystem ranks s = Throw /\ beginAssembly zero nr ranks s = s
    | Closed => (forall order calls, assembleProblem add nr order ranks calls s = Throw) /\ (forall from dbcs dolds, endAssembly zero one add mul sub nr from dbcs dolds ranks s = Throw) end.
  Proof using Type. destruct (as_stage s) eqn:E; split; [unfold getSystem; by rewrite E|unfold beginAssembly; by rewrite E|intros; unfold assembleProblem; by rewrite E|intros; unfold endAssembly; by rewrite E]. Qed.
  Theorem values_need_definition X (s : asys F) : setDirichletBCValues None X s = Throw.
  Proof using Type. done. Qed.
End props.
Print Assumptions assembly_exact_partial.
Print Assumptions system_solutions.
Print Assumptions dirichlet_dofs_exact_partial.
Print Assumptions assembly_dirichlet_partial.
Print Assumptions stages_checked.
Print Assumptions values_need_definition.

(** ** Examples.  Two ranks: rank 0 has the element (0,1) of domain 1 and owns both nodes;
    rank 1 has the element (1,2) of domain 2 and owns node 2. *)
Lemma plain_numberable {V} D (ps : list (mesh V)) pdef N : distributed ps N -> (forall m e, m ∈ ps -> is_elem (m_domains m) e -> typed_el e) -> (forall ids bits, (ids, bits) ∈ pdef -> length bits = D) ->
  numberable D (map (fun m => (m, no_pbc)) ps) pdef N /\ (map (fun m => (m, no_pbc)) ps).*1 = ps.
Proof.
  intros Hd Ht Hb. assert (Hfst : (map (fun m => (m, no_pbc)) ps).*1 = ps). { change (?l.*1) with (map fst l). rewrite map_map. cbn [fst]. apply map_id. }
  assert (Hin : forall m b, (m, b) ∈ map (fun m => (m, no_pbc)) ps <-> m ∈ ps /\ b = no_pbc). { intros m b. rewrite (elem_of_list_fmap (fun m : mesh V => (m, no_pbc))). split; [intros (y & [= -> ->] & Hy); done|]. intros [Hm ->]. by exists m. }
  split; [|done]. constructor.
  - by rewrite Hfst.
  - intros m b e Hm. apply Hin in Hm as [Hm ->]. by apply Ht.
  - done.
  - intros m b Hm. apply Hin in Hm as [Hm ->]. split; [constructor|]. intros n row Hr. by apply elem_of_nil in Hr.
  - intros m b n j a Hm (row & Hr & _). apply Hin in Hm as [Hm ->]. by apply elem_of_nil in Hr.
  - intros m b Hm. apply Hin in Hm as [Hm ->]. split; [constructor|]. intros n Hr. by apply elem_of_nil in Hr.
Qed.
Definition as_parts : list (mesh nat) :=
  [ch_part [ch_l 0 1 0] 0 2 []; mk_mesh [(2, mk_dom [[]; []; [ch_l 1 2 1]] (Some 1))] {| so_begin := 2; so_end := 3; so_shared := [1] |} []].
Lemma as_elem m e : m ∈ as_parts -> is_elem (m_domains m) e -> e = ch_l 0 1 0 /\ m_own m = {| so_begin := 0; so_end := 2; so_shared := [] |} \/ e = ch_l 1 2 1 /\ m_own m = {| so_begin := 2; so_end := 3; so_shared := [1] |}.
Proof.
  intros Hm (d_ & d & v & Hd & Hv & Hx). unfold as_parts in Hm. rewrite !elem_of_cons, elem_of_nil in Hm. destruct Hm as [-> |[-> |[]]]; cbn in Hd; apply elem_of_list_singleton in Hd; injection Hd as -> ->;
    cbn in Hv; rewrite !elem_of_cons, elem_of_nil in Hv; (destruct Hv as [-> |[-> |[-> |[]]]]; [by apply elem_of_nil in Hx..|]); apply elem_of_list_singleton in Hx as ->; [by left|by right].
Qed.
Lemma as_distributed : distributed as_parts 3.
Proof.
  constructor.
  - intros [|[|r]] y [= <-]; cbn; lia.
  - done.
  - intros y Hy. unfold as_parts in Hy. rewrite !elem_of_cons, elem_of_nil in Hy. destruct Hy as [-> |[-> |[]]]; cbn [m_own so_shared ch_part]; (split; [repeat constructor|]);
      intros n Hn; rewrite ?elem_of_cons, elem_of_nil in Hn; [done|]. unfold owned. cbn. lia.
  - intros y Hy. unfold as_parts in Hy. rewrite !elem_of_cons, elem_of_nil in Hy. destruct Hy as [-> |[-> |[]]]; cbn; apply NoDup_singleton.
  - intros y n Hy (e & He & Hn). destruct (as_elem y e Hy He) as [[-> Ho]|[-> Ho]]; cbn [ch_l el_nodes] in Hn; rewrite !elem_of_cons, elem_of_nil in Hn; unfold owned; rewrite Ho; cbn [so_begin so_end so_shared]; rewrite ?elem_of_cons; lia.
  - intros y id_ vs e s Hy. unfold as_parts in Hy. rewrite !elem_of_cons, elem_of_nil in Hy. destruct Hy as [-> |[-> |[]]]; cbn; intros Hv; by apply elem_of_nil in Hv.
Qed.
Lemma as_typed m e : m ∈ as_parts -> is_elem (m_domains m) e -> typed_el e.
Proof. intros Hm He. destruct (as_elem m e Hm He) as [[-> _]|[-> _]]; apply (bool_decide_unpack _); by vm_compute. Qed.
Lemma sp_fwd_fair : fair sp_fwd.
Proof. by repeat split. Qed.
(** The ranks with given definitions. *)
Definition as_ranks (D : nat) (pdef : list (list nat * list bool)) : list arank :=
  match NodeToGlobalDofMap D id id false (map (fun m => (m, no_pbc)) as_parts) pdef with
  | Ok maps => match makeSparsityGraph (fun _ => sp_fwd) false (zip as_parts maps) pdef with Ok ss => zip_with Build_arank maps ss | _ => [] end
  | _ => [] end.
Lemma as_world D pdef : (forall ids bits, (ids, bits) ∈ pdef -> length bits = D) -> exists T, aworld D as_parts (as_ranks D pdef) pdef T /\ all_used as_parts (as_ranks D pdef) pdef T /\ sum (map (fun r => numOwned (dm_own (ar_map r))) (as_ranks D pdef)) = T.
Proof.
  intros Hb. destruct (plain_numberable D as_parts pdef 3 as_distributed as_typed Hb) as [HN Hf]. destruct (assembly_world D (map (fun m => (m, no_pbc)) as_parts) pdef 3 id id (fun _ => sp_fwd) HN) as (maps & ss & T & E1 & E2 & HW & HU); [done|done|intros; apply sp_fwd_fair|]. rewrite Hf in E2, HW, HU. exists T. unfold as_ranks. rewrite E1, E2. split; [done|]. split; [done|].
  destruct (us_cons _ _ _ _ (aw_usable _ _ _ _ _ HW)) as [<- _]. set (rs := zip_with _ _ _) in *. assert (L := aw_length _ _ _ _ _ HW). rewrite map_map. rewrite <- (map_map snd (fun g => so_end (dm_own g) - so_begin (dm_own g))), snd_zip by (rewrite map_length; lia). rewrite map_map. done.
Qed.
(** One component in both domains; a stiffness matrix in both elements. *)
Definition as_pdef : list (list nat * list bool) := [([1; 2], [true])].
Definition as_ex : list arank := Eval vm_compute in as_ranks 1 as_pdef.
Lemma as_ex_eq : as_ranks 1 as_pdef = as_ex.
Proof. vm_compute. reflexivity. Qed.
Definition as_call (ns : list nat) : call Z := Build_call ns [0] (fun k l => if k =? l then 1%Z else (-1)%Z) (fun _ _ => 1%Z).
Definition as_calls : list (list (call Z)) := [[as_call [0; 1]]; [as_call [1; 2]]].
Definition as_def : bc_def := {| bd_defs := [([2], [0])]; bd_norm := [] |}.
Example assembly_example_world : aworld 1 as_parts as_ex as_pdef 3 /\ all_used as_parts as_ex as_pdef 3 /\ calls_ok as_parts as_ex as_pdef as_calls /\ def_ok 1 as_parts as_ex as_def.
Proof.
  destruct (as_world 1 as_pdef) as (T & HW & HU & ET). { intros ids bits H. by apply elem_of_list_singleton in H as [= -> ->]. } rewrite as_ex_eq in *. cbn in ET. subst T. split; [done|]. split; [done|]. split.
  - split; [by vm_compute|]. intros b m r cs c Hm Hr Hc Hi. destruct b as [|[|b]]; [| |by rewrite lookup_ge_None_2 in Hc by (cbn; lia)]; cbn in Hc; injection Hc as <-; apply elem_of_list_singleton in Hi as ->; cbn in Hm; injection Hm as <-; cbn in Hr; injection Hr as <-.
    + split; [|split; [done|]].
      * exists [1; 2], [true], 1, (ch_l 0 1 0). split; [left|]. split; [left|]. split; [|split; [done|intros f Hf; by apply elem_of_list_singleton in Hf as ->]]. exists (mk_dom [[]; []; [ch_l 0 1 0]] (Some 1)), [ch_l 0 1 0]. split; [left|]. split; [right; right; left|left].
      * intros n f Hn Hf. apply elem_of_list_singleton in Hf as ->. cbn in Hn. rewrite !elem_of_cons, elem_of_nil in Hn. destruct Hn as [-> |[-> |[]]]; vm_compute; eauto.
    + split; [|split; [done|]].
      * exists [1; 2], [true], 2, (ch_l 1 2 1). split; [left|]. split; [right; left|]. split; [|split; [done|intros f Hf; by apply elem_of_list_singleton in Hf as ->]]. exists (mk_dom [[]; []; [ch_l 1 2 1]] (Some 1)), [ch_l 1 2 1]. split; [left|]. split; [right; right; left|left].
      * intros n f Hn Hf. apply elem_of_list_singleton in Hf as ->. cbn in Hn. rewrite !elem_of_cons, elem_of_nil in Hn. destruct Hn as [-> |[-> |[]]]; vm_compute; eauto.
  - constructor.
    + split; [intros doms inds f Hd Hf; apply elem_of_list_singleton in Hd as [= -> ->]; apply elem_of_list_singleton in Hf as ->; lia|]. intros f Hf. by apply elem_of_nil in Hf.
    + intros m r doms inds dom e n f Hx Hd Hdom Hf He Hn. apply elem_of_list_singleton in Hd as [= -> ->]. apply elem_of_list_singleton in Hf as ->. apply elem_of_list_lookup in Hx as [b Hb]. apply lookup_zip_with_Some in Hb as (? & ? & [= <- <-] & Hm & Hr).
      destruct (as_elem m e) as [[-> Ho]|[-> Ho]]; [by eapply elem_of_list_lookup_2|by exists dom| |]; cbn in Hn; rewrite !elem_of_cons, elem_of_nil in Hn; (destruct b as [|[|b]]; [| |by rewrite lookup_ge_None_2 in Hm by (cbn; lia)]); cbn in Hm; injection Hm as <-; try (by cbn in Ho); cbn in Hr; injection Hr as <-; destruct Hn as [-> |[-> |[]]]; vm_compute; eauto.
    + intros f Hf. by apply elem_of_nil in Hf.
Qed.
(** The threads' additions in reverse order, messages in any: the sum of the two local
    systems.  Entry (1,1), of rank 0, has contributions of both ranks. *)
Notation as_end ds dolds := (endAssembly 0%Z 1%Z Z.add Z.mul Z.sub 1 (fun _ _ => [1; 0]) ds dolds as_ex).
Notation as_run s := (assembleProblem Z.add 1 (fun _ => @rev _) as_ex as_calls s).
Notation as_values sys := (match sys with Ok l => map (fun x : graph * (list (list Z) * list (list Z)) => (g_row x.1, g_col x.1, g_inds x.1, x.2)) l | _ => [] end).
Example assembly_example :
  let sys := s ← as_run (construct 0%Z 1 as_ex); s ← as_end None [] s; getSystem as_ex s in
  as_values sys = [([0; 1], [0; 1; 2], [[0; 1]; [0; 1; 2]], ([[1%Z; (-1)%Z]; [(-1)%Z; 2%Z; (-1)%Z]], [[1%Z]; [2%Z]])); ([2], [2; 1], [[0; 1]], ([[1%Z; (-1)%Z]], [[1%Z]]))].
Proof. vm_compute. reflexivity. Qed.
(** Assembled a second time, the values are the same. *)
Example assembly_example_again :
  let sys := s ← as_run (construct 0%Z 1 as_ex); s ← as_end None [] s; s ← as_run (beginAssembly 0%Z 1 as_ex s); s ← as_end None [] s; getSystem as_ex s in
  as_values sys = [([0; 1], [0; 1; 2], [[0; 1]; [0; 1; 2]], ([[1%Z; (-1)%Z]; [(-1)%Z; 2%Z; (-1)%Z]], [[1%Z]; [2%Z]])); ([2], [2; 1], [[0; 1]], ([[1%Z; (-1)%Z]], [[1%Z]]))].
Proof. vm_compute. reflexivity. Qed.
(** Domain 2 prescribes the unknowns 1 and 2.  Rank 0 owns 1, and has no element of
    domain 2. *)
Example dirichlet_dofs_example : getDirichletDofs 100 (zip as_parts as_ex) as_def = Ok [([1], [1; 2]); ([2], [1; 2])].
Proof. vm_compute. reflexivity. Qed.
(** With a normalised component, the least unknown too. *)
Example dirichlet_dofs_example_norm : getDirichletDofs 100 (zip as_parts as_ex) {| bd_defs := []; bd_norm := [0] |} = Ok [([0], [0]); ([], [])].
Proof. vm_compute. reflexivity. Qed.
Definition as_ds : list dbc := match map_res (fun z : arank * (list nat * list nat) => make_dbc id (owned_graph z.1) z.2.1 z.2.2) (zip as_ex [([1], [1; 2]); ([2], [1; 2])]) with Ok ds => ds | _ => [] end.
Example assembly_dirichlet_example :
  let sys := s ← setDirichletBCValues (Some as_ds) (fun _ i => (10 * Z.of_nat i)%Z) (construct 0%Z 1 as_ex); s ← as_run s; s ← as_end (Some as_ds) (map (fun d => map (map (fun _ => 77%Z)) (db_sub d)) as_ds) s; getSystem as_ex s in
  as_values sys = [([0; 1], [0; 1; 2], [[0; 1]; [0; 1; 2]], ([[1%Z; 0%Z]; [0%Z; 1%Z; 0%Z]], [[11%Z]; [10%Z]])); ([2], [2; 1], [[0; 1]], ([[1%Z; 0%Z]], [[20%Z]]))].
Proof. vm_compute. reflexivity. Qed.

(** ** What does not hold *)
(** Two definitions on the same domains, one per component: the entries of a kernel with
    both components that couple them have no place in the graph and are dropped silently. *)
Definition as_pdef2 : list (list nat * list bool) := [([1; 2], [true; false]); ([1; 2], [false; true])].
Definition as_ex2 : list arank := Eval vm_compute in as_ranks 2 as_pdef2.
Lemma as_ex2_eq : as_ranks 2 as_pdef2 = as_ex2.
Proof. vm_compute. reflexivity. Qed.
Definition as_call2 : call Z := Build_call [0; 1] [0; 1] (fun _ _ => 1%Z) (fun _ _ => 1%Z).
Theorem assembly_coupling_refuted : exists T s1 s2 sys, aworld 2 as_parts as_ex2 as_pdef2 T /\
  (forall r n f, as_ex2 !! 0 = Some r -> n ∈ c_nodes as_call2 -> f ∈ c_fields as_call2 -> is_Some (unknown_no (ar_map r) n f)) /\
  assembleProblem Z.add 1 (fun _ => id) as_ex2 [[as_call2]; []] (construct 0%Z 1 as_ex2) = Ok s1 /\ endAssembly 0%Z 1%Z Z.add Z.mul Z.sub 1 (fun _ _ => [0; 1]) None [] as_ex2 s1 = Ok s2 /\ getSystem as_ex2 s2 = Ok sys /\
  Amat 0%Z Z.add as_ex2 [[as_call2]; []] 0 1 = 1%Z /\ forall p cv b, p ∈ parts sys -> has_row p 0 cv b -> 1 ∉ cv.*1.
Proof.
  destruct (as_world 2 as_pdef2) as (T & HW & _ & _). { intros ids bits H. unfold as_pdef2 in H. rewrite !elem_of_cons, elem_of_nil in H. by destruct H as [[= -> ->]|[[= -> ->]|[]]]. }
  rewrite as_ex2_eq in *. exists T. eexists _, _, _. split; [done|]. split.
  { intros r n f Hr Hn Hf. cbn in Hr, Hn, Hf. injection Hr as <-. rewrite !elem_of_cons, elem_of_nil in Hn, Hf. destruct Hn as [-> |[-> |[]]], Hf as [-> |[-> |[]]]; vm_compute; eauto. }
  split; [vm_compute; reflexivity|]. split; [vm_compute; reflexivity|]. split; [vm_compute; reflexivity|]. split; [vm_compute; reflexivity|].
  intros p cv b Hp (r & inds & vs & H1 & H2 & _ & _ & H5 & _) Hc. unfold parts in Hp. cbn in Hp. rewrite !elem_of_cons, elem_of_nil in Hp. destruct Hp as [-> |[-> |[]]]; cbn in H1, H2, H5.
  - destruct r as [|[|[|[|r]]]]; cbn in H1; try done. cbn in H2. injection H2 as <-. apply elem_of_list_lookup in Hc as [k Hk]. destruct (Forall2_lookup_r _ _ _ _ _ H5 Hk) as (x & Hx & Hg). apply elem_of_list_lookup_2 in Hx. rewrite !elem_of_cons, elem_of_nil in Hx. destruct Hx as [-> |[-> |Hx]]; cbn in Hg; try done. 
  - destruct r as [|[|r]]; cbn in H1; done.
Qed.
Print Assumptions assembly_coupling_refuted.
(** The kernel has a component that no definition has on the domain: not reported, an
    index out of bounds. *)
Theorem assembly_missing_refuted : exists T, aworld 1 as_parts as_ex as_pdef T /\
  assembleProblem Z.add 1 (fun _ => id) as_ex [[Build_call [0; 1] [0; 1] (fun _ _ => 1%Z) (fun _ _ => 1%Z)]; []] (construct 0%Z 1 as_ex) = UB.
Proof. exists 3. split; [apply assembly_example_world|]. vm_compute. reflexivity. Qed.
Print Assumptions assembly_missing_refuted.
(** A Dirichlet condition on a component that is not active on the whole boundary, or a
    normalised component that is active nowhere: not reported either. *)
Definition as_pdef3 : list (list nat * list bool) := [([1], [true; false])].
Definition as_ex3 : list arank := Eval vm_compute in as_ranks 2 as_pdef3.
Lemma as_ex3_eq : as_ranks 2 as_pdef3 = as_ex3.
Proof. vm_compute. reflexivity. Qed.
Theorem dirichlet_dofs_refuted : exists T, aworld 2 as_parts as_ex3 as_pdef3 T /\ T = 2 /\
  getDirichletDofs 100 (zip as_parts as_ex3) {| bd_defs := [([2], [0])]; bd_norm := [] |} = UB /\
  getDirichletDofs 100 (zip as_parts as_ex3) {| bd_defs := []; bd_norm := [1] |} = UB.
Proof.
  destruct (as_world 2 as_pdef3) as (T & HW & _ & ET). { intros ids bits H. by apply elem_of_list_singleton in H as [= -> ->]. } rewrite as_ex3_eq in *. exists T. split; [done|]. split; [by rewrite <- ET|]. split; vm_compute; reflexivity.
Qed.
Print Assumptions dirichlet_dofs_refuted.
