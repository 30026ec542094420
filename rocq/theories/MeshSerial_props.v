(** Property C17: mesh serialisation. *)
From Verif Require Import Base StdAlgo Ownership_model Elem_model Serial_model Serial_spec Serial_proofs Mesh_model Mesh_spec Mesh_proofs
  MeshSerial_model MeshSerial_spec MeshSerial_proofs.

(** C17.  deserializeMesh applied to the archive of a mesh made by the
    constructor, whatever follows the archive, gives a mesh with the same domains
    (ids, dimensions, elements in order, with types, nodes, coordinates and ids),
    the same boundaries and views, the same owned nodes and the same shared ids. *)
Theorem mesh_serialization_roundtrip (orders : list nat) (sched : list (element point) -> list (element point))
    (shuffle shuffle' : list nat -> list nat) (m : dmap (domain point)) (b n : nat) (ids : list nat) (x : mesh point) (rest : list byte) :
  NoDup orders -> valid_doms orders m -> (forall l, sched l ≡ₚ l) -> (forall l, shuffle l ≡ₚ l) -> (forall l, shuffle' l ≡ₚ l) ->
  make_mesh2 sched shuffle m b n ids = Ok x -> mesh_fits x -> no_stale_dim x ->
  exists so, deserializeMesh orders sched shuffle' (serializeMesh x ++ rest) = Ok (mk_mesh (m_domains x) so (m_bnds x)) /\
    so_shared so = so_shared (m_own x) /\ numOwned so = numOwned (m_own x) /\ forall i, isOwned so i = isOwned (m_own x) i.
Proof.
  intros Hnd Hv Hs H1 H2 Hx Hf Hst.
  assert (m_domains x = m) as Hm.
  { pose proof (mesh2_ok orders sched shuffle m b n ids Hv Hs H1) as H. destruct (initBoundaryViews sched m ids); [|congruence|congruence].
    destruct H as (so & Hso & _). rewrite Hx in Hso. by injection Hso as ->. }
  rewrite mesh_round by (done || by rewrite Hm). by apply (copy_ok orders sched shuffle shuffle' m b n ids).
Qed.
Print Assumptions mesh_serialization_roundtrip.
(** C17.  An incomplete archive is rejected. *)
Theorem mesh_serialization_truncated (orders : list nat) (sched : list (element point) -> list (element point))
    (shuffle : list nat -> list nat) (x : mesh point) (p q : list byte) :
  valid_doms orders (m_domains x) -> mesh_fits x -> serializeMesh x = p ++ q -> q <> [] ->
  deserializeMesh orders sched shuffle p = Throw.
Proof.
  intros Hv Hf E Hq. unfold deserializeMesh. by rewrite (truncated (t_mesh orders) (v_mesh x) p q (mesh_type orders x Hv Hf) E Hq).
Qed.
Print Assumptions mesh_serialization_truncated.
(** C17.  The dimension of a domain is not stored: an empty boundary domain
    that has a dimension is accepted by the constructor, but its archive cannot
    be read back. *)
Definition ex_point : point := (0, 4607182418800017408, 13830554455654793216)%N.
Definition ex_sq (n : list nat) (i : nat) : element point := mk_el Quad 1 n [ex_point; (0, 0, 0)%N; ex_point; ex_point] i.
Definition ex_ln (n : list nat) (i : nat) : element point := mk_el Line 1 n [ex_point; ex_point] i.
Theorem mesh_serialization_empty_domain_refuted : exists (m : dmap (domain point)) x,
  valid_doms [1] m /\ make_mesh2 (fun l => l) (fun l => l) m 0 4 [1] = Ok x /\ mesh_fits x /\
  deserializeMesh [1] (fun l => l) (fun l => l) (serializeMesh x) = Throw.
Proof.
  exists [(0, mk_dom [[]; [ex_sq [0; 1; 2; 3] 0]; []] (Some 2)); (1, mk_dom [[]; []; []] (Some 1))]. eexists.
  split; [|split; [vm_compute; reflexivity|split; [|vm_compute; reflexivity]]].
  - split; [repeat constructor|]. constructor; [|constructor; [|constructor]]; cbn [snd]; (split; [repeat constructor|]); intros v e Hv He; cbn [d_els d_dim] in *.
    + rewrite !elem_of_cons, elem_of_nil in Hv. destruct Hv as [-> |[-> |[-> |[]]]]; try (by apply elem_of_nil in He).
      by apply elem_of_list_singleton in He as ->.
    + rewrite !elem_of_cons, elem_of_nil in Hv. destruct Hv as [-> |[-> |[-> |[]]]]; by apply elem_of_nil in He.
  - repeat split; repeat constructor.
Qed.
Print Assumptions mesh_serialization_empty_domain_refuted.

(** Two quadrilaterals, one edge of which is the boundary; half of the nodes are owned. *)
Definition ex_sdoms : dmap (domain point) :=
  [(3, mk_dom [[]; [ex_sq [0; 1; 3; 4] 600; ex_sq [1; 2; 4; 5] 601]; []] (Some 2)); (300, mk_dom [[]; []; [ex_ln [1; 0] 2]] (Some 1))].
Example mesh_serialization_example : NoDup [1] /\ valid_doms [1] ex_sdoms /\
  exists x, make_mesh2 (fun l => l) (fun l => l) ex_sdoms 3 3 [300] = Ok x /\ mesh_fits x /\ no_stale_dim x /\
    length (serializeMesh x) = 430 /\ deserializeMesh [1] (fun l => l) (@rev nat) (serializeMesh x ++ [7]%N) = Ok x.
Proof.
  split; [repeat constructor; apply not_elem_of_nil|]. split.
  - split; [repeat constructor|]. constructor; [|constructor; [|constructor]]; cbn [snd]; (split; [repeat constructor|]); intros v e Hv He; cbn [d_els d_dim] in *;
      rewrite !elem_of_cons, elem_of_nil in Hv; (destruct Hv as [-> |[-> |[-> |[]]]]; try (by apply elem_of_nil in He));
      rewrite !elem_of_cons, elem_of_nil in He; naive_solver.
  - eexists. split; [vm_compute; reflexivity|]. split; [repeat split; repeat constructor|]. split; [|split; vm_compute; reflexivity].
    constructor; [|constructor; [|constructor]]; cbn [fst snd]; intros H; exfalso.
    + eapply (H (ex_sq [0; 1; 3; 4] 600)). eexists _, _. split; [left|]. split; [right; left|left].
    + eapply (H (ex_ln [1; 0] 2)). eexists _, _. split; [left|]. split; [right; right; left|left].
Qed.
