(** Properties of merge (C22). *)
From Verif Require Import Base StdAlgo Ownership_model Elem_model Elem_spec Mesh_model Mesh_spec Mesh_proofs Prim_spec Prim_proofs Merge_model Merge_spec Merge_proofs Merge2_proofs Merge4_proofs.

(** C22.  Merging two unpartitioned meshes succeeds, for every match.  The nodes of
    mesh 1 keep their numbers; a matched node of mesh 2 gets the number of its
    partner, the others are numbered consecutively after those of mesh 1.  The
    elements are those of both meshes, in their domains, without the boundary
    elements that coincide.  Ids are 0, 1, ... without gaps; the order of the ids is
    kept, mesh 1 before mesh 2.  The result is an unpartitioned mesh whose
    boundaries are the boundaries of either mesh that are not empty. *)
Theorem merge_valid {V} sched shuffle mm (x1 x2 : mesh V) n1 k1 n2 k2 :
  (forall l, sched l ≡ₚ l) -> (forall l, shuffle l ≡ₚ l) ->
  whole_mesh x1 n1 k1 -> whole_mesh x2 n2 k2 -> compatible x1 x2 -> matching mm n1 n2 ->
  exists y f g1 g2, merge sched shuffle mm x1 x2 = Ok y /\
    let m := m_domains y in let N := n1 + n2 - length mm in
    renumbering mm n1 n2 N f /\
    (forall id e', in_domain m id e' <->
       (exists e, in_domain (m_domains x1) id e /\ ~ removed1 mm x1 x2 e /\ moved (fun i => i) g1 e e') \/
       (exists e, in_domain (m_domains x2) id e /\ ~ removed2 mm x1 x2 e /\ moved f g2 e e')) /\
    (forall e e', is_elem (m_domains x1) e -> is_elem (m_domains x1) e' -> ~ removed1 mm x1 x2 e -> el_id e < el_id e' -> g1 (el_id e) < g1 (el_id e')) /\
    (forall e e', is_elem (m_domains x2) e -> is_elem (m_domains x2) e' -> ~ removed2 mm x1 x2 e -> el_id e < el_id e' -> g2 (el_id e) < g2 (el_id e')) /\
    (forall e e', is_elem (m_domains x1) e -> is_elem (m_domains x2) e' -> ~ removed1 mm x1 x2 e -> g1 (el_id e) < g2 (el_id e')) /\
    whole_mesh y N (length (all_elems m)) /\ ascending m /\
    forall id, id ∈ (m_bnds y).*1 <-> (id ∈ (m_bnds x1).*1 \/ id ∈ (m_bnds x2).*1) /\ exists e, in_domain m id e.
Proof. apply merge_ok. Qed.
Print Assumptions merge_valid.

(** Unit squares side by side: a quadrilateral with its left (domain 1) and right
    (domain 2) sides.  [x] is the abscissa of the left side. *)
Definition sq_doms (x : nat) : dmap (domain (nat * nat)) :=
  [(1, mk_dom [[]; []; [mk_el Line 1 [0; 2] [(x, 0); (x, 1)] 2]] (Some 1));
   (2, mk_dom [[]; []; [mk_el Line 1 [1; 3] [(x + 1, 0); (x + 1, 1)] 1]] (Some 1));
   (7, mk_dom [[]; [mk_el Quad 1 [0; 1; 2; 3] [(x, 0); (x + 1, 0); (x, 1); (x + 1, 1)] 0]; []] (Some 2))].
Definition sq_mesh (x : nat) : mesh (nat * nat) :=
  mk_mesh (sq_doms x) {| so_begin := 0; so_end := 4; so_shared := [] |}
    [(1, [(mk_el Quad 1 [0; 1; 2; 3] [(x, 0); (x + 1, 0); (x, 1); (x + 1, 1)] 0, 2)]);
     (2, [(mk_el Quad 1 [0; 1; 2; 3] [(x, 0); (x + 1, 0); (x, 1); (x + 1, 1)] 0, 3)])].
Lemma sq_mesh_made x : make_mesh2 (@rev _) (@rev nat) (sq_doms x) 0 4 [1; 2] = Ok (sq_mesh x).
Proof. reflexivity. Qed.
Lemma sq_in x id e : in_domain (sq_doms x) id e -> (id = 1 /\ e = mk_el Line 1 [0; 2] [(x, 0); (x, 1)] 2) \/
  (id = 2 /\ e = mk_el Line 1 [1; 3] [(x + 1, 0); (x + 1, 1)] 1) \/ (id = 7 /\ e = mk_el Quad 1 [0; 1; 2; 3] [(x, 0); (x + 1, 0); (x, 1); (x + 1, 1)] 0).
Proof.
  intros (d & v & Hd & Hv & He). unfold sq_doms in Hd. rewrite !elem_of_cons, elem_of_nil in Hd.
  destruct Hd as [[= -> ->]|[[= -> ->]|[[= -> ->]|[]]]]; cbn [d_els] in Hv; rewrite !elem_of_cons, elem_of_nil in Hv;
    destruct Hv as [-> |[-> |[-> |[]]]]; try (by apply elem_of_nil in He); apply elem_of_list_singleton in He; tauto.
Qed.
Lemma sq_valid x : valid_doms [1] (sq_doms x).
Proof.
  split; [cbn; repeat constructor|]. unfold sq_doms. rewrite !Forall_cons, Forall_nil. cbn [snd].
  split; [|split; [|split; [|done]]]; (split; [unfold typed_domain; cbn [d_els]; change (slots [1]) with [(Hex, 1); (Quad, 1); (Line, 1)]; repeat (apply Forall2_cons; split); try apply Forall2_nil; try done; rewrite ?Forall_cons, ?Forall_nil; done|]); intros v e Hv He; cbn [d_els snd] in Hv; rewrite !elem_of_cons, elem_of_nil in Hv;
    destruct Hv as [-> |[-> |[-> |[]]]]; try (by apply elem_of_nil in He); apply elem_of_list_singleton in He as ->; done.
Qed.
Example merge_example_valid x : whole_mesh (sq_mesh x) 4 3.
Proof.
  assert (Hq : in_domain (sq_doms x) 7 (mk_el Quad 1 [0; 1; 2; 3] [(x, 0); (x + 1, 0); (x, 1); (x + 1, 1)] 0)) by (eexists _, _; split; [do 2 right; left|split; [right; left|left]]).
  assert (Hp : forall id b, id ∈ [1; 2] -> in_domain (sq_doms x) id b -> exists s, side_of b (mk_el Quad 1 [0; 1; 2; 3] [(x, 0); (x + 1, 0); (x, 1); (x + 1, 1)] 0) s /\ native_dim (el_type b) = 1).
  { intros id b Hid Hb. pose proof (sq_mesh_made x) as Hm. pose proof (made_views _ _ _ _ _ _ _ (sq_valid x) (fun l => symmetry (Permutation_rev l)) (fun l => symmetry (Permutation_rev l)) Hm) as Hvw.
    rewrite !elem_of_cons, elem_of_nil in Hid. destruct Hid as [-> |[-> |[]]].
    - destruct (Hvw 1 _ ltac:(left)) as (bs & Hbs & HF). apply Hbs in Hb. inversion HF as [|b0 v bs0 vs Ha HF']; subst. inversion HF'; subst. apply elem_of_list_singleton in Hb as ->.
      destruct Ha as (_ & Hn & Hs). exists 2. split; [done|]. cbn in Hn. lia.
    - destruct (Hvw 2 _ ltac:(right; left)) as (bs & Hbs & HF). apply Hbs in Hb. inversion HF as [|b0 v bs0 vs Ha HF']; subst. inversion HF'; subst. apply elem_of_list_singleton in Hb as ->.
      destruct Ha as (_ & Hn & Hs). exists 3. split; [done|]. cbn in Hn. lia. }
  split.
  - apply sq_valid.
  - cbn. apply (bool_decide_unpack _). by vm_compute.
  - intros i. split.
    + intros (e & [id He] & Hi). apply sq_in in He as [[-> ->]|[[-> ->]|[-> ->]]]; cbn [el_nodes] in Hi; rewrite !elem_of_cons, elem_of_nil in Hi; lia.
    + intros Hi. eexists. split; [exists 7; exact Hq|]. cbn [el_nodes]. rewrite !elem_of_cons. lia.
  - done.
  - cbn. repeat constructor.
  - apply (made_views _ _ _ _ _ _ _ (sq_valid x) (fun l => symmetry (Permutation_rev l)) (fun l => symmetry (Permutation_rev l)) (sq_mesh_made x)).
  - intros id b Hid Hb. cbn in Hid. destruct (Hp id b Hid Hb) as (s & Hs & Hd). eexists 7, _, s. split; [cbn; rewrite !elem_of_cons, elem_of_nil; lia|]. split; [exact Hq|]. rewrite Hd. done.
Qed.
(** The right side of the first meets the left side of the second. *)
Definition sq_match : list (nat * nat) := [(2, 3); (0, 1)].
Example merge_example_hypotheses : compatible (sq_mesh 0) (sq_mesh 1) /\ matching sq_match 4 4.
Proof.
  split; [split; [|split]|].
  - intros id e1 e2 H1 H2. apply sq_in in H1 as [[-> ->]|[[-> ->]|[-> ->]]], H2 as [[? ->]|[[? ->]|[? ->]]]; (done || lia).
  - done.
  - done.
  - split; [apply (bool_decide_unpack _); by vm_compute|]. intros a b H. unfold sq_match in H. rewrite !elem_of_cons, elem_of_nil in H. destruct H as [[= -> ->]|[[= -> ->]|[]]]; lia.
Qed.
(** Six nodes; the sides in the middle are gone. *)
Example merge_example : exists y, merge (@rev _) (@rev nat) sq_match (sq_mesh 0) (sq_mesh 1) = Ok y /\ so_end (m_own y) = 6 /\ (m_bnds y).*1 = [1; 2] /\
  all_elems (m_domains y) = [mk_el Line 1 [0; 2] [(0, 0); (0, 1)] 1; mk_el Line 1 [4; 5] [(2, 0); (2, 1)] 3;
    mk_el Quad 1 [0; 1; 2; 3] [(0, 0); (1, 0); (0, 1); (1, 1)] 0; mk_el Quad 1 [1; 4; 3; 5] [(1, 0); (2, 0); (1, 1); (2, 1)] 2].
Proof. eexists. split; [vm_compute; reflexivity|]. done. Qed.
(** Without a match nothing is removed. *)
Example merge_disjoint_example : exists y, merge (@rev _) (@rev nat) [] (sq_mesh 0) (sq_mesh 5) = Ok y /\ so_end (m_own y) = 8 /\
  map el_id (all_elems (m_domains y)) = [2; 5; 1; 4; 0; 3].
Proof. eexists. split; [vm_compute; reflexivity|]. done. Qed.
(** A merged mesh can be merged again: three squares in a row. *)
Example merge_twice_example : exists y z, merge (@rev _) (@rev nat) sq_match (sq_mesh 0) (sq_mesh 1) = Ok y /\
  merge (@rev _) (@rev nat) [(0, 4); (2, 5)] y (sq_mesh 2) = Ok z /\ so_end (m_own z) = 8 /\ map (fun e => (el_id e, el_nodes e)) (all_elems (m_domains z)) =
    [(1, [0; 2]); (4, [6; 7]); (0, [0; 1; 2; 3]); (2, [1; 4; 3; 5]); (3, [4; 6; 5; 7])].
Proof. eexists _, _. split; [vm_compute; reflexivity|]. split; [vm_compute; reflexivity|]. done. Qed.
