(** C50 and C64: gmsh elements and files. *)
From Coq Require Import QArith Lqa.
From Verif Require Import Base StdAlgo Elem_model Mesh_model Mesh_proofs Gmsh_model Gmsh_spec Gmsh_proofs Gmsh4_proofs Gmsh5_proofs.
Local Open Scope nat_scope.

(** C50.  Any line, quad or hex: no access out of bounds, and each vertex (id and
    coordinates) is at its place; only level clockwise quads are mirrored. *)
Theorem gmsh_element t data id : length data = length (gmsh_place t) -> exists e, makeElementFromNodeData t data id = Ok e /\ el_id e = id /\ imported t data e.
Proof. apply make_element_imported. Qed.
(** The normal of a level quad at the first vertex points up or vanishes; edges stay
    edges: the neighbours of each vertex are those it has in the file. *)
Definition ring4 {A} (l : list A) : list (A * A) := match l with [a; b; c; d] => [(a, b); (b, c); (c, d); (d, a)] | _ => [] end.
Definition quad_edges {A} (l : list A) : list (A * A) := match l with [a; b; c; d] => [(a, b); (b, d); (d, c); (c, a)] | _ => [] end.
Theorem gmsh_quad_normal data e : imported Quad data e -> length data = 4 ->
  (forall m n, (m, n) ∈ quad_edges (el_nodes e) \/ (n, m) ∈ quad_edges (el_nodes e) <-> (m, n) ∈ ring4 (data.*1) \/ (n, m) ∈ ring4 (data.*1)) /\
  (level data.*2 -> exists p q r s, el_verts e = [p; q; r; s] /\ (0 <= turn p q r)%Q).
Proof.
  intros H HL. destruct (list4 _ HL) as (a & b & c & d & ->). cbn [fmap list_fmap]. destruct (imported_quad a b c d e H) as [(En & Ev & Hn)|(En & Ev & Hn)]; rewrite En, Ev; cbn [quad_edges ring4]; split.
  - intros m n. rewrite !elem_of_cons, !elem_of_nil. intuition congruence.
  - intros Hl. do 4 eexists. split; [done|]. destruct (Qlt_le_dec (turn a.2 b.2 d.2) 0) as [Hlt|Hle]; [by destruct Hn|done].
  - intros m n. rewrite !elem_of_cons, !elem_of_nil. intuition congruence.
  - intros _. do 4 eexists. split; [done|]. unfold turn in *. lra.
Qed.
(** A strictly convex level quad of either orientation gets a positive Jacobian
    everywhere. *)
Lemma weighted_pos x y t1 t2 t3 t4 : (-1 <= x <= 1)%Q -> (-1 <= y <= 1)%Q -> (0 < t1)%Q -> (0 < t2)%Q -> (0 < t3)%Q -> (0 < t4)%Q ->
  (0 < (1 - x) * (1 - y) * t1 + (1 + x) * (1 - y) * t2 + (1 - x) * (1 + y) * t3 + (1 + x) * (1 + y) * t4)%Q.
Proof.
  intros Hx Hy H1 H2 H3 H4.
  assert (W1 : (0 <= (1 - x) * (1 - y))%Q) by (apply Qmult_le_0_compat; lra). assert (W2 : (0 <= (1 + x) * (1 - y))%Q) by (apply Qmult_le_0_compat; lra).
  assert (W3 : (0 <= (1 - x) * (1 + y))%Q) by (apply Qmult_le_0_compat; lra). assert (W4 : (0 <= (1 + x) * (1 + y))%Q) by (apply Qmult_le_0_compat; lra).
  assert (P1 : (0 <= (1 - x) * (1 - y) * t1)%Q) by (apply Qmult_le_0_compat; lra). assert (P2 : (0 <= (1 + x) * (1 - y) * t2)%Q) by (apply Qmult_le_0_compat; lra).
  assert (P3 : (0 <= (1 - x) * (1 + y) * t3)%Q) by (apply Qmult_le_0_compat; lra). assert (P4 : (0 <= (1 + x) * (1 + y) * t4)%Q) by (apply Qmult_le_0_compat; lra).
  assert (S : ((1 - x) * (1 - y) + (1 + x) * (1 - y) + (1 - x) * (1 + y) + (1 + x) * (1 + y) == 4)%Q) by ring.
  set (w1 := ((1 - x) * (1 - y))%Q) in *. set (w2 := ((1 + x) * (1 - y))%Q) in *. set (w3 := ((1 - x) * (1 + y))%Q) in *. set (w4 := ((1 + x) * (1 + y))%Q) in *.
  destruct (Qlt_le_dec 0 w1) as [L1|L1]; [assert (0 < w1 * t1)%Q by (by apply Qmult_lt_0_compat); lra|].
  destruct (Qlt_le_dec 0 w2) as [L2|L2]; [assert (0 < w2 * t2)%Q by (by apply Qmult_lt_0_compat); lra|].
  destruct (Qlt_le_dec 0 w3) as [L3|L3]; [assert (0 < w3 * t3)%Q by (by apply Qmult_lt_0_compat); lra|].
  assert (0 < w4 * t4)%Q by (apply Qmult_lt_0_compat; lra). lra.
Qed.
Theorem gmsh_quad_jacobian a b c d e : imported Quad [a; b; c; d] e -> level [a.2; b.2; c.2; d.2] ->
  ((0 < turn d.2 a.2 b.2)%Q /\ (0 < turn a.2 b.2 c.2)%Q /\ (0 < turn b.2 c.2 d.2)%Q /\ (0 < turn c.2 d.2 a.2)%Q) \/
  ((turn d.2 a.2 b.2 < 0)%Q /\ (turn a.2 b.2 c.2 < 0)%Q /\ (turn b.2 c.2 d.2 < 0)%Q /\ (turn c.2 d.2 a.2 < 0)%Q) ->
  exists p q r s, el_verts e = [p; q; r; s] /\ forall x y, (-1 <= x <= 1)%Q -> (-1 <= y <= 1)%Q -> (0 < jacobian p q r s x y)%Q.
Proof.
  intros He Hl Hc. destruct (imported_quad a b c d e He) as [(_ & Ev & Hn)|(_ & Ev & Hn)]; rewrite Ev; do 4 eexists; (split; [done|]); intros x y Hx Hy; rewrite jacobian_corners; apply weighted_pos; try done.
  all: assert (E1 : (turn d.2 a.2 b.2 == turn a.2 b.2 d.2)%Q) by (unfold turn; ring).
  1-4: destruct Hc as [(H1 & H2 & H3 & H4)|(H1 & H2 & H3 & H4)]; [|exfalso; apply Hn; split; [done|lra]]; unfold turn in *; lra.
  all: destruct Hc as [(H1 & H2 & H3 & H4)|(H1 & H2 & H3 & H4)]; [exfalso; lra|]; unfold turn in *; lra.
Qed.
Definition pt (x y : Z) : pt3 := (inject_Z x, inject_Z y, 0%Q).
(** If the corner at the first vertex is straight, a clockwise quad is not recognised:
    convex, but negative Jacobian. *)
Definition straight : list node_info := [(0, pt 0 0); (1, pt 1 0); (2, pt 0 (-1)); (3, pt (-1) 0)].
Theorem gmsh_straight_corner_refuted : level straight.*2 /\ exists a b c d e, straight.*2 = [a; b; c; d] /\
  (turn d a b <= 0)%Q /\ (turn a b c < 0)%Q /\ (turn b c d < 0)%Q /\ (turn c d a < 0)%Q /\
  makeElementFromNodeData Quad straight 0 = Ok e /\ exists p q r s, el_verts e = [p; q; r; s] /\ (jacobian p q r s 0 0 < 0)%Q.
Proof.
  split; [apply level_cons; intros q Hq; cbn in Hq; repeat (apply elem_of_cons in Hq as [-> |Hq]; [by vm_compute|]); by apply elem_of_nil in Hq|].
  do 5 eexists. split; [reflexivity|]. split; [by vm_compute|]. split; [by vm_compute|]. split; [by vm_compute|]. split; [by vm_compute|]. split; [vm_compute; reflexivity|]. do 4 eexists. split; [reflexivity|]. by vm_compute.
Qed.

(** C64.  Files without empty node blocks. *)
Theorem gmsh_read_partial f : valid_file f -> (forall b, b ∈ gf_nodes f -> nb_nodes b <> []) -> exists m, readMesh (write f) = Ok m /\ mesh_right f m.
Proof. apply read_mesh_right. Qed.

(** Two quads side by side with a boundary line. *)
Definition ex_entities : list (list entity) :=
  [ [ {| en_tag := 1; en_box := [0; 0; 0]%Q; en_phys := None; en_bounds := [] |} ];
    [ {| en_tag := 4; en_box := [0; 0; 0; 1; 1; 1]%Q; en_phys := Some 7; en_bounds := [1; -2]%Z |} ];
    [ {| en_tag := 1; en_box := [0; 0; 0; 1; 1; 1]%Q; en_phys := Some 9; en_bounds := [4; -4]%Z |}; {| en_tag := 2; en_box := [0; 0; 0; 1; 1; 1]%Q; en_phys := Some 9; en_bounds := [] |} ]; [] ].
Definition ex_nodes : list node_block :=
  [ {| nb_dim := 0; nb_entity := 1; nb_nodes := [(10, pt 0 0); (20, pt 1 0)] |}; {| nb_dim := 2; nb_entity := 1; nb_nodes := [(5, pt 1 1); (6, pt 0 1); (30, pt 2 0); (31, pt 2 1)] |} ].
Definition ex_blocks : list el_block :=
  [ {| eb_dim := 1; eb_entity := 4; eb_type := Line; eb_els := [(1, [10; 20])] |}; {| eb_dim := 2; eb_entity := 2; eb_type := Quad; eb_els := [(2, [20; 5; 31; 30])] |};
    {| eb_dim := 2; eb_entity := 1; eb_type := Quad; eb_els := [(3, [10; 20; 5; 6])] |} ].
Definition ex_file (ns : list node_block) : gmsh_file := {| gf_version := 41 # 10; gf_size := 8; gf_between := [Name (Other 0); Int 3]; gf_entities := ex_entities;
  gf_info := [6; 1; 31]; gf_nodes := ns; gf_info' := [3; 1; 3]; gf_blocks := ex_blocks; gf_after := [] |}.
Lemma ex_valid ns : NoDup (map fst (concat (map nb_nodes ns))) -> Forall (fun t => t ∈ map fst (concat (map nb_nodes ns))) [10; 20; 5; 6; 30; 31] -> valid_file (ex_file ns).
Proof.
  intros Hnd Hns. split; [by vm_compute|]. split. { cbn [gf_between ex_file]. intros s Hs. repeat (apply elem_of_cons in Hs as [Hs|Hs]; [try injection Hs as ->; done|]). by apply elem_of_nil in Hs. }
  split; [done|]. split; [done|]. split; [done|]. split.
  { intros dim es Hd. destruct dim as [|[|[|[|dim]]]]; try discriminate Hd; injection Hd as <-; (split; [apply (bool_decide_unpack _); by vm_compute|]); intros e He; repeat (apply elem_of_cons in He as [-> |He]; [done|]); by apply elem_of_nil in He. }
  unfold file_nodes. cbn [gf_nodes ex_file]. split; [done|]. rewrite Forall_forall in Hns.

  split.
  - intros b Hb. cbn [gf_blocks ex_file ex_blocks] in Hb. repeat (apply elem_of_cons in Hb as [-> |Hb]); try (by apply elem_of_nil in Hb); (split; [|intros x Hx; apply elem_of_list_singleton in Hx as ->; split; [done|]; intros tag Ht; cbn [snd] in Ht; repeat (apply elem_of_cons in Ht as [-> |Ht]; [apply Hns; apply (bool_decide_unpack _); by vm_compute|]); by apply elem_of_nil in Ht]).
    + exists 7. do 2 eexists. split; [reflexivity|]. split; [left|done].
    + exists 9. do 2 eexists. split; [reflexivity|]. split; [right; left|done].
    + exists 9. do 2 eexists. split; [reflexivity|]. split; [left|done].
  - assert (Hg : forall b k, b ∈ ex_blocks -> group_of (ex_file ns) b k -> (k = 7 /\ eb_type b = Line) \/ (k = 9 /\ eb_type b = Quad)).
    { intros b k Hb (es & e & Hes & He & Ht & Hk). unfold ex_blocks in Hb. repeat (apply elem_of_cons in Hb as [-> |Hb]); try (by apply elem_of_nil in Hb); injection Hes as <-; repeat (apply elem_of_cons in He as [-> |He]); try (by apply elem_of_nil in He); try discriminate Ht; injection Hk as <-; auto. }
    intros b b' k Hb Hb' H1 H2. destruct (Hg b k Hb H1) as [[-> ->]|[-> ->]], (Hg b' _ Hb' H2) as [[? ->]|[? ->]]; done.
Qed.
Example gmsh_file_example : valid_file (ex_file ex_nodes) /\ exists m, readMesh (write (ex_file ex_nodes)) = Ok m /\
  map fst m = [7; 9] /\ map (fun e => (el_id e, el_nodes e)) (all_elems m) = [(0, [0; 1]); (1, [1; 4; 2; 5]); (2, [0; 1; 3; 2])] /\ initial_ownership m = (0, 6).
Proof. split; [apply ex_valid; apply (bool_decide_unpack _); by vm_compute|]. eexists. split; [vm_compute; reflexivity|]. split; [by vm_compute|]. split; by vm_compute. Qed.

(** With an empty block of nodes in between (gmsh writes one for an entity without nodes
    of its own) the file is as valid, but is not read: the iterator over an empty range
    still takes one number. *)
Definition ex_empty : list node_block := match ex_nodes with [a; b] => [a; {| nb_dim := 1; nb_entity := 4; nb_nodes := [] |}; b] | l => l end.
Theorem gmsh_empty_block_refuted : valid_file (ex_file ex_empty) /\ forall m, readMesh (write (ex_file ex_empty)) <> Ok m.
Proof. split; [apply ex_valid; apply (bool_decide_unpack _); by vm_compute|]. intros m. replace (readMesh (write (ex_file ex_empty))) with (@Throw (dmap (domain pt3))) by (by vm_compute). done. Qed.

(** If every node of the file belongs to an element, the mesh owns nodes 0, 1, ..., n-1. *)
Theorem gmsh_owned_partial f m : valid_file f -> readMesh (write f) = Ok m -> (forall b, b ∈ gf_nodes f -> nb_nodes b <> []) ->
  (forall tag, tag ∈ map fst (file_nodes f) -> exists b tags, (b, tags) ∈ file_elements f /\ tag ∈ tags) ->
  initial_ownership m = (0, length (file_nodes f)).
Proof. intros Hv Hr Hne Hu. destruct (read_mesh_right f Hv Hne) as (m' & Hr' & Hm). assert (m' = m) as -> by congruence. by apply (owned_nodes f m). Qed.
Example gmsh_owned_example : forall tag, tag ∈ map fst (file_nodes (ex_file ex_nodes)) -> exists b tags, (b, tags) ∈ file_elements (ex_file ex_nodes) /\ tag ∈ tags.
Proof.
  intros tag Ht. set (L := file_elements (ex_file ex_nodes)). assert (H : tag ∈ concat (map snd L)).
  { change (map fst (file_nodes (ex_file ex_nodes))) with [10; 20; 5; 6; 30; 31] in Ht. change (concat (map snd L)) with [10; 20; 20; 5; 31; 30; 10; 20; 5; 6]. revert Ht. rewrite !elem_of_cons, !elem_of_nil. intuition. }
  apply elem_of_concat in H as (tags & Ht' & H). apply (elem_of_list_fmap snd) in H as ([b tags'] & -> & H). by exists b, tags'.
Qed.
(** A node that no element has (e.g. the centre of a circle, kept by gmsh) leaves a gap
    in the ids, and the mesh then does not own all nodes of its elements. *)
Definition ex_centre : list node_block := {| nb_dim := 0; nb_entity := 9; nb_nodes := [(10, pt 0 0); (99, pt 5 5)] |} :: {| nb_dim := 0; nb_entity := 1; nb_nodes := [(20, pt 1 0); (5, pt 1 1); (6, pt 0 1); (30, pt 2 0); (31, pt 2 1)] |} :: [].
Theorem gmsh_unused_node_refuted : valid_file (ex_file ex_centre) /\ exists m, readMesh (write (ex_file ex_centre)) = Ok m /\ initial_ownership m = (0, 6) /\ exists e, e ∈ all_elems m /\ 6 ∈ el_nodes e.
Proof. split; [apply ex_valid; apply (bool_decide_unpack _); by vm_compute|]. eexists. split; [vm_compute; reflexivity|]. split; [by vm_compute|]. eexists. split; [right; left|]. apply (bool_decide_unpack _). by vm_compute. Qed.

Print Assumptions gmsh_element.
Print Assumptions gmsh_quad_normal.
Print Assumptions gmsh_quad_jacobian.
Print Assumptions gmsh_straight_corner_refuted.
Print Assumptions gmsh_read_partial.
Print Assumptions gmsh_empty_block_refuted.
Print Assumptions gmsh_owned_partial.
Print Assumptions gmsh_unused_node_refuted.
