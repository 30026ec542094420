(** Property C26: node indices of element sides and interiors, for every order. *)
From Verif Require Import Base StdAlgo Elem_model Elem_spec Elem_proofs.

(** C26.  Every side's table lists exactly the nodes lying on the side, each
    once and in ascending order, (O+1)^(dim-1) of them; there is a table for
    every side and no other. *)
Theorem side_tables_list_side_nodes (t : etype) (O side : nat) :
  if decide (side < n_sides t)
  then exists l, getSideNodeIndices t O side = Ok l /\ StronglySorted lt l /\ length l = (O + 1) ^ (native_dim t - 1) /\
         forall i, i ∈ l <-> on_side t O side i
  else getSideNodeIndices t O side = Throw.
Proof.
  unfold getSideNodeIndices. destruct (boundary_table t O !! side) as [l|] eqn:E.
  - rewrite decide_True by (rewrite <- (table_length t O); by eapply lookup_lt_Some). exists l.
    destruct (side_table_ok t O side l E) as [H1 H2]. split; [done|]. split; [done|]. split; [by eapply side_length|done].
  - rewrite decide_False; [done|]. rewrite <- (table_length t O). apply lookup_ge_None in E. lia.
Qed.
Print Assumptions side_tables_list_side_nodes.
(** C26.  The boundary indices are the ascending union of the sides. *)
Theorem boundary_inds_are_union (t : etype) (O : nat) :
  StronglySorted lt (boundary_node_inds t O) /\ forall i, i ∈ boundary_node_inds t O <-> exists side, on_side t O side i.
Proof. exact (boundary_inds_ok t O). Qed.
Print Assumptions boundary_inds_are_union.
(** C26.  The internal indices are the ascending complement, (O-1)^dim of them. *)
Theorem internal_inds_are_complement (t : etype) (O : nat) :
  StronglySorted lt (internal_node_inds t O) /\
  (forall i, i ∈ internal_node_inds t O <-> i < nodes_per_element t O /\ ~ exists side, on_side t O side i) /\
  length (internal_node_inds t O) = (O - 1) ^ native_dim t.
Proof. destruct (internal_ok t O). split; [done|]. split; [done|apply internal_count]. Qed.
Print Assumptions internal_inds_are_complement.
(** C26.  The grid position of a node is where its reference location is: node i
    has the abscissae of its grid coordinates, so sides are where a coordinate is
    the first or the last abscissa. *)
Theorem node_locations_follow_grid {A} (t : etype) (O : nat) (absc : list A) (i : nat) :
  length absc = O + 1 ->
  length (node_locations t absc) = nodes_per_element t O /\
  (i < nodes_per_element t O -> exists x y z,
     absc !! grid_x O i = Some x /\ absc !! grid_y O i = Some y /\ (t = Hex -> absc !! grid_z O i = Some z) /\
     node_locations t absc !! i = Some (take (native_dim t) [x; y; z])).
Proof. intros H. split; [by apply locations_length|by apply locations_ok]. Qed.
Print Assumptions node_locations_follow_grid.
Example side_tables_example :
  getSideNodeIndices Hex 2 3 = Ok [6; 7; 8; 15; 16; 17; 24; 25; 26] /\ getSideNodeIndices Quad 2 3 = Ok [2; 5; 8] /\
  getSideNodeIndices Line 4 1 = Ok [4] /\ internal_node_inds Hex 2 = [13] /\ internal_node_inds Quad 3 = [5; 6; 9; 10] /\
  boundary_node_inds Quad 2 = [0; 1; 2; 3; 5; 6; 7; 8] /\ on_side Hex 2 3 16 /\
  node_locations Quad [10; 20; 30] !! 5 = Some [30; 20].
Proof. repeat split; vm_compute; try reflexivity; repeat constructor. Qed.
