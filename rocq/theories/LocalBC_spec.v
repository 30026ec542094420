(** Vocabulary of C74. *)
From Verif Require Import Base StdAlgo Elem_model Elem_spec LocalView_model Dofs_model Ownership_spec ImportExport_spec NodeVals_model NodeVals_spec LocalBC_model.
Section spec.
  Context {V : Type}.
  (** The definition asks for component [j] on boundary [d]. *)
  Definition prescribed (def : bc_def) (d j : nat) : Prop := exists doms inds, (doms, inds) ∈ bd_defs def /\ d ∈ doms /\ j ∈ inds.
  (** Local unknown [l]: component [j] of the node numbered [n] on the rank. *)
  Definition unknown_of (m : local_dof_map) (n j l : nat) : Prop := exists row, ld_map m !! n = Some row /\ row !! j = Some (Some l).
  (** Local unknown [l] lies on a side of the element that is in a boundary where it is
      prescribed. *)
  Definition on_dirichlet_side (D : nat) (def : bc_def) (m : local_dof_map) (lv : lview V) (l : nat) : Prop :=
    exists nodes s d i n j, getLocalNodes lv = Ok nodes /\ lv_sides lv !! s = Some (Some d) /\ on_side (lv_type lv) (lv_order lv) s i /\ nodes !! i = Some n /\
      j < D /\ prescribed def d j /\ unknown_of m n j l.
  (** Unknown [g] is on a Dirichlet boundary, seen from whatever rank. *)
  Definition dirichlet_somewhere (D : nat) (def : bc_def) (counts : list nat) (shareds : list (list nat)) (ranks : list (bc_rank V)) (g : nat) : Prop :=
    exists b r lv l, ranks !! b = Some r /\ lv ∈ br_border r ++ br_interior r /\ on_dirichlet_side D def (br_map r) lv l /\ local_of counts shareds b g = Some l.
  (** [picks] has one unknown per normalised component, of that component. *)
  Definition is_choice (def : bc_def) (counts : list nat) (shareds : list (list nat)) (ranks : list (bc_rank V)) (picks : list nat) : Prop :=
    Forall2 (fun j g => exists b r n l, ranks !! b = Some r /\ unknown_of (br_map r) n j l /\ local_of counts shareds b g = Some l) (bd_norm def) picks.
  (** The flags of rank [b] say exactly which of its unknowns satisfy [P]. *)
  Definition flags_say (counts : list nat) (shareds : list (list nat)) (b : nat) (P : nat -> Prop) (flags : list bool) : Prop :=
    forall g l, local_of counts shareds b g = Some l -> exists f, flags !! l = Some f /\ (f = true <-> P g).
  (** The rank's view of the mesh fits its map: elements have all their nodes, sides exist,
      node numbers and unknowns are in range; interior elements have owned unknowns only. *)
  Record bc_rank_ok (D c s : nat) (r : bc_rank V) : Prop := {
    bk_sizes : ld_owned (br_map r) = c /\ ld_total (br_map r) = c + s;
    bk_rows : forall row, row ∈ ld_map (br_map r) -> length row = D /\ forall l, Some l ∈ row -> l < c + s;
    bk_views : forall lv, lv ∈ br_border r ++ br_interior r -> exists nodes, getLocalNodes lv = Ok nodes /\ length nodes = nodes_per_element (lv_type lv) (lv_order lv) /\ 0 < lv_order lv /\ length (lv_sides lv) = n_sides (lv_type lv) /\
       forall n, n ∈ nodes -> n < length (ld_map (br_map r));
    bk_interior : forall lv nodes n j l, lv ∈ br_interior r -> getLocalNodes lv = Ok nodes -> n ∈ nodes -> unknown_of (br_map r) n j l -> l < c }.
  Definition order_ok (o : bc_order) : Prop := (forall l, bo_border o l ≡ₚ l) /\ (forall l, bo_interior o l ≡ₚ l).
  (** One definition, one map and one pair of views per rank. *)
  Record bc_world (D : nat) (def : bc_def) (counts : list nat) (shareds : list (list nat)) (ranks : list (bc_rank V)) : Prop := {
    bw_tables : tables counts shareds;
    bw_length : length ranks = length counts;
    bw_ranks : forall b c sh r, counts !! b = Some c -> shareds !! b = Some sh -> ranks !! b = Some r -> bc_rank_ok D c (length sh) r;
    bw_sorted : forall x, x ∈ bd_defs def -> Sorted Nat.le x.1;
    bw_norm : forall j, j ∈ bd_norm def -> j < D }.
  (** Some rank finds the component among the first nodes of its map, as many as it has owned
      unknowns. *)
  Definition found (ranks : list (bc_rank V)) (j : nat) : Prop := exists r n l, r ∈ ranks /\ n < ld_owned (br_map r) /\ unknown_of (br_map r) n j l.
End spec.
(** What the user calls on a BCDefinition. *)
Inductive bc_call := CDirichlet (domains dof_inds : list nat) | CNormalize (dof_inds : list nat).
Definition build (D : nat) (calls : list bc_call) : res bc_def :=
  for_each (fun c b => match c with CDirichlet doms inds => defineDirichletBoundary D doms inds b | CNormalize inds => normalize D inds b end) calls no_bc.
Definition call_inds (c : bc_call) : list nat := match c with CDirichlet _ inds => inds | CNormalize inds => inds end.
