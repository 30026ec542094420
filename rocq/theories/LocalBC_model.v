(** The set of Dirichlet unknowns of a matrix-free system:
    include/l3ster/bcs/LocalDirichletBC.hpp and DirichletBCDefinition
    (include/l3ster/bcs/BCDefinition.hpp 11-39).  The flags are booleans. *)
From Verif Require Import Base StdAlgo Elem_model Mesh_model LocalView_model Dofs_model Ownership_spec ImportExport_spec NodeVals_model.

(** DirichletBCDefinition, 13-38: getUniqueCopy sorts and drops repetitions; [bd_norm] are
    the components to be normalised, ascending (getTrueInds of a bitset).  [D] is
    max_dofs_per_node. *)
Record bc_def := { bd_defs : list (list nat * list nat); bd_norm : list nat }.
Definition no_bc : bc_def := {| bd_defs := []; bd_norm := [] |}.
Definition defineDirichletBoundary (D : nat) (domains dof_inds : list nat) (b : bc_def) : res bc_def :=
  _ ← throwing_assert (forallb (fun i => i <? D) dof_inds);
  Ok {| bd_defs := bd_defs b ++ [(unique (sort domains), unique (sort dof_inds))]; bd_norm := bd_norm b |}.
(** BCDefinition::normalize, 115-121. *)
Definition normalize (D : nat) (dof_inds : list nat) (b : bc_def) : res bc_def :=
  _ ← throwing_assert (forallb (fun i => i <? D) dof_inds);
  Ok {| bd_defs := bd_defs b; bd_norm := List.filter (fun i => existsb (Nat.eqb i) (bd_norm b ++ dof_inds)) (seq 0 D) |}.

(** The valid ones. *)
Definition somes (l : list (option nat)) : list nat := omap (fun d => d) l.

Section marks.
  Context {V : Type} (D : nat) (def : bc_def).
  (** 89-94: dof_bmp and its true indices. *)
  Definition side_comps (domain : nat) : list nat :=
    List.filter (fun i => existsb (fun x : list nat * list nat => binary_search x.1 domain && existsb (Nat.eqb i) x.2) (bd_defs def)) (seq 0 D).
  (** LocalDofMap::operator(), NodeToDofMap.hpp 97: `at`. *)
  Definition dofs_at (m : local_dof_map) (n : nat) : res (list (option nat)) := match ld_map m !! n with Some row => Ok row | None => Throw end.
  (** mark_side_dofs, 84-104: the flags set for one element. *)
  Definition view_marks (m : local_dof_map) (lv : lview V) : res (list nat) :=
    el_nodes ← getLocalNodes lv;
    ls ← map_res (fun sd : nat * nat =>
      inds ← getSideNodeIndices (lv_type lv) (lv_order lv) sd.1;
      ls ← map_res (fun node_ind =>
        n ← rd el_nodes node_ind;
        row ← dofs_at m n;
        ds ← map_res (rd row) (side_comps sd.2);
        Ok (somes ds)) inds;
      Ok (concat ls)) (getBoundaries lv);
    Ok (concat ls).
  (** mark_dirichlet_dofs, 105-108. *)
  Definition marks (m : local_dof_map) (views : list (lview V)) : res (list nat) := ls ← map_res (view_marks m) views; Ok (concat ls).
End marks.
(** dirichlet_dofs_bmp.at(dof) = true, 101 and 113. *)
Definition set_flags (l : list nat) (flags : list bool) : res (list bool) :=
  for_each (fun d f => if d <? length f then wr f d true else Throw) l flags.

(** getNormalizationDofs, 36-72.  First the search on each rank, 50-60 ... *)
Definition min_dof (current examined : option nat) : option nat :=
  match examined, current with None, _ => current | Some e, None => Some e | Some e, Some c => Some (Nat.min c e) end.
Definition my_norm_dofs (m : local_dof_map) (num_owned_nodes : nat) (norm_inds : list nat) : res (list (option nat)) :=
  for_each (fun dofs cur => ex ← map_res (rd dofs) norm_inds; Ok (zip_with min_dof cur ex)) (take num_owned_nodes (ld_map m)) (map (fun _ => None) norm_inds).
(** ... then the reduction, 61-71: the first rank that found an unknown takes its own.
    [all]: what the ranks found. *)
Definition first_rank (all : list (list (option nat))) (k : nat) : option nat :=
  head (List.filter (fun b => match all !! b with Some l => match l !! k with Some (Some _) => true | _ => false end | None => false end) (seq 0 (length all))).
Definition pick_norm_dofs (all : list (list (option nat))) (n_norm rank : nat) : res (list nat) :=
  _ ← throwing_assert (forallb (fun k => match first_rank all k with Some _ => true | None => false end) (seq 0 n_norm));
  mine ← rd all rank;
  Ok (somes (map (fun k => match first_rank all k with Some b => if b =? rank then match mine !! k with Some d => d | None => None end else None | None => None end) (seq 0 n_norm))).

Section world.
  Context {V : Type}.
  (** What a rank knows: the dof map, the two local views. *)
  Record bc_rank := { br_map : local_dof_map; br_border : list (lview V); br_interior : list (lview V) }.
  (** 111: called with the number of owned dofs, on all ranks. *)
  Definition normalization (def : bc_def) (ranks : list bc_rank) : res (list (list nat)) :=
    if decide (bd_norm def = []) then Ok (map (fun _ => []) ranks)
    else all ← map_res (fun r => my_norm_dofs (br_map r) (ld_owned (br_map r)) (bd_norm def)) ranks;
         map_res (pick_norm_dofs all (length (bd_norm def))) (seq 0 (length ranks)).
  (** The order in which the threads of a rank set the flags. *)
  Record bc_order := { bo_border : list nat -> list nat; bo_interior : list nat -> list nat }.
  (** 76-127 on one rank up to exporter.wait: the flags when postSends is called and when
      wait is called. *)
  Definition flag_phase (D : nat) (def : bc_def) (o : bc_order) (r : bc_rank) (norm_dofs : list nat) : res (list bool * list bool) :=
    f0 ← set_flags norm_dofs (replicate (ld_total (br_map r)) false);
    mb ← marks D def (br_map r) (br_border r);
    f1 ← set_flags (bo_border o mb) f0;
    mi ← marks D def (br_map r) (br_interior r);
    f2 ← set_flags (bo_interior o mi) f1;
    Ok (f1, f2).
  (** 128-130: the flags after the export (with `or`) and the import. *)
  Definition flags_exchanged (counts : list nat) (shareds : list (list nat)) (phases : list (list bool * list bool)) (finals : list (list bool)) : Prop :=
    exists owneds, length owneds = length counts /\ length finals = length counts /\
      forall b c sh ph o f, counts !! b = Some c -> shareds !! b = Some sh -> phases !! b = Some ph -> owneds !! b = Some o -> finals !! b = Some f ->
        exported orb counts shareds (zip_with (fun ph c => drop c ph.1) phases counts) b (take c ph.2) o /\
        exists s, f = o ++ s /\ length s = length sh /\ imported counts shareds owneds b s.
  (** 132-139: m_dofs_set, in an order of the hash table, and m_dofs_sorted. *)
  Definition dofs_set (hash : list nat -> list nat) (flags : list bool) : list nat := hash (true_inds flags).
  Definition dofs_sorted (num_owned : nat) (set : list nat) : list nat := sort (List.filter (fun d => d <? num_owned) set).
End world.
Arguments bc_rank : clear implicits.
