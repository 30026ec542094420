(** Vocabulary of C39 and C40. *)
From Verif Require Import Base StdAlgo Ownership_model Elem_model Elem_spec Mesh_model Mesh_spec Partition_model Partition_spec Dofs_model Redist_spec.
Section spec.
  Context {V : Type}.
  Notation el := (element V).
  (** Nodes of an element that carry unknowns: all, or those on its boundary. *)
  Definition primary (cond : bool) (e : el) (n : nat) : Prop := if cond then bnd_node e n else n ∈ el_nodes e.
  (** Component [j] is active at node [n] because of an element of the part [m]. *)
  Definition active_in (cond : bool) (pdef : list (list nat * list bool)) (m : mesh V) (n j : nat) : Prop :=
    exists ids bits id e, (ids, bits) ∈ pdef /\ bits !! j = Some true /\ id ∈ ids /\ in_domain (m_domains m) id e /\ primary cond e n.
  (** The periodic condition makes component [j] of node [n] that of node [a]. *)
  Definition passive (b : pbc) (n j a : nat) : Prop := exists row, (n, row) ∈ pb_info b /\ row !! j = Some (Some a).
  Definition identified (ranks : list (mesh V * pbc)) (n j a : nat) : Prop := exists m b, (m, b) ∈ ranks /\ passive b n j a.
  (** What every rank needs to number the unknowns: parts of a mesh of [N] nodes
      with [D] components; every rank knows the periodic partners of its owned
      nodes, a partner is itself not passive, and is a node of the part or a ghost. *)
  Record numberable (D : nat) (ranks : list (mesh V * pbc)) (pdef : list (list nat * list bool)) (N : nat) : Prop := {
    nb_dist : distributed ranks.*1 N;
    nb_typed : forall m b e, (m, b) ∈ ranks -> is_elem (m_domains m) e -> typed_el e;
    nb_bits : forall ids bits, (ids, bits) ∈ pdef -> length bits = D;
    nb_keys : forall m b, (m, b) ∈ ranks -> NoDup (pb_info b).*1 /\ forall n row, (n, row) ∈ pb_info b -> owned m n /\ length row = D;
    nb_target : forall m b n j a, (m, b) ∈ ranks -> passive b n j a ->
      (owned m a \/ a ∈ so_shared (m_own m) \/ a ∈ pb_ghosts b) /\ forall a', ~ identified ranks a j a';
    nb_ghosts : forall m b, (m, b) ∈ ranks -> StronglySorted lt (pb_ghosts b) /\ forall n, n ∈ pb_ghosts b -> n < N /\ ~ owned m n /\ n ∉ so_shared (m_own m) }.
  (** Some rank has an element that activates component [j] at [n], or at a node
      that this rank knows to be a passive partner of [n]. *)
  Definition wanted (cond : bool) (ranks : list (mesh V * pbc)) (pdef : list (list nat * list bool)) (n j : nat) : Prop :=
    exists m b t, (m, b) ∈ ranks /\ active_in cond pdef m t j /\ (passive b t j n \/ (forall a, ~ passive b t j a) /\ t = n).
  (** [num n j] numbers the unknowns from 0 to [T], by node, then by component. *)
  Record numbering (D N T : nat) (wants : nat -> nat -> Prop) (num : nat -> nat -> option nat) : Prop := {
    nu_def : forall n j, n < N -> j < D -> is_Some (num n j) <-> wants n j;
    nu_order : forall n j k n' j' k', j < D -> j' < D -> num n j = Some k -> num n' j' = Some k' -> n < n' \/ n = n' /\ j < j' -> k < k';
    nu_onto : forall k, k < T <-> exists n j, n < N /\ j < D /\ num n j = Some k }.
  (** The unknown at component [j] of node [n]: that of its partner, or its own. *)
  Definition unknown_at (ranks : list (mesh V * pbc)) (num : nat -> nat -> option nat) (n j : nat) (d : option nat) : Prop :=
    (forall a, identified ranks n j a -> d = num a j) /\ ((forall a, ~ identified ranks n j a) -> d = num n j).
  (** The map [g] of the rank with part [m]: a row for every node; the owned
      unknowns are those numbered at owned nodes, the shared ones are the others
      that occur at a node of the part or at a ghost. *)
  Record dof_map_ok (D : nat) (ranks : list (mesh V * pbc)) (num : nat -> nat -> option nat) (m : mesh V) (b : pbc) (g : dof_map) : Prop := {
    dk_keys : NoDup (dm_map g).*1 /\ forall n, n ∈ (dm_map g).*1 <-> owned m n \/ n ∈ so_shared (m_own m);
    dk_rows : forall n row, (n, row) ∈ dm_map g -> length row = D /\ forall j, j < D -> exists d, row !! j = Some d /\ unknown_at ranks num n j d;
    dk_owned : forall k, so_begin (dm_own g) <= k < so_end (dm_own g) <-> exists n j, owned m n /\ j < D /\ num n j = Some k;
    dk_sorted : StronglySorted lt (so_shared (dm_own g));
    dk_shared : forall k, k ∈ so_shared (dm_own g) <-> ~ (so_begin (dm_own g) <= k < so_end (dm_own g)) /\
      exists n j, (owned m n \/ n ∈ so_shared (m_own m) \/ n ∈ pb_ghosts b) /\ j < D /\ unknown_at ranks num n j (Some k) }.
  (** Owned ranges of unknowns follow each other in rank order and end at [T]. *)
  Definition consecutive (owns : list ownership) (T : nat) : Prop :=
    let sizes := map (fun o => so_end o - so_begin o) owns in
    sum sizes = T /\ forall r o, owns !! r = Some o -> so_begin o <= so_end o /\ so_begin o = sum (take r sizes).
End spec.
