(** What the graph functions should compute. *)
From Verif Require Import Base StdAlgo Graph_model.

(** There is an edge from u to v. *)
Definition edge (g : crs) (u v : nat) : Prop := exists l, row g u = Ok l /\ v ∈ l.
(** Every row is readable and names only vertices of the graph. *)
Definition well_formed (g : crs) : Prop :=
  0 < length (crs_offs g) /\
  forall u, u < crs_rows g -> exists l, row g u = Ok l /\ Forall (fun v => v < crs_rows g) l.
Definition symmetric (g : crs) : Prop := forall u v, edge g u v -> edge g v u.
(** The edges an edge list stands for. *)
Definition listed (undirected : bool) (from to : list nat) (u v : nat) : Prop :=
  (u, v) ∈ zip from to \/ (undirected = true /\ (v, u) ∈ zip from to).
