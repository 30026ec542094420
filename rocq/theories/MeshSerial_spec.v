(** Vocabulary of C17. *)
From Verif Require Import Base Elem_model Ownership_model Mesh_model MeshSerial_model Mesh_spec.

(** All numbers fit into the integers that store them: node and element ids and
    the bit patterns of coordinates into 64 bits, domain ids into 16 bits. *)
Definition fits64 (n : nat) : Prop := (N.of_nat n < 2 ^ 64)%N.
Definition fits16 (n : nat) : Prop := (N.of_nat n < 2 ^ 16)%N.
Definition el_fits (e : element point) : Prop :=
  Forall fits64 (el_nodes e) /\ fits64 (el_id e) /\
  Forall (fun p : point => (p.1.1 < 2 ^ 64)%N /\ (p.1.2 < 2 ^ 64)%N /\ (p.2 < 2 ^ 64)%N) (el_verts e).
Definition mesh_fits (m : mesh point) : Prop :=
  fits64 (length (m_domains m)) /\ fits64 (so_begin (m_own m)) /\ fits64 (numOwned (m_own m)) /\
  fits64 (length (m_bnds m)) /\ Forall fits16 (m_domains m).*1 /\ Forall fits16 (m_bnds m).*1 /\
  Forall (fun d => Forall (fun v => fits64 (length v) /\ Forall el_fits v) (d_els d.2)) (m_domains m).
(** No domain without elements has a dimension. *)
Definition no_stale_dim (m : mesh point) : Prop :=
  Forall (fun d : nat * domain point => (forall e, ~ in_domain [d] d.1 e) -> d_dim d.2 = None) (m_domains m).
