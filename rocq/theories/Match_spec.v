(** Vocabulary of C80. *)
From Coq Require Import QArith Qabs.
From Verif Require Import Base StdAlgo Ownership_model Elem_model Mesh_model Mesh_spec Merge_spec.

Notation qpt := (Q * Q * Q)%type.
Definition same_point (p q : qpt) : Prop := (p.1.1 == q.1.1 /\ p.1.2 == q.1.2 /\ p.2 == q.2)%Q.
(** Nearer than 10^-12. *)
Definition near (p q : qpt) : Prop :=
  ((p.1.1 - q.1.1) * (p.1.1 - q.1.1) + (p.1.2 - q.1.2) * (p.1.2 - q.1.2) + (p.2 - q.2) * (p.2 - q.2) < (1 # 1000000000000) * (1 # 1000000000000))%Q.
(** No coordinate exceeds 10^5. *)
Definition moderate (p : qpt) : Prop := (Qabs p.1.1 <= 100000 /\ Qabs p.1.2 <= 100000 /\ Qabs p.2 <= 100000)%Q.
Section spec.
  Notation msh := (mesh qpt).
  (** The vertices of every element are where its nodes are. *)
  Definition located (x : msh) (loc : nat -> qpt) : Prop :=
    forall e, is_elem (m_domains x) e -> Forall2 (fun n v => same_point v (loc n)) (el_nodes e) (el_verts e).
  Definition boundary_node (x : msh) (n : nat) : Prop := exists b, boundary_el x b /\ n ∈ el_nodes b.
  (** Boundary nodes of the two meshes at less than the tolerance are at the same place, and
      those of the first mesh are farther apart than that. *)
  Definition fitting (x1 x2 : msh) (loc1 loc2 : nat -> qpt) : Prop :=
    (forall a b, boundary_node x2 a -> boundary_node x1 b -> near (loc2 a) (loc1 b) -> same_point (loc2 a) (loc1 b)) /\
    (forall b b', boundary_node x1 b -> boundary_node x1 b' -> near (loc1 b) (loc1 b') -> b = b').
  (** Elements with the same corners, in any order. *)
  Definition same_place (e1 e2 : element qpt) : Prop := exists vs, Forall2 same_point (el_verts e2) vs /\ vs ≡ₚ el_verts e1.
End spec.
