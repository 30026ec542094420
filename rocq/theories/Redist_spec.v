(** Vocabulary of C38. *)
From Verif Require Import Base StdAlgo Ownership_model Ownership_spec Elem_model Elem_spec Mesh_model Mesh_spec Partition_spec.
Section spec.
  Context {V : Type}.
  Definition counts (parts : list (mesh V)) : list nat := map (fun y => so_end (m_own y) - so_begin (m_own y)) parts.
  (** Parts of a mesh of [N] nodes: the owned ranges follow each other in rank
      order; every node of an element is owned or shared; shared nodes are owned by
      another rank. *)
  Record distributed (parts : list (mesh V)) (N : nat) : Prop := {
    di_begin : forall r y, parts !! r = Some y -> so_begin (m_own y) <= so_end (m_own y) /\
      (so_begin (m_own y) < so_end (m_own y) -> so_begin (m_own y) = sum (take r (counts parts)));
    di_total : sum (counts parts) = N;
    di_shared : forall y, y ∈ parts -> StronglySorted lt (so_shared (m_own y)) /\ forall n, n ∈ so_shared (m_own y) -> n < N /\ ~ owned y n;
    di_keys : forall y, y ∈ parts -> NoDup (m_domains y).*1;
    di_nodes : forall y n, y ∈ parts -> is_node (m_domains y) n -> owned y n \/ n ∈ so_shared (m_own y);
    di_views : forall y id vs e s, y ∈ parts -> (id, vs) ∈ m_bnds y -> (e, s) ∈ vs -> is_elem (m_domains y) e }.
  (** Rank [r] receives the part of rank [srcs r], and sends its own to [dests]. *)
  Definition rank_permutation (P : nat) (srcs dests : list nat) : Prop :=
    length srcs = P /\ length dests = P /\ forall r s, srcs !! r = Some s <-> dests !! s = Some r.
  (** The number of node [n] after the parts have moved: the first number of the
      rank that has the owning part, plus the position among the owned nodes. *)
  Definition new_number (parts : list (mesh V)) (srcs : list nat) (n k : nat) : Prop :=
    exists q r y before, parts !! q = Some y /\ owned y n /\ srcs !! r = Some q /\
      Forall2 (fun s y' => parts !! s = Some y') (take r srcs) before /\ k = sum (counts before) + (n - so_begin (m_own y)).
  (** [y'] is [y] renumbered by [f]. *)
  Definition same_mesh (f : nat -> nat) (y y' : mesh V) : Prop :=
    Forall2 (fun d d' : nat * domain V => d'.1 = d.1 /\ d_dim d'.2 = d_dim d.2 /\ Forall2 (Forall2 (renumbered f)) (d_els d.2) (d_els d'.2)) (m_domains y) (m_domains y') /\
    Forall2 (fun b b' : nat * list (element V * nat) => b'.1 = b.1 /\ Forall2 (fun v v' => renumbered f v.1 v'.1 /\ v'.2 = v.2) b.2 b'.2) (m_bnds y) (m_bnds y') /\
    Sorted Nat.le (so_shared (m_own y')) /\ forall k, k ∈ so_shared (m_own y') <-> exists n, n ∈ so_shared (m_own y) /\ f n = k.
End spec.
