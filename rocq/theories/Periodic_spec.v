(** Vocabulary of C40. *)
From Verif Require Import Base StdAlgo Ownership_model Elem_model Mesh_model Mesh_spec Graph_spec Dofs_model Dofs_spec.
Section spec.
  Context {G : Type}.
  (** The definitions that concern component [j]. *)
  Definition concerned (defs : list (G * list bool)) (j : nat) : list G := map fst (List.filter (fun d => match d.2 !! j with Some b => b | None => false end) defs).
  (** All pairs matched, on any rank, for the groups [gs]. *)
  Definition pairs (matched : list G -> list (list nat * list nat)) (gs : list G) : list nat * list nat := (concat (map fst (matched gs)), concat (map snd (matched gs))).
  (** [u] and [v] are joined by a chain of pairs matched for [gs]. *)
  Definition joined (matched : list G -> list (list nat * list nat)) (gs : list G) (u v : nat) : Prop :=
    rtc (listed true (pairs matched gs).1 (pairs matched gs).2) u v.
  (** [a] is the least node of the chain of [n]. *)
  Definition least (matched : list G -> list (list nat * list nat)) (gs : list G) (n a : nat) : Prop :=
    joined matched gs n a /\ forall c, joined matched gs n c -> a <= c.
  (** The pairs matched for [gs] are pairs of nodes of the mesh, and no node is
      matched with itself only. *)
  Record matchable (N : nat) (matched : list G -> list (list nat * list nat)) (gs : list G) : Prop := {
    ma_len : forall z, z ∈ matched gs -> length z.1 = length z.2;
    ma_lt : forall n, n ∈ (pairs matched gs).1 \/ n ∈ (pairs matched gs).2 -> n < N;
    ma_other : forall n, n ∈ (pairs matched gs).1 \/ n ∈ (pairs matched gs).2 -> exists c, joined matched gs n c /\ c <> n }.
End spec.
