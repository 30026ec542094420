(** Vocabulary of C42 and C43. *)
From Verif Require Import Base StdAlgo Elem_model Elem_spec Mesh_model Mesh_spec Cond_model.
Section elem.
  Context {V : Type}.
  (** Node number [i] of the element is on its boundary. *)
  Definition on_bnd (t : etype) (O i : nat) : bool :=
    let out v := (v =? 0) || (v =? O) in
    match t with Line => out (grid_x O i) | Quad => out (grid_x O i) || out (grid_y O i) | Hex => out (grid_x O i) || out (grid_y O i) || out (grid_z O i) end.
  Definition el_bnd (e : element V) (i : nat) : bool := on_bnd (el_type e) (el_order e) i.
  (** An unknown of an element is a pair of a node number and a component.  The unknowns
      of the local system of a kernel for the components [fields] are ordered by node,
      then in the order of [fields]. *)
  Definition kernel_unknowns (e : element V) (fields : list nat) : list (nat * nat) := list_prod (seq 0 (length (el_nodes e))) fields.
  (** [g n]: the global unknowns at the components of node [n]. *)
  Context (g : nat -> list (option nat)).
  Definition node_dof (e : element V) (w : nat * nat) : option nat := n ← el_nodes e !! w.1; d ← g n !! w.2; d.
  (** The global unknown that the primary unknown [w] is. *)
  Definition dof_of (e : element V) (w : nat * nat) : option nat := if el_bnd e w.1 then node_dof e w else None.
  (** [w] is an interior unknown: a component that all boundary nodes have. *)
  Definition interior (e : element V) (D : nat) (w : nat * nat) : Prop :=
    w.1 < length (el_nodes e) /\ el_bnd e w.1 = false /\ w.2 < D /\ forall i, i < length (el_nodes e) -> el_bnd e i = true -> is_Some (node_dof e (i, w.2)).
  Definition lex (w w' : nat * nat) : Prop := w.1 < w'.1 \/ w.1 = w'.1 /\ w.2 < w'.2.
  (** The list has exactly the pairs with [P], in order. *)
  Definition enumerates (P : nat * nat -> Prop) (l : list (nat * nat)) : Prop := StronglySorted lex l /\ forall w, w ∈ l <-> P w.
  (** The dof map has the global unknowns of the boundary nodes, translated to local
      indices of rows, columns and right-hand sides. *)
  Definition dofs_agree (D : nat) (dofs : nat -> res dof_triplet) (ro co ho : nat -> nat) (e : element V) : Prop :=
    forall i n, el_bnd e i = true -> el_nodes e !! i = Some n -> length (g n) = D /\
      dofs n = Ok (map (fmap ro) (g n), map (fmap co) (g n), map (fmap ho) (g n)).
  (** All boundary nodes have the components of the kernel. *)
  Definition fields_active (D : nat) (e : element V) (fields : list nat) : Prop :=
    NoDup fields /\ forall c, c ∈ fields -> c < D /\ forall i, i < length (el_nodes e) -> el_bnd e i = true -> is_Some (node_dof e (i, c)).
  (** The global unknowns of the element are in [U]; [f] is injective on [U]. *)
  Definition dofs_in (U : list nat) (e : element V) : Prop := forall w u, dof_of e w = Some u -> u ∈ U.
End elem.
Definition inj_on (U : list nat) (f : nat -> nat) : Prop := forall u v, u ∈ U -> v ∈ U -> f u = f v -> u = v.

Section algebra.
  Context {F : Type} (zero : F) (add mul : F -> F -> F).
  (** Sum over a list; the value under a condition. *)
  Definition Sig {A} (l : list A) (f : A -> F) : F := foldr (fun a s => add (f a) s) zero l.
  Definition only (P : Prop) `{Decision P} (x : F) : F := if decide P then x else zero.
  (** The entry for the unknowns [w], [w'] of a local matrix [a] of unknowns [K]; the
      entry of its right-hand side. *)
  Definition entry (K : list (nat * nat)) (a : nat -> nat -> F) (w w' : nat * nat) : F :=
    Sig (seq 0 (length K)) (fun k => only (K !! k = Some w) (Sig (seq 0 (length K)) (fun l => only (K !! l = Some w') (a k l)))).
  Definition load (K : list (nat * nat)) (b : nat -> F) (w : nat * nat) : F := Sig (seq 0 (length K)) (fun k => only (K !! k = Some w) (b k)).
  (** The same for global unknowns; [dof w]: the global unknown that [w] is. *)
  Definition gentry (K : list (nat * nat)) (dof : nat * nat -> option nat) (a : nat -> nat -> F) (u v : nat) : F :=
    Sig (seq 0 (length K)) (fun k => only (K !! k ≫= dof = Some u) (Sig (seq 0 (length K)) (fun l => only (K !! l ≫= dof = Some v) (a k l)))).
  Definition gload (K : list (nat * nat)) (dof : nat * nat -> option nat) (b : nat -> F) (u : nat) : F :=
    Sig (seq 0 (length K)) (fun k => only (K !! k ≫= dof = Some u) (b k)).
End algebra.

(** C43: the full system of all kernel calls, before elimination. *)
Section full.
  Context {F : Type} (zero one : F) (add mul : F -> F -> F) {V : Type}.
  Context (g : nat -> list (option nat)) (D : nat) (ids : list nat) (elem : nat -> element V).
  Notation Sig := (Sig zero add).
  Definition call_unknowns (c : @kernel_call F) : list (nat * nat) := kernel_unknowns (elem (kc_el c)) (kc_fields c).
  Definition call_dof (c : @kernel_call F) : nat * nat -> option nat := dof_of g (elem (kc_el c)).
  (** [x u]: the value of the global unknown [u]; [y id w]: of the interior unknown [w]
      of the element [id]. *)
  Definition val (x : nat -> F) (y : nat -> nat * nat -> F) (c : kernel_call) (k : nat) : F :=
    match call_unknowns c !! k with Some w => match call_dof c w with Some u => x u | None => y (kc_el c) w end | None => zero end.
  (** Row [k] of the product of the element matrix with the values. *)
  Definition row (x : nat -> F) (y : nat -> nat * nat -> F) (c : kernel_call) (k : nat) : F := Sig (seq 0 (length (call_unknowns c))) (fun l => mul (kc_a c k l) (val x y c l)).
  (** All equations hold for right-hand side [r]: of the global unknowns [U] and of the
      interior unknowns. *)
  Definition full_system (calls : list kernel_call) (U : list nat) (r : nat) (x : nat -> F) (y : nat -> nat * nat -> F) : Prop :=
    (forall u, u ∈ U -> Sig calls (fun c => gload zero add (call_unknowns c) (call_dof c) (row x y c) u) = Sig calls (fun c => gload zero add (call_unknowns c) (call_dof c) (fun k => kc_b c k r) u)) /\
    (forall id w, id ∈ ids -> interior g (elem id) D w ->
      Sig calls (fun c => only zero (kc_el c = id) (load zero add (call_unknowns c) (row x y c) w)) = Sig calls (fun c => only zero (kc_el c = id) (load zero add (call_unknowns c) (fun k => kc_b c k r) w))).
  (** The equations of the assembled system; [ro], [co], [ho]: its rows, columns and
      right-hand side entries. *)
  Definition condensed_system (ro co ho : nat -> nat) (gs : gsys) (U : list nat) (r : nat) (x : nat -> F) : Prop :=
    forall u, u ∈ U -> Sig U (fun v => mul (gs.1 (ro u) (co v)) (x v)) = gs.2 (ho u) r.
  Definition is_inverse (n : nat) (M N : nat -> nat -> F) : Prop :=
    forall i j, i < n -> j < n -> Sig (seq 0 n) (fun k => mul (M i k) (N k j)) = (if i =? j then one else zero) /\ Sig (seq 0 n) (fun k => mul (N i k) (M k j)) = (if i =? j then one else zero).
  (** The matrix of the interior unknowns of an element, in the order of [I]. *)
  Definition interior_block (calls : list kernel_call) (id : nat) (I : list (nat * nat)) (i j : nat) : F :=
    match I !! i, I !! j with Some w, Some w' => Sig calls (fun c => only zero (kc_el c = id) (entry zero add (call_unknowns c) (kc_a c) w w')) | _, _ => zero end.
  Definition symmetric (c : @kernel_call F) : Prop := forall k l, k < length (call_unknowns c) -> l < length (call_unknowns c) -> kc_a c k l = kc_a c l k.
  (** What is assumed of a call. *)
  Definition call_ok (c : @kernel_call F) : Prop := kc_el c ∈ ids /\ StronglySorted lt (kc_fields c) /\ fields_active g D (elem (kc_el c)) (kc_fields c) /\ symmetric c.
End full.
