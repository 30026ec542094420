(** Vocabulary of C79. *)
From Verif Require Import Base StdAlgo Ownership_model Elem_model Mesh_model Mesh_spec Dofs_model Dofs_spec Sparsity_model Sparsity_spec Cond_spec Dirichlet_model Dirichlet_spec LocalBC_model Assembly_model.
Section spec.
  Context {F : Type} (zero one : F) (add mul : F -> F -> F).
  Notation Sig := (Cond_spec.Sig zero add).
  Notation only := (Cond_spec.only zero).
  (** The unknown at component [f] of node [n], on a rank with the dof map [g]. *)
  Definition unknown_no (g : dof_map) (n f : nat) : option nat :=
    match List.find (fun x : nat * list (option nat) => x.1 =? n) (dm_map g) with
    | Some (_, row) => match row !! f with Some d => d | None => None end
    | None => None end.
  (** Row [k] of a local system: ordered by node, then by component. *)
  Definition n_loc (c : call F) : nat := length (c_nodes c) * length (c_fields c).
  Definition loc_dof (g : dof_map) (c : call F) (k : nat) : option nat :=
    match c_nodes c !! (k / length (c_fields c)), c_fields c !! (k mod length (c_fields c)) with Some n, Some f => unknown_no g n f | _, _ => None end.
  (** What the local systems [cs] of one rank contribute to entry (i, j) of the matrix, and
      to entry [i] of right-hand side [q]. *)
  Definition mat_part (g : dof_map) (cs : list (call F)) (i j : nat) : F :=
    Sig cs (fun c => Sig (seq 0 (n_loc c)) (fun k => only (loc_dof g c k = Some i) (Sig (seq 0 (n_loc c)) (fun l => only (loc_dof g c l = Some j) (c_mat c k l))))).
  Definition rhs_part (g : dof_map) (cs : list (call F)) (i q : nat) : F :=
    Sig cs (fun c => Sig (seq 0 (n_loc c)) (fun k => only (loc_dof g c k = Some i) (c_rhs c k q))).
  (** The system of all elements of all ranks. *)
  Definition Amat (ranks : list arank) (calls : list (list (call F))) (i j : nat) : F := Sig (zip ranks calls) (fun x => mat_part (ar_map x.1) x.2 i j).
  Definition Bvec (ranks : list arank) (calls : list (list (call F))) (i q : nat) : F := Sig (zip ranks calls) (fun x => rhs_part (ar_map x.1) x.2 i q).

  Context {V : Type}.
  (** The call is for an element of one of the domains of a definition that has all
      components of the kernel (there is at least one), and all its unknowns exist. *)
  Definition covered (pdef : list (list nat * list bool)) (m : mesh V) (g : dof_map) (c : call F) : Prop :=
    (exists ids bits dom e, (ids, bits) ∈ pdef /\ dom ∈ ids /\ in_domain (m_domains m) dom e /\ c_nodes c = el_nodes e /\ forall f, f ∈ c_fields c -> bits !! f = Some true) /\
    c_fields c <> [] /\ (forall n f, n ∈ c_nodes c -> f ∈ c_fields c -> is_Some (unknown_no g n f)).
  (** Ranks with usable maps and the graphs of C41. *)
  Record aworld (D : nat) (meshes : list (mesh V)) (ranks : list arank) (pdef : list (list nat * list bool)) (T : nat) : Prop := {
    aw_usable : usable D (zip meshes (map ar_map ranks)) pdef T;
    aw_length : length meshes = length ranks;
    aw_graph : forall m r, (m, r) ∈ zip meshes ranks -> pattern_ok (dm_own (ar_map r)) (coupled false pdef m (ar_map r))
      (fun k c => exists m' r', (m', r') ∈ zip meshes ranks /\ coupled false pdef m' (ar_map r') k c) (ar_sp r) }.
  (** Every unknown belongs to an element of a definition. *)
  Definition all_used (meshes : list (mesh V)) (ranks : list arank) (pdef : list (list nat * list bool)) (T : nat) : Prop :=
    forall k, k < T -> exists m r, (m, r) ∈ zip meshes ranks /\ coupled false pdef m (ar_map r) k k.
  Definition calls_ok (meshes : list (mesh V)) (ranks : list arank) (pdef : list (list nat * list bool)) (calls : list (list (call F))) : Prop :=
    length calls = length ranks /\ forall b m r cs c, meshes !! b = Some m -> ranks !! b = Some r -> calls !! b = Some cs -> c ∈ cs -> covered pdef m (ar_map r) c.
  (** The assembled rows of all ranks are those of the system with matrix [A] and
      right-hand sides [B]: every unknown below [T] has a row, on one rank; it stores
      entries of [A], and those not stored are zero. *)
  Record is_system (nr T : nat) (A B : nat -> nat -> F) (ps : list (part F)) : Prop := {
    is_valid : Forall (valid_part nr) ps;
    is_rows : forall i, i < T <-> exists p, p ∈ ps /\ i ∈ g_row (p_graph p);
    is_once : forall a b p q i, ps !! a = Some p -> ps !! b = Some q -> i ∈ g_row (p_graph p) -> i ∈ g_row (p_graph q) -> a = b;
    is_entries : forall p i cv b, p ∈ ps -> has_row p i cv b -> (forall j v, (j, v) ∈ cv -> j < T /\ v = A i j) /\ (forall j, j ∉ cv.*1 -> A i j = zero) /\ b = map (B i) (seq 0 nr) }.
  Definition parts (l : list (graph * (list (list F) * list (list F)))) : list (part F) := map (fun x => mk_part x.1 x.2.1 x.2.2) l.
  (** The system and right-hand side with Dirichlet conditions. *)
  Definition Adir (C : nat -> bool) (A : nat -> nat -> F) (i j : nat) : F := if C i then only (i = j) one else if C j then zero else A i j.
  Definition Bdir (sub : F -> F -> F) (T : nat) (C : nat -> bool) (A B V : nat -> nat -> F) (i q : nat) : F :=
    if C i then V q i else sub (B i q) (Sig (seq 0 T) (fun j => only (C j = true) (mul (A i j) (V q j)))).
  (** Calls of several assembleProblem, put together. *)
  Definition together (ps : list (list (list (call F)))) (n : nat) : list (list (call F)) := map (fun b => concat (map (fun p => nth b p []) ps)) (seq 0 n).

  (** ** Dirichlet unknowns *)
  (** The definition prescribes unknown [d]: at a node of an element of the domain ... *)
  Definition prescribed_at (meshes : list (mesh V)) (ranks : list arank) (def : bc_def) (d : nat) : Prop :=
    exists m r doms inds dom e n f, (m, r) ∈ zip meshes ranks /\ (doms, inds) ∈ bd_defs def /\ dom ∈ doms /\ f ∈ inds /\ in_domain (m_domains m) dom e /\ n ∈ el_nodes e /\ unknown_no (ar_map r) n f = Some d.
  (** ... or it is the least unknown of a normalised component (at any node that a rank
      owns). *)
  Definition is_unknown (meshes : list (mesh V)) (ranks : list arank) (f d : nat) : Prop :=
    exists m r n, (m, r) ∈ zip meshes ranks /\ isOwned (m_own m) n = true /\ unknown_no (ar_map r) n f = Some d.
  Definition normalised_at (meshes : list (mesh V)) (ranks : list arank) (def : bc_def) (d : nat) : Prop :=
    exists f, f ∈ bd_norm def /\ is_unknown meshes ranks f d /\ forall d', is_unknown meshes ranks f d' -> d <= d'.
  Definition constrained (meshes : list (mesh V)) (ranks : list arank) (def : bc_def) (d : nat) : Prop := prescribed_at meshes ranks def d \/ normalised_at meshes ranks def d.
  (** What getDirichletDofs needs: indices in range, prescribed components exist on the
      whole boundary, normalised ones somewhere. *)
  Record def_ok (D : nat) (meshes : list (mesh V)) (ranks : list arank) (def : bc_def) : Prop := {
    do_inds : (forall doms inds f, (doms, inds) ∈ bd_defs def -> f ∈ inds -> f < D) /\ (forall f, f ∈ bd_norm def -> f < D);
    do_active : forall m r doms inds dom e n f, (m, r) ∈ zip meshes ranks -> (doms, inds) ∈ bd_defs def -> dom ∈ doms -> f ∈ inds -> in_domain (m_domains m) dom e -> n ∈ el_nodes e -> is_Some (unknown_no (ar_map r) n f);
    do_norm : forall f, f ∈ bd_norm def -> exists d, is_unknown meshes ranks f d }.
End spec.
