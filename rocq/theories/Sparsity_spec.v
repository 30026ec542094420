(** Vocabulary of C41. *)
From Verif Require Import Base StdAlgo Ownership_model Elem_model Mesh_model Mesh_spec Dofs_model Dofs_spec Sparsity_model.
(** All orders are orders. *)
Definition fair (sc : schedule) : Prop :=
  (forall l, s_count sc l ≡ₚ l) /\ (forall l, s_reserve sc l ≡ₚ l) /\ (forall l, s_copy sc l ≡ₚ l) /\ (forall l, s_rows sc l ≡ₚ l) /\ (forall l, s_arrive sc l ≡ₚ l) /\ (forall l, s_append sc l ≡ₚ l).
(** Index [k] is owned, or owned or shared, under [o]. *)
Definition dof_owned (o : ownership) (k : nat) : Prop := so_begin o <= k < so_end o.
Definition dof_local (o : ownership) (k : nat) : Prop := dof_owned o k \/ k ∈ so_shared o.
Section spec.
  Context {V : Type}.
  (** [k] is the unknown of an active component at a primary node of [e]. *)
  Definition el_unknown (cond : bool) (g : dof_map) (bits : list bool) (e : element V) (k : nat) : Prop :=
    exists n row j, primary cond e n /\ (n, row) ∈ dm_map g /\ bits !! j = Some true /\ row !! j = Some (Some k).
  (** An element of a domain of one definition has the unknowns [k] and [c]. *)
  Definition coupled (cond : bool) (pdef : list (list nat * list bool)) (m : mesh V) (g : dof_map) (k c : nat) : Prop :=
    exists ids bits id e, (ids, bits) ∈ pdef /\ id ∈ ids /\ in_domain (m_domains m) id e /\ el_unknown cond g bits e k /\ el_unknown cond g bits e c.
  (** What the dof maps must satisfy (C39): consecutive ranges ending at [T], shared
      dofs are others; every element node has a row with entries for [D] components,
      and the dofs in it are owned or shared. *)
  Record usable (D : nat) (ranks : list (mesh V * dof_map)) (pdef : list (list nat * list bool)) (T : nat) : Prop := {
    us_cons : consecutive (map (fun x : mesh V * dof_map => dm_own x.2) ranks) T;
    us_bits : forall ids bits, (ids, bits) ∈ pdef -> length bits = D;
    us_typed : forall m g e, (m, g) ∈ ranks -> is_elem (m_domains m) e -> typed_el e;
    us_domains : forall m g, (m, g) ∈ ranks -> NoDup (m_domains m).*1;
    us_shared : forall m g, (m, g) ∈ ranks -> StronglySorted lt (so_shared (dm_own g)) /\ forall k, k ∈ so_shared (dm_own g) -> k < T /\ ~ dof_owned (dm_own g) k;
    us_keys : forall m g, (m, g) ∈ ranks -> NoDup (dm_map g).*1 /\ forall e n, is_elem (m_domains m) e -> n ∈ el_nodes e -> n ∈ (dm_map g).*1;
    us_rows : forall m g n row, (m, g) ∈ ranks -> (n, row) ∈ dm_map g -> length row = D /\ forall j k, row !! j = Some (Some k) -> dof_local (dm_own g) k }.
  (** The column of local index [l]. *)
  Definition col_at (cols : ownership) (l c : nat) : Prop := getGlobalIndex cols l = Ok c.
  (** The pattern of the rank with dof ownership [o]: [here k c] - coupled on this
      rank, [any k c] - on some rank. *)
  Record pattern_ok (o : ownership) (here any : nat -> nat -> Prop) (s : sparsity) : Prop := {
    po_owned : forall c, dof_owned (sg_cols s) c <-> dof_owned o c;
    po_range : so_end (sg_cols s) = so_begin (sg_cols s) + numOwned o /\ (numOwned o = 0 -> so_begin (sg_cols s) = 0);
    po_sorted : StronglySorted lt (so_shared (sg_cols s));
    po_shared : forall c, c ∈ so_shared (sg_cols s) <-> ~ dof_owned o c /\ (c ∈ so_shared o \/ exists k, dof_owned o k /\ any k c);
    po_len : length (sg_rows s) = localSize o /\ sg_sizes s = map length (sg_rows s);
    po_rows : forall l row, sg_rows s !! l = Some row -> StronglySorted lt row /\ Forall (fun i => i < localSize (sg_cols s)) row /\
      exists k, getGlobalIndex o l = Ok k /\
        (dof_owned o k -> forall c, any k c <-> exists i, i ∈ row /\ col_at (sg_cols s) i c) /\
        (~ dof_owned o k -> forall c, here k c <-> exists i, i ∈ row /\ col_at (sg_cols s) i c) }.
End spec.
