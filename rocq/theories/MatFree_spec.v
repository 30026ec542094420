(** Vocabulary of C75. *)
From Verif Require Import Base StdAlgo Dofs_model Ownership_spec ImportExport_spec NodeVals_model NodeVals_spec LocalBC_model LocalBC_spec Cond_spec MatFree_model.
Section spec.
  Context {F : Type} (zero one : F) (add mul sub : F -> F -> F).
  Notation Sig := (Cond_spec.Sig zero add).
  Notation only := (Cond_spec.only zero).
  Definition n_dofs (j : job F) : nat := length (j_nodes j) * length (j_fields j).
  (** Unknown [i] of a job: ordered by node, then by component.  Its local number. *)
  Definition job_dof (m : local_dof_map) (j : job F) (i : nat) : option nat :=
    match j_nodes j !! (i / length (j_fields j)), j_fields j !! (i mod length (j_fields j)) with
    | Some n, Some f => match ld_map m !! n with Some row => match row !! f with Some d => d | None => None end | None => None end
    | _, _ => None end.
  (** The evaluation of the job multiplies by the matrix [K].  The sum-factorised one takes
      the operand ordered by right-hand side, component, node, and leaves the result ordered
      by node, right-hand side, component (C73). *)
  Definition applies (j : job F) (K : nat -> nat -> F) : Prop :=
    let nn := length (j_nodes j) in let nu := length (j_fields j) in
    let y x i r := Sig (seq 0 (n_dofs j)) (fun k => mul (K i k) (x k r)) in
    match j_eval j with
    | Direct ev => forall nc (x : nat -> nat -> F), exists y', ev nc x = Ok y' /\ forall i r, i < n_dofs j -> r < nc -> y' i r = y x i r
    | SumFact ev => forall nc (x : nat -> nat -> F) gather,
        (forall buf, n_dofs j * nc <= length buf -> exists buf', gather buf = Ok buf' /\ length buf' = length buf /\
           forall J u r, J < nn -> u < nu -> r < nc -> buf' !! (J + nn * (u + nu * r)) = Some (x (J * nu + u) r)) ->
        exists buf, ev nc gather = Ok buf /\ forall i r, i < n_dofs j -> r < nc -> buf !! (i mod nu + nu * r + nu * nc * (i / nu)) = Some (y x i r)
    end.
  (** The precomputation gives the diagonal of [K] and the right-hand side [B] minus the
      columns of Dirichlet unknowns (C72, [reduced_rhs]). *)
  Definition initialises (nr : nat) (j : job F) (K B : nat -> nat -> F) : Prop :=
    forall inds vals, (forall k, k ∈ inds -> k < n_dofs j) -> exists d rhs, j_init j inds vals = Ok (d, rhs) /\ (forall i, i < n_dofs j -> d i = K i i) /\
      forall i r, i < n_dofs j -> r < nr -> rhs i r = sub (B i r) (Sig (seq 0 (length inds)) (fun k => mul (K i (nth k inds 0)) (vals k r))).

  (** Rank [b] knows [g] under the number [d]. *)
  Definition hits (counts : list nat) (shareds : list (list nat)) (b g : nat) (d : option nat) : bool :=
    match local_of counts shareds b g, d with Some l, Some l' => l =? l' | _, _ => false end.
  (** The job's unknowns exist; those of interior elements are owned. *)
  Definition job_ok (m : local_dof_map) (lim : nat) (j : job F) : Prop :=
    (forall n, n ∈ j_nodes j -> n < length (ld_map m)) /\ forall i, i < n_dofs j -> exists l, job_dof m j i = Some l /\ l < lim.
  (** The rank's Dirichlet dofs are those in [dir] (C74). *)
  Definition bc_ok (counts : list nat) (shareds : list (list nat)) (dir : nat -> bool) (b : nat) (bc : dbc) : Prop :=
    match bc with
    | None => forall g l, local_of counts shareds b g = Some l -> dir g = false
    | Some (set, sorted) => (forall g l, local_of counts shareds b g = Some l -> l ∈ set <-> dir g = true) /\
        (forall g l, local_of counts shareds b g = Some l -> l ∈ sorted <-> dir g = true /\ owns counts b g) /\
        (forall l, l ∈ sorted -> exists g, local_of counts shareds b g = Some l) /\ NoDup sorted
    end.
  Record mf_world (counts : list nat) (shareds : list (list nat)) (ranks : list (mf_rank F)) (dir : nat -> bool) : Prop := {
    mw_tables : tables counts shareds;
    mw_length : length ranks = length counts;
    mw_border : forall b c sh r j, counts !! b = Some c -> shareds !! b = Some sh -> ranks !! b = Some r -> j ∈ mr_border r -> job_ok (mr_map r) (c + length sh) j;
    mw_interior : forall b c r j, counts !! b = Some c -> ranks !! b = Some r -> j ∈ mr_interior r -> job_ok (mr_map r) c j;
    mw_bc : forall b r, ranks !! b = Some r -> bc_ok counts shareds dir b (mr_bc r) }.

  (** Sum over all jobs of all ranks. *)
  Definition over_jobs (ranks : list (mf_rank F)) (f : nat -> mf_rank F -> job F -> F) : F :=
    Sig (seq 0 (length ranks)) (fun b => match ranks !! b with Some r => Sig (mr_border r ++ mr_interior r) (f b r) | None => zero end).
  Section matrices.
    Context (counts : list nat) (shareds : list (list nat)) (ranks : list (mf_rank F)) (dir : nat -> bool) (K B : job F -> nat -> nat -> F).
    (** The assembled matrix, right-hand side, and sum of diagonals. *)
    Definition Amat (g h : nat) : F := over_jobs ranks (fun b r j => Sig (seq 0 (n_dofs j)) (fun i => only (hits counts shareds b g (job_dof (mr_map r) j i) = true)
      (Sig (seq 0 (n_dofs j)) (fun k => only (hits counts shareds b h (job_dof (mr_map r) j k) = true) (K j i k))))).
    Definition Bvec (g r : nat) : F := over_jobs ranks (fun b rk j => Sig (seq 0 (n_dofs j)) (fun i => only (hits counts shareds b g (job_dof (mr_map rk) j i) = true) (B j i r))).
    Definition Dvec (g : nat) : F := over_jobs ranks (fun b r j => Sig (seq 0 (n_dofs j)) (fun i => only (hits counts shareds b g (job_dof (mr_map r) j i) = true) (K j i i))).
    (** With Dirichlet rows and columns replaced by those of the identity. *)
    Definition Adir (g h : nat) : F := if dir g then only (g = h) one else if dir h then zero else Amat g h.
    Definition N : nat := total counts.
    Definition product (M : nat -> nat -> F) (X : nat -> nat -> F) (g r : nat) : F := Sig (seq 0 N) (fun h => mul (M g h) (X h r)).
    Definition Bdir (V : nat -> nat -> F) (g r : nat) : F :=
      if dir g then V g r else sub (Bvec g r) (Sig (seq 0 N) (fun h => only (dir h = true) (mul (Amat g h) (V h r)))).
  End matrices.
  (** The owned columns of all ranks hold [X]. *)
  Definition holds (counts : list nat) (nc : nat) (X : nat -> nat -> F) (xs : list (list (list F))) : Prop :=
    length xs = length counts /\
    forall b c x, counts !! b = Some c -> xs !! b = Some x -> length x = nc /\
      forall r col, x !! r = Some col -> length col = c /\ forall g, owns counts b g -> col !! (g - first_owned counts b) = Some (X g r).
  (** The Dirichlet values are known to all ranks: owned and shared. *)
  Definition holds_all (counts : list nat) (shareds : list (list nat)) (nr : nat) (V : nat -> nat -> F) (vals : list (list (list F))) : Prop :=
    length vals = length counts /\
    forall b v, vals !! b = Some v -> length v = nr /\ forall r col g l, v !! r = Some col -> local_of counts shareds b g = Some l -> col !! l = Some (V g r).
End spec.
