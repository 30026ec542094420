(** Setting nodal values from all ranks: include/l3ster/algsys/ComputeValuesAtNodes.hpp and
    include/l3ster/algsys/AssembledSystem.hpp:160-204.  One column (right-hand side);
    further columns are treated in the same way.  Arithmetic is exact.  The evaluation of
    the kernel and the walk over elements and nodes appear as a list of contributions
    (local number of the unknown, value) in the order in which the threads make them; each
    atomic operation is one step. *)
From Verif Require Import Base Ownership_spec ImportExport_spec.

(** What a rank contributes: elements of the border mesh, of the interior mesh (elements
    whose unknowns all are owned, MatrixFreeSystem.hpp:967-981). *)
Record rank_in (F : Type) := { ri_border : list (nat * F); ri_interior : list (nat * F) }.
Arguments ri_border {F} _. Arguments ri_interior {F} _.

(** What the ranks send for index [g]: the entries of their shared arrays. *)
Definition sent {V} (shareds : list (list nat)) (arrays : list (list V)) (g : nat) : list V :=
  omap (fun b => sh ← shareds !! b; s ← arrays !! b; if decide (g ∈ sh) then s !! entry_of sh g else None) (seq 0 (length shareds)).
(** The effect of an Export on rank [a] (C11, [export_correct]): [arrays] are the shared
    arrays of all ranks when postSends is called, [before] and [after] the owned array
    when wait is called and when it returns. *)
Definition exported {V} (combine : V -> V -> V) (counts : list nat) (shareds : list (list nat)) (arrays : list (list V)) (a : nat) (before after : list V) : Prop :=
  length after = length before /\
  (forall g old, owns counts a g -> before !! (g - first_owned counts a) = Some old ->
     exists l, l ≡ₚ sent shareds arrays g /\ after !! (g - first_owned counts a) = Some (foldl combine old l)) /\
  (forall p, (forall g, owns counts a g -> p <> g - first_owned counts a) -> after !! p = before !! p).
(** The effect of an Import on rank [b] (C10, [import_correct]): [owneds] are the owned
    arrays of all ranks when it is posted, [after] the shared array of [b] afterwards. *)
Definition imported {V} (counts : list nat) (shareds : list (list nat)) (owneds : list (list V)) (b : nat) (after : list V) : Prop :=
  forall sh g a o, shareds !! b = Some sh -> g ∈ sh -> owns counts a g -> owneds !! a = Some o -> after !! entry_of sh g = o !! (g - first_owned counts a).

(** std::uint16_t addition. *)
Definition u16 (n : nat) : nat := N.to_nat (N.of_nat n mod 65536)%N.
Definition add16 (a b : nat) : nat := u16 (a + b).

Section model.
  Context {F : Type} (zero : F) (add : F -> F -> F) (div : F -> F -> F) (of_nat : nat -> F).
  (** BorderAccessor, 20-49: apply [f] to the entry of linear index [row]. *)
  Definition access (num_owned : nat) (f : F -> F) (row : nat) (st : list F * list F) : res (list F * list F) :=
    if row <? num_owned
    then v ← rd st.1 row; o ← wr st.1 row (f v); Ok (o, st.2)
    else v ← rd st.2 (row - num_owned); s ← wr st.2 (row - num_owned) (f v); Ok (st.1, s).
  Definition bump (row : nat) (cs : list nat) : res (list nat) := c ← rd cs row; wr cs row (add16 c 1).

  (** The state of a rank before contrib_export.wait: the counts and values it has sent,
      its owned values, its counts. *)
  Record phase := { p_sent_counts : list nat; p_sent_values : list F; p_owned : list F; p_counts : list nat }.
  (** Overloads for kernels on local mesh views, 373-447 and 500-592: [init] zeroes the
      entries and counts the contributions; averageElementContributions (111-158) posts
      the counts, does the border, posts the shared values, does the interior. *)
  Definition kernel_phase (c n_shared : nat) (r : rank_in F) (old : list F) : res phase :=
    '(st, cs) ← for_each (fun (x : nat * F) (sc : list F * list F * list nat) =>
                   st ← access c (fun _ => zero) x.1 sc.1; cs ← bump x.1 sc.2; Ok (st, cs))
                 (ri_interior r ++ ri_border r) ((old, replicate n_shared zero), replicate (c + n_shared) 0);
    st ← for_each (fun x st => access c (fun v => add v x.2) x.1 st) (ri_border r) st;
    st' ← for_each (fun x st => access c (fun v => add v x.2) x.1 st) (ri_interior r) st;
    Ok {| p_sent_counts := drop c cs; p_sent_values := st.2; p_owned := st'.1; p_counts := cs |}.
  (** Overload for given values, 243-314: the same posting order, but the counts are set
      together with the values, after they were posted. *)
  Definition store_one (c : nat) (x : nat * F) (sc : list F * list F * list nat) : res (list F * list F * list nat) :=
    cs ← (_ ← rd sc.2 x.1; wr sc.2 x.1 1); st ← access c (fun _ => x.2) x.1 sc.1; Ok (st, cs).
  Definition constant_phase (c n_shared : nat) (r : rank_in F) (old : list F) : res phase :=
    let cs0 := replicate (c + n_shared) 0 in
    sc ← for_each (store_one c) (ri_border r) ((old, replicate n_shared zero), cs0);
    sc' ← for_each (store_one c) (ri_interior r) sc;
    Ok {| p_sent_counts := drop c cs0; p_sent_values := sc.1.2; p_owned := sc'.1.1; p_counts := sc'.2 |}.
  (** The rest of averageElementContributions, 139-158: entries written by neighbours only
      are zeroed, the values are summed, and divided by the counts. *)
  Definition zero_foreign (c : nat) (own_counts all_counts : list nat) (owned : list F) : res (list F) :=
    for_each (fun i o => nc ← rd all_counts i; mine ← rd own_counts i; if (0 <? nc) && negb (0 <? mine) then wr o i zero else Ok o) (seq 0 c) owned.
  Definition divide (c : nat) (all_counts : list nat) (owned : list F) : res (list F) :=
    for_each (fun i o => nc ← rd all_counts i; if 0 <? nc then v ← rd o i; wr o i (div v (of_nat nc)) else Ok o) (seq 0 c) owned.
  (** [Q] holds of the owned values of rank [a] at the end, however the messages travel,
      and nothing is accessed out of bounds. *)
  Definition average (counts : list nat) (shareds : list (list nat)) (phases : list phase) (a : nat) (Q : list F -> Prop) : Prop :=
    exists p c, phases !! a = Some p /\ counts !! a = Some c /\
      forall cs, exported add16 counts shareds (map p_sent_counts phases) a (p_counts p) cs ->
      exists owned1, zero_foreign c (p_counts p) cs (p_owned p) = Ok owned1 /\
      forall owned2, exported add counts shareds (map p_sent_values phases) a owned1 owned2 ->
      exists new, divide c cs owned2 = Ok new /\ Q new.

  (** SolutionManager::setFields: computeValuesAtNodes, 628-684 and 686-752, with zero
      initialised new values; exchangeElementContributions, 160-199 (sum on the owner, then
      import), updateNodeVals, 201-214.  [old]: the rank's column of node values. *)
  Definition manager_phase (c n_shared : nat) (r : rank_in F) : res (list F * list nat) :=
    cs ← for_each (fun x cs => bump x.1 cs) (ri_border r ++ ri_interior r) (replicate (c + n_shared) 0);
    vs ← for_each (fun (x : nat * F) vs => v ← rd vs x.1; wr vs x.1 (add v x.2)) (ri_border r ++ ri_interior r) (replicate (c + n_shared) zero);
    Ok (vs, cs).
  Definition update_vals (all_counts : list nat) (new_vals old : list F) : res (list F) :=
    for_each (fun row o => nc ← rd all_counts row; if 0 <? nc then v ← rd new_vals row; wr o row (div v (of_nat nc)) else Ok o) (seq 0 (length old)) old.
  Definition exchanged (counts : list nat) (shareds : list (list nat)) (phases : list (list F * list nat)) (owneds : list (list F)) (csums : list (list nat)) : Prop :=
    length owneds = length counts /\ length csums = length counts /\
    forall b ph c o s, phases !! b = Some ph -> counts !! b = Some c -> owneds !! b = Some o -> csums !! b = Some s ->
      exported add counts shareds (zip_with (fun ph c => drop c ph.1) phases counts) b (take c ph.1) o /\
      exported add16 counts shareds (zip_with (fun ph c => drop c ph.2) phases counts) b (take c ph.2) s.
  Definition manage (counts : list nat) (shareds : list (list nat)) (phases : list (list F * list nat)) (old : list F) (a : nat) (Q : list F -> Prop) : Prop :=
    forall owneds csums o s sh vs cs, exchanged counts shareds phases owneds csums ->
      owneds !! a = Some o -> csums !! a = Some s -> shareds !! a = Some sh -> length vs = length sh -> length cs = length sh ->
      imported counts shareds owneds a vs -> imported counts shareds csums a cs ->
      exists new, update_vals (s ++ cs) (o ++ vs) old = Ok new /\ Q new.
End model.
Arguments p_sent_counts {F} _. Arguments p_sent_values {F} _. Arguments p_owned {F} _. Arguments p_counts {F} _.
