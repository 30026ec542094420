(** Vocabulary of C45. *)
From Verif Require Import Base Ownership_spec ImportExport_spec NodeVals_model.
Section spec.
  Context {F : Type}.
  (** The number under which rank [b] knows index [g]: owned indices first. *)
  Definition local_of (counts : list nat) (shareds : list (list nat)) (b g : nat) : option nat :=
    c ← counts !! b; sh ← shareds !! b;
    if decide (first_owned counts b <= g < first_owned counts b + c) then Some (g - first_owned counts b)
    else if decide (g ∈ sh) then Some (c + entry_of sh g) else None.
  Definition values_at (l : list (nat * F)) (i : nat) : list F := map snd (List.filter (fun x => x.1 =? i) l).
  (** All contributions to [g], of all ranks. *)
  Definition contributed (counts : list nat) (shareds : list (list nat)) (ins : list (rank_in F)) (g : nat) : list F :=
    concat (map (fun b => match ins !! b, local_of counts shareds b g with
      | Some r, Some i => values_at (ri_border r ++ ri_interior r) i | _, _ => [] end) (seq 0 (length counts))).
  Definition fsum (zero : F) (add : F -> F -> F) (l : list F) : F := foldr add zero l.
  (** [new] is the mean of the contributions, or [old] if there are none. *)
  Definition mean_or_old (zero : F) (add div : F -> F -> F) (of_nat : nat -> F) (l : list F) (old new : F) : Prop :=
    new = match l with [] => old | _ => div (fsum zero add l) (of_nat (length l)) end.
  (** Ownership tables as in C09: every index is owned by one rank and shared by others. *)
  Definition tables (counts : list nat) (shareds : list (list nat)) : Prop :=
    length shareds = length counts /\
    forall b sh, shareds !! b = Some sh -> NoDup sh /\ forall g, g ∈ sh -> ~ owns counts b g /\ exists a, owns counts a g.
  (** Contributions go to indices of the rank; those of the interior to owned ones. *)
  Definition rank_ok (c n_shared : nat) (r : rank_in F) : Prop :=
    (forall x, x ∈ ri_border r -> x.1 < c + n_shared) /\ (forall x, x ∈ ri_interior r -> x.1 < c).
End spec.
