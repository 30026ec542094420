(** Model of common/ProblemDefinition.hpp:12-136 (not of convertToRuntime, 140-150) and of
    math/IntegerMath.hpp.  Domain identifiers are natural numbers; std::array<bool, N> and
    std::bitset<N> are lists of N flags; allocation does not fail. *)
From Verif Require Import Base StdAlgo Helpers_model.

(** DomainDefinition, 100-104, and DomainDef, 12-17. *)
Notation domain_definition := (list nat * list bool)%type.
Notation domain_def := (nat * list bool)%type.

(** define, 109-118.  The check (112-113) throws before anything is changed.
    bitset::set (116) would throw on an index out of range, [wr] gives [UB]; neither happens
    after the check. *)
Definition define (n : nat) (defs : list domain_definition) (domains inds : list nat) : res (list domain_definition) :=
  if forallb (fun i => i <? n) inds then
    active ← for_each (fun i b => wr b i true) inds (replicate n false);
    Ok (defs ++ [(domains, active)])
  else Throw.
(** The default argument of define, 110 (makeIotaArray, Algorithm.hpp:176-182). *)
Definition define_all (n : nat) (defs : list domain_definition) (domains : list nat) : res (list domain_definition) :=
  define n defs domains (seq 0 n).
(** A program that calls define several times on one object (106: it begins with none) and
    catches the exceptions: a call that throws leaves the object as it is. *)
Definition define_catch (n : nat) (defs : list domain_definition) (call : list nat * list nat) : res (list domain_definition) :=
  match define n defs call.1 call.2 with Throw => Ok defs | r => r end.
Definition define_many (n : nat) (calls : list (list nat * list nat)) : res (list domain_definition) :=
  for_each (fun c defs => define_catch n defs c) calls [].
(** getDomains, 125-132. *)
Definition getDomains (defs : list domain_definition) : list nat := sortRemoveDup (concat (map fst defs)).

(** defineDomain, 26-36: array::at throws on an index out of range. *)
Definition set_at (b : list bool) (i : nat) : res (list bool) := if i <? length b then Ok (<[i := true]> b) else Throw.
Definition defineDomain (fields domain : nat) (inds : list nat) : res domain_def :=
  b ← for_each (fun i b => set_at b i) inds (replicate fields false); Ok (domain, b).
(** defineDomain with ALL_DOFS, 38-44. *)
Definition defineDomain_all (fields domain : nat) : domain_def := (domain, replicate fields true).
(** extendDomainDef, 79-88: the flags are copied over the first of [fields] cleared ones; a copy
    past the end would be undefined (line 81 excludes it). *)
Definition extendDomainDef (fields : nat) (d : domain_def) : res domain_def :=
  if length d.2 <=? fields then Ok (d.1, d.2 ++ drop (length d.2) (replicate fields false)) else UB.
(** ProblemDef's constructor, 67-70, with the number of fields deduced as in 90-91. *)
Definition problem_fields (ds : list domain_def) : nat := foldr Nat.max 0 (map (fun d => length d.2) ds).
Definition ProblemDef (ds : list domain_def) : res (list domain_def) := map_res (extendDomainDef (problem_fields ds)) ds.

(** intDivRoundUp, IntegerMath.hpp:8-14, for a type whose values are those from [lo] to [hi].
    Division by zero and results outside the type are undefined behaviour; / and % truncate. *)
Definition intDivRoundUp (lo hi enumerator denominator : Z) : res Z :=
  if (denominator =? 0)%Z then UB else
  let rem := Z.rem enumerator denominator in
  let quot := Z.quot enumerator denominator in
  let r := if (rem =? 0)%Z then quot else (quot + 1)%Z in
  if ((lo <=? quot) && (quot <=? hi) && (lo <=? r) && (r <=? hi))%Z then Ok r else UB.
