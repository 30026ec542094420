(** Model of small helpers: util/Algorithm.hpp 19-47, 107-128, 184-219, 295-303,
    util/IndexMap.hpp, util/Common.hpp 56-78. *)
From Verif Require Import Base StdAlgo.

(** ** Sorting permutations *)
(** std::sort(begin, end, cmp) on an array of indices: any function meeting the
    standard's contract (see [sorts_indices] in Helpers_spec.v). *)
Notation sorter := ((nat -> nat -> bool) -> list nat -> list nat).
(** sortingPermutation, Algorithm.hpp:19-29.  The comparator looks up first[a],
    first[b]; a lookup outside the range would be UB, it is [false] here and
    cannot happen because the sorted indices are those of the range. *)
Definition index_compare {A} (l : list A) (cmp : A -> A -> bool) (a b : nat) : bool :=
  match l !! a, l !! b with Some x, Some y => cmp x y | _, _ => false end.
Definition sortingPermutation {A} (std_sort : sorter) (l : list A) (cmp : A -> A -> bool) : list nat :=
  std_sort (index_compare l cmp) (seq 0 (length l)).
(** copyPermuted, 37-47: reads as many indices as the input has elements. *)
Definition copyPermuted {A} (l : list A) (perm : list nat) : res (list A) :=
  map_res (fun k => p ← rd perm k; rd l p) (seq 0 (length l)).
(** matchingPermutation, 107-128: position of the first match, or the length. *)
Fixpoint find_pos {A} (p : A -> bool) (l : list A) : nat :=
  match l with [] => 0 | a :: l => if p a then 0 else S (find_pos p l) end.
Definition matchingPermutation {A B} (pred : A -> B -> bool) (pattern : list A) (mtch : list B) : list nat :=
  map (fun m => find_pos (fun el => pred el m) pattern) mtch.
(** sortRemoveDup(vector), 184-191. *)
Definition sortRemoveDup (l : list nat) : list nat := unique (sort l).
(** sortRemoveDup(ArrayOwner), 193-199: the array afterwards and the number of
    distinct elements; the elements after the first [n] are left unspecified
    ([junk]). *)
Definition sortRemoveDupArray (junk : nat -> nat) (l : list nat) : list nat * nat :=
  let u := unique (sort l) in (u ++ map junk (seq 0 (length l - length u)), length u).
(** getUniqueCopy, 201-206. *)
Definition getUniqueCopy (junk : nat -> nat) (l : list nat) : list nat :=
  let '(v, n) := sortRemoveDupArray junk l in
  if n =? length v then v else take n v.
(** sortedUniqueElements, 208-219: the size comes from a sorted copy, but
    unique_copy runs over the array itself; writing more elements than the
    result has is UB. *)
Definition sortedUniqueElements (l : list nat) : res (list nat) :=
  let n := length (unique (sort l)) in
  let u := unique l in
  if length u <=? n then Ok (u ++ replicate (n - length u) 0) else UB.

(** ** IndexMap, IndexMap.hpp:14-24.  The hash map is an association list;
    emplace leaves an existing key alone. *)
Section maps.
  Context {K : Type} `{EqDecision K}.
  Fixpoint hm_find {V} (k : K) (m : list (K * V)) : option V :=
    match m with [] => None | (k', v) :: m => if decide (k = k') then Some v else hm_find k m end.
  Definition hm_emplace {V} (k : K) (v : V) (m : list (K * V)) : list (K * V) :=
    match hm_find k m with Some _ => m | None => m ++ [(k, v)] end.
  Definition make_IndexMap (values : list K) : list (K * nat) :=
    (foldl (fun st v => (hm_emplace v st.2 st.1, S st.2)) ([], 0) values).1.
  (** operator(), 24: at() throws when the key is absent. *)
  Definition IndexMap_at (m : list (K * nat)) (k : K) : res nat :=
    match hm_find k m with Some i => Ok i | None => Throw end.
  Definition IndexMap_size (m : list (K * nat)) : nat := length m.
  (** invertMap, Algorithm.hpp:295-303; [m] in iteration order. *)
  Definition invertMap (m : list (K * K)) : list (K * K) :=
    foldl (fun r kv => hm_emplace kv.2 kv.1 r) [] m.
End maps.

(** ** exactIntegerCast, Common.hpp:56-78.  An integer type: signedness and
    number of bits. *)
Record ity := { i_signed : bool; i_bits : Z }.
Definition imin (t : ity) : Z := if i_signed t then - 2 ^ (i_bits t - 1) else 0.
Definition imax (t : ity) : Z := if i_signed t then 2 ^ (i_bits t - 1) - 1 else 2 ^ i_bits t - 1.
(** static_cast to uintmax_t (64 bits), to intmax_t, and to a type (C++20:
    modulo 2^bits). *)
Definition to_umax (x : Z) : Z := x mod 2 ^ 64.
Definition to_imax (x : Z) : Z := (x + 2 ^ 63) mod 2 ^ 64 - 2 ^ 63.
Definition to_type (t : ity) (x : Z) : Z := (x - imin t) mod 2 ^ i_bits t + imin t.
Definition exactIntegerCast (from to : ity) (x : Z) : res Z :=
  let max_from := to_umax (imax from) in
  let min_from := to_imax (imin from) in
  let max_to := to_umax (imax to) in
  let min_to := to_imax (imin to) in
  _ ← (if (max_to <? max_from)%Z then throwing_assert (to_umax x <=? max_to)%Z else Ok tt);
  _ ← (if (min_from <? min_to)%Z then throwing_assert (min_to <=? to_imax x)%Z else Ok tt);
  Ok (to_type to x).
