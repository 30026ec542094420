(** Model of util/TbbUtils.hpp and of the parallel parts of util/UniVector.hpp.
    TBB and the parallel algorithms of the standard library are modelled by what
    they are allowed to do. *)
From Verif Require Import Base StdAlgo.

(** oneapi::tbb::parallel_for over blocked_range(0, n, grain) (TbbUtils.hpp:24-28,
    34-40): the range is cut recursively at arbitrary points; [chunks] lists the
    resulting subranges (begin, end) from left to right. *)
Inductive splits : nat -> nat -> list (nat * nat) -> Prop :=
| sp_leaf b e : b <= e -> splits b e [(b, e)]
| sp_cut b m e c1 c2 : b <= m -> m <= e -> splits b m c1 -> splits m e c2 -> splits b e (c1 ++ c2).
(** The loop over one subrange (38-39, 60-61): the indices in order. *)
Definition chunk_inds (c : nat * nat) : list nat := seq c.1 (c.2 - c.1).
(** The subranges run concurrently: the sequence of kernel invocations is any
    interleaving of the chunk loops. *)
Inductive interleaves {A} : list (list A) -> list A -> Prop :=
| il_done ls : Forall (fun l => l = []) ls -> interleaves ls []
| il_step ls t a rest h :
    ls !! t = Some (a :: rest) -> interleaves (<[t := rest]> ls) h -> interleaves ls (a :: h).
Definition for_schedule (n : nat) (inds : list nat) : Prop :=
  exists chunks, splits 0 n chunks /\ interleaves (map chunk_inds chunks) inds.

(** parallelFor, 30-41: kernel(range_begin[i]) for the scheduled indices; the
    result is the sequence of elements the kernel has been invoked on. *)
Definition parallelFor {A} (range : list A) (inds : list nat) : res (list A) :=
  map_res (fun i => rd range i) inds.
(** parallelTransform, 51-63: output_iter[i] = kernel(range_begin[i]). *)
Definition parallelTransform {A B} (kernel : A -> B) (range : list A) (inds : list nat) (out : list B) : res (list B) :=
  for_each (fun i out => x ← rd range i; wr out i (kernel x)) inds out.

(** GENERALIZED_SUM of the standard, the result of std::reduce and
    std::transform_reduce: any bracketing of any permutation. *)
Inductive gen_sum {R} (op : R -> R -> R) : list R -> R -> Prop :=
| gs_one x : gen_sum op [x] x
| gs_op xs l1 l2 a b : xs ≡ₚ l1 ++ l2 -> gen_sum op l1 a -> gen_sum op l2 b -> gen_sum op xs (op a b).
(** std::transform_reduce(first, last, init, reduce, transform). *)
Definition transform_reduce {A R} (op : R -> R -> R) (f : A -> R) (l : list A) (init r : R) : Prop :=
  gen_sum op (init :: map f l) r.

(** oneapi::tbb::parallel_reduce(range, identity, func, reduction): a body
    starts from the identity, accumulates neighbouring subranges one after the
    other with [func], and is joined with the body of the subranges to its
    right.  [reduces f id join b e r]: the part [b, e) may evaluate to r. *)
Inductive reduces {R} (func : nat * nat -> R -> R -> Prop) (id : R) (join : R -> R -> R) : nat -> nat -> R -> Prop :=
| rd_start b : reduces func id join b b id
| rd_more b m e r r' : reduces func id join b m r -> m <= e -> func (m, e) r r' -> reduces func id join b e r'
| rd_join b m e r1 r2 : reduces func id join b m r1 -> reduces func id join m e r2 -> reduces func id join b e (join r1 r2).
(** parallelTransformReduce, 69-89. *)
Definition parallelTransformReduce {A R} (op : R -> R -> R) (f : A -> R) (range : list A) (id r : R) : Prop :=
  reduces (fun c v v' => transform_reduce op f (take (c.2 - c.1) (drop c.1 range)) v v') id op 0 (length range) r.

(** ** UniVector (util/UniVector.hpp).  The member tuple of vectors is a list of
    lists; the position in the outer list is the type. *)
Notation univec A := (list (list A)).
(** size, 182-185; empty, 194-197. *)
Definition uv_size {A} (u : univec A) : nat := sum (map length u).
Definition uv_empty {A} (u : univec A) : bool := forallb (fun v : list A => length v =? 0) u.
(** visit with the sequenced policy, 94-95, 109-110: the elements in visiting order. *)
Definition uv_visit_seq {A} (u : univec A) : list A := concat u.
(** visit with a parallel policy, 98-100, 113-115: the vectors' parallelFor loops
    run concurrently ([inds] is the schedule of each). *)
Definition uv_visit_par {A} (u : univec A) (calls : list A) : Prop :=
  exists loops, Forall2 (fun v l => exists inds, for_schedule (length v) inds /\ parallelFor v inds = Ok l) u loops /\
    interleaves loops calls.
(** at, 209-225: position in the tuple and in the vector. *)
Fixpoint uv_at {A} (u : univec A) (t index : nat) : res (nat * A) :=
  match u with
  | [] => Throw
  | v :: u => if index <? length v then x ← rd v index; Ok (t, x) else uv_at u (S t) (index - length v)
  end.
(** find, 153-167: first vector with a match, first match in it. *)
Fixpoint uv_find {A} (p : A -> bool) (u : univec A) : option A :=
  match u with
  | [] => None
  | v :: u => match List.find p v with Some x => Some x | None => uv_find p u end
  end.
(** transformReduce, 121-149: each vector separately from [zero] (sequentially
    by std::transform_reduce or by parallelTransformReduce), then std::reduce
    over the partial results, again from [zero]. *)
Definition uv_transformReduce {A R} (par : bool) (op : R -> R -> R) (f : A -> R) (u : univec A) (zero r : R) : Prop :=
  exists parts, Forall2 (fun v p => if par then parallelTransformReduce op f v zero p
                                    else transform_reduce op f v zero p) u parts /\
    gen_sum op (zero :: parts) r.
