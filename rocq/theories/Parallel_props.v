(** Properties C34 and C47: parallel loops and reductions, heterogeneous vectors. *)
From Verif Require Import Base StdAlgo Parallel_model Parallel_proofs.

(** C34.  Whatever way the range is split and the pieces are interleaved,
    parallelFor invokes the kernel exactly once per element. *)
Theorem parallel_for_once {A} (range : list A) (inds : list nat) :
  for_schedule (length range) inds -> exists calls, parallelFor range inds = Ok calls /\ calls ≡ₚ range.
Proof. exact (parallel_for_ok range inds). Qed.
Print Assumptions parallel_for_once.
(** C34.  parallelTransform fills an output of the input's length with the
    images, position by position. *)
Theorem parallel_transform_maps {A B} (kernel : A -> B) (range : list A) (inds : list nat) (out : list B) :
  length out = length range -> for_schedule (length range) inds ->
  parallelTransform kernel range inds out = Ok (map kernel range).
Proof. exact (parallel_transform_ok kernel range inds out). Qed.
Print Assumptions parallel_transform_maps.
(** C34.  For an associative and commutative operation with identity [id],
    parallelTransformReduce can only return the left fold of the images, and it
    can return something. *)
Theorem parallel_reduce_folds {A R} (op : R -> R -> R) (id : R) (f : A -> R) (range : list A) :
  (forall x y z, op x (op y z) = op (op x y) z) -> (forall x y, op x y = op y x) -> (forall x, op id x = x) ->
  forall r, parallelTransformReduce op f range id r <-> r = foldl op id (map f range).
Proof.
  intros Ha Hc Hi r. split; [exact (reduce_ok op id Ha Hc Hi f range r)|]. intros ->.
  destruct (reduce_ex op id f range) as [r Hr]. by rewrite <- (reduce_ok op id Ha Hc Hi f range r Hr).
Qed.
Print Assumptions parallel_reduce_folds.
(** C34.  Associativity alone does not suffice: std::transform_reduce may
    permute its operands, so the concatenation of lists may come out in another
    order. *)
Theorem parallel_reduce_order_refuted : exists (range : list (list nat)) (r : list nat),
  parallelTransformReduce app (fun x => x) range [] r /\ r <> foldl app [] range.
Proof.
  exists [[1]; [2]], [2; 1]. split; [|done]. unfold parallelTransformReduce.
  eapply (rd_more _ _ _ 0 0); [constructor|cbn; lia|]. unfold transform_reduce. cbn.
  apply (gs_op app _ [[2]] [[]; [1]] [2] [1]).
  - cbn. rewrite (Permutation_app_comm [[2]] [[]; [1]]). done.
  - constructor.
  - apply (gs_op app _ [[]] [[1]] [] [1]); [done|constructor|constructor].
Qed.
Print Assumptions parallel_reduce_order_refuted.
(** A schedule of four indices in two interleaved chunks. *)
Example parallel_for_example : for_schedule 4 [2; 0; 3; 1] /\
  parallelFor [10; 20; 30; 40] [2; 0; 3; 1] = Ok [30; 10; 40; 20] /\
  parallelTransform S [10; 20; 30; 40] [2; 0; 3; 1] [0; 0; 0; 0] = Ok [11; 21; 31; 41].
Proof.
  split; [|done]. exists [(0, 2); (2, 4)]. split.
  - apply (sp_cut 0 2 4 [(0, 2)] [(2, 4)]); [lia|lia|constructor; lia|constructor; lia].
  - change (map chunk_inds [(0, 2); (2, 4)]) with [[0; 1]; [2; 3]].
    apply (il_step _ 1 2 [3]); [done|]. apply (il_step _ 0 0 [1]); [done|].
    apply (il_step _ 1 3 []); [done|]. apply (il_step _ 0 1 []); [done|]. constructor. repeat constructor.
Qed.
Example parallel_reduce_example : parallelTransformReduce Nat.add S [1; 2; 3] 0 9.
Proof. apply (parallel_reduce_folds Nat.add 0 S [1; 2; 3]); [intros; lia|intros; lia|intros; lia|done]. Qed.

(** C47.  size() counts all elements, empty() says whether there are any. *)
Theorem univector_size {A} (u : univec A) :
  uv_size u = length (uv_visit_seq u) /\ (uv_empty u = true <-> uv_visit_seq u = []).
Proof. exact (uv_size_ok u). Qed.
Print Assumptions univector_size.
(** C47.  visit calls the functor exactly once per element: in order of the
    vectors when sequenced, in some order when parallel. *)
Theorem univector_visit {A} (u : univec A) :
  (forall x, x ∈ uv_visit_seq u <-> exists v, v ∈ u /\ x ∈ v) /\
  (forall calls, uv_visit_par u calls -> calls ≡ₚ uv_visit_seq u) /\ uv_visit_seq u = concat u.
Proof.
  split; [|split; [exact (fun calls => uv_visit_par_ok u calls)|done]].
  intros x. unfold uv_visit_seq. rewrite elem_of_concat. naive_solver.
Qed.
Print Assumptions univector_visit.
(** C47.  at(i) is the i-th element in visiting order, with the type of the
    vector that holds it, and throws beyond the end. *)
Theorem univector_at {A} (u : univec A) (i : nat) :
  (forall x, uv_visit_seq u !! i = Some x -> exists k v,
     uv_at u 0 i = Ok (k, x) /\ u !! k = Some v /\ v !! (i - sum (map length (take k u))) = Some x) /\
  (length (uv_visit_seq u) <= i -> uv_at u 0 i = Throw).
Proof.
  destruct (uv_at_ok u 0 i) as [H1 H2]. split.
  - intros x Hx. destruct (H1 x Hx) as (k & E & v & Hv & Hvx). exists k, v. done.
  - intros H. apply H2. by apply lookup_ge_None_2.
Qed.
Print Assumptions univector_at.
(** C47.  find returns the first match in visiting order. *)
Theorem univector_find {A} (p : A -> bool) (u : univec A) (o : option A) : uv_find p u = o ->
  match o with
  | Some x => exists i, uv_visit_seq u !! i = Some x /\ p x = true /\
                forall j y, j < i -> uv_visit_seq u !! j = Some y -> p y = false
  | None => forall x, x ∈ uv_visit_seq u -> p x = false
  end.
Proof.
  rewrite uv_find_ok. intros <-. unfold uv_visit_seq. induction (concat u) as [|x l IH]; cbn.
  - by intros x ?%elem_of_nil.
  - destruct (p x) eqn:E.
    + exists 0. split; [done|]. split; [done|]. intros; lia.
    + destruct (List.find p l) as [y|].
      * destruct IH as (i & Hi & Hp & Hn). exists (S i). split; [done|]. split; [done|].
        intros [|j] z Hj Hz; cbn in Hz; simplify_eq; [done|]. apply (Hn j z); [lia|done].
      * intros y [->|Hy]%elem_of_cons; [done|by apply IH].
Qed.
Print Assumptions univector_find.
(** C47, C34.  transformReduce, sequenced or parallel, returns the fold of all
    elements in visiting order. *)
Theorem univector_transform_reduce {A R} (par : bool) (op : R -> R -> R) (zero : R) (f : A -> R) (u : univec A) (r : R) :
  (forall x y z, op x (op y z) = op (op x y) z) -> (forall x y, op x y = op y x) -> (forall x, op zero x = x) ->
  uv_transformReduce par op f u zero r -> r = foldl op zero (map f (uv_visit_seq u)).
Proof. intros Ha Hc Hi. exact (uv_reduce_ok op zero Ha Hc Hi par f u r). Qed.
Print Assumptions univector_transform_reduce.
(** C47.  [zero] must be a genuine identity: it enters once per vector and once
    more, so an initial value of 1 is counted three times by two empty vectors. *)
Theorem univector_transform_reduce_zero_refuted : exists (u : univec nat) (zero r : nat),
  uv_transformReduce false Nat.add (fun x => x) u zero r /\ r <> foldl Nat.add zero (uv_visit_seq u).
Proof.
  exists [[]; []], 1, 3. split; [|done]. exists [1; 1]. split.
  - repeat constructor.
  - apply (gs_op Nat.add _ [1] [1; 1] 1 2); [done|constructor|].
    apply (gs_op Nat.add _ [1] [1] 1 1); [done|constructor|constructor].
Qed.
Print Assumptions univector_transform_reduce_zero_refuted.
Example univector_example : let u := [[1; 2]; []; [3]] in
  uv_size u = 3 /\ uv_at u 0 2 = Ok (2, 3) /\ uv_at u 0 3 = Throw /\ uv_find (Nat.eqb 3) u = Some 3 /\ uv_visit_par u [3; 1; 2].
Proof.
  split; [done|]. split; [done|]. split; [done|]. split; [done|].
  assert (H : forall n, for_schedule n (seq 0 n)).
  { intros n. exists [(0, n)]. split; [constructor; lia|]. unfold chunk_inds. cbn. rewrite Nat.sub_0_r.
    generalize (seq 0 n) as l. induction l as [|x l IH]; [constructor; repeat constructor|]. by apply (il_step _ 0 x l). }
  exists [[1; 2]; []; [3]]. split.
  - constructor; [exists (seq 0 2); split; [apply H|done]|]. constructor; [exists (seq 0 0); split; [apply H|done]|].
    constructor; [exists (seq 0 1); split; [apply H|done]|]. constructor.
  - apply (il_step _ 2 3 []); [done|]. apply (il_step _ 0 1 [2]); [done|]. apply (il_step _ 0 2 []); [done|]. constructor. repeat constructor.
Qed.
