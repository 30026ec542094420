(** Properties of Dirichlet conditions in assembled systems (C54). *)
From Coq Require Import Ring_theory ZArith ZArithRing.
From Verif Require Import Base StdAlgo Dirichlet_model Dirichlet_spec Dirichlet2_proofs.

(** C54.  Over any commutative ring, for all distributed sparse systems whose
    constrained rows have a diagonal entry: a vector solves the modified system iff
    its constrained entries are the prescribed values and it satisfies all original
    unconstrained equations; a symmetric matrix stays symmetric; the structure is
    unchanged.  [C] says which unknowns are constrained; every rank knows it for its
    rows and columns; [junk] is whatever the work matrix held before. *)
Theorem dirichlet_equivalent {F} (zero one : F) add mul sub opp (Rth : ring_theory zero one add mul sub opp eq)
    fc junk bcv n_rhs (C : nat -> Prop) (ranks : list (part F * (list nat * list nat))) :
  (forall l, fc l ≡ₚ l) -> (forall s, Forall2 (fun a o => length o = length a) s (junk s)) ->
  (forall p rows cols, (p, (rows, cols)) ∈ ranks -> valid_part n_rhs p /\ knows C p rows cols /\ has_diag C p) ->
  (forall p j, p ∈ ranks.*1 -> j ∈ g_col (p_graph p) -> C j -> is_row ranks.*1 j) ->
  exists ps, map_res (impose zero one add mul sub fc junk bcv n_rhs n_rhs) ranks = Ok ps /\
    (forall k x, k < n_rhs -> solves zero add mul ps k x <->
       (forall i, C i -> is_row ranks.*1 i -> x i = bcv k i) /\
       (forall p i cv b, p ∈ ranks.*1 -> has_row p i cv b -> ~ C i -> sat zero add mul cv b k x)) /\
    (symmetric zero ranks.*1 -> symmetric zero ps) /\
    Forall2 (fun p p' => p_graph p' = p_graph p /\ valid_part n_rhs p') ranks.*1 ps.
Proof. by eapply impose_ok. Qed.
Print Assumptions dirichlet_equivalent.
(** C54.  The numbers of vectors must agree. *)
Theorem dirichlet_vector_count {F} (zero one : F) add mul sub g d bcv nv n_rhs dold vals rhs : nv <> n_rhs ->
  apply_dbc zero one add mul sub g d bcv nv n_rhs dold vals rhs = Throw.
Proof. intros H. unfold apply_dbc. by rewrite (proj2 (Nat.eqb_neq _ _) H). Qed.
Print Assumptions dirichlet_vector_count.

(** Tridiagonal system with three unknowns on two ranks; unknown 2 is 5. *)
Local Open Scope Z_scope.
Definition ex_p0 : part Z := mk_part (mk_graph [0; 1]%nat [0; 1; 2]%nat [[0; 1]; [0; 1; 2]]%nat) [[2; -1]; [-1; 2; -1]] [[1]; [1]].
Definition ex_p1 : part Z := mk_part (mk_graph [2]%nat [2; 1]%nat [[1; 0]]%nat) [[-1; 2]] [[1]].
Definition ex_ranks : list (part Z * (list nat * list nat)) := [(ex_p0, ([], [2]%nat)); (ex_p1, ([2]%nat, [2]%nat))].
Definition ex_junk (s : list (list nat)) : list (list Z) := map (map (fun _ => 77)) s.
Example dirichlet_example_hypotheses : (forall l : list nat, reverse l ≡ₚ l) /\ (forall s, Forall2 (fun a o => length o = length a) s (ex_junk s)) /\
  (forall p rows cols, (p, (rows, cols)) ∈ ex_ranks -> valid_part 1 p /\ knows (fun i => i = 2%nat) p rows cols /\ has_diag (fun i => i = 2%nat) p) /\
  (forall p j, p ∈ ex_ranks.*1 -> j ∈ g_col (p_graph p) -> j = 2%nat -> is_row ex_ranks.*1 j).
Proof.
  split; [intros l; apply reverse_Permutation|]. split; [intros s; induction s; constructor; [apply map_length|done]|]. split.
  - intros p rows cols H. unfold ex_ranks in H. rewrite !elem_of_cons, elem_of_nil in H. destruct H as [[= -> -> ->]|[[= -> -> ->]|[]]].
    + split; [|split].
      * split; cbn.
        -- apply (bool_decide_unpack _). by vm_compute.
        -- apply (bool_decide_unpack _). by vm_compute.
        -- repeat (constructor; [split; [apply (bool_decide_unpack _); by vm_compute|split; [apply (bool_decide_unpack _); by vm_compute|done]]|]). constructor.
        -- done.
        -- split; [done|]. by repeat constructor.
      * split; [constructor|]. split; [repeat constructor|]. cbn. split; intros i; rewrite !elem_of_cons, elem_of_nil; lia.
      * intros i cv b -> (r & inds & vs & Hr & _). destruct r as [|[|r]]; [done|done|]. apply lookup_lt_Some in Hr. cbn in Hr. lia.
    + split; [|split].
      * split; cbn.
        -- apply (bool_decide_unpack _). by vm_compute.
        -- apply (bool_decide_unpack _). by vm_compute.
        -- repeat (constructor; [split; [apply (bool_decide_unpack _); by vm_compute|split; [apply (bool_decide_unpack _); by vm_compute|done]]|]). constructor.
        -- done.
        -- split; [done|]. by repeat constructor.
      * split; [repeat constructor|]. split; [repeat constructor|]. cbn. split; intros i; rewrite !elem_of_cons, elem_of_nil; lia.
      * intros i cv b -> (r & inds & vs & Hr & Hi & Hv & Hb & HF & Ev). destruct r as [|r]; [|apply lookup_lt_Some in Hr; cbn in Hr; lia]. cbn in Hi. injection Hi as <-.
        inversion HF as [|? c1 ? cs1 H1 HF1 E1 E2]; subst. inversion HF1 as [|? c2 ? cs2 H2 HF2 E3 E4]; subst. cbn in H2. injection H2 as <-. right. left.
  - intros p j Hp Hj ->. exists ex_p1. split; [right; left|left].
Qed.
Example dirichlet_example : map_res (impose 0 1 Z.add Z.mul Z.sub (@reverse nat) ex_junk (fun _ i => if decide (i = 2%nat) then 5 else 9) 1 1) ex_ranks =
  Ok [mk_part (p_graph ex_p0) [[2; -1]; [-1; 2; 0]] [[1]; [6]]; mk_part (p_graph ex_p1) [[0; 1]] [[5]]].
Proof. vm_compute. reflexivity. Qed.
(** A constrained row without diagonal entry: an access out of bounds. *)
Example dirichlet_no_diagonal_example : impose 0 1 Z.add Z.mul Z.sub (@reverse nat) ex_junk (fun _ _ => 5) 1 1 (mk_part (mk_graph [0]%nat [0; 1]%nat [[1]]%nat) [[1]] [[1]], ([0]%nat, [0]%nat)) = UB.
Proof. vm_compute. reflexivity. Qed.
