(** Property C89: the owner of METIS graphs. *)
From Verif Require Import Base MGraph_model MGraph_spec MGraph_proofs.

(** C89.  In every program that makes, copies, assigns and moves graphs, and copies none that
    was moved from, each object gives the neighbours of each vertex of the graph it stands for,
    whatever happened to the object it was copied from; nothing undefined happens, and when all
    objects are destroyed every block has been freed, none of them twice. *)
Theorem graph_programs l vs :
  vsteps l [] = Some vs ->
  exists h gs, gsteps (map run_as l) = Ok (h, gs) /\ length gs = length vs /\
    (forall i rows e row, vs !! i = Some (Some rows) -> rows !! e = Some row ->
      exists g, gs !! i = Some g /\ getElementAdjacent g h e = Ok row) /\
    exists h', gdestroy_all (h, gs) = Ok h' /\ Forall (fun b => b = None) h'.
Proof.
  intros H. destruct (gsteps_ok l [] [] [] vs good_empty H) as (h & gs & E & G).
  exists h, gs. split; [exact E|]. split; [eapply Forall2_length, G|]. split.
  - intros i rows e row Hi He. destruct (Forall2_lookup_r _ _ _ _ _ (g_ref _ _ _ G) Hi) as (g & Hg & R).
    exists g. split; [done|]. by apply (adjacent_ok h g rows).
  - destruct (gdestroy_ok gs h vs G) as (h' & D & N). exists h'. split; [exact D|].
    apply Forall_lookup. intros p [b|] Hp; [|done]. by apply N in Hp.
Qed.
(** C89.  The whole arrays, and vertices that do not exist: reading there is undefined. *)
Theorem graph_arrays l vs i rows :
  vsteps l [] = Some vs -> vs !! i = Some (Some rows) ->
  exists h gs g, gsteps (map run_as l) = Ok (h, gs) /\ gs !! i = Some g /\
    getXadj g h = Ok (offsets rows) /\ getAdjncy g h = Ok (concat rows) /\
    forall e, length rows <= e -> getElementAdjacent g h e = UB.
Proof.
  intros H Hi. destruct (gsteps_ok l [] [] [] vs good_empty H) as (h & gs & E & G).
  destruct (Forall2_lookup_r _ _ _ _ _ (g_ref _ _ _ G) Hi) as (g & Hg & R).
  exists h, gs, g. split; [exact E|]. split; [done|]. split; [by apply xadj_ok|]. split; [by apply adjncy_ok|].
  intros e He. unfold getElementAdjacent. rewrite (xadj_ok h g rows R), bind_ok.
  assert (N : offsets rows !! (e + 1) = None) by (apply lookup_ge_None_2; rewrite offsets_length; lia).
  unfold rd. rewrite N. by destruct (offsets rows !! e).
Qed.
(** An object that was moved from cannot be copied: its number of vertices is kept and its
    arrays are gone. *)
Theorem graph_copy_moved_undefined rows : gsteps (map run_as [VNew rows; VMove 0; VCopy 0]) = UB.
Proof. reflexivity. Qed.

Example graph_example :
  vsteps [VNew [[1; 2]; [0]; [0]]; VCopy 0; VNew [[]; [0]]; VAssign 0 2; VMove 1; VMoveAssign 2 0; VAssign 1 3; VAssign 2 2] [] =
    Some [None; Some [[1; 2]; [0]; [0]]; Some [[]; [0]]; Some [[1; 2]; [0]; [0]]] /\
  offsets [[1; 2]; [0]; [0]] = [0; 2; 3; 4] /\
  match gsteps (map run_as [VNew [[1; 2]; [0]; [0]]; VCopy 0; VNew [[]; [0]]; VAssign 0 2; VMove 1; VMoveAssign 2 0; VAssign 1 3; VAssign 2 2]) with
  | Ok (h, [_; g; k; _]) => getElementAdjacent g h 0 = Ok [1; 2] /\ getElementAdjacent k h 1 = Ok [0] /\ getElementAdjacent k h 0 = Ok []
  | _ => False
  end.
Proof. vm_compute. done. Qed.

Print Assumptions graph_programs.
Print Assumptions graph_arrays.
Print Assumptions graph_copy_moved_undefined.
