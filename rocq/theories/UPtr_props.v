(** C86: the unique pointer. *)
From Verif Require Import Base CVec_model CVec_proofs UPtr_model UPtr_spec UPtr_proofs.

(** Every program runs without undefined behaviour, pointers refer to their objects, and after
    all pointers are destroyed exactly the objects overwritten by move assignments are left. *)
Theorem unique_ptr_programs {T} (l : list (pop T)) vs k : moves l ([], 0) = Some (vs, k) ->
  exists h ps h', steps l = Ok (h, ps) /\ length ps = length vs /\
    (forall i p v, ps !! i = Some p -> vs !! i = Some v -> match v with Some x => deref p h = Ok x | None => p = None end) /\
    (forall i j p, ps !! i = Some (Some p) -> ps !! j = Some (Some p) -> i = j) /\
    destroy_all (h, ps) = Ok h' /\ unfreed h' = k.
Proof.
  intros Hm. destruct (steps_ok l [] [] [] 0 (vs, k) good_nil Hm) as (h & ps & E & G). destruct (destroy_ok ps h vs k G) as (h' & E' & Hk). exists h, ps, h'. split; [done|]. split; [apply G|]. split; [|split; [apply G|done]].
  intros i p v Hp Hv. pose proof (g_ref _ _ _ _ G i p v Hp Hv) as R. destruct v as [x|]; [by apply deref_ok|]. by destruct p.
Qed.
(** Missing: move assignments to pointers that refer to an object. *)
Theorem unique_ptr_frees_partial {T} (l : list (pop T)) vs : moves l ([], 0) = Some (vs, 0) ->
  exists h ps h', steps l = Ok (h, ps) /\ destroy_all (h, ps) = Ok h' /\ Forall (fun b => b = None) h'.
Proof.
  intros Hm. destruct (unique_ptr_programs l vs 0 Hm) as (h & ps & h' & E & _ & _ & _ & E' & Hk). exists h, ps, h'. split; [done|]. split; [done|]. clear -Hk. induction h' as [|[b|] h' IH]; [done| |]; rewrite unfreed_cons in Hk; cbn [one] in Hk; [lia|]. constructor; [done|]. by apply IH.
Qed.
(** Move assignment leaks the object of its target. *)
Theorem unique_ptr_frees_refuted : ~ (forall (l : list (pop nat)) vs k, moves l ([], 0) = Some (vs, k) -> exists s h', steps l = Ok s /\ destroy_all s = Ok h' /\ Forall (fun b => b = None) h').
Proof.
  intros H. destruct (H [MakeUnique 1; MakeUnique 2; AssignPtr 0 1] [Some 2; None] 1 eq_refl) as (s & h' & E & E' & F). vm_compute in E. injection E as <-. vm_compute in E'. injection E' as <-. apply Forall_cons_1 in F as [F _]. discriminate F.
Qed.

Example unique_ptr_example :
  moves [MakeUnique 1; MovePtr 0; MakeUnique 2; AssignPtr 0 2; AssignPtr 1 0; AssignPtr 1 1] ([], 0) = Some ([None; Some 2; None], 1) /\
  match steps [MakeUnique 1; MovePtr 0; MakeUnique 2; AssignPtr 0 2; AssignPtr 1 0; AssignPtr 1 1] with
  | Ok s => s.2 = [None; Some 1; None] /\ destroy_all s = Ok [Some [Some 1]; None]
  | _ => False
  end.
Proof. vm_compute. done. Qed.
Example unique_ptr_frees_example : moves [MakeUnique 1; MovePtr 0; MakeUnique 2; AssignPtr 0 2] ([], 0) = Some ([Some 2; Some 1; None], 0).
Proof. vm_compute. done. Qed.

Print Assumptions unique_ptr_programs.
Print Assumptions unique_ptr_frees_partial.
Print Assumptions unique_ptr_frees_refuted.
