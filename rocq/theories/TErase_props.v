(** Property C92: type-erased overload sets. *)
From Verif Require Import Base TErase_model TErase_spec TErase_proofs.

(** C92.  In every program that makes, moves and assigns erased functions: nothing undefined
    happens; a call of an object that has a target reaches it; operator bool is false exactly
    for objects without a target type; destroying any object leaves no target in its buffer; and
    when all objects are destroyed every target on the heap was deleted, none of them twice. *)
Theorem type_erased_programs {V} (mv : V -> V) (l : list (top V)) vs :
  tvsteps mv l [] = Some vs ->
  exists h os, tsteps mv l = Ok (h, os) /\ length os = length vs /\
    (forall i x, vs !! i = Some x -> exists e, os !! i = Some e /\
      (forall v, target x = Some v -> te_call e h = Ok v) /\
      (te_bool e = false <-> x = VEmpty) /\
      exists r, te_dtor e h = Ok r /\ forall v, buf r.2 <> BObj v) /\
    exists h', tdestroy_all (h, os) = Ok h' /\ Forall (fun b => b = None) h'.
Proof.
  intros H. destruct (tsteps_ok mv l [] [] [] vs good_empty H) as (h & os & E & G).
  exists h, os. split; [exact E|]. split; [apply G|]. split.
  - intros i x Hx. destruct (lookup_lt_is_Some_2 os i) as [e He]; [rewrite (g_len _ _ _ G); by eapply lookup_lt_Some|].
    pose proof (g_ref _ _ _ G i e x He Hx) as R. exists e. split; [done|]. split; [intros v; by apply call_ok|]. split.
    + unfold te_bool. destruct x as [|u|[u|]]; cbn [refers] in R.
      * destruct R as [-> _]. done.
      * by subst e.
      * by destruct R as (p & -> & _).
      * by subst e.
    + destruct (dtor_ok h os vs i e G He) as (h' & e' & D & N & _). by exists (h', e').
  - destruct (tdestroy_ok os h vs G) as (h' & D & N). exists h'. split; [exact D|].
    apply Forall_lookup. intros p [b|] Hp; [|done]. by apply N in Hp.
Qed.
(** operator bool does not tell whether a call is defined: an object whose target was on the
    heap and was moved away says true, and a call uses a null pointer. *)
Theorem type_erased_bool_refuted :
  ~ forall (l : list (top nat)) h os i e, tsteps id l = Ok (h, os) -> os !! i = Some e -> te_bool e = true -> te_call e h <> UB.
Proof.
  intros X. apply (X [TMake false 7; TMove 0] [Some 7]
    [mk_te (Some false) (Some false) (BPtr None); mk_te (Some false) (Some false) (BPtr (Some 0))] 0
    (mk_te (Some false) (Some false) (BPtr None))); vm_compute; done.
Qed.

Example type_erased_example :
  tvsteps (fun _ => 0) [TMake true 1; TMake false 2; TMove 1; TMove 0; TMoveAssign 2 3; TDefault; TMake false 5; TMoveAssign 3 4; TMoveAssign 1 5] [] =
    Some [VSmall 0; VLarge (Some 5); VSmall 1; VEmpty; VEmpty; VLarge None] /\
  match tsteps (fun _ => 0) [TMake true 1; TMake false 2; TMove 1; TMove 0; TMoveAssign 2 3; TDefault; TMake false 5; TMoveAssign 3 4; TMoveAssign 1 5] with
  | Ok (h, [a; b; c; d; _; e]) => te_call b h = Ok 5 /\ te_call c h = Ok 1 /\ te_bool d = false /\ te_bool e = true /\ h = [None; Some 5]
  | _ => False
  end.
Proof. vm_compute. done. Qed.

Print Assumptions type_erased_programs.
Print Assumptions type_erased_bool_refuted.
