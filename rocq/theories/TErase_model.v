(** Model of util/TypeErasedOverload.hpp:77-217.  A target is a value; [mv] is what a move
    leaves behind in a target that is stored in the buffer.  The invokers (38-63) are the same
    for all overloads and have no state but the type of the target, so that one of them is
    enough; it is copied together with the special members.  Allocation does not fail and
    targets do not throw.  The pointer that Move reads from its own buffer and does not use (169
    with 27) is left out. *)
From Verif Require Import Base.

Section erased.
  Context {V : Type} (mv : V -> V).
  (** Targets on the heap, [None] once deleted. *)
  Notation theap := (list (option V)).
  (** m_target_buf, 117: nothing, an object, or a pointer ([None] is nullptr). *)
  Inductive buffer := BNone | BObj (v : V) | BPtr (p : option nat).
  (** m_special_members, 118, for a target type that fits the buffer ([true], 17-18) or not;
      [None] is nullptr.  The invokers have the same type of target once they are set. *)
  Record erased := mk_te { special : option bool; invoker : option bool; buf : buffer }.
  Definition te_default : erased := mk_te None None BNone.
  (** initTarget, 150-162, and the constructor, 121-131. *)
  Definition te_make (small : bool) (v : V) (h : theap) : theap * erased :=
    if small then (h, mk_te (Some true) (Some true) (BObj v))
    else (h ++ [Some v], mk_te (Some false) (Some false) (BPtr (Some (length h)))).
  (** The special members, 164-192: Destroy, ... *)
  Definition te_destroy_target (small : bool) (b : buffer) (h : theap) : res (theap * buffer) :=
    match small, b with
    | true, BObj _ => Ok (h, BNone)
    | false, BPtr None => Ok (h, b)
    | false, BPtr (Some p) => x ← rd h p; match x with Some _ => h ← wr h p None; Ok (h, b) | None => UB end
    | _, _ => UB
    end.
  (** ... and Move: construct_at over an object that is alive loses it, which the model
      forbids; a pointer may be overwritten. *)
  Definition te_move_target (small : bool) (mine other : buffer) : res (buffer * buffer) :=
    match small, other with
    | true, BObj v => match mine with BObj _ => UB | _ => Ok (BObj v, BObj (mv v)) end
    | false, BPtr p => match mine with BObj _ => UB | _ => Ok (BPtr p, BPtr None) end
    | _, _ => UB
    end.
  (** dtorImpl, 205-210. *)
  Definition te_dtor (e : erased) (h : theap) : res (theap * erased) :=
    match special e with
    | None => Ok (h, e)
    | Some s => r ← te_destroy_target s (buf e) h; Ok (r.1, mk_te (special e) (invoker e) r.2)
    end.
  (** moveImpl, 194-203. *)
  Definition te_move (e other : erased) : res (erased * erased) :=
    match special other with
    | None => Ok (mk_te None (invoker e) (buf e), other)
    | Some s => r ← te_move_target s (buf e) (buf other);
        Ok (mk_te (Some s) (invoker other) r.1, mk_te (special other) (invoker other) r.2)
    end.
  (** operator bool, 113. *)
  Definition te_bool (e : erased) : bool := match special e with Some _ => true | None => false end.
  (** operator(), 52-56 with 46-49: the target that is invoked. *)
  Definition te_call (e : erased) (h : theap) : res V :=
    match invoker e, buf e with
    | Some true, BObj v => Ok v
    | Some false, BPtr (Some p) => x ← rd h p; match x with Some v => Ok v | None => UB end
    | _, _ => UB
    end.
  (** Programs. *)
  Inductive top := TDefault | TMake (small : bool) (v : V) | TMove (i : nat) | TMoveAssign (i j : nat).
  (** Move assignment, 139-148; the move constructor, 133-137, is a move into an empty object. *)
  Definition te_assign (i j : nat) (s : theap * list erased) : res (theap * list erased) :=
    e ← rd s.2 i; o ← rd s.2 j;
    if i =? j then Ok s else
      d ← te_dtor e s.1;
      r ← te_move d.2 o;
      Ok (d.1, <[j := r.2]> (<[i := r.1]> s.2)).
  Definition tstep (o : top) (s : theap * list erased) : res (theap * list erased) :=
    match o with
    | TDefault => Ok (s.1, s.2 ++ [te_default])
    | TMake small v => let r := te_make small v s.1 in Ok (r.1, s.2 ++ [r.2])
    | TMove i => te_assign (length s.2) i (s.1, s.2 ++ [te_default])
    | TMoveAssign i j => te_assign i j s
    end.
  Definition tsteps (l : list top) : res (theap * list erased) := for_each tstep l ([], []).
  Definition tdestroy_all (s : theap * list erased) : res theap := for_each (fun e h => r ← te_dtor e h; Ok r.1) s.2 s.1.
End erased.
Arguments buffer : clear implicits.
Arguments erased : clear implicits.
Arguments top : clear implicits.
