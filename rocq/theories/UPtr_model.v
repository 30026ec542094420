(** Model of ConstexprUniquePtr and constexprMakeUnique in
    util/ConstexprRefStableCollection.hpp:10-49, on the heap of C83.  Simplifications:
    allocation does not fail and constructors do not throw; the pointers are only moved and
    destroyed, not made from a raw pointer (15). *)
From Verif Require Import Base CVec_model.

Section pointers.
  Context {T : Type}.
  Notation heap := (list (option (list (option T)))).
  (** m_ptr, 39; [None] is nullptr. *)
  Notation ptr := (option nat).
  (** constexprMakeUnique, 42-49. *)
  Definition make_unique (x : T) (h : heap) : res (heap * ptr) :=
    let a := allocate 1 h in h' ← construct_at a.2 0 x a.1; Ok (h', Some a.2).
  (** ~ConstexprUniquePtr, 25-32. *)
  Definition destroy_ptr (p : ptr) (h : heap) : res heap :=
    match p with Some p => h' ← destroy_at p 0 h; deallocate_block p 1 h' | None => Ok h end.
  (** operator*, 34. *)
  Definition deref (p : ptr) (h : heap) : res T := match p with Some p => load p 0 h | None => UB end.
  (** Programs with several pointers. *)
  Inductive pop := MakeUnique (x : T) | MovePtr (i : nat) | AssignPtr (i j : nat).
  (** Move construction, 18, and move assignment, 19-24: other is exchanged with nullptr, and
      the old pointer of the target is overwritten. *)
  Definition step (o : pop) (s : heap * list ptr) : res (heap * list ptr) :=
    match o with
    | MakeUnique x => r ← make_unique x s.1; Ok (r.1, s.2 ++ [r.2])
    | MovePtr i => p ← rd s.2 i; Ok (s.1, <[i := None]> s.2 ++ [p])
    | AssignPtr i j => _ ← rd s.2 i; p ← rd s.2 j; if i =? j then Ok s else Ok (s.1, <[j := None]> (<[i := p]> s.2))
    end.
  Definition steps (l : list pop) : res (heap * list ptr) := for_each step l ([], []).
  (** All pointers are destroyed. *)
  Definition destroy_all (s : heap * list ptr) : res heap := for_each destroy_ptr s.2 s.1.
End pointers.
Arguments pop : clear implicits.
