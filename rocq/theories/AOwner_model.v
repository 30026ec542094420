(** Model of util/ArrayOwner.hpp:18-113.  Simplifications: allocation does not fail and element
    operations do not throw; elements are values (an element that was moved from keeps its
    value); comparison (68-72) is left out. *)
From Verif Require Import Base.

Section arrays.
  Context {T : Type}.
  (** A block with its elements, [None] once it is deleted.  The flag tells that it comes from
      the new-expression with an alignment. *)
  Notation aheap := (list (option (bool * list T))).
  (** m_data and m_size, 75-76; [None] is nullptr. *)
  Notation arr := (option nat * nat)%type.
  (** A new array with given elements: the constructors from a range, a list, or a size and a
      value, 30-40, 84-100; and copy, 102-108. *)
  Definition amake (aligned : bool) (l : list T) (h : aheap) : aheap * arr := (h ++ [Some (aligned, l)], (Some (length h), length l)).
  (** ~unique_ptr<T[]>: delete[] of a null pointer does nothing; of memory from the aligned
      form of new[] (28-29) it is undefined, since the unaligned operator delete[] is called
      for element types that need no such alignment themselves. *)
  Definition adelete (p : option nat) (h : aheap) : res aheap :=
    match p with
    | None => Ok h
    | Some p => b ← rd h p; match b with Some (false, _) => wr h p None | _ => UB end
    end.
  (** All elements, from begin() to end(), 42-47. *)
  Definition aread (a : arr) (h : aheap) : res (list T) :=
    match a.1 with
    | None => if a.2 =? 0 then Ok [] else UB
    | Some p => b ← rd h p; match b with Some (_, l) => if a.2 <=? length l then Ok (take a.2 l) else UB | None => UB end
    end.
  (** at, 52-61: read and write. *)
  Definition aat (a : arr) (k : nat) (h : aheap) : res T :=
    if k <? a.2 then
      match a.1 with Some p => b ← rd h p; match b with Some (_, l) => rd l k | None => UB end | None => UB end
    else Throw.
  Definition aset (a : arr) (k : nat) (v : T) (h : aheap) : res aheap :=
    if k <? a.2 then
      match a.1 with
      | Some p => b ← rd h p; match b with Some (f, l) => l' ← wr l k v; wr h p (Some (f, l')) | None => UB end
      | None => UB
      end
    else Throw.
  (** Programs with several arrays. *)
  Inductive aop := AMake (l : list T) | AAligned (l : list T) | ADefault | ACopy (i : nat) | AMove (i : nat) | AMoveAssign (i j : nat) | ASet (i k : nat) (v : T).
  (** The implicit move assignment: the size is copied, the pointer is taken; the old block is
      deleted.  Self-assignment changes nothing. *)
  Definition amove (i j : nat) (s : aheap * list arr) : res (aheap * list arr) :=
    a ← rd s.2 i; b ← rd s.2 j;
    if i =? j then Ok s else h ← adelete a.1 s.1; Ok (h, <[j := (None, b.2)]> (<[i := b]> s.2)).
  (** One step; an exception of at is caught and leaves everything as it is. *)
  Definition astep (o : aop) (s : aheap * list arr) : res (aheap * list arr) :=
    match o with
    | AMake l => let r := amake false l s.1 in Ok (r.1, s.2 ++ [r.2])
    | AAligned l => let r := amake true l s.1 in Ok (r.1, s.2 ++ [r.2])
    | ADefault => Ok (s.1, s.2 ++ [(None, 0)])
    | ACopy i => a ← rd s.2 i; l ← aread a s.1; let r := amake false l s.1 in Ok (r.1, s.2 ++ [r.2])
    | AMove i => amove (length s.2) i (s.1, s.2 ++ [(None, 0)])
    | AMoveAssign i j => amove i j s
    | ASet i k v => a ← rd s.2 i; match aset a k v s.1 with Ok h => Ok (h, s.2) | Throw => Ok s | UB => UB end
    end.
  Definition asteps (l : list aop) : res (aheap * list arr) := for_each astep l ([], []).
  Definition adestroy_all (s : aheap * list arr) : res aheap := for_each (fun a h => adelete a.1 h) s.2 s.1.
End arrays.
Arguments aop : clear implicits.
