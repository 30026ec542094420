(** Model of util/WeakCache.hpp.  shared_ptr and weak_ptr are modelled by an object with the
    number of its owners; an object is destroyed when that number becomes 0.  One thread;
    allocation does not fail. *)
From Verif Require Import Base Helpers_model.

Section cache.
  Context {K V : Type} `{EqDecision K}.
  (** m_cache, 23 (a weak_ptr is the number of an object); the objects with their numbers of
      owners; the shared_ptrs of the program, [None] is null. *)
  Record wstate := mk_ws { m_cache : list (K * nat); objs : list (V * nat); held : list (option nat) }.
  (** unordered_map::insert_or_assign. *)
  Fixpoint insert_or_assign (k : K) (o : nat) (m : list (K * nat)) : list (K * nat) :=
    match m with [] => [(k, o)] | (k', o') :: m => if decide (k = k') then (k, o) :: m else (k', o') :: insert_or_assign k o m end.
  (** contains, 16. *)
  Definition contains (s : wstate) (k : K) : bool := match hm_find k (m_cache s) with Some _ => true | None => false end.
  (** One owner more or less. *)
  Definition share (o : nat) (l : list (V * nat)) : res (list (V * nat)) := x ← rd l o; wr l o (x.1, S x.2).
  Definition release (o : nat) (l : list (V * nat)) : res (list (V * nat)) :=
    x ← rd l o; match x.2 with 0 => UB | S n => wr l o (x.1, n) end.
  (** weak_ptr::lock. *)
  Definition lock (o : nat) (l : list (V * nat)) : res (list (V * nat) * option nat) :=
    x ← rd l o; if x.2 =? 0 then Ok (l, None) else l' ← share o l; Ok (l', Some o).
  (** get, 26-32. *)
  Definition wget (k : K) (s : wstate) : res (list (V * nat) * option nat) :=
    match hm_find k (m_cache s) with Some o => lock o (objs s) | None => Ok (objs s, None) end.
  (** emplace, 34-44; the program keeps the pointer. *)
  Definition wemplace (k : K) (v : V) (s : wstate) : wstate :=
    mk_ws (insert_or_assign k (length (objs s)) (m_cache s)) (objs s ++ [(v, 1)]) (held s ++ [Some (length (objs s))]).
  (** Reading through a shared_ptr: a null pointer or a destroyed object is undefined. *)
  Definition value_of (s : wstate) (i : nat) : res V :=
    p ← rd (held s) i;
    match p with Some o => x ← rd (objs s) o; if x.2 =? 0 then UB else Ok x.1 | None => UB end.
  (** Programs: emplace, get, and copies and resets of the pointers they gave. *)
  Inductive wop := Emplace (k : K) (v : V) | Get (k : K) | Copy (i : nat) | Reset (i : nat).
  Definition wstep (o : wop) (s : wstate) : res wstate :=
    match o with
    | Emplace k v => Ok (wemplace k v s)
    | Get k => r ← wget k s; Ok (mk_ws (m_cache s) r.1 (held s ++ [r.2]))
    | Copy i => p ← rd (held s) i;
        match p with
        | Some o => l ← share o (objs s); Ok (mk_ws (m_cache s) l (held s ++ [p]))
        | None => Ok (mk_ws (m_cache s) (objs s) (held s ++ [p]))
        end
    | Reset i => p ← rd (held s) i;
        match p with
        | Some o => l ← release o (objs s); Ok (mk_ws (m_cache s) l (<[i := None]> (held s)))
        | None => Ok s
        end
    end.
  Definition wsteps (l : list wop) : res wstate := for_each wstep l (mk_ws [] [] []).
End cache.
Arguments wstate : clear implicits.
Arguments wop : clear implicits.
