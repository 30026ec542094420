(** Model of ConstexprRefStableCollection in util/ConstexprRefStableCollection.hpp.  The heap
    is a list of blocks (std::array< T, BS > behind ConstexprUniquePtr); those of other owners
    may be in it too.  m_blocks is a sequence of addresses (C83).  Simplifications: nothing
    overflows, allocation does not fail, the constructor of T and its assignment do not throw; moves
    and the destructor are left out. *)
From Verif Require Import Base.

Section collection.
  Context {T : Type} (BS : nat) (dflt : T).
  (** The members, 161-162. *)
  Record coll := mk_coll { c_blocks : list nat; c_size : nat }.
  Definition empty_coll : coll := mk_coll [] 0.
  Notation heap := (list (list T)).
  (** A reference to an object: its block and the position in it. *)
  Definition load (r : nat * nat) (h : heap) : res T := b ← rd h r.1; rd b r.2.
  Definition store (r : nat * nat) (x : T) (h : heap) : res heap := b ← rd h r.1; b' ← wr b r.2 x; wr h r.1 b'.
  (** getInds, 59, and operator[], 112-116: the reference to an element; division by 0 is
      undefined. *)
  Definition index (c : coll) (pos : nat) : res (nat * nat) :=
    if BS =? 0 then UB else b ← rd (c_blocks c) (pos / BS); Ok (b, pos mod BS).
  (** grow, 159; constexprMakeUnique, 42-49: a block of value-initialised elements. *)
  Definition grow (c : coll) (h : heap) : heap * coll := (h ++ [replicate BS dflt], mk_coll (c_blocks c ++ [length h]) (c_size c)).
  (** emplace, 139-149, and push, 150-154; the argument may be a reference, which is read after
      growing.  Returns back(). *)
  Definition emplace (arg : heap -> res T) (c : coll) (h : heap) : res (heap * coll * (nat * nat)) :=
    if BS =? 0 then UB else
    let p := if length (c_blocks c) <=? c_size c / BS then grow c h else (h, c) in
    x ← arg p.1;
    r ← index p.2 (c_size c);
    h' ← store r x p.1;
    let c' := mk_coll (c_blocks p.2) (c_size c + 1) in
    r' ← index c' (c_size c' - 1);
    Ok (h', c', r').

  (** Programs: push a value or an own element; the references that are returned are kept. *)
  Inductive op := Push (x : T) | PushOwn (j : nat).
  Definition exec (o : op) (s : heap * coll * list (nat * nat)) : res (heap * coll * list (nat * nat)) :=
    let '(h, c, refs) := s in
    p ← match o with Push x => emplace (fun _ => Ok x) c h | PushOwn j => r ← index c j; emplace (load r) c h end;
    let '(h', c', r) := p in Ok (h', c', refs ++ [r]).
  Definition run (other : heap) (l : list op) : res (heap * coll * list (nat * nat)) := for_each exec l (other, empty_coll, []).

  (** Iterator, 62-105: the index; it is taken after the last push, as the pointer to the
      blocks dangles once m_blocks is reallocated. *)
  Definition it_load (c : coll) (h : heap) (it ind : Z) : res T :=
    if (it + ind <? 0)%Z then UB else r ← index c (Z.to_nat (it + ind)); load r h.
  (** operator+=, ++, --, 89-98: the iterator afterwards and the result.  The postfix versions
      are const. *)
  Definition pre_inc (it : Z) : Z * Z := (it + 1, it + 1)%Z.
  Definition pre_dec (it : Z) : Z * Z := (it - 1, it - 1)%Z.
  Definition post_inc (it : Z) : Z * Z := (it, it + 1)%Z.
  Definition post_dec (it : Z) : Z * Z := (it, it - 1)%Z.
  (** for (it = begin(); it != end(); ++it), 126-129, and backwards from end(). *)
  Fixpoint walk (fuel : nat) (it last : Z) (c : coll) (h : heap) : res (list T) :=
    match fuel with
    | O => UB
    | S fuel => if (it =? last)%Z then Ok [] else x ← it_load c h it 0; l ← walk fuel (pre_inc it).1 last c h; Ok (x :: l)
    end.
  Definition elements (c : coll) (h : heap) : res (list T) := walk (c_size c + 1) 0 (Z.of_nat (c_size c)) c h.
End collection.
Arguments op : clear implicits.
