(** Model of util/MetisUtils.hpp:16-73, the owner of a graph made by METIS.  Simplifications:
    allocation does not fail (malloc of 0 bytes gives a new block); memory is zero until it is
    written; idx_t does not overflow. *)
From Verif Require Import Base.

(** A block of numbers, [None] once it is freed. *)
Notation gheap := (list (option (list nat))).
(** xadj, adjncy, nvert, 41-42; [None] is nullptr. *)
Record graph := mk_graph { xadj : option nat; adjncy : option nat; nvert : nat }.
(** malloc; METIS_Free of a pointer that may be null (Deleter, 18-21). *)
Definition gmalloc (n : nat) (h : gheap) : gheap * nat := (h ++ [Some (replicate n 0)], length h).
Definition gfree (p : option nat) (h : gheap) : res gheap :=
  match p with
  | None => Ok h
  | Some p => b ← rd h p; match b with Some _ => wr h p None | None => UB end
  end.
(** A span of [n] numbers at a pointer, all of them accessed. *)
Definition gspan (p : option nat) (n : nat) (h : gheap) : res (list nat) :=
  match p with
  | None => UB
  | Some p => b ← rd h p; match b with Some c => if n <=? length c then Ok (take n c) else UB | None => UB end
  end.
(** std::ranges::copy to the beginning of a block. *)
Definition gcopy (l : list nat) (p : nat) (h : gheap) : res gheap :=
  b ← rd h p;
  match b with Some c => if length l <=? length c then wr h p (Some (l ++ drop (length l) c)) else UB | None => UB end.
(** getXadj, 35, and getAdjncy, 36. *)
Definition getXadj (g : graph) (h : gheap) : res (list nat) := gspan (xadj g) (nvert g + 1) h.
Definition getAdjncy (g : graph) (h : gheap) : res (list nat) :=
  x ← getXadj g h; n ← rd x (length x - 1); gspan (adjncy g) n h.
(** getElementAdjacent, 67-73; subspan demands that the range lies within the span. *)
Definition getElementAdjacent (g : graph) (h : gheap) (el : nat) : res (list nat) :=
  x ← getXadj g h; b ← rd x el; e ← rd x (el + 1); a ← getAdjncy g h;
  if (b <=? e) && (e <=? length a) then Ok (take (e - b) (drop b a)) else UB.
(** Copy assignment from another object, 59-64.  The copy constructor, 45-52, does the same
    with members that are null before. *)
Definition gassign (g other : graph) (h : gheap) : res (gheap * graph) :=
  x ← getXadj other h;
  let m := gmalloc (length x) h in
  h ← gfree (xadj g) m.1;
  a ← getAdjncy other h;
  let k := gmalloc (length a) h in
  h ← gfree (adjncy g) k.1;
  x ← getXadj other h;
  h ← gcopy x m.2 h;
  a ← getAdjncy other h;
  h ← gcopy a k.2 h;
  Ok (h, mk_graph (Some m.2) (Some k.2) (nvert other)).
(** Move assignment, 30: each unique_ptr takes the pointer of the other and frees its own. *)
Definition gmove (g other : graph) (h : gheap) : res (gheap * graph * graph) :=
  h ← gfree (xadj g) h; h ← gfree (adjncy g) h;
  Ok (h, mk_graph (xadj other) (adjncy other) (nvert other), mk_graph None None (nvert other)).
(** The destructor, 31: members in reverse order. *)
Definition gdestroy (g : graph) (h : gheap) : res gheap := h ← gfree (adjncy g) h; gfree (xadj g) h.

(** Programs with several graphs: one is made by METIS (33; the arrays are given), copied,
    assigned, moved. *)
Inductive gop := GNew (x a : list nat) (nv : nat) | GCopy (i : nat) | GAssign (i j : nat) | GMove (i : nat) | GMoveAssign (i j : nat).
Definition null_graph : graph := mk_graph None None 0.
Definition do_assign (i j : nat) (s : gheap * list graph) : res (gheap * list graph) :=
  g ← rd s.2 i; o ← rd s.2 j;
  if i =? j then Ok s else r ← gassign g o s.1; Ok (r.1, <[i := r.2]> s.2).
(** Assigning a unique_ptr to itself leaves it as it is. *)
Definition do_move (i j : nat) (s : gheap * list graph) : res (gheap * list graph) :=
  g ← rd s.2 i; o ← rd s.2 j;
  if i =? j then Ok s else r ← gmove g o s.1; Ok (r.1.1, <[j := r.2]> (<[i := r.1.2]> s.2)).
Definition gstep (o : gop) (s : gheap * list graph) : res (gheap * list graph) :=
  match o with
  | GNew x a nv => Ok (s.1 ++ [Some x; Some a], s.2 ++ [mk_graph (Some (length s.1)) (Some (S (length s.1))) nv])
  | GCopy i => do_assign (length s.2) i (s.1, s.2 ++ [null_graph])
  | GAssign i j => do_assign i j s
  | GMove i => do_move (length s.2) i (s.1, s.2 ++ [null_graph])
  | GMoveAssign i j => do_move i j s
  end.
Definition gsteps (l : list gop) : res (gheap * list graph) := for_each gstep l ([], []).
Definition gdestroy_all (s : gheap * list graph) : res gheap := for_each gdestroy s.2 s.1.
