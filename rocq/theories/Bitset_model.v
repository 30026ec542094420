(** Model of include/l3ster/util/DynamicBitset.hpp.
    [unsigned long] is a number [N] below 2^64 (ul_bits = 64, line 18);
    positions are [nat].  Access outside the word vector is [UB]. *)
From Verif Require Import Base.
Local Open Scope N_scope.

(** Members m_data, m_size (229-230). *)
Record bitset : Type := Bitset { m_data : list N; m_size : nat }.

Definition ul_bits : nat := 64.
(** Lines 20-23. *)
Definition getEntryInd (pos : nat) : nat := (pos / ul_bits)%nat.
Definition getBitPos (pos : nat) : nat := (pos mod ul_bits)%nat.
Definition getMask (bit_pos : nat) : N := N.shiftl 1 (N.of_nat bit_pos).
(** Lines 24-27. *)
Definition computeAllocUls (size : nat) : nat :=
  if (size mod ul_bits =? 0)%nat then (size / ul_bits)%nat
  else (size / ul_bits + 1)%nat.
(** [~w] on 64 bits. *)
Definition bnot (w : N) : N := N.lnot w 64.
(** std::popcount of an unsigned long. *)
Definition popcount (w : N) : nat :=
  List.length (List.filter (fun k => N.testbit w (N.of_nat k)) (seq 0 64)).

(** Line 41. *)
Definition make (size : nat) : bitset :=
  Bitset (replicate (computeAllocUls size) 0) size.
(** Lines 42-46; std::vector::resize truncates or appends zeros. *)
Definition vec_resize (v : list N) (n : nat) : list N :=
  take n v ++ replicate (n - List.length v) 0.
Definition resize (new_size : nat) (s : bitset) : bitset :=
  Bitset (vec_resize (m_data s) (computeAllocUls new_size)) new_size.
(** Lines 48-52. *)
Definition count (s : bitset) : nat := sum_list_with popcount (m_data s).
Definition size (s : bitset) : nat := m_size s.
(** Update of one word, the word at [ul_ptr] becomes [f] of itself. *)
Definition upd (pos : nat) (f : N -> N) (s : bitset) : res bitset :=
  w ← rd (m_data s) (getEntryInd pos);
  d ← wr (m_data s) (getEntryInd pos) (f w);
  Ok (Bitset d (m_size s)).
(** Lines 55-59. *)
Definition test (pos : nat) (s : bitset) : res bool :=
  w ← rd (m_data s) (getEntryInd pos);
  Ok (negb (N.land w (getMask (getBitPos pos)) =? 0)).
(** Lines 60-74. *)
Definition set (pos : nat) : bitset -> res bitset :=
  upd pos (fun w => N.lor w (getMask (getBitPos pos))).
Definition reset (pos : nat) : bitset -> res bitset :=
  upd pos (fun w => N.land w (bnot (getMask (getBitPos pos)))).
Definition flip (pos : nat) : bitset -> res bitset :=
  upd pos (fun w => N.lxor w (getMask (getBitPos pos))).
(** Lines 75-80: two statements. *)
Definition assign (pos : nat) (val : bool) (s : bitset) : res bitset :=
  s ← upd pos (fun w => N.land w (bnot (getMask (getBitPos pos)))) s;
  upd pos (fun w => N.lor w (N.shiftl (if val then 1 else 0) (N.of_nat (getBitPos pos)))) s.
(** Line 81. *)
Definition clear (s : bitset) : bitset :=
  Bitset (map (fun _ => 0) (m_data s)) (m_size s).
(** BitReference, lines 83-103: operator= is assign, conversion is test. *)
Definition ref_assign := assign.
(** SubView, lines 137-177: positions are shifted by m_begin. *)
Definition sub_test (b pos : nat) := test (pos + b).
Definition sub_set (b pos : nat) := set (pos + b).
Definition sub_reset (b pos : nat) := reset (pos + b).
Definition sub_flip (b pos : nat) := flip (pos + b).
Definition sub_assign (b pos : nat) (val : bool) := assign (pos + b) val.
(** [mask |= getMask(i)] for first <= i <= last (190-191, 199-200, 207-208). *)
Definition or_masks (first n : nat) : N :=
  foldl (fun m i => N.lor m (getMask i)) 0 (seq first n).
(** SubView::count, lines 179-213. *)
Definition sub_count (b e : nat) (s : bitset) : res nat :=
  if (b =? e)%nat then Ok 0%nat else
  let first_ul := getEntryInd b in let first_bit := getBitPos b in
  let last_ul := getEntryInd (e - 1) in let last_bit := getBitPos (e - 1) in
  if (first_ul =? last_ul)%nat then
    w ← rd (m_data s) first_ul;
    Ok (popcount (N.land w (or_masks first_bit (S last_bit - first_bit))))
  else
    w0 ← rd (m_data s) first_ul;
    let r := popcount (N.land w0 (or_masks first_bit (ul_bits - first_bit))) in
    r ← for_each (fun i r => w ← rd (m_data s) i; Ok (r + popcount w)%nat)
                 (seq (first_ul + 1) (last_ul - (first_ul + 1))) r;
    w1 ← rd (m_data s) last_ul;
    Ok (r + popcount (N.land w1 (or_masks 0 (S last_bit))))%nat.

(** One modifying call. *)
Inductive op : Type :=
| OSet (pos : nat) | OReset (pos : nat) | OFlip (pos : nat)
| OAssign (pos : nat) (v : bool) | OClear | OResize (n : nat)
| OSubSet (b pos : nat) | OSubReset (b pos : nat) | OSubFlip (b pos : nat)
| OSubAssign (b pos : nat) (v : bool).
Definition step (o : op) (s : bitset) : res bitset :=
  match o with
  | OSet p => set p s | OReset p => reset p s | OFlip p => flip p s
  | OAssign p v => assign p v s | OClear => Ok (clear s)
  | OResize n => Ok (resize n s)
  | OSubSet b p => sub_set b p s | OSubReset b p => sub_reset b p s
  | OSubFlip b p => sub_flip b p s | OSubAssign b p v => sub_assign b p v s
  end.
Definition run (ops : list op) (s : bitset) : res bitset := for_each step ops s.

(** ** AtomicView, lines 105-134.  Every operation is one atomic
    read-modify-write of the word holding the position. *)
Inductive aop : Type := ASet (pos : nat) | AReset (pos : nat) | AFlip (pos : nat).
Definition astep (o : aop) : bitset -> res bitset :=
  match o with
  | ASet p => upd p (fun w => N.lor w (getMask (getBitPos p)))          (* fetch_or, 119 *)
  | AReset p => upd p (fun w => N.land w (bnot (getMask (getBitPos p)))) (* fetch_and, 124 *)
  | AFlip p => upd p (fun w => N.lxor w (getMask (getBitPos p)))        (* fetch_xor, 129 *)
  end.
(** The machine: a thread is the list of operations it still has to do; one
    step lets some thread do its next operation. *)
Inductive mstep : list (list aop) * bitset -> list (list aop) * bitset -> Prop :=
| MStep ts t o rest s s' :
    ts !! t = Some (o :: rest) -> astep o s = Ok s' ->
    mstep (ts, s) (<[t := rest]> ts, s').
