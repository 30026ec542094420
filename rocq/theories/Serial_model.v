(** Model of util/Serialization.hpp. *)
From Verif Require Import Base.

(** A char of the archive; below 256. *)
Notation byte := N.
(** The types the templates are instantiated with: trivially copyable ones of a
    given size (20-29), ranges (31-46) and tuple-like ones (48-64).  Strings,
    vectors, spans, ArrayOwner and maps are ranges; pairs, tuples and
    std::array are tuple-like. *)
Inductive ty := TPod (size : nat) | TRange (t : ty) | TTuple (ts : list ty).
(** Values: the object representation of a trivially copyable object; the
    elements of a range in iteration order; the members of a tuple.
    (std::ranges::to on the way back rebuilds the container from that sequence,
    which is the same container.) *)
Inductive val := VPod (bytes : list byte) | VRange (vs : list val) | VTuple (vs : list val).

Definition szsz : nat := 8.
(** Object representation of an unsigned integer of [k] bytes, little endian. *)
Fixpoint le_bytes (k : nat) (n : N) : list byte :=
  match k with O => [] | S k => (n `mod` 256)%N :: le_bytes k (n / 256)%N end.
Fixpoint le_value (bs : list byte) : N :=
  match bs with [] => 0%N | b :: bs => (b + 256 * le_value bs)%N end.

(** Serializer, 20-64; the appended characters. *)
Fixpoint serialize (v : val) : list byte :=
  match v with
  | VPod bs => bs
  | VRange vs => le_bytes szsz (N.of_nat (length vs)) ++
                 (fix all vs := match vs with [] => [] | v :: vs => serialize v ++ all vs end) vs
  | VTuple vs => (fix all vs := match vs with [] => [] | v :: vs => serialize v ++ all vs end) vs
  end.

(** memcpy and remove_prefix after the check (81-84, 97-100). *)
Definition take_bytes (n : nat) (s : list byte) : res (list byte * list byte) :=
  if n <=? length s then Ok (take n s, drop n s) else Throw.

(** Deserializer, 74-121: value and remaining input. *)
Fixpoint deserialize (t : ty) (s : list byte) {struct t} : res (val * list byte) :=
  match t with
  | TPod n => r ← take_bytes n s; Ok (VPod r.1, r.2)
  | TRange t =>
    r ← take_bytes szsz s;
    r ← (fix loop (n : nat) (s : list byte) : res (list val * list byte) :=
           match n with
           | O => Ok ([], s)
           | S n => r ← deserialize t s; q ← loop n r.2; Ok (r.1 :: q.1, q.2)
           end) (N.to_nat (le_value r.1)) r.2;
    Ok (VRange r.1, r.2)
  | TTuple ts =>
    r ← (fix each (ts : list ty) (s : list byte) : res (list val * list byte) :=
           match ts with
           | [] => Ok ([], s)
           | t :: ts => r ← deserialize t s; q ← each ts r.2; Ok (r.1 :: q.1, q.2)
           end) ts s;
    Ok (VTuple r.1, r.2)
  end.
