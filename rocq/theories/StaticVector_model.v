(** Model of util/StaticVector.hpp (and of getTrueInds, util/Meta.hpp:84-99). *)
From Verif Require Import Base.

(** m_data, m_size (StaticVector.hpp:82-83).  A slot is [None] once the object
    in it has been destroyed; [triv] says that the element type is trivially
    destructible, in which case destroy_at does nothing. *)
Record svec (A : Type) := { sv_data : list (option A); sv_size : nat }.
Arguments sv_data {A} _.
Arguments sv_size {A} _.
Arguments Build_svec {A} _ _.

Section model.
  Context {A : Type} (triv : bool).
  (** Assignment to and reading of a slot: both need a living object. *)
  Definition slot_set (d : list (option A)) (i : nat) (x : A) : res (list (option A)) :=
    match d !! i with Some (Some _) => Ok (<[i := Some x]> d) | _ => UB end.
  Definition slot_get (d : list (option A)) (i : nat) : res A :=
    match d !! i with Some (Some x) => Ok x | _ => UB end.
  Definition slot_destroy (d : list (option A)) (i : nat) : res (list (option A)) :=
    match d !! i with Some (Some _) => Ok (if triv then d else <[i := None]> d) | _ => UB end.
  (** Default construction, 17: m_data is default-initialised; [junk] is what it
      happens to hold (its length is the capacity). *)
  Definition sv_new (junk : list A) : svec A := Build_svec (map Some junk) 0.
  (** push_back, 67-71. *)
  Definition push_back (s : svec A) (x : A) : res (svec A) :=
    if sv_size s <? length (sv_data s)
    then d ← slot_set (sv_data s) (sv_size s) x; Ok (Build_svec d (S (sv_size s)))
    else Throw.
  (** pop_back, 72: no check that there is an element; --m_size of 0 wraps. *)
  Definition pop_back (s : svec A) : res (svec A) :=
    match sv_size s with
    | O => UB
    | S n => d ← slot_destroy (sv_data s) n; Ok (Build_svec d n)
    end.
  (** erase, 73-79, with iterators as offsets.  std::move needs a destination
      outside its source range, so the empty range may only be erased at the end.
      Returns the vector and the offset of the returned iterator. *)
  Definition erase (s : svec A) (first last : nat) : res (svec A * nat) :=
    let n := sv_size s in
    if (first <=? last) && (last <=? n) && ((first <? last) || (last =? n)) then
      d ← for_each (fun k d => x ← slot_get d (last + k); slot_set d (first + k) x) (seq 0 (n - last)) (sv_data s);
      d ← for_each (fun i d => slot_destroy d i) (seq (first + (n - last)) (last - first)) d;
      Ok (Build_svec d (n - (last - first)), last)
    else UB.
  (** resize, 57-66; std::fill from end() to begin() + size. *)
  Definition sv_resize (s : svec A) (size : nat) (val : A) : res (svec A) :=
    if size <=? sv_size s then r ← erase s (sv_size s - (sv_size s - size)) (sv_size s); Ok r.1
    else d ← for_each (fun i d => slot_set d i val) (seq (sv_size s) (size - sv_size s)) (sv_data s); Ok (Build_svec d size).
  (** Construction from a sized range, 31-37 (and from an array, 18-24, where
      N <= capacity is a constraint). *)
  Definition sv_of_sized (junk : list A) (r : list A) : res (svec A) :=
    d ← for_each (fun (p : nat * A) d => slot_set d p.1 p.2) (zip (seq 0 (length r)) r) (map Some junk);
    Ok (Build_svec d (length r)).
  (** Construction from any other range, 25-30, by push_back. *)
  Definition sv_of_range (junk : list A) (r : list A) : res (svec A) :=
    for_each (fun x s => push_back s x) r (sv_new junk).
  (** begin() to end(), 39-42: what iteration over the vector reads. *)
  Definition sv_read (s : svec A) : res (list A) := map_res (slot_get (sv_data s)) (seq 0 (sv_size s)).
  (** The implicit destructor: std::array destroys all of its elements. *)
  Definition sv_destructor (s : svec A) : res unit :=
    if forallb (fun o : option A => match o with Some _ => true | None => false end) (sv_data s) then Ok tt else UB.

  Inductive sv_op := Push (x : A) | Pop | Erase (first last : nat) | Resize (size : nat) (val : A).
  Definition sv_step (s : svec A) (o : sv_op) : res (svec A) :=
    match o with
    | Push x => push_back s x
    | Pop => pop_back s
    | Erase f l => r ← erase s f l; Ok r.1
    | Resize n v => sv_resize s n v
    end.
  Definition sv_run (s : svec A) (ops : list sv_op) : res (svec A) := for_each (fun o s => sv_step s o) ops s.
End model.
Arguments sv_op : clear implicits.

(** getTrueInds, util/Meta.hpp:84-99; the vector's capacity is N. *)
Definition getTrueInds (junk : list nat) (a : list bool) : res (svec nat) :=
  for_each (fun i s => b ← rd a i; if (b : bool) then push_back s i else Ok s) (seq 0 (length a)) (sv_new junk).
