(** Model of SpatialHashTable, util/SpatialHashTable.hpp. *)
From Coq Require Import QArith Qround Qabs.
From Verif Require Import Base.

(** std::lround: to the nearest integer, halves away from zero.  Results that do not
    fit are not modelled. *)
Definition lround (q : Q) : Z := if Qle_bool 0 q then Qfloor (q + (1 # 2))%Q else (- Qfloor (- q + (1 # 2))%Q)%Z.
(** Points have any number of coordinates; the key has as many (the remaining ones
    of the C++ array of three stay zero). *)
Definition key := list Z.
Notation point := (list Q) (only parsing).

Section table.
  Context {T : Type}.
  (** [quot x x0 dx] is the floating point result of (x - x0) / dx, 82. *)
  Context (quot : Q -> Q -> Q -> Q).
  (** The members, 91-93; the hash map as the list of its entries. *)
  Record table := mk_table { t_map : list (key * list (point * T)); t_origin : point; t_dx : point; t_size : nat }.
  (** Constructor, 26-30. *)
  Definition make_table (minimum_dx : Q) (dx origin : point) : table :=
    mk_table [] origin (map (fun d => if Qle_bool minimum_dx (Qabs d) then Qabs d else minimum_dx) dx) 0.
  (** snapToGrid, 79-89. *)
  Definition snapToGrid (t : table) (p : point) : key :=
    map (fun x => lround (quot x.1 x.2.1 x.2.2)) (zip p (zip (t_origin t) (t_dx t))).
  (** m_map[key].emplace_back. *)
  Fixpoint put (k : key) (v : point * T) (m : list (key * list (point * T))) : list (key * list (point * T)) :=
    match m with
    | [] => [(k, [v])]
    | (k', vs) :: m => if bool_decide (k = k') then (k', vs ++ [v]) :: m else (k', vs) :: put k v m
    end.
  (** emplace, 35-42. *)
  Definition emplace (t : table) (p : point) (v : T) : table :=
    mk_table (put (snapToGrid t p) (p, v) (t_map t)) (t_origin t) (t_dx t) (t_size t + 1).
  (** m_map.find. *)
  Fixpoint look (k : key) (m : list (key * list (point * T))) : list (point * T) :=
    match m with [] => [] | (k', vs) :: m => if bool_decide (k = k') then vs else look k m end.
  (** cartesian_product of [dim] times {-1, 0, 1}. *)
  Fixpoint offsets (dim : nat) : list key :=
    match dim with 0 => [[]] | S d => concat (map (fun o => map (cons o) (offsets d)) [-1; 0; 1]%Z) end.
  (** proximate, 46-60. *)
  Definition proximate (t : table) (p : point) : list (point * T) :=
    let key0 := snapToGrid t p in
    concat (map (fun ofs => look (zip_with Z.add key0 ofs) (t_map t)) (offsets (length p))).
  (** all, 61-64. *)
  Definition all_values (t : table) : list (point * T) := concat (t_map t).*2.
  (** A sequence of insertions. *)
  Definition insert_all (t : table) (l : list (point * T)) : table := foldl (fun t v => emplace t v.1 v.2) t l.
End table.
Arguments table : clear implicits.
