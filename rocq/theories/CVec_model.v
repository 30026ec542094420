(** Model of util/ConstexprVector.hpp: vectors on a heap of blocks.  Simplifications: sizes do
    not overflow; allocation does not fail and constructors do not throw; an element that was
    moved from keeps its value; the copy assignment (57-81) calls a function that does not
    exist and is left out. *)
From Verif Require Import Base.

Section vectors.
  Context {T : Type}.
  (** A block of cells, [None] once it is deallocated; in a cell an object lives or not. *)
  Notation heap := (list (option (list (option T)))).
  (** std::allocator::allocate. *)
  Definition allocate (n : nat) (h : heap) : heap * nat := (h ++ [Some (replicate n None)], length h).
  (** std::allocator::deallocate of a block of [n] cells.  The model also demands that no
      object is left in it. *)
  Definition deallocate_block (p n : nat) (h : heap) : res heap :=
    b ← rd h p;
    match b with
    | Some c => if (length c =? n) && forallb (fun x => match x with None => true | Some _ => false end) c then wr h p None else UB
    | None => UB
    end.
  (** Reading an object. *)
  Definition load (p i : nat) (h : heap) : res T :=
    b ← rd h p;
    match b with
    | Some c => x ← rd c i; match x with Some v => Ok v | None => UB end
    | None => UB
    end.
  (** std::construct_at, std::destroy_at; the model forbids to construct over an object. *)
  Definition construct_at (p i : nat) (v : T) (h : heap) : res heap :=
    b ← rd h p;
    match b with
    | Some c => x ← rd c i; match x with None => wr h p (Some (<[i := Some v]> c)) | Some _ => UB end
    | None => UB
    end.
  Definition destroy_at (p i : nat) (h : heap) : res heap :=
    b ← rd h p;
    match b with
    | Some c => x ← rd c i; match x with Some _ => wr h p (Some (<[i := None]> c)) | None => UB end
    | None => UB
    end.

  (** The members, 159-160; [None] is nullptr. *)
  Record vec := mk_vec { m_data : option nat; m_size : nat; m_capacity : nat }.
  (** ConstexprVector(), 27. *)
  Definition empty_vec : vec := mk_vec None 0 0.
  (** construct, 162-167, and destroy, 168. *)
  Definition construct (v : vec) (i : nat) (x : T) (h : heap) : res heap :=
    match m_data v with Some p => construct_at p i x h | None => UB end.
  Definition destroy (v : vec) (i : nat) (h : heap) : res heap :=
    match m_data v with Some p => destroy_at p i h | None => UB end.
  (** A new block of [n] cells and [n] constructions with given values: the constructors. *)
  Definition make (n : nat) (get : nat -> heap -> res T) (h : heap) : res (heap * vec) :=
    let a := allocate n h in
    let v := mk_vec (Some a.2) n n in
    h' ← for_each (fun i h => x ← get i h; construct v i x h) (seq 0 n) a.1;
    Ok (h', v).
  (** ConstexprVector(n, value), 28-32. *)
  Definition make_fill (n : nat) (x : T) : heap -> res (heap * vec) := make n (fun _ _ => Ok x).
  (** ConstexprVector(list), 38-44. *)
  Definition make_list (l : list T) : heap -> res (heap * vec) := make (length l) (fun i _ => rd l i).
  (** operator[], 112-113. *)
  Definition get (v : vec) (i : nat) (h : heap) : res T := match m_data v with Some p => load p i h | None => UB end.
  (** ConstexprVector(const ConstexprVector&), 46-51. *)
  Definition make_copy (w : vec) : heap -> res (heap * vec) := make (m_size w) (get w).
  (** clear, 150-155. *)
  Definition clear (v : vec) (h : heap) : res (heap * vec) :=
    h' ← for_each (fun i h => destroy v i h) (seq 0 (m_size v)) h;
    Ok (h', mk_vec (m_data v) 0 (m_capacity v)).
  (** deallocate, 182-186. *)
  Definition deallocate (v : vec) (h : heap) : res heap :=
    match m_data v with Some p => deallocate_block p (m_capacity v) h | None => Ok h end.
  (** ~ConstexprVector, 95-99. *)
  Definition destructor (v : vec) (h : heap) : res heap := hv ← clear v h; deallocate hv.2 hv.1.
  (** reallocate, 170-181. *)
  Definition reallocate (n : nat) (v : vec) (h : heap) : res (heap * vec) :=
    let a := allocate n h in
    let v' := mk_vec (Some a.2) (m_size v) n in
    h1 ← for_each (fun i h =>
      match m_data v with
      | Some old => x ← load old i h; h' ← construct v' i x h; destroy_at old i h'
      | None => UB
      end) (seq 0 (m_size v)) a.1;
    h2 ← match m_data v with Some old => deallocate_block old (m_capacity v) h1 | None => Ok h1 end;
    Ok (h2, v').
  (** reserve, 105-109. *)
  Definition reserve (n : nat) (v : vec) (h : heap) : res (heap * vec) :=
    if m_capacity v <? n then reallocate n v h else Ok (h, v).
  (** grow, 188-192. *)
  Definition grow (v : vec) (h : heap) : res (heap * vec) :=
    reallocate (if m_capacity v =? 0 then 1 else 2 * m_capacity v) v h.
  (** emplaceBack, 138-147, and pushBack, 134-137.  The argument is a reference: to a
      temporary, or to a cell, which is read after the vector has grown. *)
  Definition emplace_back (arg : heap -> res T) (v : vec) (h : heap) : res (heap * vec) :=
    hv ← (if m_capacity v =? m_size v then grow v h else Ok (h, v));
    x ← arg hv.1;
    h' ← construct hv.2 (m_size hv.2) x hv.1;
    Ok (h', mk_vec (m_data hv.2) (m_size hv.2 + 1) (m_capacity hv.2)).
  Definition push_value (x : T) : vec -> heap -> res (heap * vec) := emplace_back (fun _ => Ok x).
  Definition push_element (j : nat) (v : vec) (h : heap) : res (heap * vec) :=
    match m_data v with Some p => emplace_back (load p j) v h | None => UB end.
  (** popBack, 149; --m_size of 0 wraps around. *)
  Definition pop_back (v : vec) (h : heap) : res (heap * vec) :=
    if m_size v =? 0 then UB else
    h' ← destroy v (m_size v - 1) h;
    Ok (h', mk_vec (m_data v) (m_size v - 1) (m_capacity v)).
  (** ConstexprVector(ConstexprVector&&), 52-56: the old and the new vector. *)
  Definition move_construct (w : vec) : vec * vec := (empty_vec, w).
  (** operator=(ConstexprVector&&), 82-94, for different vectors. *)
  Definition move_assign (v w : vec) (h : heap) : res (heap * (vec * vec)) :=
    hv ← clear v h;
    h' ← deallocate hv.2 hv.1;
    Ok (h', (w, empty_vec)).

  (** Programs with several vectors: the state is the heap and the vectors made so far. *)
  Inductive op := Fill (n : nat) (x : T) | Values (l : list T) | Copy (i : nat) | Move (i : nat) | MoveAssign (i j : nat)
    | Push (i : nat) (x : T) | PushOwn (i j : nat) | Pop (i : nat) | Clear (i : nat) | Reserve (i n : nat).
  Notation state := (heap * list vec)%type.
  Definition add (r : res (heap * vec)) (vs : list vec) : res state := hv ← r; Ok (hv.1, vs ++ [hv.2]).
  Definition update (f : vec -> heap -> res (heap * vec)) (i : nat) (s : state) : res state :=
    v ← rd s.2 i; hv ← f v s.1; Ok (hv.1, <[i := hv.2]> s.2).
  Definition exec (o : op) (s : state) : res state :=
    match o with
    | Fill n x => add (make_fill n x s.1) s.2
    | Values l => add (make_list l s.1) s.2
    | Copy i => w ← rd s.2 i; add (make_copy w s.1) s.2
    | Move i => w ← rd s.2 i; let p := move_construct w in Ok (s.1, <[i := p.1]> s.2 ++ [p.2])
    | MoveAssign i j =>
        v ← rd s.2 i; w ← rd s.2 j;
        if i =? j then Ok s else r ← move_assign v w s.1; Ok (r.1, <[j := r.2.2]> (<[i := r.2.1]> s.2))
    | Push i x => update (push_value x) i s
    | PushOwn i j => update (push_element j) i s
    | Pop i => update pop_back i s
    | Clear i => update clear i s
    | Reserve i n => update (reserve n) i s
    end.
  Definition run (l : list op) : res state := for_each exec l ([], []).
  (** The destructors of all vectors. *)
  Definition finish (s : state) : res heap := for_each destructor s.2 s.1.
  (** The elements of a vector, by operator[]. *)
  Definition read_all (v : vec) (h : heap) : res (list T) := map_res (fun i => get v i h) (seq 0 (m_size v)).
End vectors.
Arguments op : clear implicits.
Notation heap T := (list (option (list (option T)))).
