(** Model of util/CrsGraph.hpp and of the graph algorithms in
    util/Algorithm.hpp 305-393.  Vertices are natural numbers (the code is used
    with unsigned 64-bit vertices; overflow of max_vert + 1 is not modelled). *)
From Verif Require Import Base StdAlgo.

(** CrsGraph.hpp:35-36, data members. *)
Record crs := { crs_offs : list nat; crs_adj : list nat }.
(** CrsGraph.hpp:16, 35: [m_adj_offsets{0}] is the one-element list. *)
Definition crs_empty : crs := {| crs_offs := [0]; crs_adj := [] |}.
(** initAdjOffsets 67-75 and the constructor 77-82; [fill] is what the
    uninitialised entries hold. *)
Definition make_crs (fill : nat -> nat) (adj_sizes : list nat) : crs :=
  let offs := 0 :: inclusive_scan 0 adj_sizes in
  {| crs_offs := offs; crs_adj := map fill (seq 0 (List.last offs 0)) |}.
(** getNRows, 25. *)
Definition crs_rows (g : crs) : nat := length (crs_offs g) - 1.
(** ArrayOwner::at, ArrayOwner.hpp:53-62. *)
Definition at_ {A} (l : list A) (i : nat) : res A :=
  match l !! i with Some a => Ok a | None => Throw end.
(** operator()(vertex_ind), 39-51: bounds of the row; forming the span outside
    the entries is UB. *)
Definition row_range (g : crs) (v : nat) : res (nat * nat) :=
  b ← at_ (crs_offs g) v; e ← at_ (crs_offs g) (v + 1);
  if (b <=? e) && (e <=? length (crs_adj g)) then Ok (b, e) else UB.
Definition row (g : crs) (v : nat) : res (list nat) :=
  '(b, e) ← row_range g v; Ok (take (e - b) (drop b (crs_adj g))).

(** ** depthFirstSearch, Algorithm.hpp:306-327.
    The stack [to_visit] is a list whose head is the back of the vector:
    pushing the row in reverse order puts its first entry on top.  [visited]
    lists the vertices in the order in which [op] was invoked on them. *)
Fixpoint dfs_loop (fuel : nat) (g : crs) (visited to_visit : list nat) : res (list nat) :=
  match fuel with
  | O => UB
  | S fuel =>
    match to_visit with
    | [] => Ok visited
    | current :: to_visit =>
      if bool_decide (current ∈ visited) then dfs_loop fuel g visited to_visit
      else
        let visited := visited ++ [current] in
        nbrs ← row g current;
        dfs_loop fuel g visited (List.filter (fun v => negb (bool_decide (v ∈ visited))) nbrs ++ to_visit)
    end
  end.
Definition depthFirstSearch (g : crs) (start : nat) : res (list nat) :=
  dfs_loop (2 + length (crs_adj g)) g [] [start].

(** ** getComponentsUndirected, 331-348.  The bit set is a list of booleans
    (see Bitset_props.v); the hash set returned by the search is sorted, so its
    iteration order does not matter. *)
Definition comp_step (g : crs) (v : nat) (st : list bool * list (list nat)) : res (list bool * list (list nat)) :=
  seen ← rd st.1 v;
  if (seen : bool) then Ok st
  else
    found ← depthFirstSearch g v;
    let comp := sort found in
    lu ← for_each (fun i lu => wr lu i true) comp st.1;
    Ok (lu, st.2 ++ [comp]).
Definition getComponentsUndirected (g : crs) : res (list (list nat)) :=
  st ← for_each (comp_step g) (seq 0 (crs_rows g)) (replicate (crs_rows g) false, []);
  Ok st.2.

(** ** makeCrsGraph, 356-393.
    [vert_map] (a hash map to hash sets) is an association list; a set is
    a list without duplicates. *)
Notation vmap := (list (nat * list nat)).
Definition set_insert (x : nat) (l : list nat) : list nat :=
  if bool_decide (x ∈ l) then l else l ++ [x].
(** vert_map[k].insert(x), 375-377. *)
Fixpoint vmap_insert (k x : nat) (m : vmap) : vmap :=
  match m with
  | [] => [(k, [x])]
  | (k', l) :: m' => if k =? k' then (k', set_insert x l) :: m' else (k', l) :: vmap_insert k x m'
  end.
Fixpoint vmap_find (k : nat) (m : vmap) : option (list nat) :=
  match m with
  | [] => None
  | (k', l) :: m' => if k =? k' then Some l else vmap_find k m'
  end.
Definition edge_step (undirected : bool) (st : vmap * nat) (e : nat * nat) : vmap * nat :=
  let '(m, mx) := st in
  let m := vmap_insert e.1 e.2 m in
  (if undirected then vmap_insert e.2 e.1 m else m, Nat.max (Nat.max mx e.1) e.2).
(** 380-383. *)
Definition degrees (m : vmap) (max_vert : nat) : list nat :=
  map (fun v => match vmap_find v m with None => 0 | Some l => length l end) (seq 0 (max_vert + 1)).
(** 386-390, one pass: copy the set into the row, then sort the row. *)
Definition fill_row (g : crs) (e : nat * list nat) : res crs :=
  '(b, en) ← row_range g e.1;
  adj ← for_each (fun (kx : nat * nat) adj => if b + kx.1 <? en then wr adj (b + kx.1) kx.2 else UB)
          (zip (seq 0 (length e.2)) e.2) (crs_adj g);
  Ok {| crs_offs := crs_offs g;
        crs_adj := take b adj ++ sort (take (en - b) (drop b adj)) ++ drop en adj |}.
(** [shuffle] is the order in which the hash map is iterated, [shuffle_row] the
    order in which a hash set is. *)
Definition makeCrsGraph (fill : nat -> nat) (shuffle : vmap -> vmap) (shuffle_row : list nat -> list nat)
    (undirected : bool) (from to : list nat) : res crs :=
  match from with
  | [] => Ok crs_empty
  | _ =>
    let '(m, max_vert) := foldl (edge_step undirected) ([], 0) (zip from to) in
    for_each (fun e g => fill_row g (e.1, shuffle_row e.2)) (shuffle m) (make_crs fill (degrees m max_vert))
  end.
