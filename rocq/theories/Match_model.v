(** Model of the matching of nodes by coordinates in merge, mesh/MeshUtils.hpp:95-183 and
    368-377, and of deform, 395-405.  Floating point numbers are rational numbers or NaN;
    arithmetic on numbers is exact. *)
From Coq Require Import QArith Qabs.
From Verif Require Import Base StdAlgo Ownership_model Elem_model Mesh_model Merge_model Spatial_model.

(** NaN is [None].  Every operation on NaN gives NaN, every comparison is false. *)
Notation fl := (option Q).
Notation pt := (Q * Q * Q)%type.
Definition fl2 (f : Q -> Q -> Q) (a b : fl) : fl := match a, b with Some x, Some y => Some (f x y) | _, _ => None end.
Definition fl1 (f : Q -> Q) (a : fl) : fl := match a with Some x => Some (f x) | None => None end.
Definition fl_lt (a b : fl) : bool := match a, b with Some x, Some y => negb (Qle_bool y x) | _, _ => false end.
Definition fl_le (a b : fl) : bool := match a, b with Some x, Some y => Qle_bool x y | _, _ => false end.
Definition fl_eq (a b : fl) : bool := match a, b with Some x, Some y => Qeq_bool x y | _, _ => false end.
(** util::Min, util/Functional.hpp:84-91: b > a ? a : b. *)
Definition fl_min (a b : fl) : fl := if fl_lt a b then a else b.
(** Defaulted operator== of Point, common/Structs.hpp:64. *)
Definition point_eq (p q : list fl) : bool := (length p =? length q) && forallb (fun x => fl_eq x.1 x.2) (zip p q).
Definition coords (p : pt) : list fl := [Some p.1.1; Some p.1.2; Some p.2].
Definition nan_point : list fl := [None; None; None].
Definition epsilon : Q := 1 # 4503599627370496.
(** SpatialHashTable.hpp:19: epsilon * (1 << sizeof(val_t)). *)
Definition minimum_dx : Q := 256 # 4503599627370496.
Definition min64 : Z := -9223372036854775808.
Definition max64 : Z := 9223372036854775807.
Definition in64 (z : Z) : bool := ((min64 <=? z) && (z <=? max64))%Z.

Section matching.
  (** [odd]: what std::lround returns for NaN and for numbers that do not fit (C leaves it
      unspecified).  [root]: the computed std::sqrt.  [sched], [order]: the order in which
      the boundary views are visited in parallel and in which a hash map is traversed. *)
  Context (odd : fl -> Z) (root : Q -> Q).
  Context (sched : list (element pt * nat) -> list (element pt * nat)).
  Context (order : list (nat * list fl) -> list (nat * list fl)).

  (** makeBoundaryNodeCoordsMap, 97-120.  The i-th node of an element of order 1 is its
      i-th vertex (C67, C68).  at() throws.  The three coordinates are stored one after the
      other; threads that store different points for a node are not modelled. *)
  Definition put_nodes (v : element pt * nat) (lookup : list (list fl)) : res (list (list fl)) :=
    inds ← rd (boundary_table (el_type v.1) (el_order v.1)) v.2;
    for_each (fun i lookup =>
      node_id ← rd (el_nodes v.1) i;
      phys_location ← rd (el_verts v.1) i;
      _ ← throwing_assert (node_id <? length lookup);
      wr lookup node_id (coords phys_location)) inds lookup.
  Definition makeBoundaryNodeCoordsMap (x : mesh pt) : res (list (nat * list fl)) :=
    lookup ← for_each put_nodes (sched (concat (m_bnds x).*2)) (replicate (localSize (m_own x)) nan_point);
    Ok (List.filter (fun p => negb (point_eq p.2 nan_point)) (zip (seq 0 (length lookup)) lookup)).

  (** initSpaceHashTable, 122-150.  The fold starts with infinity, so that the first step
      gives the first entry; without entries the origin becomes inf - inf, NaN. *)
  Definition fold_min (l : list fl) : fl := match l with [] => None | a :: l => foldl fl_min a l end.
  Definition column (d : nat) (entries : list (nat * list fl)) : list fl := map (fun p => match p.2 !! d with Some x => x | None => None end) entries.
  Definition bounds (entries : list (nat * list fl)) : list fl * list fl :=
    let min := map (fun d => fold_min (column d entries)) (seq 0 3) in
    let neg_max := map (fun d => fold_min (map (fl1 Qopp) (column d entries))) (seq 0 3) in
    (min, map (fl1 Qopp) neg_max).
  Definition initSpaceHashTable (entries : list (nat * list fl)) : list fl * list fl :=
    let '(min, max) := bounds entries in
    let bb := zip_with (fl2 Qminus) max min in
    let is_2d := fl_le (default None (bb !! 2)) (Some epsilon) in
    let nn_fp := inject_Z (Z.of_nat (length entries)) in
    let nodes_1d_est := if is_2d then nn_fp else root nn_fp in
    let grid_step := map (fl1 (Qmult (1 / (100 * nodes_1d_est)))) bb in
    let origin := map (fl1 (Qmult (1 # 2))) (zip_with (fl2 Qplus) min max) in
    (* the constructor, SpatialHashTable.hpp:26-30: std::max(std::fabs(d), minimum_dx) *)
    (map (fun d => let a := fl1 Qabs d in if fl_lt a (Some minimum_dx) then Some minimum_dx else a) grid_step, origin).

  (** snapToGrid, SpatialHashTable.hpp:79-89. *)
  Definition snap (x x0 dx : fl) : Z :=
    let r := fl2 Qdiv (fl2 Qminus x x0) dx in
    match r with Some q => let z := lround q in if in64 z then z else odd r | None => odd r end.
  Definition point_key (dx origin : list fl) (p : list fl) : key := map (fun x => snap x.1 x.2.1 x.2.2) (zip p (zip origin dx)).
  (** invertNodeCoordMap, 152-159: the buckets as the entries by key. *)
  Definition bucket (dx origin : list fl) (entries : list (nat * list fl)) (k : key) : list (nat * list fl) :=
    List.filter (fun p => bool_decide (point_key dx origin p.2 = k)) entries.
  (** The test, 165-170; sqrt(s) < eps is s < eps^2. *)
  Definition close (p1 p2 : list fl) : bool :=
    fl_lt (foldl (fl2 Qplus) (Some 0%Q) (map (fun d => fl2 Qmult d d) (zip_with (fl2 Qminus) p1 p2))) (Some (1 # 1000000000000000000000000)%Q).
  (** proximate, 46-60, with find_if: the views are lazy, a neighbouring cell is looked at
      when the ones before it had no match.  Signed overflow is UB. *)
  Definition add_key (k ofs : key) : res key := map_res (fun x : Z * Z => let z := (x.1 + x.2)%Z in if in64 z then Ok z else UB) (zip k ofs).
  Fixpoint find_in (cells : key -> list (nat * list fl)) (key0 : key) (p : list fl) (ofs : list key) : res (option nat) :=
    match ofs with
    | [] => Ok None
    | o :: ofs => k ← add_key key0 o;
        match List.find (fun q => close p q.2) (cells k) with
        | Some q => Ok (Some q.1)
        | None => find_in cells key0 p ofs end
    end.
  (** matchExistingNodes, 161-183. *)
  Definition matchExistingNodes (existing to_match : list (nat * list fl)) : res (dmap nat) :=
    let '(dx, origin) := initSpaceHashTable existing in
    found ← map_res (fun p : nat * list fl => r ← find_in (bucket dx origin existing) (point_key dx origin p.2) p.2 (offsets 3); Ok (p.1, r : option nat)) to_match;
    Ok (omap (fun p : nat * option nat => match p.2 with Some b => Some (p.1, b) | None => None end) (found : list (nat * option nat))).

  (** merge, 368-377; the rest is [Merge_model.merge]. *)
  Definition match_map (x1 x2 : mesh pt) : res (dmap nat) :=
    c1 ← makeBoundaryNodeCoordsMap x1; c2 ← makeBoundaryNodeCoordsMap x2;
    matchExistingNodes (order c1) (order c2).
  Definition merge_meshes (msched : list (element pt) -> list (element pt)) (shuffle : list nat -> list nat) (x1 x2 : mesh pt) : res (mesh pt) :=
    mm ← match_map x1 x2; merge msched shuffle mm x1 x2.
End matching.

(** deform, 395-405.  The boundary views point to the elements of the mesh. *)
Definition deform_el {V} (f : V -> V) (e : element V) : element V := mk_el (el_type e) (el_order e) (el_nodes e) (map f (el_verts e)) (el_id e).
Definition deform {V} (f : V -> V) (x : mesh V) : mesh V :=
  mk_mesh (map (fun p => (p.1, mk_dom (map (map (deform_el f)) (d_els p.2)) (d_dim p.2))) (m_domains x)) (m_own x)
    (map (fun p => (p.1, map (fun v => (deform_el f v.1, v.2)) p.2)) (m_bnds x)).
