(** Model of mesh/LocalMeshView.hpp.  Local node indices are natural numbers
    (the 32-bit truncation of n_loc_id_t is not modelled). *)
From Verif Require Import Base StdAlgo Ownership_model Elem_model Mesh_model.

(** ** LocalElementView *)
(** n_internal_nodes, n_boundary_nodes, optimize_internal, 17-19. *)
Definition optimize_internal (t : etype) (O : nat) : bool := 1 <? length (internal_node_inds t O).
(** The members, 54-56; type and order are template parameters.  [None] is
    invalid_domain_id. *)
Record lview (V : Type) := mk_lv {
  lv_type : etype; lv_order : nat; lv_nodes : list nat; lv_verts : list V; lv_sides : list (option nat) }.
Arguments mk_lv {V} _ _ _ _ _.
Arguments lv_type {V} _.
Arguments lv_order {V} _.
Arguments lv_nodes {V} _.
Arguments lv_verts {V} _.
Arguments lv_sides {V} _.
(** std::ranges::is_sorted. *)
Fixpoint is_sorted (l : list nat) : bool :=
  match l with a :: ((b :: _) as l') => (a <=? b) && is_sorted l' | _ => true end.

Section view.
  Context {V : Type}.
  Notation el := (element V).
  (** The constructor, 205-230.  [own] is mesh.getNodeOwnership(); m_sides.at throws. *)
  Definition make_view (own : ownership) (e : el) (sides : list (nat * nat)) : res (lview V) :=
    let t := el_type e in let O := el_order e in
    let g2l := getLocalIndex own in
    nodes ← (if optimize_internal t O then
      bnd ← map_res (rd (el_nodes e)) (boundary_node_inds t O);
      internal ← map_res (rd (el_nodes e)) (internal_node_inds t O);
      let internal := map g2l internal in
      front ← rd internal 0;
      back ← rd internal (length internal - 1);
      _ ← throwing_assert (is_sorted internal && (front + length internal - 1 =? back));
      Ok (map g2l bnd ++ [front])
    else Ok (map g2l (el_nodes e)));
    m_sides ← for_each (fun (sb : nat * nat) s => if sb.1 <? length s then Ok (<[sb.1 := Some sb.2]> s) else Throw)
      sides (replicate (n_sides t) None);
    Ok (mk_lv t O nodes (el_verts e) m_sides).
  (** getLocalNodes, 232-246. *)
  Definition getLocalNodes (lv : lview V) : res (list nat) :=
    let t := lv_type lv in let O := lv_order lv in
    if optimize_internal t O then
      r ← for_each (fun (id : nat * nat) r => n ← rd (lv_nodes lv) id.1; wr r id.2 n)
        (zip (seq 0 (length (boundary_node_inds t O))) (boundary_node_inds t O)) (replicate (nodes_per_element t O) 0);
      lid ← rd (lv_nodes lv) (length (lv_nodes lv) - 1);
      r ← for_each (fun dest (st : nat * list nat) => r ← wr st.2 dest st.1; Ok (st.1 + 1, r)) (internal_node_inds t O) (lid, r);
      Ok r.2
    else Ok (lv_nodes lv).
  (** getBoundaries, 248-259. *)
  Definition getBoundaries (lv : lview V) : list (nat * nat) :=
    omap (fun sb : nat * option nat => pair sb.1 <$> sb.2) (zip (seq 0 (length (lv_sides lv))) (lv_sides lv)).
  (** hasBoundaries, 261-273. *)
  Definition hasBoundaries (lv : lview V) : bool := existsb (fun o => match o with Some _ => true | None => false end) (lv_sides lv).
End view.

(** ** reorderByAdjacency *)
(** Hash maps and sets as lists of their entries in some order; see [shuf] below. *)
Fixpoint hm_upd {A} (k : nat) (dflt : A) (f : A -> A) (m : list (nat * A)) : list (nat * A) :=
  match m with [] => [(k, f dflt)] | (k', a) :: m => if k =? k' then (k', f a) :: m else (k', a) :: hm_upd k dflt f m end.
Definition hs_insert (x : nat) (s : list nat) : list nat := if bool_decide (x ∈ s) then s else s ++ [x].
(** computeNodeToElementMap, 277-304, on the elements' local nodes.  The result is the list of the rows
    of the graph (storage in CRS form: C29); node_degs.at throws for no element
    (max_node is then 0 and no write happens). *)
Definition node_rows (els : list (list nat)) : list (list nat) :=
  let m := foldl (fun m (ie : nat * list nat) => foldl (fun m n => hm_upd n [] (hs_insert ie.1) m) m ie.2) []
             (zip (seq 0 (length els)) els) in
  let max_node := foldr Nat.max 0 (concat els) in
  map (fun n => sort (default [] (dm_find n m))) (seq 0 (max_node + 1)).
Section reorder.
  (** The iteration order of the hash maps. *)
  Context (shuf : list (nat * nat) -> list (nat * nat)).
  (** numeric_limits<unsigned>::max(). *)
  Context (max_unsigned : nat).
  (** NodeCacheHotnessModel, 306-331. *)
  Definition max_hot : nat := 16.
  Notation cache := (list (nat * nat)).
  Definition touch (n : nat) (c : cache) : cache := hm_upd n 0 (fun _ => max_hot) c.
  Definition tick (c : cache) : cache := List.filter (fun nh : nat * nat => negb (nh.2 =? 0)) (map (fun nh => (nh.1, nh.2 / 2)) c).
  (** computeElementConnectedness, 333-347: sums of unsigned numbers. *)
  Definition elem_connect (els rows : list (list nat)) : res (list nat) :=
    map_res (fun nodes => ds ← map_res (fun n => row ← rd rows n; Ok (length row)) nodes; Ok (sum ds mod (max_unsigned + 1))) els.
  (** populate_hot_elems, 360-368. *)
  Definition populate_hot_elems (c : cache) (rows : list (list nat)) (done_elems : list bool) : res (list (nat * nat)) :=
    for_each (fun (nh : nat * nat) hot_elems =>
      if length rows <=? nh.1 then Ok hot_elems
      else
        row ← rd rows nh.1;
        for_each (fun e he => d ← rd done_elems e; Ok (if (d : bool) then he else hm_upd e 0 (fun h => (h + nh.2) mod (max_unsigned + 1)) he)) row hot_elems)
      (shuf c) [].
  (** std::ranges::min over 0, 1, ..., and std::ranges::max, with projection: the first optimum. *)
  Definition first_min (key : nat -> nat) (l : list nat) : option nat :=
    match l with [] => None | a :: l => Some (foldl (fun b x => if key x <? key b then x else b) a l) end.
  Definition lex_lt (a b : nat * nat) : bool := (a.1 <? b.1) || ((a.1 =? b.1) && (a.2 <? b.2)).
  Definition first_max (key : nat * nat -> nat * nat) (l : list (nat * nat)) : option (nat * nat) :=
    match l with [] => None | a :: l => Some (foldl (fun b x => if lex_lt (key b) (key x) then x else b) a l) end.
  (** get_next_elem with get_el_connect and elem_crit, 369-383.  at() of the connectedness throws. *)
  Definition get_next_elem (connect : list nat) (done_elems : list bool) (hot_elems : list (nat * nat)) : res nat :=
    match hot_elems with
    | [] => match first_min (fun e => if nth e done_elems false then max_unsigned else nth e connect 0) (seq 0 (length done_elems)) with
            | Some e => Ok e
            | None => UB
            end
    | _ =>
      _ ← throwing_assert (forallb (fun eh : nat * nat => eh.1 <? length connect) hot_elems);
      match first_max (fun eh => (eh.2, max_unsigned - nth eh.1 connect 0)) (shuf hot_elems) with
      | Some eh => Ok eh.1
      | None => UB
      end
    end.
  (** reorderByAdjacency, 349-404.  [els] are the elements' local nodes; the result are the
      permutation and the cache; elements.at throws. *)
  Definition reorder_step (els rows : list (list nat)) (connect : list nat) (_ : nat) (st : list nat * list bool * cache) : res (list nat * list bool * cache) :=
    let '(permutation, done_elems, c) := st in
    hot_elems ← populate_hot_elems c rows done_elems;
    next ← get_next_elem connect done_elems hot_elems;
    done_elems ← wr done_elems next true;
    match els !! next with
    | Some nodes => Ok (permutation ++ [next], done_elems, tick (foldl (fun c n => touch n c) c nodes))
    | None => Throw
    end.
  Definition reorderByAdjacency {A} (nodes_of : A -> res (list nat)) (elements : list A) (c : cache) : res (list A * cache) :=
    els ← map_res nodes_of elements;
    let rows := node_rows els in
    connect ← elem_connect els rows;
    st ← for_each (reorder_step els rows connect) (seq 0 (length els)) ([], replicate (length els) false, c);
    permuted ← map_res (fun p => match elements !! p with Some a => Ok a | None => Throw end) st.1.1;
    Ok (permuted, st.2).
End reorder.

(** ** computeNodeOrder, 425-458 *)
Section order.
  Context {V : Type}.
  Notation el := (element V).
  (** getInternalNodes, mesh/Element.hpp:34-39. *)
  Definition getInternalNodes (e : el) : res (list nat) := map_res (rd (el_nodes e)) (internal_node_inds (el_type e) (el_order e)).
  Definition mark_internal_nodes (e : el) (vec : list nat) : res (list nat) :=
    ns ← getInternalNodes e;
    for_each (fun n vec => _ ← throwing_assert (negb (bool_decide (n ∈ vec))); Ok (vec ++ [n])) ns vec.
  Definition computeNodeOrder (m : mesh V) : res (list nat) :=
    let own := m_own m in
    let max_dim := getMaxDim (m_domains m) in
    vec ← for_each (fun (d : nat * domain V) vec => if default 255 (d_dim d.2) =? max_dim then for_each mark_internal_nodes (concat (d_els d.2)) vec else Ok vec)
      (m_domains m) [];
    let owned := seq (so_begin own) (numOwned own) in
    let others := List.filter (fun n => negb (bool_decide (n ∈ vec))) owned in
    _ ← throwing_assert (length others + length vec + length (so_shared own) =? localSize own);
    Ok (others ++ vec ++ so_shared own).
End order.

(** ** LocalMeshView *)
Section meshview.
  Context {V : Type}.
  Notation el := (element V).
  Context (shuf : list (nat * nat) -> list (nat * nat)) (max_unsigned : nat).
  (** The members, 143-145; a domain is the list of its element vectors. *)
  Record mview := mk_mv { mv_domains : dmap (list (list (lview V))); mv_dims : dmap (option nat); mv_owned_limit : nat }.
  (** makeElementIdToSidesMap, 406-422. *)
  Definition side_map (m : mesh V) : list (nat * list (nat * nat)) :=
    foldl (fun r (b : nat * list (el * nat)) => foldl (fun r (v : el * nat) => hm_upd (el_id v.1) [] (fun l => l ++ [(v.2, b.1)]) r) r b.2) [] (m_bnds m).
  (** The constructor, 460-496; element_to_local 470-474, make_vec_view 484-490. *)
  Definition element_to_local (part full : mesh V) (e : el) : res (lview V) :=
    make_view (m_own full) e (default [] (dm_find (el_id e) (side_map part))).
  Definition make_vec_view (part full : mesh V) (v : list el) (c : list (nat * nat)) : res (list (lview V) * list (nat * nat)) :=
    match v with
    | [] => Ok ([], c)
    | _ => vs ← map_res (element_to_local part full) v; reorderByAdjacency shuf max_unsigned getLocalNodes vs c
    end.
  Definition make_mview (part full : mesh V) : res mview :=
    let owned := seq (so_begin (m_own part)) (numOwned (m_own part)) in
    limit ← (match owned with [] => Ok 0 | _ => b ← rd owned (length owned - 1); Ok (getLocalIndex (m_own full) b + 1) end);
    let boundaries := (m_bnds part).*1 in
    st ← for_each (fun (d : nat * domain V) (st : dmap (list (list (lview V))) * list (nat * nat)) =>
           if binary_search boundaries d.1 then Ok st
           else
             r ← for_each (fun v (r : list (list (lview V)) * list (nat * nat)) => vc ← make_vec_view part full v r.2; Ok (r.1 ++ [vc.1], vc.2)) (d_els d.2) ([], st.2);
             Ok (dm_set d.1 r.1 st.1, r.2)) (m_domains part) ([], []);
    Ok (mk_mv st.1 (map (fun d : nat * domain V => (d.1, d_dim d.2)) (m_domains part)) limit).
End meshview.
Arguments mk_mv {V} _ _ _.
Arguments mv_domains {V} _.
Arguments mv_dims {V} _.
Arguments mv_owned_limit {V} _.
