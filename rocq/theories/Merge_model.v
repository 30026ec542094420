(** Model of merge, mesh/MeshUtils.hpp:177-324, 368-393. *)
From Verif Require Import Base StdAlgo Ownership_model Elem_model Mesh_model.

(** std::ranges::set_difference and set_intersection of sorted ranges. *)
Fixpoint set_difference (a b : list nat) {struct a} : list nat :=
  let fix go b :=
    match a, b with
    | [], _ => []
    | _, [] => a
    | x :: a', y :: b' => if x <? y then x :: set_difference a' b else if y <? x then go b' else set_difference a' b'
    end in go b.
Fixpoint set_intersection (a b : list nat) {struct a} : list nat :=
  let fix go b :=
    match a, b with
    | [], _ => []
    | _, [] => []
    | x :: a', y :: b' => if x <? y then set_intersection a' b else if y <? x then go b' else x :: set_intersection a' b'
    end in go b.

Section merge.
  Context {V : Type}.
  Notation el := (element V).
  Notation doms := (dmap (domain V)).
  (** getFaceSet, 185-201.  The hash set is the list of its entries; only
      membership is ever asked for, and getFacesToDelete iterates over it to fill
      other sets. *)
  Definition side_view_nodes (v : el * nat) : res (list nat) :=
    inds ← rd (boundary_table (el_type v.1) (el_order v.1)) v.2;
    map_res (rd (el_nodes v.1)) inds.
  Definition getFaceSet (x : mesh V) : res (list (list nat)) :=
    map_res (fun v => ns ← side_view_nodes v; Ok (sort ns)) (concat (m_bnds x).*2).
  (** getFacesToDelete, 204-231.  The hash map of matched nodes is an association
      list without repeated keys. *)
  Fixpoint map_nodes (mm : dmap nat) (ns : list nat) : option (list nat) :=
    match ns with
    | [] => Some []
    | n :: ns => match dm_find n mm with
                 | Some n' => match map_nodes mm ns with Some ns' => Some (n' :: ns') | None => None end
                 | None => None
                 end
    end.
  Definition getFacesToDelete (existing incoming : list (list nat)) (mm : dmap nat) : list (list nat) * list (list nat) :=
    foldr (fun face del =>
      match map_nodes mm face with
      | Some ns => if bool_decide (sort ns ∈ existing) then (sort ns :: del.1, face :: del.2) else del
      | None => del
      end) ([], []) incoming.
  (** copyElements, 233-274.  domains[id] makes an empty domain if there is none;
      the reference stays valid (std::map). *)
  Definition push_at (id : nat) (e : el) (m : doms) : res doms :=
    d ← pushToDomain [1] (default (empty_domain [1]) (dm_find id m)) e;
    Ok (dm_set id d m).
  Definition dm_erase {A} (k : nat) (m : dmap A) : dmap A := List.filter (fun p => negb (p.1 =? k)) m.
  Definition copy_domain (src : doms) (proj : el -> el) (id : nat) (m : doms) : res doms :=
    for_each (fun e m => push_at id (proj e) m) (visit_elems src [id]) (dm_emplace id (empty_domain [1]) m).
  Definition copy_boundary (src : doms) (del : list (list nat)) (proj : el -> el) (id : nat) (st : doms * list nat) : res (doms * list nat) :=
    st ← for_each (fun e st =>
           let new_element := proj e in
           if bool_decide (sort (el_nodes e) ∈ del) then Ok (st.1, st.2 ++ [el_id new_element])
           else m ← push_at id new_element st.1; Ok (m, st.2))
         (visit_elems src [id]) (dm_emplace id (empty_domain [1]) st.1, st.2);
    Ok (match dm_find id st.1 with
        | Some d => if forallb (fun v : list el => length v =? 0) (d_els d) then dm_erase id st.1 else st.1
        | None => st.1
        end, st.2).
  Definition copyElements (m : doms) (src : mesh V) (del : list (list nat)) (proj : el -> el) : res (doms * list nat) :=
    let bnds := (m_bnds src).*1 in
    m ← for_each (copy_domain (m_domains src) proj) (set_difference (m_domains src).*1 bnds) m;
    st ← for_each (copy_boundary (m_domains src) del proj) bnds (m, []);
    Ok (st.1, sort st.2).
  (** fixElementIds, 276-292.  The domains are distinct objects, so the parallel
      loop is a map; the sort is by id (which are distinct, see the theorem). *)
  Definition by_id (a b : el) : Prop := el_id a <= el_id b.
  Global Instance by_id_dec : RelDecision by_id.
  Proof. unfold RelDecision, Decision, by_id. intros a b. apply le_dec. Defined.
  Definition set_el_id (f : nat -> nat) (e : el) : el := mk_el (el_type e) (el_order e) (el_nodes e) (el_verts e) (f (el_id e)).
  Definition fixElementIds (m : doms) (deleted : list nat) : doms :=
    map (fun p => (p.1, mk_dom (map (fun v => merge_sort by_id (map (set_el_id (fun i => i - lower_bound deleted i)) v)) (d_els p.2)) (d_dim p.2))) m.
  (** translateElement, 294-314. *)
  Definition new_node_id (mm : dmap nat) (num_existing_nodes id : nat) : nat :=
    match dm_find id mm with
    | Some id' => id'
    | None => id + num_existing_nodes - lower_bound (sort mm.*1) id
    end.
  Definition translateElement (mm : dmap nat) (num_existing_nodes num_existing_els : nat) (e : el) : el :=
    mk_el (el_type e) (el_order e) (map (new_node_id mm num_existing_nodes) (el_nodes e)) (el_verts e) (el_id e + num_existing_els).
  (** merge, 368-393.  [mm] is the match map: the nodes of mesh 2 found to coincide
      with a node of mesh 1 (from the coordinates, 95-183), with that node. *)
  Definition merge (sched : list el -> list el) (shuffle : list nat -> list nat) (mm : dmap nat) (x1 x2 : mesh V) : res (mesh V) :=
    faces1 ← getFaceSet x1;
    faces2 ← getFaceSet x2;
    let del := getFacesToDelete faces1 faces2 mm in
    r1 ← copyElements [] x1 del.1 id;
    r2 ← copyElements r1.1 x2 del.2 (translateElement mm (localSize (m_own x1)) (getNElements (m_domains x1)));
    let domains := fixElementIds r2.1 (r1.2 ++ r2.2) in
    let num_nodes := localSize (m_own x1) + localSize (m_own x2) - length mm in
    let boundary_ids := unique (sort ((m_bnds x1).*1 ++ (m_bnds x2).*1)) in
    make_mesh2 sched shuffle domains 0 num_nodes (set_intersection boundary_ids domains.*1).
End merge.
