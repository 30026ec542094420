(** Model of serializeMesh and deserializeMesh, mesh/MeshUtils.hpp:316-358. *)
From Verif Require Import Base StdAlgo Ownership_model Elem_model Serial_model Mesh_model.

(** Point<3> (common/Structs.hpp): the bit patterns of three doubles. *)
Notation point := (N * N * N)%type.
(** Object representation of an Element (Element.hpp:29-31): all members are
    8-byte quantities, so there is no padding. *)
Definition w8 (n : N) : list byte := le_bytes 8 n.
Definition point_words (p : point) : list N := [p.1.1; p.1.2; p.2].
Definition el_words (e : element point) : list N :=
  map N.of_nat (el_nodes e) ++ concat (map point_words (el_verts e)) ++ [N.of_nat (el_id e)].
Definition el_bytes (e : element point) : list byte := concat (map w8 (el_words e)).
Definition n_words (s : etype * nat) : nat := nodes_per_element s.1 s.2 + 3 * nodes_per_element s.1 1 + 1.
Definition el_size (s : etype * nat) : nat := 8 * n_words s.
(** The element with a given representation. *)
Fixpoint words (k : nat) (bs : list byte) : list N :=
  match k with O => [] | S k => le_value (take 8 bs) :: words k (drop 8 bs) end.
Fixpoint points (k : nat) (ws : list N) : list point :=
  match k with O => [] | S k => (nth 0 ws 0%N, nth 1 ws 0%N, nth 2 ws 0%N) :: points k (drop 3 ws) end.
Definition el_of_bytes (s : etype * nat) (bs : list byte) : element point :=
  let ws := words (n_words s) bs in
  let n := nodes_per_element s.1 s.2 in
  let nv := nodes_per_element s.1 1 in
  mk_el s.1 s.2 (map N.to_nat (take n ws)) (points nv (drop n ws)) (N.to_nat (nth (n + 3 * nv) ws 0%N)).

(** The tuple serialised at line 328: (domain id, spans of elements) pairs,
    nodes_begin, num_owned_nodes, boundary ids. *)
Definition v_dom (d : nat * domain point) : val :=
  VTuple [VPod (le_bytes 2 (N.of_nat d.1)); VTuple (map (fun v => VRange (map (fun e => VPod (el_bytes e)) v)) (d_els d.2))].
Definition v_mesh (m : mesh point) : val :=
  let n := numOwned (m_own m) in
  VTuple [VRange (map v_dom (m_domains m));
          VPod (w8 (N.of_nat (if n =? 0 then 0 else so_begin (m_own m))));
          VPod (w8 (N.of_nat n));
          VRange (map (fun b => VPod (le_bytes 2 (N.of_nat b))) (m_bnds m).*1)].
Definition serializeMesh (m : mesh point) : list byte := serialize (v_mesh m).
(** deserial_t, 335-337. *)
Definition t_mesh (orders : list nat) : ty :=
  TTuple [TRange (TTuple [TPod 2; TTuple (map (fun s => TRange (TPod (el_size s))) (slots orders))]); TPod 8; TPod 8; TRange (TPod 2)].

(** Reading the typed values; a value of another shape cannot occur. *)
Definition get_pod (v : val) : res (list byte) := match v with VPod b => Ok b | _ => UB end.
Definition get_num (v : val) : res nat := b ← get_pod v; Ok (N.to_nat (le_value b)).
Definition get_range (v : val) : res (list val) := match v with VRange vs => Ok vs | _ => UB end.
(** make_domain, 340-353: every element is pushed into a fresh domain. *)
Definition make_domain (orders : list nat) (v : val) : res (nat * domain point) :=
  match v with
  | VTuple [vid; VTuple arrays] =>
    id ← get_num vid;
    d ← for_each (fun (sa : etype * nat * val) d =>
          els ← get_range sa.2;
          for_each (fun ve d => b ← get_pod ve; pushToDomain orders d (el_of_bytes sa.1 b)) els d)
        (zip (slots orders) arrays) (empty_domain orders);
    Ok (id, d)
  | _ => UB
  end.
(** deserializeMesh, 332-358; std::ranges::to<std::map> inserts the pairs one by one. *)
Definition deserializeMesh (orders : list nat) sched shuffle (s : list byte) : res (mesh point) :=
  r ← deserialize (t_mesh orders) s;
  match r.1 with
  | VTuple [elem_data; nodes_begin; num_owned; bnd_ids] =>
    ds ← get_range elem_data;
    ds ← map_res (make_domain orders) ds;
    let domain_map := foldl (fun m (d : nat * domain point) => dm_emplace d.1 d.2 m) [] ds in
    b ← get_num nodes_begin; n ← get_num num_owned;
    ids ← get_range bnd_ids;
    ids ← map_res get_num ids;
    make_mesh2 sched shuffle domain_map b n ids
  | _ => UB
  end.
