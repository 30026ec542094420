(** Vocabulary of the properties of VTK files. *)
From Verif Require Import Base Ownership_model Elem_model Serial_model Mesh_model MeshSerial_model Base64_spec Store_spec LocalView_spec Vtk_model.

(** ** Cells *)
(** Corners of the cells VTK_LINE (3), VTK_QUAD (9) and VTK_HEXAHEDRON (12) of the VTK file
    format in the format's order, in the unit line, square and cube. *)
Definition vtk_corners (t : etype) : list (nat * nat * nat) :=
  match t with
  | Line => [(0, 0, 0); (1, 0, 0)]
  | Quad => [(0, 0, 0); (1, 0, 0); (1, 1, 0); (0, 1, 0)]
  | Hex => [(0, 0, 0); (1, 0, 0); (1, 1, 0); (0, 1, 0); (0, 0, 1); (1, 0, 1); (1, 1, 1); (0, 1, 1)]
  end.
Definition vtk_type (t : etype) : byte := match t with Line => 3%N | Quad => 9%N | Hex => 12%N end.
(** An element of order O is cut at its nodes into O, O^2 or O^3 cells; [c]-th cell: *)
Definition cell_count (t : etype) (O : nat) : nat := O ^ native_dim t.
Definition cell_at (O c : nat) : nat * nat * nat := (c `mod` O, (c / O) `mod` O, c / (O * O)).
(** The node of grid position (x, y, z). *)
Definition grid_node (O : nat) (p : nat * nat * nat) : nat := p.1.1 + (O + 1) * (p.1.2 + (O + 1) * p.2).
Definition shift (p q : nat * nat * nat) : nat * nat * nat := (p.1.1 + q.1.1, p.1.2 + q.1.2, p.2 + q.2).
(** The cells of an element: type and nodes of every cell. *)
Definition element_cells {V} (e : element V) : list (byte * list nat) :=
  map (fun c => (vtk_type (el_type e), map (fun q => nth (grid_node (el_order e) (shift (cell_at (el_order e) c) q)) (el_nodes e) 0) (vtk_corners (el_type e))))
      (seq 0 (cell_count (el_type e) (el_order e))).
(** What a reader makes of the arrays connectivity, offsets (end of each cell) and types. *)
Fixpoint read_cells (conn : list N) (start : N) (offs : list N) (types : list byte) : list (byte * list N) :=
  match offs, types with
  | o :: offs, t :: types => (t, take (N.to_nat (o - start)) (drop (N.to_nat start) conn)) :: read_cells conn o offs types
  | _, _ => []
  end.

(** ** Sections of the appended data *)
(** At position [off] of [txt] is the Base64 text of the number of bytes (8 bytes,
    header_type UInt64, little endian) followed by the data. *)
Definition section_at (txt : list byte) (off : nat) (data : list byte) : Prop :=
  rfc4648_decode (take (4 * ((length data + 8 + 2) / 3)) (drop off txt)) = Some (le_bytes 8 (N.of_nat (length data)) ++ data).
(** Arrays of UInt32. *)
Definition words32 (l : list N) : list byte := concat (map (le_bytes 4) l).
(** 8 bytes. *)
Definition val8 (v : list byte) : Prop := length v = 8 /\ Forall (fun b => (b < 256)%N) v.

(** ** Meshes *)
(** The elements have the right number of nodes, all known; the numbers fit into 32 bits. *)
Definition vtk_mesh {V} (own : ownership) (els : list (element V)) : Prop :=
  good_own own /\ Forall (fun e => length (el_nodes e) = nodes_per_element (el_type e) (el_order e) /\ Forall (known own) (el_nodes e)) els /\
  (N.of_nat (localSize own) < 2 ^ 32)%N /\ (N.of_nat (length (concat (map snd (concat (map element_cells els))))) < 2 ^ 32)%N.
(** Every known node belongs to an element. *)
Definition all_covered {V} (own : ownership) (els : list (element V)) : Prop :=
  forall n, known own n -> exists e, e ∈ els /\ n ∈ el_nodes e.
(** Every element has a location for each of its nodes, three coordinates; elements agree. *)
Definition locations {V} (els : list (element V)) (locs : element V -> list (list (list byte))) (at_node : nat -> list (list byte)) : Prop :=
  (forall e, e ∈ els -> locs e = map at_node (el_nodes e)) /\ forall n, length (at_node n) = 3 /\ Forall val8 (at_node n).

(** ** Fields *)
(** The components of a group at node [k], padded with zero to three unless it is a scalar. *)
Definition group_value (sol : list (list (list byte))) (inds : list nat) (k : nat) : list (list byte) :=
  let comps := map (fun i => nth k (nth i sol []) []) inds in
  comps ++ (if length inds =? 2 then [replicate 8 0%N] else []).
Definition group_data (sol : list (list (list byte))) (n : nat) (inds : list nat) : list byte :=
  concat (concat (map (group_value sol inds) (seq 0 n))).
(** The fields of the solution manager have a value for every node. *)
Definition solution (n : nat) (sol : list (list (list byte))) : Prop := Forall (fun f => length f = n /\ Forall val8 f) sol.
Definition proper_group (sol : list (list (list byte))) (inds : list nat) : Prop := 1 <= length inds <= 3 /\ Forall (fun i => i < length sol) inds.

(** ** Files *)
(** The arrays in the order of the description: name, number of components, data.
    [nodes]: the known nodes in local order. *)
Definition local_nodes (own : ownership) : list nat := seq (so_begin own) (so_end own - so_begin own) ++ so_shared own.
Definition file_arrays (own : ownership) (at_node : nat -> list (list byte)) (conn offs : list N) (types : list byte)
    (sol : list (list (list byte))) (defs : list (list nat)) : list (array_name * nat * list byte) :=
  [(Position, 3, concat (concat (map at_node (local_nodes own)))); (Connectivity, 1, words32 conn); (Offsets, 1, words32 offs); (Types, 1, types)] ++
  map (fun z : nat * list nat => (Field z.1, if length z.2 =? 1 then 1 else 3, group_data sol (localSize own) z.2)) (zip (seq 0 (length defs)) defs).
(** The array [a] of the description names [x]; its data are at its offset in [body]. *)
Definition array_ok (body : list byte) (a : data_array) (x : array_name * nat * list byte) : Prop :=
  da_name a = x.1.1 /\ da_comps a = x.1.2 /\ section_at body (da_offset a) x.2.
