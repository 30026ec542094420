(** Model of mesh/ReadMesh.hpp (gmsh, ASCII format 4) with util/IO.hpp.  The file is a
    list of tokens: section names, integers and real numbers; coordinates and the other
    real-valued fields are [Val], all other fields [Int] (in the text a coordinate may
    look like an integer).  Coordinates are rationals.  A read that meets a token of
    another kind is [UB]: the stream then fails and the code goes on with zero or
    uninitialised variables. *)
From Coq Require Import QArith.
From Verif Require Import Base StdAlgo Elem_model Mesh_model Merge_model.
Local Open Scope nat_scope.

Inductive name := MeshFormat | EndMeshFormat | Entities | EndEntities | Nodes | EndNodes | Elements | EndElements | Other (n : nat).
Global Instance name_dec : EqDecision name. Proof. solve_decision. Defined.
Inductive token := Name (s : name) | Int (z : Z) | Val (x : Q).
Definition pt3 : Type := Q * Q * Q.
Definition xc (p : pt3) : Q := p.1.1.
Definition yc (p : pt3) : Q := p.1.2.
Definition zc (p : pt3) : Q := p.2.
(** NodeInfo, ReadMesh.hpp:47-51. *)
Definition node_info : Type := nat * pt3.

(** ** makeElementFromNodeData, 53-103 *)
Definition swap {A} (l : list A) (i j : nat) : res (list A) :=
  x ← rd l i; y ← rd l j; l ← wr l i y; wr l j x.
(** same_z_as_first and all_of, 71-75; 1e-9. *)
Definition flat (coords : list pt3) : res bool :=
  c0 ← rd coords 0;
  Ok (forallb (fun p => let d := (zc p - zc c0)%Q in negb (Qle_bool (1 # 1000000000) d) && negb (Qle_bool (1 # 1000000000) (- d)%Q)) (drop 1 coords)).
(** 77-82. *)
Definition normal_z (coords : list pt3) : res Q :=
  c0 ← rd coords 0; c1 ← rd coords 1; c2 ← rd coords 2;
  Ok ((xc c1 - xc c0) * (yc c2 - yc c0) - (yc c1 - yc c0) * (xc c2 - xc c0))%Q.
Definition makeElementFromNodeData (t : etype) (data : list node_info) (id : nat) : res (element pt3) :=
  let nodes := data.*1 in
  let coords := data.*2 in
  match t with
  | Line => Ok (mk_el Line 1 nodes coords id)
  | Quad =>
    nodes ← swap nodes 2 3; coords ← swap coords 2 3;
    f ← flat coords;
    if (f : bool) then
      nz ← normal_z coords;
      if negb (Qle_bool 0 nz) then nodes ← swap nodes 1 2; coords ← swap coords 1 2; Ok (mk_el Quad 1 nodes coords id)
      else Ok (mk_el Quad 1 nodes coords id)
    else Ok (mk_el Quad 1 nodes coords id)
  | Hex =>
    nodes ← swap nodes 2 3; nodes ← swap nodes 6 7; coords ← swap coords 2 3; coords ← swap coords 6 7;
    Ok (mk_el Hex 1 nodes coords id)
  end.

(** ** The stream *)
Definition parser (A : Type) : Type := list token -> res (A * list token).
Definition ret {A} (a : A) : parser A := fun ts => Ok (a, ts).
Definition andthen {A B} (p : parser A) (f : A -> parser B) : parser B := fun ts => r ← p ts; f r.1 r.2.
Notation "x <~ p ; q" := (andthen p (fun x => q)) (at level 60, p at next level, right associativity).
Definition lift {A} (r : res A) : parser A := fun ts => a ← r; Ok (a, ts).
(** operator>> for int, for size_t (and d_id_t, bool), and for val_t. *)
Definition get_int : parser Z := fun ts => match ts with Int z :: ts => Ok (z, ts) | _ => UB end.
Definition get_nat : parser nat := fun ts => match ts with Int z :: ts => if (0 <=? z)%Z then Ok (Z.to_nat z, ts) else UB | _ => UB end.
Definition get_val : parser Q := fun ts => match ts with Val x :: ts => Ok (x, ts) | _ => UB end.
(** extract<T, N> and ignore<T>, IO.hpp:27-42. *)
Fixpoint times {A} (n : nat) (p : parser A) : parser (list A) :=
  match n with 0 => ret [] | S n => a <~ p; l <~ times n p; ret (a :: l) end.
(** A loop carrying a state. *)
Fixpoint iterate {S} (n : nat) (f : S -> parser S) (s : S) : parser S :=
  match n with 0 => ret s | Datatypes.S n => s <~ f s; iterate n f s end.
Fixpoint iterate_list {A S} (l : list A) (f : A -> S -> parser S) (s : S) : parser S :=
  match l with [] => ret s | a :: l => s <~ f a s; iterate_list l f s end.
(** std::copy_n from an istream_iterator: the constructor of the iterator reads the first
    value ([istream.iterator.cons]), also if none is wanted. *)
Definition copy_n {A} (p : parser A) (n : nat) : parser (list A) :=
  if n =? 0 then _ <~ p; ret [] else times n p.
(** skip_until_section, 120-123, with MmappedStreambuf::skipPast, IO.hpp:91-97 (a search in
    the text; here for the token). *)
Fixpoint skip_past (s : name) (ts : list token) : res (unit * list token) :=
  match ts with
  | [] => Throw
  | Name s' :: ts => if decide (s = s') then Ok (tt, ts) else skip_past s ts
  | _ :: ts => skip_past s ts
  end.

(** parse_format, 134-194: everything but the ASCII format 4 throws. *)
Definition parse_format : parser unit :=
  _ <~ skip_past MeshFormat; version <~ get_val; bin <~ get_nat; _ <~ get_nat; _ <~ skip_past EndMeshFormat;
  lift (throwing_assert (Qle_bool 4 version && negb (Qle_bool 5 version) && (bin =? 0))).
(** parse_entity, 207-219.  n_physical_domains, 234-240, is not used later. *)
Definition parse_entity (dim : nat) (m : dmap nat) : parser (dmap nat) :=
  tag <~ get_nat; _ <~ times (if 0 <? dim then 6 else 3) get_val;
  n <~ get_nat; _ <~ lift (throwing_assert (n <=? 1));
  m <~ (if n =? 1 then phys <~ get_nat; ret (dm_set tag phys m) else ret m);
  if 0 <? dim then k <~ get_nat; _ <~ times k get_int; ret m else ret m.
(** parse_entities, 196-243. *)
Definition parse_entities : parser (list (dmap nat)) :=
  _ <~ skip_past Entities; n <~ times 4 get_nat;
  ms <~ iterate_list [0; 1; 2; 3] (fun dim ms => k <~ lift (rd n dim); m <~ iterate k (parse_entity dim) []; ret (ms ++ [m])) [];
  _ <~ skip_past EndEntities; ret ms.
(** parse_nodes, 248-284.  node_data is a hash map with emplace (an existing entry stays)
    and at: an association list, new entries at the end. *)
Definition parse_node (tag : nat) (st : list (nat * node_info) * nat) : parser (list (nat * node_info) * nat) :=
  c <~ copy_n get_val 3; x <~ lift (rd c 0); y <~ lift (rd c 1); z <~ lift (rd c 2);
  ret (match dm_find tag st.1 with Some _ => st.1 | None => st.1 ++ [(tag, (st.2, (x, y, z)))] end, S st.2).
Definition parse_node_block (st : list (nat * node_info) * nat) : parser (list (nat * node_info) * nat) :=
  _ <~ get_int; _ <~ get_int; parametric <~ get_nat; block_size <~ get_nat;
  _ <~ lift (throwing_assert (parametric =? 0));
  tags <~ copy_n get_nat block_size; iterate_list tags parse_node st.
Definition parse_nodes : parser (list (nat * node_info)) :=
  _ <~ skip_past Nodes; n_blocks <~ get_nat; _ <~ times 3 get_nat;
  st <~ iterate n_blocks parse_node_block ([], 0);
  _ <~ skip_past EndNodes; ret st.1.
(** gmsh_elt_lookup_tab, 38-45, and the switch, 329-342. *)
Definition gmsh_type (n : nat) : option etype := match n with 1 => Some Line | 3 => Some Quad | 5 => Some Hex | _ => None end.
(** std::map::at and unordered_flat_map::at. *)
Definition at_key {A} (m : dmap A) (k : nat) : res A := match dm_find k m with Some a => Ok a | None => Throw end.
(** read_element, 314-325; the vector and the next id are the state. *)
Definition read_element (nodes : list (nat * node_info)) (t : etype) (st : list (element pt3) * nat) : parser (list (element pt3) * nat) :=
  _ <~ get_nat; tags <~ copy_n get_nat (nodes_per_element t 1);
  infos <~ lift (map_res (at_key nodes) tags);
  e <~ lift (makeElementFromNodeData t infos st.2); ret (st.1 ++ [e], S st.2).
(** One block of elements, 298-342. *)
Definition parse_element_block (ents : list (dmap nat)) (nodes : list (nat * node_info)) (st : dmap (domain pt3) * nat) : parser (dmap (domain pt3) * nat) :=
  dim <~ get_nat; tag <~ get_nat; type <~ get_nat; block_size <~ get_nat;
  m <~ lift (rd ents dim); phys <~ lift (at_key m tag);
  let d := default (empty_domain [1]) (dm_find phys st.1) in
  match gmsh_type type with
  | None => lift Throw
  | Some t =>
    let ddim := default (native_dim t) (d_dim d) in
    _ <~ lift (throwing_assert (ddim =? native_dim t));
    match pos_of (t, 1) (slots [1]) with
    | None => lift UB
    | Some i =>
      v <~ lift (rd (d_els d) i);
      r <~ iterate block_size (read_element nodes t) (v, st.2);
      ret (dm_set phys (mk_dom (<[i := r.1]> (d_els d)) (Some ddim)) st.1, r.2)
    end
  end.
(** parse_elements, 286-355; the domains are then passed to the constructor of
    MeshPartition. *)
Definition parse_elements (ents : list (dmap nat)) (nodes : list (nat * node_info)) : parser (dmap (domain pt3)) :=
  _ <~ skip_past Elements; n_blocks <~ get_nat; _ <~ times 3 get_nat;
  st <~ iterate n_blocks (parse_element_block ents nodes) ([], 0);
  _ <~ skip_past EndElements;
  ret (map (fun p => (p.1, mk_dom (map (merge_sort by_id) (d_els p.2)) (d_dim p.2))) st.1).
(** readMesh, 106-363. *)
Definition readMesh (file : list token) : res (dmap (domain pt3)) :=
  r ← (_ <~ parse_format; ents <~ parse_entities; nodes <~ parse_nodes; parse_elements ents nodes) file;
  Ok r.1.
(** The constructor of MeshPartition, MeshPartition.hpp:271-285: first owned node and
    number of owned nodes. *)
Definition initial_ownership {V} (m : dmap (domain V)) : nat * nat :=
  let nodes := remove_dups (concat (map el_nodes (all_elems m))) in
  (match nodes with [] => 0 | n :: l => foldl Nat.min n l end, length nodes).
