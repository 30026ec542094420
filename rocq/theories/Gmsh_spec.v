(** Vocabulary of C50 and C64. *)
From Coq Require Import QArith.
From Verif Require Import Base StdAlgo Elem_model Mesh_model Gmsh_model.
Local Open Scope nat_scope.

(** ** Elements *)
(** Reference coordinates of the vertices in gmsh's order (gmsh manual, "Node ordering")
    and in L3STER's (x runs fastest). *)
Definition gmsh_place (t : etype) : list (list bool) :=
  match t with
  | Line => [[false]; [true]]
  | Quad => [[false; false]; [true; false]; [true; true]; [false; true]]
  | Hex => [[false; false; false]; [true; false; false]; [true; true; false]; [false; true; false];
            [false; false; true]; [true; false; true]; [true; true; true]; [false; true; true]]
  end.
Definition lex_place (t : etype) : list (list bool) :=
  match t with
  | Line => [[false]; [true]]
  | Quad => [[false; false]; [true; false]; [false; true]; [true; true]]
  | Hex => [[false; false; false]; [true; false; false]; [false; true; false]; [true; true; false];
            [false; false; true]; [true; false; true]; [false; true; true]; [true; true; true]]
  end.
(** Twice the signed area of the triangle a b c, seen from above. *)
Definition turn (a b c : pt3) : Q := ((xc b - xc a) * (yc c - yc a) - (yc b - yc a) * (xc c - xc a))%Q.
(** The points have the same height, up to 1e-9. *)
Definition level (l : list pt3) : Prop := forall p q, head l = Some p -> q ∈ l -> (- (1 # 1000000000) < zc q - zc p < 1 # 1000000000)%Q.
(** The element has gmsh's vertices at gmsh's places; a level quad which looks clockwise
    at its first vertex is mirrored. *)
Definition clockwise (l : list pt3) : Prop := exists a b c d, l = [a; b; c; d] /\ (turn a b d < 0)%Q.
Definition imported (t : etype) (data : list node_info) (e : element pt3) : Prop :=
  el_type e = t /\ el_order e = 1 /\ length (el_nodes e) = length data /\ length (el_verts e) = length data /\
  exists mirror : bool, (mirror = true <-> t = Quad /\ level data.*2 /\ clockwise data.*2) /\
    forall i place n p, gmsh_place t !! i = Some place -> data !! i = Some (n, p) ->
      exists j, lex_place t !! j = Some (if mirror then rev place else place) /\ el_nodes e !! j = Some n /\ el_verts e !! j = Some p.
(** The Jacobian of the bilinear map of a quad with corners [a b c d] in lexicographic
    order, at ([x], [y]) (times 16). *)
Definition jacobian (a b c d : pt3) (x y : Q) : Q :=
  let dx (f : pt3 -> Q) := ((1 - y) * (f b - f a) + (1 + y) * (f d - f c))%Q in
  let dy (f : pt3 -> Q) := ((1 - x) * (f c - f a) + (1 + x) * (f d - f b))%Q in
  (dx xc * dy yc - dx yc * dy xc)%Q.

(** ** Files *)
Record entity := { en_tag : nat; en_box : list Q; en_phys : option nat; en_bounds : list Z }.
Record node_block := { nb_dim : Z; nb_entity : Z; nb_nodes : list (nat * pt3) }.
Record el_block := { eb_dim : nat; eb_entity : nat; eb_type : etype; eb_els : list (nat * list nat) }.
(** [gf_info] are fields that do not matter. *)
Record gmsh_file := { gf_version : Q; gf_size : nat; gf_between : list token; gf_entities : list (list entity);
  gf_info : list nat; gf_nodes : list node_block; gf_info' : list nat; gf_blocks : list el_block; gf_after : list token }.
(** The text of a file, after the gmsh manual, "MSH file format". *)
Definition num (n : nat) : token := Int (Z.of_nat n).
Definition write_entity (dim : nat) (e : entity) : list token :=
  [num (en_tag e)] ++ map Val (en_box e) ++
  match en_phys e with None => [num 0] | Some p => [num 1; num p] end ++
  (if dim =? 0 then [] else [num (length (en_bounds e))] ++ map Int (en_bounds e)).
Definition write_entities (l : list (list entity)) : list token :=
  map (fun es => num (length es)) l ++ concat (imap (fun dim es => concat (map (write_entity dim) es)) l).
Definition write_node_block (b : node_block) : list token :=
  [Int (nb_dim b); Int (nb_entity b); num 0; num (length (nb_nodes b))] ++ map (fun x => num x.1) (nb_nodes b) ++
  concat (map (fun x : nat * pt3 => [Val (xc x.2); Val (yc x.2); Val (zc x.2)]) (nb_nodes b)).
Definition type_number (t : etype) : nat := match t with Line => 1 | Quad => 3 | Hex => 5 end.
Definition write_el_block (b : el_block) : list token :=
  [num (eb_dim b); num (eb_entity b); num (type_number (eb_type b)); num (length (eb_els b))] ++
  concat (map (fun x => num x.1 :: map num x.2) (eb_els b)).
Definition write (f : gmsh_file) : list token :=
  [Name MeshFormat; Val (gf_version f); num 0; num (gf_size f); Name EndMeshFormat] ++ gf_between f ++
  [Name Entities] ++ write_entities (gf_entities f) ++ [Name EndEntities] ++
  [Name Nodes; num (length (gf_nodes f))] ++ map num (gf_info f) ++ concat (map write_node_block (gf_nodes f)) ++ [Name EndNodes] ++
  [Name Elements; num (length (gf_blocks f))] ++ map num (gf_info' f) ++ concat (map write_el_block (gf_blocks f)) ++ [Name EndElements] ++
  gf_after f.
(** The nodes of the file in order; a node's id is its position. *)
Definition file_nodes (f : gmsh_file) : list (nat * pt3) := concat (map nb_nodes (gf_nodes f)).
Definition node_is (f : gmsh_file) (tag : nat) (x : node_info) : Prop := file_nodes f !! x.1 = Some (tag, x.2).
(** The physical group of a block. *)
Definition group_of (f : gmsh_file) (b : el_block) (k : nat) : Prop :=
  exists es e, gf_entities f !! eb_dim b = Some es /\ e ∈ es /\ en_tag e = eb_entity b /\ en_phys e = Some k.
(** The elements of the file in order, with their blocks. *)
Definition file_elements (f : gmsh_file) : list (el_block * list nat) :=
  concat (map (fun b => map (fun x => (b, x.2)) (eb_els b)) (gf_blocks f)).
Definition valid_file (f : gmsh_file) : Prop :=
  (4 <= gf_version f < 5)%Q /\ (forall s, Name s ∈ gf_between f -> s <> Entities) /\
  length (gf_info f) = 3 /\ length (gf_info' f) = 3 /\
  length (gf_entities f) = 4 /\
  (forall dim es, gf_entities f !! dim = Some es -> NoDup (map en_tag es) /\ forall e, e ∈ es -> length (en_box e) = if dim =? 0 then 3 else 6) /\
  NoDup (map fst (file_nodes f)) /\
  (forall b, b ∈ gf_blocks f -> (exists k, group_of f b k) /\
     forall x, x ∈ eb_els b -> length x.2 = length (gmsh_place (eb_type b)) /\ forall tag, tag ∈ x.2 -> tag ∈ map fst (file_nodes f)) /\
  (forall b b' k, b ∈ gf_blocks f -> b' ∈ gf_blocks f -> group_of f b k -> group_of f b' k -> native_dim (eb_type b) = native_dim (eb_type b')).
(** [v] are the elements of type [t] of group [k]: those of the file, in order. *)
Definition element_right (f : gmsh_file) (k : nat) (t : etype) (i : nat) (e : element pt3) : Prop :=
  el_id e = i /\ exists b tags data, file_elements f !! i = Some (b, tags) /\ eb_type b = t /\ group_of f b k /\ Forall2 (node_is f) tags data /\ imported t data e.
Definition mesh_right (f : gmsh_file) (m : dmap (domain pt3)) : Prop :=
  StronglySorted lt m.*1 /\
  (forall k, k ∈ m.*1 <-> exists b, b ∈ gf_blocks f /\ group_of f b k) /\
  forall k d, (k, d) ∈ m -> length (d_els d) = length (slots [1]) /\
    (exists b, b ∈ gf_blocks f /\ group_of f b k /\ d_dim d = Some (native_dim (eb_type b))) /\
    forall s t v, slots [1] !! s = Some (t, 1) -> d_els d !! s = Some v ->
      StronglySorted lt (map el_id v) /\ (forall e, e ∈ v -> element_right f k t (el_id e) e) /\
      forall i b tags, file_elements f !! i = Some (b, tags) -> eb_type b = t -> group_of f b k -> exists e, e ∈ v /\ el_id e = i.
