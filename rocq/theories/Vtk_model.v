(** Model of post/VtkExport.hpp.  A field value or coordinate (val_t) is the list of
    its 8 bytes, a file the list of its bytes (as in Store_model).  The XML description
    is a record ([description]); its rendering to text is an argument ([render]).
    Sizes are natural numbers (64 bits in the code); 32-bit numbers wrap. *)
From Coq Require Import String Ascii.
From Verif Require Import Base StdAlgo Ownership_model Elem_model Serial_model Mesh_model MeshSerial_model Base64_model Store_model.
Local Open Scope nat_scope.
Local Open Scope list_scope.

(** ** Topology *)
(** numSubels, 192-204; numSubelNodes, 206-217; subelCellType, 225-236. *)
Definition numSubels (t : etype) (O : nat) : nat := match t with Line => O | Quad => O * O | Hex => O * O * O end.
Definition numSubelNodes (t : etype) : nat := match t with Line => 2 | Quad => 4 | Hex => 8 end.
Definition subelCellType (t : etype) : byte := match t with Line => 3%N | Quad => 9%N | Hex => 12%N end.
Definition numSerialTopoEntries (t : etype) (O : nat) : nat := numSubels t O * numSubelNodes t.
(** serializeElementSubtopo, 238-289: the nodes in the order they are written.  The
    array has numSerialTopoEntries places; writing more is UB, writing less leaves the
    rest undetermined (UB). *)
Definition subtopo_inds (t : etype) (O n_nodes : nat) : list (list nat) :=
  let n := O + 1 in
  match t with
  | Line => map (fun i => [i; i + 1]) (seq 0 (n_nodes - 1))
  | Quad => concat (map (fun row => map (fun col => let base := row * n + col in [base; base + 1; base + n + 1; base + n]) (seq 0 (n - 1))) (seq 0 (n - 1)))
  | Hex => concat (map (fun layer => concat (map (fun row => map (fun col =>
             let base := layer * (n * n) + row * n + col in
             [base; base + 1; base + n + 1; base + n; base + n * n; base + 1 + n * n; base + n + 1 + n * n; base + n + n * n])
             (seq 0 (n - 1))) (seq 0 (n - 1)))) (seq 0 (n - 1)))
  end.
Definition serializeElementSubtopo {V} (e : element V) : res (list nat) :=
  out ← map_res (rd (el_nodes e)) (concat (subtopo_inds (el_type e) (el_order e) (length (el_nodes e))));
  if length out =? numSerialTopoEntries (el_type e) (el_order e) then Ok out else UB.

(** unsigned: 32 bits. *)
Definition two32 : N := 4294967296%N.
Definition u32 (x : nat) : N := (N.of_nat x mod two32)%N.
Definition w4 (x : N) : list byte := le_bytes 4 x.
(** getLocalTopoSize, 291-302: sums over all elements. *)
Definition total_of (l : list nat) : nat := foldr Nat.add 0 l.
Definition n_cells {V} (els : list (element V)) : nat := total_of (map (fun e => numSubels (el_type e) (el_order e)) els).
Definition topo_size {V} (els : list (element V)) : nat := total_of (map (fun e => numSerialTopoEntries (el_type e) (el_order e)) els).
(** process_element, 329-339: local nodes, offsets and cell types appended. *)
Record topo := { tp_nodes : list N; tp_offsets : list N; tp_types : list byte; tp_off : N }.
Definition process_element {V} (own : ownership) (e : element V) (s : topo) : res topo :=
  nodes ← serializeElementSubtopo e;
  let n := numSubels (el_type e) (el_order e) in
  let step := N.of_nat (numSubelNodes (el_type e)) in
  let offs := map (fun i => ((tp_off s + N.of_nat (i + 1) * step) mod two32)%N) (seq 0 n) in
  Ok {| tp_nodes := tp_nodes s ++ map (fun x => u32 (getLocalIndex own x)) nodes;
        tp_offsets := tp_offsets s ++ offs;
        tp_types := tp_types s ++ replicate n (subelCellType (el_type e));
        tp_off := ((tp_off s + N.of_nat n * step) mod two32)%N |}.

(** The Base64 encoder writes at position [out] of the buffer, 349-351, 409, 413, 446.
    [pa k]: code path of the k-th call, [ord]: order of the
    parallel blocks (see Base64_model). *)
Section encode.
  Context (pa : nat -> path) (ord : nat -> list nat).
  (** A vector of [size] elements of [sizeof] bytes encoded into its own buffer. *)
  Definition encode (sizeof size : nat) (bytes : list byte) : res (list byte) :=
    r ← encodeAsBase64 (pa 0) ord bytes (replicate (getBase64EncodingSize sizeof size) 0%N) 0; Ok r.2.
  (** encode_b64, 347-353: appends to b64_data. *)
  Definition encode_b64 (k sizeof : nat) (vs : list (list byte)) (b64_data : list byte) : res (list byte * nat) :=
    let enc_size := getBase64EncodingSize sizeof (length vs) in
    r ← encodeAsBase64 (pa k) ord (concat vs) (b64_data ++ replicate enc_size 0%N) (length b64_data);
    Ok (r.2, enc_size).
  (** The first 8 bytes hold the size of the data: one element of 8 bytes, two of 4, or
      eight of 1. *)
  Definition split8 (k : nat) (bs : list byte) : list (list byte) := map (fun i => take k (drop (i * k) bs)) (seq 0 (8 / k)).
  Record serial_topo := { st_cells : nat; st_topo_sz : nat; st_offs_sz : nat; st_type_sz : nat; st_data : list byte }.
  (** serializeTopology, 304-363.  mesh.visit runs over all elements. *)
  Definition serializeTopology {V} (own : ownership) (els : list (element V)) : res serial_topo :=
    s ← for_each (process_element own) els {| tp_nodes := []; tp_offsets := []; tp_types := []; tp_off := 0%N |};
    let nc := n_cells els in
    a ← encode_b64 0 4 (split8 4 (w8 (N.of_nat (topo_size els * 4))) ++ map w4 (tp_nodes s)) [];
    b ← encode_b64 1 4 (split8 4 (w8 (N.of_nat (nc * 4))) ++ map w4 (tp_offsets s)) a.1;
    c ← encode_b64 2 1 (split8 1 (w8 (N.of_nat nc)) ++ map (fun x => [x]) (tp_types s)) b.1;
    Ok {| st_cells := nc; st_topo_sz := a.2; st_offs_sz := b.2; st_type_sz := c.2; st_data := c.1 |}.

  (** ** Coordinates *)
  (** makeCoordsSerialized, 365-394.  [locs e]: nodePhysicalLocation(e), three values
      per node.  The elements run in parallel; every coordinate is stored atomically:
      [stores] lists the stores of all elements, executed in the order [sched]. *)
  Definition coord_stores {V} (own : ownership) (locs : element V -> list (list (list byte))) (e : element V) : res (list (nat * list byte)) :=
    l ← map_res (fun ip : nat * list (list byte) =>
      node ← rd (el_nodes e) ip.1;
      let k := getLocalIndex own node in
      x ← rd ip.2 0; y ← rd ip.2 1; z ← rd ip.2 2;
      Ok [(k * 3, x); (k * 3 + 1, y); (k * 3 + 2, z)]) (zip (seq 0 (length (locs e))) (locs e));
    Ok (concat l).
  Definition makeCoordsSerialized {V} (sched : list (nat * list byte) -> list (nat * list byte)) (junk : nat -> list byte)
      (n_nodes : nat) (own : ownership) (locs : element V -> list (list (list byte))) (els : list (element V)) : res (list byte) :=
    st ← map_res (coord_stores own locs) els;
    coords ← for_each (fun iv c => wr c iv.1 iv.2) (sched (concat st)) (map junk (seq 0 (n_nodes * 3)));
    encode 8 (n_nodes * 3 + 1) (w8 (N.of_nat (n_nodes * 3 * 8)) ++ concat coords).

  (** ** Fields *)
  (** encodeFieldImpl of one field, 396-415. *)
  Definition encodeScalar (vals : list (list byte)) : res (list byte) :=
    let n := length vals + 1 in
    let prefix := take 3 ([w8 (N.of_nat (length vals * 8))] ++ take 2 vals ++ replicate 2 (replicate 8 0%N)) in
    r ← encodeAsBase64 (pa 0) ord (concat (take n prefix)) (replicate (getBase64EncodingSize 8 n) 0%N) 0;
    r ← encodeAsBase64 (pa 1) ord (concat (drop 2 vals)) r.2 r.1;
    Ok r.2.
  (** encodeFieldImpl of several fields, 417-448; the loop over the nodes runs in
      parallel, in the order [pfor]. *)
  Definition encodeVector (pfor : nat -> list nat) (junk : nat -> list byte) (fields : list (list (list byte))) : res (list byte) :=
    if 3 <? length fields then UB else
    front ← rd fields 0;
    let n_nodes := length front in
    vals ← for_each (fun node buf =>
      buf ← for_each (fun jf buf => v ← rd jf.2 node; wr buf (node * 3 + jf.1) v) (zip (seq 0 (length fields)) fields) buf;
      if length fields =? 2 then wr buf (node * 3 + length fields) (replicate 8 0%N) else Ok buf)
      (pfor n_nodes) (map junk (seq 0 (3 * n_nodes)));
    encode 8 (3 * n_nodes + 1) (w8 (N.of_nat (3 * n_nodes * 8)) ++ concat vals).
  (** encodeField, 450-466.  [sol]: the fields of the solution manager. *)
  Definition encodeField (pfor : nat -> list nat) (junk : nat -> list byte) (sol : list (list (list byte))) (inds : list nat) : res (list byte) :=
    _ ← throwing_assert (negb (length inds =? 0) && (length inds <=? 3));
    fields ← map_res (rd sol) inds;
    match fields with [f] => encodeScalar f | _ => encodeVector pfor junk fields end.
End encode.

(** ** Files *)
(** makeNumFieldComponentsView, 479-484. *)
Definition n_comps (inds : list nat) : nat := if length inds =? 1 then 1 else 3.
(** The attributes of the description, 618-691: type, name (its number), components, offset. *)
Inductive array_name := Position | Connectivity | Offsets | Types | Field (i : nat).
Record data_array := { da_name : array_name; da_comps : nat; da_offset : nat }.
Record description := { ds_points : nat; ds_cells : nat; ds_arrays : list data_array; ds_scalars : option nat; ds_vectors : option nat }.
Definition find_first (f : nat -> bool) (l : list nat) : option nat := (List.find (fun ix : nat * nat => f ix.2) (zip (seq 0 (length l)) l)) ≫= (fun ix => Some ix.1).
(** append_data_array, 629-643, with the running offset. *)
Fixpoint append_arrays (off : nat) (l : list (array_name * nat * nat)) : list data_array :=
  match l with [] => [] | (nm, nc, sz) :: l => {| da_name := nm; da_comps := nc; da_offset := off |} :: append_arrays (off + sz) l end.
Definition makeDataDescription (n_nodes : nat) (coords : list byte) (tp : serial_topo) (comps : list nat) (encoded : list (list byte)) : description :=
  {| ds_points := n_nodes; ds_cells := st_cells tp;
     ds_arrays := append_arrays 0 ([(Position, 3, length coords); (Connectivity, 1, st_topo_sz tp); (Offsets, 1, st_offs_sz tp); (Types, 1, st_type_sz tp)] ++
                    map (fun z : nat * (nat * list byte) => (Field z.1, z.2.1, length z.2.2)) (zip (seq 0 (length comps)) (zip comps encoded)));
     ds_scalars := find_first (fun c => c =? 1) comps;
     ds_vectors := find_first (fun c => 1 <? c) comps |}.
(** enqueueVtuFileWrite, 598-616, and enqueueWrite, 693-710: texts one after another. *)
Fixpoint place (pos : nat) (l : list (list byte)) : list (nat * list byte) :=
  match l with [] => [] | x :: l => (pos, x) :: place (pos + length x) l end.
(** vtu_postamble, 189. *)
Definition vtu_postamble : list byte := [newline] ++ text "</AppendedData>"%string ++ [newline] ++ text "</VTKFile>"%string.
(** exportSolution, 532-549, and encodeSolution, 468-477: the writes to the file of this rank.  [n_nodes], [coords],
    [tp] are the members set by the constructor. *)
Definition exportSolution (pa : nat -> nat -> path) (ord pfor : nat -> list nat) (junk : nat -> list byte) (render : description -> list byte)
    (n_nodes : nat) (coords : list byte) (tp : serial_topo) (sol : list (list (list byte))) (defs : list (list nat)) : res (list (nat * list byte)) :=
  _ ← throwing_assert (forallb (forallb (fun i => i <? length sol)) defs);
  encoded ← map_res (fun z : nat * list nat => encodeField (pa z.1) ord pfor junk sol z.2) (zip (seq 0 (length defs)) defs);
  let d := makeDataDescription n_nodes coords tp (map n_comps defs) encoded in
  Ok (place 0 ([render d; coords; st_data tp] ++ encoded ++ [vtu_postamble])).

(** appendPvtuPointDataDef, 117-142: the attributes (Scalars, Vectors) of the .pvtu file. *)
Fixpoint pvtu_attrs (i : nat) (comps : list nat) (scal vec : option nat) : option nat * option nat :=
  match comps with
  | [] => (scal, vec)
  | n :: comps =>
    let has {A} (o : option A) := match o with Some _ => true | None => false end in
    let '(scal, vec) := if (1 <? n) && negb (has vec) then (scal, Some i) else if negb (has scal) then (Some i, vec) else (scal, vec) in
    if has scal && has vec then (scal, vec) else pvtu_attrs (i + 1) comps scal vec
  end.
