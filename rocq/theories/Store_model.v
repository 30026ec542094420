(** Model of post/NativeIO.hpp: saving results and meshes to a file, and loading them.
    A file is the list of its bytes; a field value (val_t) is the list of its 8 bytes.
    The ranks run the same code and pass the same arguments; the model runs them
    together.  Sizes and offsets are natural numbers (64 bits in the code). *)
From Coq Require Import String Ascii.
From Verif Require Import Base StdAlgo Ownership_model Elem_model Serial_model Mesh_model MeshSerial_model.
Local Open Scope nat_scope.
Local Open Scope list_scope.

Notation file := (list byte) (only parsing).
Definition text (s : string) : list byte := map N_of_ascii (list_ascii_of_string s).
Definition newline : byte := 10%N.
Definition blank : byte := 32%N.
(** MPI_File_iwrite_at, MpiComm.hpp:392-398: bytes between the old end of the file and the
    offset are arbitrary, here zero. *)
Definition write_at (w : nat * list byte) (f : file) : file :=
  take w.1 (f ++ replicate (w.1 - length f) 0%N) ++ w.2 ++ drop (w.1 + length w.2) f.
Definition write_all (ws : list (nat * list byte)) (f : file) : file := foldl (fun f w => write_at w f) f ws.
(** The three lines at the start of a file, NativeIO.hpp:39-40 and 87-88; [title] is the first. *)
Definition preamble (title : string) (comment : list byte) : list byte :=
  text title ++ [newline] ++ text "v1.0" ++ [newline] ++ text "// " ++
  map (fun c => if decide (c = newline) then blank else c) comment ++ [newline].

(** ** Results *)
(** header, 38-44. *)
Definition results_header (comment : list byte) (n_fields n_nodes : nat) : list byte :=
  preamble "L3STER results file" comment ++ w8 (N.of_nat n_fields) ++ w8 (N.of_nat n_nodes).
(** save, 14-58, on rank [r]: what it writes.  [counts]: numbers of owned nodes of the
    ranks (the scan 26-32 and the broadcast 33-37 of the collective call); [fields]: the
    rank's field views (SolutionManager.hpp:84-92). *)
Definition save_rank (comment : list byte) (counts inds : list nat) (r : nat) (fields : list (list (list byte))) : res (list (nat * list byte)) :=
  _ ← throwing_assert (negb (length inds =? 0));
  _ ← throwing_assert (foldr Nat.max 0 inds <? length fields);
  num_local ← rd counts r;
  node_begin ← rd (exclusive_scan 0 counts) r;
  last_begin ← rd (exclusive_scan 0 counts) (length counts - 1);
  last_count ← rd counts (length counts - 1);
  let num_global := last_count + last_begin in
  let header := results_header comment (length inds) num_global in
  data ← map_res (fun i_ind : nat * nat =>
    v ← rd fields i_ind.2;
    if num_local <=? length v
    then Ok (length header + 8 * (num_global * i_ind.1 + node_begin), concat (take num_local v))
    else UB) (zip (seq 0 (length inds)) inds);
  Ok ((if r =? 0 then [(0, header)] else []) ++ data).
Definition save_results (comment : list byte) (counts inds : list nat) (fields : list (list (list (list byte)))) : res (list (nat * list byte)) :=
  ws ← map_res (fun z : nat * list (list (list byte)) => save_rank comment counts inds z.1 z.2) (zip (seq 0 (length counts)) fields);
  Ok (concat ws).

(** skipLine, 118-126: the rest of the text. *)
Fixpoint skipLine (s : list byte) : res (list byte) :=
  match s with [] => Throw | c :: s => if decide (c = newline) then Ok s else skipLine s end.
Definition skip3 (s : list byte) : res (list byte) := s ← skipLine s; s ← skipLine s; skipLine s.
(** LoadedResults, 128-159; operator() does not check bounds. *)
Record loaded := { lr_contents : list byte; lr_fields : nat; lr_nodes : nat }.
Definition LoadedResults (f : file) : res loaded :=
  s ← skip3 f;
  _ ← throwing_assert (16 <=? length s);
  Ok {| lr_fields := N.to_nat (le_value (take 8 s)); lr_nodes := N.to_nat (le_value (take 8 (drop 8 s))); lr_contents := drop 16 s |}.
Definition result_at (l : loaded) (node field : nat) : res (list byte) :=
  let offset := 8 * (lr_nodes l * field + node) in
  if offset + 8 <=? length (lr_contents l) then Ok (take 8 (drop offset (lr_contents l))) else UB.
(** loadResultsImpl, 280-297.  [old_nodes]: m_old_nodes, [None] before loadMesh;
    m_max_old_node is 0 for no nodes (308, 322).  [sol]: columns of the solution
    manager's values. *)
Definition loadResultsImpl (old_nodes : option (list nat)) (l : loaded) (src dest : list nat) (sol : list (list (list byte))) : res (list (list (list byte))) :=
  match old_nodes with
  | None => Throw
  | Some old =>
    _ ← throwing_assert (length src =? length dest);
    _ ← throwing_assert (negb (length src =? 0));
    _ ← throwing_assert (foldr Nat.max 0 src <? lr_fields l);
    _ ← throwing_assert (foldr Nat.max 0 dest <? length sol);
    _ ← throwing_assert (foldr Nat.max 0 old <? lr_nodes l);
    for_each (fun (sd : nat * nat) sol =>
      for_each (fun (io : nat * nat) sol => v ← result_at l io.2 sd.1; col ← rd sol sd.2; col ← wr col io.1 v; wr sol sd.2 col)
        (zip (seq 0 (length old)) old) sol) (zip src dest) sol
  end.

(** ** Meshes *)
(** save, 70-106, on all ranks. *)
Definition mesh_header (comment : list byte) (sizes : list nat) : list byte :=
  preamble "L3STER mesh file" comment ++ w8 (N.of_nat (length sizes)) ++ concat (map (fun s => w8 (N.of_nat s)) sizes).
Definition save_mesh (comment : list byte) (parts : list (mesh point)) : list (nat * list byte) :=
  let serial := map serializeMesh parts in
  let sizes := map length serial in
  let header := mesh_header comment sizes in
  (0, header) :: zip (exclusive_scan (length header) sizes) serial.
(** extractSavedPartitionInfo, 161-183: offsets, sizes and the rest of the text. *)
Definition extractSavedPartitionInfo (f : file) : res (list nat * list nat * list byte) :=
  s ← skip3 f;
  _ ← throwing_assert (8 <=? length s);
  let num_parts := N.to_nat (le_value (take 8 s)) in
  let s := drop 8 s in
  _ ← throwing_assert (num_parts * 8 <=? length s);
  let sizes := map N.to_nat (words num_parts s) in
  Ok (exclusive_scan 0 sizes, sizes, drop (num_parts * 8) s).
(** string_view::substr. *)
Definition substr (s : list byte) (ofs n : nat) : res (list byte) := if ofs <=? length s then Ok (take n (drop ofs s)) else Throw.
Section load.
  Context (orders : list nat) (sched : list (element point) -> list (element point)) (shuffle : list nat -> list nat).
  (** loadPartitionedMesh, 213-225, on rank [r] of [n_ranks]. *)
  Definition loadPartitionedMesh (f : file) (n_ranks r : nat) : res (mesh point) :=
    '(offs, sizes, contents) ← extractSavedPartitionInfo f;
    _ ← throwing_assert (length sizes =? n_ranks);
    match offs !! r, sizes !! r with
    | Some o, Some n => s ← substr contents o n; deserializeMesh orders sched shuffle s
    | _, _ => Throw
    end.
  (** loadUnifiedMesh, 185-211. *)
  Definition add_part (part : mesh point) (st : dmap (domain point) * list nat) : res (dmap (domain point) * list nat) :=
    m ← for_each (fun id m =>
          d ← for_each (fun e d => pushToDomain orders d e) (visit_elems (m_domains part) [id]) (default (empty_domain orders) (dm_find id m));
          Ok (dm_set id d m)) (m_domains part).*1 st.1;
    Ok (m, if length st.2 =? 0 then (m_bnds part).*1 else st.2).
  Definition loadUnifiedMesh (f : file) : res (mesh point) :=
    '(offs, sizes, contents) ← extractSavedPartitionInfo f;
    st ← for_each (fun (on : nat * nat) st => s ← substr contents on.1 on.2; part ← deserializeMesh orders sched shuffle s; add_part part st)
           (zip offs sizes) ([], []);
    make_mesh1 sched st.1 st.2.
  (** loadMeshDirect without optimisation, 312-324: the nodes of the part before it is
      loaded are those after. *)
  Definition old_nodes_direct (part : mesh point) : list nat := seq (so_begin (m_own part)) (numOwned (m_own part)) ++ so_shared (m_own part).
End load.
