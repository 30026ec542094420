(** Model of comm/ImportExport.hpp. *)
From Verif Require Import Base StdAlgo Ownership_model Mpi_model ImportExport_spec.

(** ImportExportContext, 29-72: the neighbours that share my owned indices with
    the local indices they need (m_owned_inds row by row), and for each owner
    of my shared indices the (rank, offset, size) triple of getSharedRange
    (55-65). *)
Record ctx := { cx_owned : list (nat * list nat); cx_shared : list (nat * nat * nat) }.
(** flattenOwned, 226-236. *)
Definition flattenOwned (so : ownership) (in_info : nbr_info) : list (nat * list nat) :=
  map (fun e => (e.1, map (getLocalIndex so) e.2)) in_info.
(** getOffsets, 238-247. *)
Definition getOffsets (out_info : nbr_info) : list nat :=
  0 :: inclusive_scan 0 (map (fun e => length e.2) out_info).
(** Constructor, 250-261, from the two neighbour tables; getSharedRange, 55-65
    (zip of ranks, offsets, next offsets). *)
Definition make_ctx (so : ownership) (out_info in_info : nbr_info) : ctx :=
  let offs := getOffsets out_info in
  {| cx_owned := flattenOwned so in_info;
     cx_shared := zip_with (fun r o => (r, o.1, o.2 - o.1)) out_info.*1 (zip offs (drop 1 offs)) |}.
(** getOwnedInds, 48: all rows one after another. *)
Definition getOwnedInds (c : ctx) : list nat := concat (cx_owned c).*2.
(** getNumSharedInds, 54: the last offset = the sum of the sizes. *)
Definition getNumSharedInds (c : ctx) : nat := sum (map (fun e => e.2) (cx_shared c)).

(** makeTag, 98, with tag_mask / id_mask / m_id of 80-86, 110: [id] is the
    value of the object counter when the object was created. *)
Definition tag_id (counter : N) : N := N.shiftl (N.land 255 counter) 12.
Definition makeTag (counter : N) (vec : nat) : nat :=
  N.to_nat (N.lor (N.land (N.of_nat vec) 4095) (tag_id counter)).

(** ImportExportBase, 117-125, with m_owned / m_shared of Import (163-164) and
    Export (210-211).  [None] is the null pointer.  The request array (120) is
    not modelled. *)
Record impexp (V : Type) := {
  ie_ctx : ctx; ie_nv : nat; ie_nvmax : nat;
  ie_pack : list V; ie_ostride : nat; ie_sstride : nat; ie_id : N;
  ie_owned : option (list V); ie_shared : option (list V) }.
Arguments ie_ctx {V} _. Arguments ie_nv {V} _. Arguments ie_nvmax {V} _. Arguments ie_pack {V} _.
Arguments ie_ostride {V} _. Arguments ie_sstride {V} _. Arguments ie_id {V} _.
Arguments ie_owned {V} _. Arguments ie_shared {V} _.

Section objects.
  Context {V : Type}.
  Implicit Types (ie : impexp V) (vals : list V).
  (** Constructor, 102-115.  [fill] is what the uninitialised pack buffer
      holds.  The MPI_TAG_UB check (114) is not modelled. *)
  Definition make_impexp (c : ctx) (num_vecs : nat) (counter : N) (fill : V) : res (impexp V) :=
    _ ← throwing_assert (num_vecs <? Z.to_nat 4096);
    Ok {| ie_ctx := c; ie_nv := num_vecs; ie_nvmax := num_vecs;
          ie_pack := replicate (num_vecs * length (getOwnedInds c)) fill;
          ie_ostride := 0; ie_sstride := 0; ie_id := counter; ie_owned := None; ie_shared := None |}.
  (** setNumVecs, 91-95. *)
  Definition setNumVecs (num_vecs : nat) ie : res (impexp V) :=
    _ ← throwing_assert (num_vecs <=? ie_nvmax ie);
    Ok {| ie_ctx := ie_ctx ie; ie_nv := num_vecs; ie_nvmax := ie_nvmax ie; ie_pack := ie_pack ie;
          ie_ostride := ie_ostride ie; ie_sstride := ie_sstride ie; ie_id := ie_id ie;
          ie_owned := ie_owned ie; ie_shared := ie_shared ie |}.
  (** m_max_owned + 1, line 109 and 266. *)
  Definition num_owned_needed (c : ctx) : nat := foldr (fun i n => S i `max` n) 0 (getOwnedInds c).
  (** isOwnedSizeSufficient / isSharedSizeSufficient, 263-277; size_t arithmetic
      wraps modulo 2^64. *)
  Definition sizeSufficient (num_vecs stride needed size : nat) : bool :=
    if needed =? 0 then true
    else (((Z.of_nat num_vecs - 1) * Z.of_nat stride + Z.of_nat needed) mod 2 ^ 64 <=? Z.of_nat size)%Z.
  (** setOwned, 280-285 and 387-392.  [null] tells whether data() of an empty
      span is the null pointer. *)
  Definition setOwned (null : bool) vals (stride : nat) ie : res (impexp V) :=
    _ ← throwing_assert (sizeSufficient (ie_nv ie) stride (num_owned_needed (ie_ctx ie)) (length vals));
    Ok {| ie_ctx := ie_ctx ie; ie_nv := ie_nv ie; ie_nvmax := ie_nvmax ie; ie_pack := ie_pack ie;
          ie_ostride := stride; ie_sstride := ie_sstride ie; ie_id := ie_id ie;
          ie_owned := if null then None else Some vals; ie_shared := ie_shared ie |}.
  (** setShared, 288-293 and 395-400. *)
  Definition setShared (null : bool) vals (stride : nat) ie : res (impexp V) :=
    _ ← throwing_assert (sizeSufficient (ie_nv ie) stride (getNumSharedInds (ie_ctx ie)) (length vals));
    Ok {| ie_ctx := ie_ctx ie; ie_nv := ie_nv ie; ie_nvmax := ie_nvmax ie; ie_pack := ie_pack ie;
          ie_ostride := ie_ostride ie; ie_sstride := stride; ie_id := ie_id ie;
          ie_owned := ie_owned ie; ie_shared := if null then None else Some vals |}.
  (** The pointer is set (lines 298-299, 405, 420). *)
  Definition non_null (o : option (list V)) : res (list V) :=
    match o with Some l => Ok l | None => Throw end.
  (** span.subspan(off, len) of a span of the array [l] that starts at [start]
      and claims [stride] elements: the elements actually read. *)
  Definition sub (l : list V) (start stride off len : nat) : res (list V) :=
    if (off + len <=? stride) && (start + off + len <=? length l)
    then Ok (take len (drop (start + off) l)) else UB.

  (** The pairs (vec, i) of the two nested parallel loops in packSends
      (359-371) and unpack (450-460). *)
  Definition work (nv n : nat) : list (nat * nat) := list_prod (seq 0 nv) (seq 0 n).

  (** *** Import *)
  (** packSends, 356-372; [order] is the order in which the threads happen to
      execute the (vec, i) pairs. *)
  Definition pack_one (c : ctx) (ostride : nat) (owned : list V) (vi : nat * nat) (buf : list V) : res (list V) :=
    j ← rd (getOwnedInds c) vi.2;
    if j <? ostride
    then v ← rd owned (vi.1 * ostride + j);
         if vi.1 * length (getOwnedInds c) + vi.2 <? length buf
         then wr buf (vi.1 * length (getOwnedInds c) + vi.2) v else UB
    else UB.
  Definition packSends (order : list (nat * nat)) (owned : list V) ie : res (list V) :=
    for_each (pack_one (ie_ctx ie) (ie_ostride ie) owned) order (ie_pack ie).
  (** postRecvs, 305-320; the array bound of the shared buffer is checked when
      the message is delivered. *)
  Definition import_recvs ie : res (list (act V)) :=
    map_res (fun ve : nat * (nat * nat * nat) =>
        let '(rank, off, size) := ve.2 in
        if off + size <=? ie_sstride ie
        then Ok (ARecv rank (makeTag (ie_id ie) ve.1) (ve.1 * ie_sstride ie + off) size)
        else UB)
      (list_prod (seq 0 (ie_nv ie)) (cx_shared (ie_ctx ie))).
  (** postSends, 322-337, after packing: consecutive pieces of the pack buffer. *)
  Definition import_sends (buf : list V) ie : res (list (act V)) :=
    st ← for_each (fun (ve : nat * (nat * list nat)) (st : nat * list (act V)) =>
            let '(rank, inds) := ve.2 in
            data ← sub buf 0 (length buf) st.1 (length inds);
            Ok (st.1 + length data, st.2 ++ [ASend rank (makeTag (ie_id ie) ve.1) data]))
          (list_prod (seq 0 (ie_nv ie)) (cx_owned (ie_ctx ie))) (0, []);
    Ok st.2.
  (** postComms, 295-303. *)
  Definition import_post (order : list (nat * nat)) ie : res (list (act V)) :=
    owned ← non_null (ie_owned ie);
    _ ← non_null (ie_shared ie);
    rs ← import_recvs ie;
    buf ← packSends order owned ie;
    ss ← import_sends buf ie;
    Ok (rs ++ ss).

  (** *** Export *)
  (** postRecvs, 402-415: consecutive pieces of the pack buffer. *)
  Definition export_recvs ie : res (list (act V)) :=
    _ ← non_null (ie_owned ie);
    st ← for_each (fun (ve : nat * (nat * list nat)) (st : nat * list (act V)) =>
            let '(rank, inds) := ve.2 in
            if st.1 + length inds <=? length (ie_pack ie)
            then Ok (st.1 + length inds,
                     st.2 ++ [ARecv rank (makeTag (ie_id ie) ve.1) st.1 (length inds)])
            else UB)
          (list_prod (seq 0 (ie_nv ie)) (cx_owned (ie_ctx ie))) (0, []);
    Ok st.2.
  (** postSends, 417-433. *)
  Definition export_sends ie : res (list (act V)) :=
    shared ← non_null (ie_shared ie);
    map_res (fun ve : nat * (nat * nat * nat) =>
        let '(rank, off, size) := ve.2 in
        data ← sub shared (ve.1 * ie_sstride ie) (ie_sstride ie) off size;
        Ok (ASend rank (makeTag (ie_id ie) ve.1) data))
      (list_prod (seq 0 (ie_nv ie)) (cx_shared (ie_ctx ie))).
  (** doBlockingExport, 188-195, before the wait. *)
  Definition export_post ie : res (list (act V)) :=
    rs ← export_recvs ie; ss ← export_sends ie; Ok (rs ++ ss).
  (** unpack, 447-461: one combine per pair, in the order the threads happen to
      execute them; each combine is one indivisible update of the owned entry
      (the callers pass atomic combiners). *)
  Definition unpack_one (combine : V -> V -> V) (pack : list V) ie (vi : nat * nat) (owned : list V) : res (list V) :=
    j ← rd (getOwnedInds (ie_ctx ie)) vi.2;
    if j <? ie_ostride ie
    then old ← rd owned (vi.1 * ie_ostride ie + j);
         new ← rd pack (length (getOwnedInds (ie_ctx ie)) * vi.1 + vi.2);
         wr owned (vi.1 * ie_ostride ie + j) (combine old new)
    else UB.
  Definition unpack (combine : V -> V -> V) (order : list (nat * nat)) (pack : list V) ie : res (list V) :=
    owned ← non_null (ie_owned ie);
    for_each (unpack_one combine pack ie) order owned.
End objects.

(** The sequence of API calls a client makes on one rank before posting:
    construct with room for [nvmax] vectors, choose the number of vectors,
    pass the two buffers (with non-null addresses). *)
Definition setup {V} (c : ctx) (nvmax nv : nat) (counter : N) (fill : V)
    (owned : list V) (ostride : nat) (shared : list V) (sstride : nat) : res (impexp V) :=
  ie ← make_impexp c nvmax counter fill;
  ie ← setNumVecs nv ie;
  ie ← setOwned false owned ostride ie;
  setShared false shared sstride ie.

(** All ranks: the contexts are built from the tables of a finished neighbour
    exchange (ImportExportContext constructor, 250-261), every rank creates its
    object with the same creation number [counter] (objects are created
    collectively) and the same number of vectors [nv]. *)
Definition configured {V} (sos : list ownership) (st : nx_state) (nv : nat) (counter : N)
    (bufs : list (buffers V)) (ies : list (impexp V)) : Prop :=
  length bufs = length sos /\ length ies = length sos /\
  forall r so out x b ie,
    sos !! r = Some so -> all_outs sos !! r = Some out -> nx_ranks st !! r = Some x ->
    bufs !! r = Some b -> ies !! r = Some ie ->
    exists nvmax fill, setup (make_ctx so out (nx_result x)) nvmax nv counter fill
                         (b_owned b) (b_ostride b) (b_shared b) (b_sstride b) = Ok ie.
(** Columns do not overlap and no 64-bit overflow in the size computation. *)
Definition roomy {V} (counts : list nat) (shareds : list (list nat)) (nv : nat) (bufs : list (buffers V)) : Prop :=
  forall r c sh b, counts !! r = Some c -> shareds !! r = Some sh -> bufs !! r = Some b ->
    c <= b_ostride b /\ length sh <= b_sstride b
    /\ (Z.of_nat nv * Z.of_nat (b_ostride b) + Z.of_nat (b_ostride b) < 2 ^ 64)%Z
    /\ (Z.of_nat nv * Z.of_nat (b_sstride b) + Z.of_nat (b_sstride b) < 2 ^ 64)%Z.
