(** Model of the hash table robin_hood::detail::Table, util/RobinHoodHashTables.hpp, as used
    through robin_hood::unordered_flat_map (IsFlat, MaxLoadFactor100 = 80).  Simplifications:
    the hash of a key after the multiplication and shift of keyToIdx is a parameter that
    depends on how often the multiplier was changed; sizes do not overflow size_t; an object
    that was moved from keeps its value; copies and moves of tables are left out. *)
From Verif Require Import Base.

Section robin.
  Context {K V : Type} `{EqDecision K}.
  (** h in keyToIdx, 1431-1434; the first argument counts the calls of nextHashMultiplier. *)
  Context (hash : nat -> K -> nat).

  (** The members, 2719-2728.  A node is [None] where no object lives.  mInfo has
      calcNumBytesInfo bytes (2317-2323), or is the member mMask (8 bytes of 0) in the empty
      table. *)
  Record table := mk_table { t_mult : nat; t_vals : list (option (K * V)); t_info : list nat;
    t_num : nat; t_mask : nat; t_max : nat; t_inc : nat; t_shift : nat }.
  (** Table(), 1598, and init, 2708-2718. *)
  Definition empty_table : table := mk_table 0 [] (repeat 0 8) 0 0 0 32 0.

  (** calcMaxNumElementsAllowed, 2308-2317, for sizes below max / 100. *)
  Definition max_allowed (n : nat) : nat := n * 80 / 100.
  (** calcNumElementsWithBuffer, 2326-2331. *)
  Definition with_buffer (n : nat) : nat := n + Nat.min (max_allowed n) 255.
  (** keyToIdx, 1425-1439: the slot and the info of a key. *)
  Definition home (t : table) (k : K) : nat := Nat.land (Nat.shiftr (hash (t_mult t) k) 5) (t_mask t).
  Definition home_info (t : table) (k : K) : nat := t_inc t + Nat.shiftr (Nat.land (hash (t_mult t) k) 31) (t_shift t).

  (** The key of the object in a slot. *)
  Definition key_is (t : table) (idx : nat) (k : K) : res bool :=
    x ← rd (t_vals t) idx; match x with Some n => Ok (bool_decide (k = n.1)) | None => UB end.
  (** info == mInfo[idx] && equal(key, mKeyVals[idx].getFirst()), 1514, 2216. *)
  Definition hit (t : table) (info idx : nat) (k : K) : res bool :=
    i ← rd (t_info t) idx; if info =? i then key_is t idx k else Ok false.
  (** findIdx, 1503-1530; end is [None]. *)
  Fixpoint find_loop (fuel : nat) (t : table) (k : K) (info idx : nat) : res (option nat) :=
    match fuel with
    | 0 => UB
    | S fuel =>
        b ← hit t info idx k;
        if (b : bool) then Ok (Some idx) else
        b' ← hit t (info + t_inc t) (idx + 1) k;
        if (b' : bool) then Ok (Some (idx + 1)) else
        i ← rd (t_info t) (idx + 2);
        if info + t_inc t + t_inc t <=? i then find_loop fuel t k (info + t_inc t + t_inc t) (idx + 2) else Ok None
    end.
  Definition findIdx (t : table) (k : K) : res (option nat) := find_loop (length (t_info t)) t k (home_info t k) (home t k).
  (** find, 2105-2135, with the value of the node. *)
  Definition find (t : table) (k : K) : res (option V) :=
    o ← findIdx t k;
    match o with
    | None => Ok None
    | Some idx => x ← rd (t_vals t) idx; match x with Some n => Ok (Some n.2) | None => UB end
    end.

  (** ::new at a slot, and assignment to the object in a slot. *)
  Definition construct (vals : list (option (K * V))) (idx : nat) (x : option (K * V)) : res (list (option (K * V))) :=
    o ← rd vals idx; match o, x with None, Some n => wr vals idx (Some n) | _, _ => UB end.
  Definition assign (vals : list (option (K * V))) (idx : nat) (x : option (K * V)) : res (list (option (K * V))) :=
    o ← rd vals idx; match o, x with Some _, Some n => wr vals idx (Some n) | _, _ => UB end.

  (** shiftUp, 1457-1478: the assignments of 1462-1465 from slot [idx] on, [cnt] of them. *)
  Fixpoint up_vals (cnt idx : nat) (vals : list (option (K * V))) : res (list (option (K * V))) :=
    match cnt with
    | 0 => Ok vals
    | S cnt => x ← rd vals (idx - 1); vals' ← assign vals idx x; up_vals cnt (idx - 1) vals'
    end.
  (** 1467-1477. *)
  Fixpoint up_info (inc cnt idx : nat) (info : list nat) (mx : nat) : res (list nat * nat) :=
    match cnt with
    | 0 => Ok (info, mx)
    | S cnt =>
        a ← rd info (idx - 1);
        info' ← wr info idx ((a + inc) mod 256);
        b ← rd info' idx;
        up_info inc cnt (idx - 1) info' (if 255 <? b + inc then 0 else mx)
    end.
  Definition shiftUp (t : table) (start ins : nat) : res table :=
    x ← rd (t_vals t) (start - 1);
    vals ← construct (t_vals t) start x;
    vals' ← up_vals (start - 1 - ins) (start - 1) vals;
    im ← up_info (t_inc t) (start - ins) start (t_info t) (t_max t);
    Ok (mk_table (t_mult t) vals' im.1 (t_num t) (t_mask t) im.2 (t_inc t) (t_shift t)).

  (** while (0 != mInfo[idx]), 1566-1569 and 2595-2598. *)
  Fixpoint find_empty (fuel : nat) (info : list nat) (idx : nat) : res nat :=
    match fuel with
    | 0 => UB
    | S fuel => i ← rd info idx; if i =? 0 then Ok idx else find_empty fuel info (idx + 1)
    end.
  (** 2586-2611 of insertKeyPrepareEmptySpot and 1555-1588 of insert_move up to the
      construction or assignment of the node; true if no object lives at [ins]. *)
  Definition open_spot (t : table) (info ins : nat) : res (table * bool) :=
    let mx := if 255 <? info + t_inc t then 0 else t_max t in
    let t1 := mk_table (t_mult t) (t_vals t) (t_info t) (t_num t) (t_mask t) mx (t_inc t) (t_shift t) in
    idx ← find_empty (length (t_info t1)) (t_info t1) ins;
    t2 ← if idx =? ins then Ok t1 else shiftUp t1 idx ins;
    info' ← wr (t_info t2) ins (info mod 256);
    Ok (mk_table (t_mult t2) (t_vals t2) info' (t_num t2 + 1) (t_mask t2) (t_max t2) (t_inc t2) (t_shift t2), idx =? ins).
  (** The node: 2460-2475, 2494-2509, 1571-1580. *)
  Definition put_node (t : table) (fresh : bool) (idx : nat) (n : K * V) : res table :=
    vals ← (if fresh then construct else assign) (t_vals t) idx (Some n);
    Ok (mk_table (t_mult t) vals (t_info t) (t_num t) (t_mask t) (t_max t) (t_inc t) (t_shift t)).

  (** try_increase_info, 2615-2643.  The loop halves the bytes eight at a time. *)
  Definition try_increase_info (t : table) : res (table * bool) :=
    if t_inc t <=? 2 then Ok (t, false) else
    let n := with_buffer (t_mask t + 1) in
    let c := 8 * ((n + 7) / 8) in
    if length (t_info t) <? c then UB else
    info ← wr (map (fun b => b / 2) (take c (t_info t)) ++ drop c (t_info t)) n 1;
    Ok (mk_table (t_mult t) (t_vals t) info (t_num t) (t_mask t) (max_allowed (t_mask t + 1)) (t_inc t / 2) (t_shift t + 1), true).

  (** initData, 2521-2541. *)
  Definition initData (mult n : nat) : table :=
    mk_table mult (repeat None (with_buffer n)) (repeat 0 (with_buffer n) ++ 1 :: repeat 0 7) 0 (n - 1) (max_allowed n) 32 0.

  (** while (info <= mInfo[idx]), 1549-1553. *)
  Fixpoint skip_le (fuel inc : nat) (infos : list nat) (info idx : nat) : res (nat * nat) :=
    match fuel with
    | 0 => UB
    | S fuel => i ← rd infos idx; if info <=? i then skip_le fuel inc infos (info + inc) (idx + 1) else Ok (info, idx)
    end.
  (** insert_move, 1536-1588. *)
  Definition insert_move (n : K * V) (t : table) : res table :=
    t1 ← (if t_max t =? 0 then tb ← try_increase_info t; if (tb.2 : bool) then Ok tb.1 else Throw else Ok t);
    ii ← skip_le (length (t_info t1)) (t_inc t1) (t_info t1) (home_info t1 n.1) (home t1 n.1);
    tf ← open_spot t1 ii.1 ii.2;
    put_node tf.1 tf.2 ii.2 n.
  (** rehashPowerOfTwo, 2400-2441; the multiplier is given. *)
  Definition rehash (t : table) (mult n : nat) : res table :=
    let old := with_buffer (t_mask t + 1) in
    let t0 := initData mult n in
    if old <=? 1 then Ok t0 else
    for_each (fun i t' =>
      o ← rd (t_info t) i;
      if o =? 0 then Ok t' else
      x ← rd (t_vals t) i; match x with Some nd => insert_move nd t' | None => UB end) (seq 0 old) t0.
  (** increase_size, 2646-2680; its result is always true. *)
  Definition increase_size (t : table) : res table :=
    if t_mask t =? 0 then Ok (initData (t_mult t) 8) else
    let m := max_allowed (t_mask t + 1) in
    tb ← (if t_num t <? m then try_increase_info t else Ok (t, false));
    if (tb.2 : bool) then Ok tb.1
    else if t_num t * 2 <? m then rehash t (t_mult t + 1) (t_mask t + 1)
    else rehash t (t_mult t) ((t_mask t + 1) * 2).

  (** nextWhileLess, 1448-1455. *)
  Fixpoint skip_lt (fuel inc : nat) (infos : list nat) (info idx : nat) : res (nat * nat) :=
    match fuel with
    | 0 => UB
    | S fuel => i ← rd infos idx; if info <? i then skip_lt fuel inc infos (info + inc) (idx + 1) else Ok (info, idx)
    end.
  (** while (info == mInfo[idx]), 2564-2573: the slot of the key, or where to insert it. *)
  Fixpoint match_loop (fuel : nat) (t : table) (k : K) (info idx : nat) : res (nat + nat * nat) :=
    match fuel with
    | 0 => UB
    | S fuel =>
        i ← rd (t_info t) idx;
        if info =? i then b ← key_is t idx k; if (b : bool) then Ok (inl idx) else match_loop fuel t k (info + t_inc t) (idx + 1)
        else Ok (inr (info, idx))
    end.
  (** InsertionState without overflow_error, 2543-2549. *)
  Inductive insertion := key_found | new_node | overwrite_node.
  (** insertKeyPrepareEmptySpot, 2554-2613, [n] rounds left; overflow_error is the exception
      its callers throw. *)
  Fixpoint prepare (n : nat) (t : table) (k : K) : res (table * nat * insertion) :=
    match n with
    | 0 => Throw
    | S n =>
        ii ← skip_lt (length (t_info t)) (t_inc t) (t_info t) (home_info t k) (home t k);
        r ← match_loop (length (t_info t)) t k ii.1 ii.2;
        match r with
        | inl idx => Ok (t, idx, key_found)
        | inr p =>
            if t_max t <=? t_num t then t' ← increase_size t; prepare n t' k
            else tf ← open_spot t p.1 p.2; Ok (tf.1, p.2, if (tf.2 : bool) then new_node else overwrite_node)
        end
    end.
  (** try_emplace_impl, 2452-2483, and operator[], 1841-1864; and insertOrAssignImpl,
      2485-2519, when [over]. *)
  Definition insert (over : bool) (k : K) (v : V) (t : table) : res table :=
    r ← prepare 256 t k;
    match r.2 with
    | key_found =>
        if over then
          x ← rd (t_vals r.1.1) r.1.2;
          match x with
          | Some n => vals ← wr (t_vals r.1.1) r.1.2 (Some (n.1, v));
              Ok (mk_table (t_mult r.1.1) vals (t_info r.1.1) (t_num r.1.1) (t_mask r.1.1) (t_max r.1.1) (t_inc r.1.1) (t_shift r.1.1))
          | None => UB
          end
        else Ok r.1.1
    | new_node => put_node r.1.1 true r.1.2 (k, v)
    | overwrite_node => put_node r.1.1 false r.1.2 (k, v)
    end.

  (** shiftDown, 1480-1499. *)
  Fixpoint down (fuel inc : nat) (info : list nat) (vals : list (option (K * V))) (idx : nat) : res (list nat * list (option (K * V))) :=
    match fuel with
    | 0 => UB
    | S fuel =>
        a ← rd info (idx + 1);
        if 2 * inc <=? a then
          info' ← wr info idx ((a - inc) mod 256);
          x ← rd vals (idx + 1);
          vals' ← assign vals idx x;
          down fuel inc info' vals' (idx + 1)
        else
          info' ← wr info idx 0;
          o ← rd vals idx;
          match o with Some _ => vals' ← wr vals idx None; Ok (info', vals') | None => UB end
    end.
  (** The search of erase(key), 2212-2224. *)
  Fixpoint erase_loop (fuel : nat) (t : table) (k : K) (info idx : nat) : res (option nat) :=
    match fuel with
    | 0 => UB
    | S fuel =>
        b ← hit t info idx k;
        if (b : bool) then Ok (Some idx) else
        i ← rd (t_info t) (idx + 1);
        if info + t_inc t <=? i then erase_loop fuel t k (info + t_inc t) (idx + 1) else Ok None
    end.
  (** erase(key), 2207-2228. *)
  Definition erase (k : K) (t : table) : res table :=
    o ← erase_loop (length (t_info t)) t k (home_info t k) (home t k);
    match o with
    | None => Ok t
    | Some idx =>
        iv ← down (length (t_info t)) (t_inc t) (t_info t) (t_vals t) idx;
        Ok (mk_table (t_mult t) iv.2 iv.1 (t_num t - 1) (t_mask t) (t_max t) (t_inc t) (t_shift t))
    end.
  (** clear, 1787-1807. *)
  Definition clear (t : table) : res table :=
    if t_num t =? 0 then Ok t else
    let n := with_buffer (t_mask t + 1) in
    info ← wr (repeat 0 (n + 8)) n 1;
    Ok (mk_table (t_mult t) (map (fun _ => None) (t_vals t)) info 0 (t_mask t) (t_max t) 32 0).
  (** reserve(c, false), 2371-2395: the doubling of newSize, with enough rounds. *)
  Fixpoint grow_size (fuel c n : nat) : nat :=
    match fuel with 0 => n | S fuel => if max_allowed n <? c then grow_size fuel c (n * 2) else n end.
  Definition reserve (c : nat) (t : table) : res table :=
    let n := grow_size (S (Nat.max c (t_num t))) (Nat.max c (t_num t)) 8 in
    if t_mask t + 1 <? n then rehash t (t_mult t) n else Ok t.

  (** fastForward of iterators, 1380-1414: eight bytes of info are read at once; the trailing
      zero bits of the word divided by 8 (little endian) are its leading zero bytes. *)
  Fixpoint fast_forward (fuel : nat) (info : list nat) (idx : nat) : res nat :=
    match fuel with
    | 0 => UB
    | S fuel =>
        if length info <? idx + 8 then UB else
        match list_find (fun b => b <> 0) (take 8 (drop idx info)) with
        | None => fast_forward fuel info (idx + 8)
        | Some d => Ok (idx + d.1)
        end
    end.
  (** A loop from begin() to end(), 1344-1350, 1359, 2137-2176: the nodes in the order of the
      visits.  end() is the address of mInfo, which follows the last node. *)
  Fixpoint iterate (fuel : nat) (t : table) (idx : nat) : res (list (K * V)) :=
    match fuel with
    | 0 => UB
    | S fuel =>
        if idx =? length (t_vals t) then Ok [] else
        x ← rd (t_vals t) idx;
        match x with
        | None => UB
        | Some n => idx' ← fast_forward (length (t_info t)) (t_info t) (idx + 1); l ← iterate fuel t idx'; Ok (n :: l)
        end
    end.
  Definition elements (t : table) : res (list (K * V)) :=
    idx ← (if t_num t =? 0 then Ok (length (t_vals t)) else fast_forward (length (t_info t)) (t_info t) 0);
    iterate (S (length (t_vals t))) t idx.
End robin.
