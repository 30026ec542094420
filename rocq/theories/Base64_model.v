(** Model of include/l3ster/util/Base64.hpp.
    Bytes and characters are numbers of type [N] (bytes are < 256, characters
    are their ASCII codes).  The output buffer is a list; [out] is an index
    into it (the model of [char*& out]); stores outside the buffer are [UB]. *)
From Verif Require Import Base.
Local Open Scope N_scope.

(** Base64.hpp:20-28, [conversion_table]: 'A'=65, 'a'=97, '0'=48, '+'=43,
    '/'=47.  [iota n c] is std::iota over n entries starting at c. *)
Definition iota (n : nat) (c : N) : list N :=
  map (fun k => c + N.of_nat k) (seq 0 n).
Definition conversion_table : list N :=
  iota 26 65 ++ iota 26 97 ++ iota 10 48 ++ [43; 47].
(** Table access [conversion_table[code_point]] (Base64.hpp:33,38,43,48). *)
Definition table_at (cp : N) : res N := rd conversion_table (N.to_nat cp).

(** Base64.hpp:30-49.  std::byte shifts are on 8 bits, hence [mod 256]. *)
Definition enc0 (b0 : N) : res N := table_at (N.shiftr b0 2).
Definition enc1 (b0 b1 : N) : res N :=
  table_at (N.lor ((N.shiftl (N.land b0 3) 4) `mod` 256) (N.shiftr b1 4)).
Definition enc2 (b1 b2 : N) : res N :=
  table_at (N.lor ((N.shiftl (N.land b1 15) 2) `mod` 256) (N.shiftr b2 6)).
Definition enc3 (b2 : N) : res N := table_at (N.land b2 63).

(** [*out++ = c] *)
Definition emit (c : N) (st : list N * nat) : res (list N * nat) :=
  buf ← wr st.1 st.2 c; Ok (buf, S st.2).

(** Base64.hpp:51-65, loop body and loop.  [fuel] bounds the number of
    iterations; running out of it is reported as [UB], so every [Ok] result
    is a result of the unbounded loop. *)
Fixpoint serial_loop (fuel : nat) (data : list N) (i : nat) (st : list N * nat)
  : res (nat * (list N * nat)) :=
  match fuel with
  | O => UB
  | S fuel =>
    if (i + 3 <=? length data)%nat then
      b0 ← rd data i; b1 ← rd data (i + 1); b2 ← rd data (i + 2);
      c0 ← enc0 b0; st ← emit c0 st;
      c1 ← enc1 b0 b1; st ← emit c1 st;
      c2 ← enc2 b1 b2; st ← emit c2 st;
      c3 ← enc3 b2; st ← emit c3 st;
      serial_loop fuel data (i + 3) st
    else Ok (i, st)
  end.
Definition encB64SerialImpl (data : list N) (st : list N * nat)
  : res (nat * (list N * nat)) := serial_loop (S (length data)) data 0 st.

(** Base64.hpp:67-86; '=' is 61. *)
Definition encB64Remainder (data : list N) (st : list N * nat)
  : res (list N * nat) :=
  match data with
  | [last_byte] =>
    c0 ← enc0 last_byte; st ← emit c0 st;
    c1 ← enc1 last_byte 0; st ← emit c1 st;
    st ← emit 61 st; emit 61 st
  | [penult_byte; last_byte] =>
    c0 ← enc0 penult_byte; st ← emit c0 st;
    c1 ← enc1 penult_byte last_byte; st ← emit c1 st;
    c2 ← enc2 last_byte 0; st ← emit c2 st;
    emit 61 st
  | _ => Ok st
  end.

(** ** The AVX2 path.  A 256-bit register is a list of 32 bytes, byte 0 first
    (little endian). *)

(** Base64.hpp:92-98, [load24]: masked load of 8 ints starting 4 bytes before
    [begin]; the first and last int are masked out and read as 0 without
    touching memory. *)
Definition load24 (data : list N) (start : nat) : res (list N) :=
  d ← map_res (fun k => rd data (start + k)) (seq 0 24);
  Ok ([0;0;0;0] ++ d ++ [0;0;0;0]).

(** _mm256_shuffle_epi8 on one 128-bit lane, for selectors without the
    high bit (all selectors used are < 128; the low 4 bits select). *)
Definition shuffle_lane (lane sel : list N) : list N :=
  map (fun s => nth (N.to_nat (s `mod` 16)) lane 0) sel.
(** _mm256_shuffle_epi8: both lanes independently. *)
Definition shuffle_epi8 (v sel : list N) : list N :=
  shuffle_lane (take 16 v) (take 16 sel) ++ shuffle_lane (drop 16 v) (drop 16 sel).

(** Base64.hpp:100-101; [_mm256_set_epi8] lists byte 31 first. *)
Definition shuffle_mask : list N :=
  rev [10;11;9;10;7;8;6;7;4;5;3;4;1;2;0;1;14;15;13;14;11;12;10;11;8;9;7;8;5;6;4;5].

(** The 16-bit lanes of a register: (low byte, high byte) pairs. *)
Fixpoint lanes16 (v : list N) : list N :=
  match v with
  | lo :: hi :: v => (lo + 256 * hi) :: lanes16 v
  | _ => []
  end.
Definition bytes16 (v : list N) : list N :=
  flat_map (fun w => [w `mod` 256; w / 256]) v.
(** _mm256_set1_epi32(c): the 16-bit lanes are low half, high half, repeated. *)
Definition set1_epi32 (c : N) : list N :=
  flat_map (fun _ => [c `mod` 65536; c / 65536]) (seq 0 8).
Definition map2 (f : N -> N -> N) (a b : list N) : list N := zip_with f a b.
(** _mm256_mulhi_epu16, _mm256_mullo_epi16 on one lane. *)
Definition mulhi_epu16 (a b : N) : N := (a * b) / 65536.
Definition mullo_epi16 (a b : N) : N := (a * b) `mod` 65536.

(** Base64.hpp:99-113. *)
Definition unpack_lo6 (packed : list N) : list N :=
  let c0 := set1_epi32 0x0fc0fc00 in
  let c1 := set1_epi32 0x04000040 in
  let c2 := set1_epi32 0x003f03f0 in
  let c3 := set1_epi32 0x01000010 in
  let shuf := lanes16 (shuffle_epi8 packed shuffle_mask) in
  let t0 := map2 N.land shuf c0 in
  let t1 := map2 mulhi_epu16 t0 c1 in
  let t2 := map2 N.land shuf c2 in
  let t3 := map2 mullo_epi16 t2 c3 in
  bytes16 (map2 N.lor t1 t3).

(** Base64.hpp:118-149: one lane of [offset_map]; negative bytes are written
    in two's complement (-4 = 252, -19 = 237, -16 = 240). *)
Definition offset_map : list N :=
  [71;252;252;252;252;252;252;252;252;252;252;237;240;65;0;0].
(** Signed value of a byte, for _mm256_cmpgt_epi8. *)
Definition sbyte (b : N) : Z :=
  if (b <? 128)%N then Z.of_N b else (Z.of_N b - 256)%Z.
(** Base64.hpp:151-156 on one byte.  cmpgt gives all ones (255) or 0, subs_epu8
    is saturating ([N] subtraction), shuffle_epi8 yields 0 when the selector's
    high bit is set, add_epi8 wraps. *)
Definition to_ascii1 (ind : N) : N :=
  let lt26_mask := if (sbyte ind <? sbyte 26)%Z then 255 else 0 in
  let red_0_25 := N.land lt26_mask 13 in
  let red_26_63 := ind - 51 in
  let red_0_63 := N.lor red_26_63 red_0_25 in
  let offset := if 128 <=? red_0_63 then 0
                else nth (N.to_nat (red_0_63 `mod` 16)) offset_map 0 in
  (ind + offset) `mod` 256.
Definition to_ascii (v : list N) : list N := map to_ascii1 v.

(** Base64.hpp:169: store of 32 bytes at [at_]. *)
Definition store256 (buf : list N) (at_ : nat) (v : list N) : res (list N) :=
  for_each (fun '(k, c) b => wr b (at_ + k) c) (zip (seq 0 (length v)) v) buf.

(** Base64.hpp:163-170. *)
Definition process_block (data : list N) (out : nat) (block_num : nat)
    (buf : list N) : res (list N) :=
  packed ← load24 data (block_num * 24);
  store256 buf (out + block_num * 32) (to_ascii (unpack_lo6 packed)).

(** Base64.hpp:159-176.  tbb::parallel_for runs blocks 0..n-1 in an unspecified
    order; [order n] is that order (a block is modelled as one step; blocks
    write disjoint parts of the buffer). *)
Definition encB64SimdImpl (order : nat -> list nat) (data : list N) (st : list N * nat)
  : res (nat * (list N * nat)) :=
  let n_blocks := (length data / 24)%nat in
  buf ← for_each (process_block data st.2) (order n_blocks) st.1;
  Ok ((n_blocks * 24)%nat, (buf, (st.2 + n_blocks * 32)%nat)).

(** Base64.hpp:182-194.  [addr] is the address of the data;
    std::align moves up to the next multiple of 4. *)
Definition misalignment (addr : N) : nat := N.to_nat ((4 - addr `mod` 4) `mod` 4).
Definition align_bytes (addr : N) : nat :=
  let m := misalignment addr in (m + (m `mod` 3) * 4)%nat.
Definition alignForSimd (addr : N) (data : list N) (st : list N * nat)
  : res (nat * (list N * nat)) :=
  let m := align_bytes addr in
  if (m <=? length data)%nat then encB64SerialImpl (take m data) st
  else Ok (0%nat, st).

(** Which code path is compiled/taken: no AVX2; AVX2 with element type aligned
    to at least 4; AVX2 with smaller alignment (data at address [addr]). *)
Inductive path : Type :=
| NoAvx2
| Avx2Aligned
| Avx2Unaligned (addr : N).
(** Number of bytes handled before the SIMD loop. *)
Definition align_pass (p : path) (data : list N) (st : list N * nat) :=
  match p with
  | Avx2Unaligned addr => alignForSimd addr data st
  | _ => Ok (0%nat, st)
  end.
Definition simd_pass (p : path) (order : nat -> list nat) (data : list N) (st : list N * nat) :=
  match p with
  | NoAvx2 => Ok (0%nat, st)
  | _ => encB64SimdImpl order data st
  end.

(** Base64.hpp:197-217.  [buf] is the buffer, [out] the start index; returns
    the number of characters written and the buffer. *)
Definition encodeAsBase64 (p : path) (order : nat -> list nat) (data buf : list N)
    (out : nat) : res (nat * list N) :=
  '(n0, st) ← align_pass p data (buf, out);
  '(n1, st) ← simd_pass p order (drop n0 data) st;
  let n1 := (n0 + n1)%nat in
  '(n2, st) ← encB64SerialImpl (drop n1 data) st;
  let n2 := (n1 + n2)%nat in
  st ← encB64Remainder (drop n2 data) st;
  Ok ((st.2 - out)%nat, st.1).

(** Base64.hpp:219-226, [size] elements of [sizeof_T] bytes. *)
Definition getBase64EncodingSize (sizeof_T size : nat) : nat :=
  let bytes := (size * sizeof_T)%nat in
  let n_full_triplets := (bytes / 3)%nat in
  let remainder := (bytes mod 3)%nat in
  ((n_full_triplets + (if (0 <? remainder)%nat then 1 else 0)) * 4)%nat.
