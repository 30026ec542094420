(** C01, C02. *)
From Verif Require Import Base Base64_model Base64_spec Base64_proofs.
Local Open Scope N_scope.

(** C01: whatever code path is compiled in ([p]), wherever the data is in
    memory, and in whatever order TBB runs the SIMD blocks, encoding [n]
    elements of [sizeof_T] bytes each into a buffer writes exactly the RFC 4648
    text at the output position, leaves the rest of the buffer alone, and
    returns getBase64EncodingSize, which is the length of the text. *)
Theorem base64_encode_is_rfc4648 :
  forall (p : path) (order : nat -> list nat) (data pre room post : list N) (n sizeof_T : nat),
    is_bytes data ->
    List.length data = (n * sizeof_T)%nat ->
    (forall k, order k ≡ₚ seq 0 k) ->
    List.length room = getBase64EncodingSize sizeof_T n ->
    encodeAsBase64 p order data (pre ++ room ++ post) (List.length pre)
      = Ok (getBase64EncodingSize sizeof_T n, pre ++ rfc4648_encode data ++ post)
    /\ List.length (rfc4648_encode data) = getBase64EncodingSize sizeof_T n.
Proof. exact encode_props. Qed.
Print Assumptions base64_encode_is_rfc4648.

(** A 30-byte input (one SIMD block, two scalar triplets) plus two more bytes,
    on the AVX2 path with misaligned data. *)
Example base64_encode_example :
  let data := map N.of_nat (seq 100 32) in
  encodeAsBase64 (Avx2Unaligned 3) (fun k => rev (seq 0 k)) data (replicate 50 0) 4
  = Ok (44%nat, replicate 4 0 ++ rfc4648_encode data ++ replicate 2 0)
  /\ (rev (seq 0 5) ≡ₚ seq 0 5) /\ is_bytes data.
Proof.
  split; [vm_compute; reflexivity|]. split; [symmetry; apply Permutation_rev|].
  apply Forall_forall. intros x Hx. apply elem_of_list_In, in_map_iff in Hx.
  destruct Hx as (k & <- & Hk). apply in_seq in Hk. lia.
Qed.
(** The specification itself gives the RFC's own test vectors: "foobar". *)
Example rfc_vectors :
  rfc4648_encode [102] = [90;103;61;61] (* "f" -> "Zg==" *)
  /\ rfc4648_encode [102;111] = [90;109;56;61] (* "fo" -> "Zm8=" *)
  /\ rfc4648_encode [102;111;111;98;97;114] = [90;109;57;118;89;109;70;121]. (* "Zm9vYmFy" *)
Proof. vm_compute. auto. Qed.

(** C02: decoding what the encoder wrote gives the data back ... *)
Theorem base64_roundtrip :
  forall (p : path) (order : nat -> list nat) (data buf : list N),
    is_bytes data ->
    (forall k, order k ≡ₚ seq 0 k) ->
    List.length buf = getBase64EncodingSize 1 (List.length data) ->
    exists txt, encodeAsBase64 p order data buf 0 = Ok (List.length txt, txt)
      /\ rfc4648_decode txt = Some data.
Proof. exact roundtrip. Qed.
Print Assumptions base64_roundtrip.

(** ... hence different data have different texts, whatever paths were taken. *)
Theorem base64_injective :
  forall p1 p2 order1 order2 (data1 data2 buf1 buf2 txt : list N) n1 n2,
    is_bytes data1 -> is_bytes data2 ->
    (forall k, order1 k ≡ₚ seq 0 k) -> (forall k, order2 k ≡ₚ seq 0 k) ->
    List.length buf1 = getBase64EncodingSize 1 (List.length data1) ->
    List.length buf2 = getBase64EncodingSize 1 (List.length data2) ->
    encodeAsBase64 p1 order1 data1 buf1 0 = Ok (n1, txt) ->
    encodeAsBase64 p2 order2 data2 buf2 0 = Ok (n2, txt) ->
    data1 = data2.
Proof. exact injective. Qed.
Print Assumptions base64_injective.
Example base64_roundtrip_example :
  rfc4648_decode [90;109;57;118;89;109;70;121] = Some [102;111;111;98;97;114].
Proof. vm_compute. reflexivity. Qed.

(** Finding (Base64.hpp:188-189): the scalar pre-pass is meant to bring the
    SIMD loads to a multiple of 4, but it does not: for data at an address
    = 3 mod 4 it encodes 3 bytes and the SIMD loop starts at an address = 2
    mod 4.  (The text is right all the same, see C01.) *)
Theorem base64_simd_alignment_refuted :
  exists addr data n st,
    is_bytes data /\
    alignForSimd addr data (replicate 100 0, 0%nat) = Ok (n, st)
    /\ (24 <= List.length (drop n data))%nat
    /\ (addr + N.of_nat n) `mod` 4 <> 0.
Proof. exact align_refuted. Qed.
Print Assumptions base64_simd_alignment_refuted.
