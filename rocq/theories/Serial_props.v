(** Property C16: serialisation. *)
From Verif Require Import Base Serial_model Serial_spec Serial_proofs.

(** C16.  For every type built from trivially copyable objects, ranges and
    tuples, reading back the archive of a value gives that value and consumes
    exactly its bytes, whatever follows. *)
Theorem serialization_roundtrip (t : ty) (v : val) (rest : list byte) :
  has_type t v -> deserialize t (serialize v ++ rest) = Ok (v, rest).
Proof. exact (round_ok t v rest). Qed.
Print Assumptions serialization_roundtrip.
(** C16.  Every proper prefix of an archive is rejected by an exception. *)
Theorem serialization_truncated (t : ty) (v : val) (p q : list byte) :
  has_type t v -> serialize v = p ++ q -> q <> [] -> deserialize t p = Throw.
Proof. exact (truncated t v p q). Qed.
Print Assumptions serialization_truncated.
(** C16.  On arbitrary input bytes reading either throws or returns a value of
    the type whose archive is what was consumed; it never reads outside. *)
Theorem deserialization_total (t : ty) (s : list byte) : Forall (fun b => (b < 256)%N) s ->
  deserialize t s = Throw \/ exists v rest, deserialize t s = Ok (v, rest) /\ has_type t v /\ s = serialize v ++ rest.
Proof. exact (back_ok t s). Qed.
Print Assumptions deserialization_total.
(** C16.  Different values of one type have different archives, none a prefix
    of another. *)
Theorem serialization_prefix_free (t : ty) (v v' : val) (q : list byte) :
  has_type t v -> has_type t v' -> serialize v = serialize v' ++ q -> v = v' /\ q = [].
Proof.
  intros Hv Hv' E. pose proof (round_ok t v [] Hv) as H. rewrite app_nil_r, E, (round_ok t v' q Hv') in H. by injection H.
Qed.
Print Assumptions serialization_prefix_free.
(** A map from 2-byte keys to strings, followed by an integer. *)
Example serialization_example :
  let t := TTuple [TRange (TTuple [TPod 2; TRange (TPod 1)]); TPod 4] in
  let v := VTuple [VRange [VTuple [VPod [1; 0]%N; VRange [VPod [65]; VPod [66]]%N]; VTuple [VPod [2; 0]%N; VRange []]]; VPod [7; 0; 0; 1]%N] in
  has_type t v /\ deserialize t (serialize v ++ [9]%N) = Ok (v, [9]%N) /\ length (serialize v) = 34 /\
  deserialize t (take 33 (serialize v)) = Throw.
Proof.
  cbv zeta. split; [|split; [vm_compute; reflexivity|split; [vm_compute; reflexivity|vm_compute; reflexivity]]].
  cbn. repeat (split || constructor || lia).
Qed.
