(** Model of util/Common.hpp:80-128: integralPower and smallest_integral_t. *)
From Verif Require Import Base Helpers_model.

(** integralPower, 80-87.  The base has a type that is not promoted (at least as wide as int);
    signed overflow is undefined, unsigned arithmetic wraps.  [e] counts the exponent. *)
Definition mul_assign (t : ity) (x y : Z) : res Z :=
  if i_signed t then if ((imin t <=? x * y) && (x * y <=? imax t))%Z then Ok (x * y)%Z else UB
  else Ok ((x * y) mod 2 ^ i_bits t)%Z.
Definition integralPower (t : ity) (base : Z) (e : nat) : res Z :=
  for_each (fun _ retval => mul_assign t retval base) (seq 0 e) 1%Z.

(** SmallestIntegralImpl, 89-123.  [mx] is a uintmax_t and [mn] an intmax_t; [None] is void, for
    which the alias (125-128) does not exist. *)
Definition i_type (b : Z) : ity := {| i_signed := true; i_bits := b |}.
Definition u_type (b : Z) : ity := {| i_signed := false; i_bits := b |}.
Definition smallest_integral (mx mn : Z) : option ity :=
  if (mn <? 0)%Z then
    if ((mx <=? imax (i_type 8)) && (imin (i_type 8) <=? mn))%Z then Some (i_type 8)
    else if ((mx <=? imax (i_type 16)) && (imin (i_type 16) <=? mn))%Z then Some (i_type 16)
    else if ((mx <=? imax (i_type 32)) && (imin (i_type 32) <=? mn))%Z then Some (i_type 32)
    else if ((mx <=? imax (i_type 64)) && (imin (i_type 64) <=? mn))%Z then Some (i_type 64)
    else None
  else
    if (mx <=? imax (u_type 8))%Z then Some (u_type 8)
    else if (mx <=? imax (u_type 16))%Z then Some (u_type 16)
    else if (mx <=? imax (u_type 32))%Z then Some (u_type 32)
    else if (mx <=? imax (u_type 64))%Z then Some (u_type 64)
    else None.
