(** What Base64 is, after RFC 4648 section 4, independent of the model: the
    bytes are one bit string (most significant bit first), cut into groups of
    6 bits (the last group filled up with zero bits), each group selects a
    letter, and '=' pads the text to a multiple of 4 characters. *)
From Verif Require Import Base.
From Coq Require Import Ascii String.
Local Open Scope N_scope.

Definition rfc_alphabet : list N :=
  map N_of_ascii (list_ascii_of_string
    "ABCDEFGHIJKLMNOPQRSTUVWXYZabcdefghijklmnopqrstuvwxyz0123456789+/"%string).

(** The [n] low bits of [x], most significant first. *)
Fixpoint bits_of (n : nat) (x : N) : list bool :=
  match n with
  | O => []
  | S n => N.testbit_nat x n :: bits_of n x
  end.
(** The number written in binary, most significant bit first. *)
Definition value_of (bs : list bool) : N :=
  foldl (fun acc (b : bool) => 2 * acc + (if b then 1 else 0)) 0 bs.

(** Groups of [k] bits; the last one is filled up with [false]. *)
Fixpoint groups_fuel (fuel k : nat) (bs : list bool) : list (list bool) :=
  match fuel, bs with
  | O, _ | _, [] => []
  | S fuel, _ => take k (bs ++ replicate k false) :: groups_fuel fuel k (drop k bs)
  end.
Definition groups6 (bs : list bool) : list (list bool) :=
  groups_fuel (List.length bs) 6 bs.

Definition letter (g : list bool) : N := nth (N.to_nat (value_of g)) rfc_alphabet 0.
Definition pad_char : N := N_of_ascii "="%char.

Definition rfc4648_encode (bytes : list N) : list N :=
  let text := map letter (groups6 (flat_map (bits_of 8) bytes)) in
  text ++ replicate ((4 - List.length text mod 4) mod 4) pad_char.

(** The standard decoder: drop the padding, turn every letter into its 6 bits,
    and read off all complete groups of 8 bits. *)
Fixpoint index_of (c : N) (l : list N) : option nat :=
  match l with
  | [] => None
  | a :: l => if a =? c then Some O else S <$> index_of c l
  end.
Fixpoint decode_letters (t : list N) : option (list bool) :=
  match t with
  | [] => Some []
  | c :: t =>
    if c =? pad_char then Some []
    else match index_of c rfc_alphabet, decode_letters t with
         | Some i, Some bs => Some (bits_of 6 (N.of_nat i) ++ bs)
         | _, _ => None
         end
  end.
Fixpoint octets_fuel (fuel : nat) (bs : list bool) : list N :=
  match fuel with
  | O => []
  | S fuel => if (List.length bs <? 8)%nat then []
              else value_of (take 8 bs) :: octets_fuel fuel (drop 8 bs)
  end.
Definition rfc4648_decode (t : list N) : option (list N) :=
  (fun bs => octets_fuel (List.length bs) bs) <$> decode_letters t.

Definition is_bytes (l : list N) : Prop := Forall (fun b => b < 256) l.
