(** Specification of the ACN encodings, independent of the model of the code. *)
From Verif Require Import Bits RealSpec.

(** The k low octets of v, least significant first. *)
Fixpoint le_octets (k : nat) (v : Z) : list Z :=
  match k with
  | O => []
  | S m => v mod 256 :: le_octets m (v / 256)
  end.

(** Exactly n decimal digits of v, most significant first. *)
Fixpoint digits (n : nat) (v : Z) : list Z :=
  match n with
  | O => []
  | S m => (v / 10 ^ Z.of_nat m) mod 10 :: digits m v
  end.
(** Value of a decimal digit string. *)
Fixpoint dval (l : list Z) : Z :=
  match l with
  | [] => 0
  | d :: t => d * 10 ^ Z.of_nat (length t) + dval t
  end.
(** n is the least number of digits that hold v (none for 0). *)
Definition least_digits (v : Z) (n : nat) : Prop :=
  v < 10 ^ Z.of_nat n /\ forall m, v < 10 ^ Z.of_nat m -> (n <= m)%nat.
(** As written text: at least one digit. *)
Definition text_digits (v : Z) (n : nat) : Prop := exists m, least_digits v m /\ n = Nat.max 1 m.

(** Packed decimal: four bits for each digit. *)
Definition nibbles (l : list Z) : list bool := concat (map (Zbits 4) l).
(** Decimal text: one octet, '0' + d, for each digit. *)
Definition digit_chars (l : list Z) : list Z := map (fun d => 48 + d) l.
Definition sign_char (v : Z) : Z := if v <? 0 then 45 else 43.

(** The terminator [p] occurs in [l ++ p] at the end only. *)
Definition terminates (p l : list Z) : Prop :=
  forall i, (i < length l)%nat -> firstn (length p) (skipn i (l ++ p)) <> p.

(** A C string: the characters [l], a zero, anything. *)
Definition c_string (mem l : list Z) : Prop :=
  exists tl, mem = l ++ 0 :: tl /\ Forall (fun ch => ch <> 0) l.

(** Least multiple of n not below p. *)
Definition align (n p : Z) : Z := (p + n - 1) / n * n.

(** IEEE 754 interchange format with [mb] fraction bits and [eb] exponent bits:
    the value of the pattern [u]. *)
Definition ieee_value (mb eb u : Z) : spec_float :=
  let s := Z.testbit u (mb + eb) in
  let e := (u / 2 ^ mb) mod 2 ^ eb in
  let f := u mod 2 ^ mb in
  let bias := 2 ^ (eb - 1) - 1 in
  if e =? 2 ^ eb - 1 then if f =? 0 then S754_infinity s else S754_nan
  else if e =? 0 then
    if f =? 0 then S754_zero s else S754_finite s (Z.to_pos f) (1 - bias - mb)
  else S754_finite s (Z.to_pos (f + 2 ^ mb)) (e - bias - mb).

(** A character array of at least max + 1 after a string was stored in it: the
    characters, zeros up to max + 1, the rest untouched. *)
Definition stored (l : list Z) (max : nat) (dst : list Z) : list Z :=
  l ++ repeat 0 (S max - length l) ++ skipn (S max) dst.
(** Position of the first occurrence. *)
Fixpoint first_index (ch : Z) (set : list Z) : Z :=
  match set with
  | [] => 0
  | b :: t => if ch =? b then 0 else 1 + first_index ch t
  end.
(** Characters as their positions in the alphabet, in the least number of bits
    that hold every position. *)
Definition index_bits (set l : list Z) : list bool :=
  concat (map (fun ch => Zbits (crange 0 (Z.of_nat (length set) - 1)) (first_index ch set)) l).
(** The first n characters in seven bits each, padded with spaces. *)
Definition ia5_padded (l : list Z) (n : nat) : list bool :=
  concat (map (Zbits 7) (firstn n (l ++ repeat 32 n))).
(** A character of the alphabet, in the seven bits range. *)
Definition char_of (set : list Z) (ch : Z) : Prop := 0 <= ch < 128 /\ In ch set.
(** A nibble; a decimal digit; the value the decoder gives to any text. *)
Definition is_nib (d : Z) : Prop := 0 <= d <= 15.
Definition is_dig (d : Z) : Prop := 0 <= d <= 9.
Definition text_value (l : list Z) : Z := dval (map (fun ch => (ch - 48) mod 256) l).
