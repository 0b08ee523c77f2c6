(** Bit-level specification language. Nothing here refers to the model of the
    code. *)
From Coq Require Export ZArith List Bool Lia.
Export ListNotations.
Open Scope Z_scope.

(** The 8 bits of a byte, most significant first. *)
Definition bits_of_byte (b : Z) : list bool :=
  [Z.testbit b 7; Z.testbit b 6; Z.testbit b 5; Z.testbit b 4;
   Z.testbit b 3; Z.testbit b 2; Z.testbit b 1; Z.testbit b 0].

Fixpoint bits_of_bytes (l : list Z) : list bool :=
  match l with
  | [] => []
  | b :: t => bits_of_byte b ++ bits_of_bytes t
  end.

(** [Zbits n z]: the n low bits of z (two's complement for negative z), most
    significant first. *)
Fixpoint Zbits (n : nat) (z : Z) : list bool :=
  match n with
  | O => []
  | S m => Z.testbit z (Z.of_nat m) :: Zbits m z
  end.

(** Value of a big-endian bit string. *)
Fixpoint bval (l : list bool) : Z :=
  match l with
  | [] => 0
  | b :: t => (if b then 2 ^ Z.of_nat (length t) else 0) + bval t
  end.

Definition zeros (n : nat) : list bool := repeat false n.
Definition ones (n : nat) : list bool := repeat true n.

(** Number of bits needed for values 0..r: the least n with r < 2^n. *)
Definition nbits (r : Z) : Z := if r <=? 0 then 0 else Z.log2 r + 1.

(** Least number of octets L >= 1 with 0 <= v < 256^L. *)
Definition nbytes_u (v : Z) : Z := Z.max 1 ((nbits v + 7) / 8).

(** Least number of octets L >= 1 with -2^(8L-1) <= v < 2^(8L-1). *)
Definition nbytes_s (v : Z) : Z :=
  (nbits (if v <? 0 then - v - 1 else v) + 8) / 8.

(** The first n bits of a byte string. *)
Definition take_bits (n : Z) (l : list Z) : list bool := firstn (Z.to_nat n) (bits_of_bytes l).

(** A bit string packed into bytes, most significant bit first, the unused low
    bits of the last byte zero. *)
Fixpoint pack (l : list bool) : list Z :=
  match l with
  | b7 :: b6 :: b5 :: b4 :: b3 :: b2 :: b1 :: b0 :: t =>
      bval [b7; b6; b5; b4; b3; b2; b1; b0] :: pack t
  | [] => []
  | _ => [bval (l ++ zeros (8 - length l))]
  end.

(** Width of a constrained whole number with bounds min..max (X.691 11.5). *)
Definition crange (min max : Z) : nat := Z.to_nat (nbits (max - min)).

(** Semi-constrained (X.691 11.7) with offset u, and unconstrained (11.8): a
    length octet, then the number on that many octets, with the least number of
    octets. *)
Definition semi_bits (u : Z) : list bool :=
  Zbits 8 (nbytes_u u) ++ Zbits (Z.to_nat (8 * nbytes_u u)) u.
Definition unc_bits (v : Z) : list bool :=
  Zbits 8 (nbytes_s v) ++ Zbits (Z.to_nat (8 * nbytes_s v)) v.
