(** Specification of REAL values and their contents octets (X.690 8.5, used by
    X.691 15), independent of the model of the code. Doubles are the
    [spec_float] of the standard library with 53 bits of precision and exponent
    limit 1024. *)
From Coq Require Export Floats.SpecFloat.
From Verif Require Import Bits.

Definition double := spec_float.
(** A double that exists: mantissa and exponent are in canonical position. *)
Definition is_double (x : double) : Prop := valid_binary 53 1024 x = true.
Definition is_float (x : double) : Prop := valid_binary 24 128 x = true.

(** Finite numbers with the full 53 bits of mantissa. *)
Definition normal (x : double) : Prop :=
  match x with S754_finite _ m _ => 2 ^ 52 <= Zpos m < 2 ^ 53 | _ => False end.

(** What contents octets denote: RNum s M E is (-1)^s * M * 2^E. *)
Inductive real :=
| RPlusInf | RMinusInf | RNaN | RMinusZero
| RNum (s : bool) (M E : Z).

Fixpoint unsigned_octets (l : list Z) : Z :=
  match l with [] => 0 | b :: t => b * 256 ^ Z.of_nat (length t) + unsigned_octets t end.
Definition signed_octets (l : list Z) : Z :=
  let u := unsigned_octets l in
  if 128 <=? hd 0 l then u - 256 ^ Z.of_nat (length l) else u.

(** X.690 8.5.7: sign bit 7, base bits 6-5, scaling factor F bits 4-3, exponent
    length bits 2-1; the mantissa is S * N * 2^F. *)
Definition base_log (h : Z) : option Z :=
  match (h / 16) mod 4 with 0 => Some 1 | 1 => Some 3 | 2 => Some 4 | _ => None end.
Definition binary_real (h : Z) (exp man : list Z) : option real :=
  match base_log h, man with
  | Some k, _ :: _ =>
      Some (RNum (Z.testbit h 6) (unsigned_octets man * 2 ^ ((h / 4) mod 4)) (k * signed_octets exp))
  | _, _ => None
  end.
(** Binary encodings (8.5.7), the special values (8.5.9) and zero (8.5.2);
    decimal encodings (8.5.8) are [None]. *)
Definition x690_real (l : list Z) : option real :=
  match l with
  | [] => Some (RNum false 0 0)
  | h :: t =>
      if Z.testbit h 7 then
        if h mod 4 =? 3 then
          match t with
          | n :: t => if n =? 0 then None
                      else binary_real h (firstn (Z.to_nat n) t) (skipn (Z.to_nat n) t)
          | [] => None
          end
        else binary_real h (firstn (Z.to_nat (h mod 4 + 1)) t) (skipn (Z.to_nat (h mod 4 + 1)) t)
      else
        match t with
        | [] => if h =? 0x40 then Some RPlusInf
                else if h =? 0x41 then Some RMinusInf
                else if h =? 0x42 then Some RNaN
                else if h =? 0x43 then Some RMinusZero else None
        | _ :: _ => None
        end
  end.

(** The double nearest to a real (ties to even, infinity on overflow). *)
Definition nearest (r : real) : double :=
  match r with
  | RPlusInf => S754_infinity false
  | RMinusInf => S754_infinity true
  | RNaN => S754_nan
  | RMinusZero => S754_zero true
  | RNum s M E => binary_normalize 53 1024 (if s then - M else M) E s
  end.

(** The real a double stands for. *)
Definition exactly (x : double) : real :=
  match x with
  | S754_zero false => RNum false 0 0
  | S754_zero true => RMinusZero
  | S754_infinity false => RPlusInf
  | S754_infinity true => RMinusInf
  | S754_nan => RNaN
  | S754_finite s m e => RNum s (Zpos m) e
  end.

(** The contents octets the encoder writes: base 2, scaling factor 0, mantissa
    not reduced, exponent on the least number of octets. *)
Definition be_octets (n : Z) (v : Z) : list Z := pack (Zbits (Z.to_nat (8 * n)) v).
Definition real_octets (x : double) : list Z :=
  match x with
  | S754_zero _ => []
  | S754_infinity false => [0x40]
  | S754_infinity true => [0x41]
  | S754_nan => [0x42]
  | S754_finite s m e =>
      let le := nbytes_s e in
      (0x80 + (if s then 0x40 else 0) + (le - 1)) :: be_octets le e ++ be_octets (nbytes_u (Zpos m)) (Zpos m)
  end.
(** X.691 15: one length octet (all lengths here are below 128), then the
    contents octets. *)
Definition real_bits (x : double) : list bool :=
  bits_of_bytes (Z.of_nat (length (real_octets x)) :: real_octets x).

(** X.690 11.3.1 (DER, CER; required by X.691 15.1): the mantissa is zero or odd. *)
Definition canonical_real (l : list Z) : Prop :=
  match x690_real l with
  | Some (RNum _ M _) => M = 0 \/ M mod 2 = 1
  | _ => True
  end.

(** What the decoder makes of a number with exponent below -1023: zero. *)
Definition flushed (r : real) : double :=
  match r with
  | RNum s M E => if E <? -1023 then S754_zero s else nearest r
  | _ => nearest r
  end.

(** What the encoder writes: the value itself, except for subnormal numbers
    m * 2^-1074, written as (m + 2^52) * 2^-1075. *)
Definition sent (x : double) : double :=
  match x with
  | S754_finite s m e => if Zpos m <? 2 ^ 52 then S754_finite s (Z.to_pos (Zpos m + 2 ^ 52)) (-1075) else x
  | _ => x
  end.
(** Doubles whose value is what the encoder writes. *)
Definition encodable (x : double) : Prop :=
  match x with
  | S754_zero s => s = false
  | S754_finite _ m _ => 2 ^ 52 <= Zpos m
  | _ => True
  end.

(** Doubles that survive encoding and decoding: all except the negative zero and
    the finite values of magnitude below 2^-971. *)
Definition kept (x : double) : Prop :=
  match x with
  | S754_zero s => s = false
  | S754_finite _ m e => 2 ^ 52 <= Zpos m /\ -1023 <= e
  | _ => True
  end.
(** What encoding and decoding returns for any double. *)
Definition returned (x : double) : double :=
  match x with
  | S754_zero _ => S754_zero false
  | S754_finite s m e => if (Zpos m <? 2 ^ 52) || (e <? -1023) then S754_zero s else x
  | _ => x
  end.

(** The double with the value of a float. *)
Definition float_to_double (x : double) : double :=
  match x with
  | S754_finite s m e => binary_normalize 53 1024 (if s then - Zpos m else Zpos m) e s
  | _ => x
  end.
