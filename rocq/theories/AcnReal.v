(** ACN reals: asn1crt/asn1crt_encoding_acn.c:6-11, 1019-1149, asn1Real = double
    (asn1crt.h:49). A byte of a union _float or _double is a byte of the IEEE 754
    interchange format; [le] says whether the host stores the least significant
    byte first. *)
From Verif Require Import Base BitStream Ints RealSpec RealC AcnSpec.

(** RequiresReverse, asn1crt_encoding_acn.c:6-11: the first byte of (short)1. *)
Definition RequiresReverse (le : bool) : bool := le.

(** The interchange format of a float. All NaNs are one value; the quiet bit is
    set, the rest is zero. *)
Definition float_bits (x : double) : Z :=
  match x with
  | S754_zero s => (if s then 2 ^ 31 else 0)
  | S754_infinity s => (if s then 2 ^ 31 else 0) + 255 * 2 ^ 23
  | S754_nan => 255 * 2 ^ 23 + 2 ^ 22
  | S754_finite s m e =>
      (if s then 2 ^ 31 else 0) +
      if Zpos m <? 2 ^ 23 then Zpos m else (e + 150) * 2 ^ 23 + (Zpos m - 2 ^ 23)
  end.

(** dat1.b[] after dat1.f is given the [k]-byte pattern [u], and the pattern from
    the bytes. *)
Definition obj_bytes (le : bool) (k : nat) (u : Z) : list Z :=
  if le then le_octets k u else rev (le_octets k u).
Fixpoint le_value (l : list Z) : Z :=
  match l with [] => 0 | b :: t => b + 256 * le_value t end.
Definition obj_value (le : bool) (l : list Z) : Z := le_value (if le then l else rev l).

(** for (i=0; i<sizeof(dat1); i++) / for (i=sizeof(dat1)-1; i>=0; i--)
    BitStream_AppendByte0(pBitStrm, dat1.b[i]) *)
Fixpoint put_up (b : list Z) (i : Z) (k : nat) : M unit :=
  match k with
  | O => ret tt
  | S k' => let* x := lift (nthZ b i) in BitStream_AppendByte0 x ;;; put_up b (i + 1) k'
  end.
Fixpoint put_down (b : list Z) (k : nat) : M unit :=
  match k with
  | O => ret tt
  | S k' => let* x := lift (nthZ b (Z.of_nat k')) in BitStream_AppendByte0 x ;;; put_down b k'
  end.
(** The same loops of the decoders, storing into dat1.b[i]. *)
Fixpoint get_up (b : list Z) (i : Z) (k : nat) : M (option (list Z)) :=
  match k with
  | O => ret (Some b)
  | S k' =>
      let? x := BitStream_ReadByte in
      let* b := lift (updZ b i x) in get_up b (i + 1) k'
  end.
Fixpoint get_down (b : list Z) (k : nat) : M (option (list Z)) :=
  match k with
  | O => ret (Some b)
  | S k' =>
      let? x := BitStream_ReadByte in
      let* b := lift (updZ b (Z.of_nat k') x) in get_down b k'
  end.

(** Acn_enc_real_big_endian, asn1crt_encoding_acn.c:1033-1043; [u] is the pattern
    of (type)realValue, [k] is sizeof(dat1). *)
Definition Acn_enc_real_big_endian (le : bool) (k : nat) (u : Z) : M unit :=
  let b := obj_bytes le k u in
  if negb (RequiresReverse le) then put_up b 0 k else put_down b k.
(** Acn_dec_real_big_endian, asn1crt_encoding_acn.c:1046-1062 *)
Definition Acn_dec_real_big_endian (le : bool) (k : nat) : M (option Z) :=
  let b := obj_bytes le k 0 in
  let? b := (if negb (RequiresReverse le) then get_up b 0 k else get_down b k) in
  ret (Some (obj_value le b)).
(** Acn_enc_real_little_endian, asn1crt_encoding_acn.c:1094-1104 *)
Definition Acn_enc_real_little_endian (le : bool) (k : nat) (u : Z) : M unit :=
  let b := obj_bytes le k u in
  if RequiresReverse le then put_up b 0 k else put_down b k.
(** Acn_dec_real_little_endian, asn1crt_encoding_acn.c:1107-1123 *)
Definition Acn_dec_real_little_endian (le : bool) (k : nat) : M (option Z) :=
  let b := obj_bytes le k 0 in
  let? b := (if RequiresReverse le then get_up b 0 k else get_down b k) in
  ret (Some (obj_value le b)).

(** asn1crt_encoding_acn.c:1065-1068, 1126-1129: (float)realValue *)
Definition Acn_Enc_Real_IEEE754_32_big_endian (le : bool) (v : double) : M unit :=
  Acn_enc_real_big_endian le 4 (float_bits (to_float v)).
Definition Acn_Enc_Real_IEEE754_32_little_endian (le : bool) (v : double) : M unit :=
  Acn_enc_real_little_endian le 4 (float_bits (to_float v)).
(** asn1crt_encoding_acn.c:1081-1084, 1141-1144 *)
Definition Acn_Enc_Real_IEEE754_64_big_endian (le : bool) (v : double) : M unit :=
  Acn_enc_real_big_endian le 8 (double_bits v).
Definition Acn_Enc_Real_IEEE754_64_little_endian (le : bool) (v : double) : M unit :=
  Acn_enc_real_little_endian le 8 (double_bits v).
(** asn1crt_encoding_acn.c:1086-1089, 1146-1149 *)
Definition Acn_Dec_Real_IEEE754_64_big_endian (le : bool) : M (option double) :=
  let? u := Acn_dec_real_big_endian le 8 in ret (Some (ieee_value 52 11 u)).
Definition Acn_Dec_Real_IEEE754_64_little_endian (le : bool) : M (option double) :=
  let? u := Acn_dec_real_little_endian le 8 in ret (Some (ieee_value 52 11 u)).
(** The _fp32 decoders, asn1crt_encoding_acn.c:1075-1078, 1136-1139 *)
Definition Acn_Dec_Real_IEEE754_32_big_endian_fp32 (le : bool) : M (option double) :=
  let? u := Acn_dec_real_big_endian le 4 in ret (Some (ieee_value 23 8 u)).
Definition Acn_Dec_Real_IEEE754_32_little_endian_fp32 (le : bool) : M (option double) :=
  let? u := Acn_dec_real_little_endian le 4 in ret (Some (ieee_value 23 8 u)).
(** asn1crt_encoding_acn.c:1070-1073, 1131-1134: the float is converted to double. *)
Definition Acn_Dec_Real_IEEE754_32_big_endian (le : bool) : M (option double) :=
  let? u := Acn_dec_real_big_endian le 4 in ret (Some (float_to_double (ieee_value 23 8 u))).
Definition Acn_Dec_Real_IEEE754_32_little_endian (le : bool) : M (option double) :=
  let? u := Acn_dec_real_little_endian le 4 in ret (Some (float_to_double (ieee_value 23 8 u))).
