(** OBJECT IDENTIFIER and RELATIVE-OID: asn1crt/asn1crt_encoding_uper.c, and
    ObjectIdentifier_isValid / RelativeOID_isValid of asn1crt/asn1crt.c. An
    Asn1ObjectIdentifier (asn1crt.h:188-191) is nCount and the array of 20
    values, here a list of length 20. *)
From Verif Require Import Base BitStream Ints Octets.

(** ObjectIdentifier_isValid, asn1crt.c:118-120 *)
Definition ObjectIdentifier_isValid (nCount : Z) (values : list Z) : outcome bool :=
  if 2 <=? nCount then
    obind (nthZ values 0) (fun a =>
    if a <=? 2 then obind (nthZ values 1) (fun b => Ok (b <=? 39)) else Ok false)
  else Ok false.
(** RelativeOID_isValid, asn1crt.c:122-124 *)
Definition RelativeOID_isValid (nCount : Z) : bool := 0 <? nCount.

(** First loop of ObjectIdentifier_subidentifiers_uper_encode,
    asn1crt_encoding_uper.c:15-22. [n] is nSize; the result is tmp[n..]. Writing
    tmp[16] is UB. *)
Fixpoint sub_digits (fuel : nat) (n v : Z) : outcome (list Z) :=
  match fuel with
  | O => Diverge
  | S f =>
      if 16 <=? n then UB
      else if v / 128 =? 0 then Ok [byte_of (v mod 128)]
      else obind (sub_digits f (n + 1) (v / 128)) (fun t => Ok (byte_of (v mod 128) :: t))
  end.

(** Second loop, asn1crt_encoding_uper.c:23-28, with [k] = nSize - i iterations
    left. encodingBuf is represented by the bytes written so far, *pSize being
    their number; writing byte 200 is UB (the callers' tmp has
    OBJECT_IDENTIFIER_MAX_LENGTH * (sizeof(asn1SccUint) + 2) = 200 bytes, l.35, 61). *)
Fixpoint sub_put (k : nat) (tmp : list Z) (out : list Z) : outcome (list Z) :=
  match k with
  | O => Ok out
  | S k' =>
      obind (nthZ tmp (Z.of_nat k')) (fun b =>
      if 200 <=? Z.of_nat (length out) then UB
      else sub_put k' tmp (out ++ [match k' with O => b | _ => Z.lor b 0x80 end]))
  end.

(** ObjectIdentifier_subidentifiers_uper_encode, asn1crt_encoding_uper.c:10-29 *)
Definition sub_encode (out : list Z) (v : Z) : outcome (list Z) :=
  obind (sub_digits 17 0 v) (fun tmp => sub_put (length tmp) tmp out).

(** for (i = ..; i < pVal->nCount; i++), asn1crt_encoding_uper.c:40-42, 65-67 *)
Fixpoint sub_encode_all (k : nat) (values : list Z) (i : Z) (out : list Z) : outcome (list Z) :=
  match k with
  | O => Ok out
  | S k' => obind (nthZ values i) (fun v => obind (sub_encode out v) (fun o => sub_encode_all k' values (i + 1) o))
  end.

(** asn1crt_encoding_uper.c:44-54, 70-80. The flag returned by AppendByte0 is
    ignored. *)
Fixpoint oid_bytes (l : list Z) : M unit :=
  match l with
  | [] => ret tt
  | b :: t => BitStream_AppendByte0 b ;;; oid_bytes t
  end.
Definition oid_tail (c : cfg) (out : list Z) : M unit :=
  let totalSize := Z.of_nat (length out) in
  (if totalSize <=? 0x7F then BitStream_EncodeConstraintWholeNumber c totalSize 0 0xFF
   else BitStream_AppendBit c true ;;; BitStream_EncodeConstraintWholeNumber c totalSize 0 0x7FFF) ;;;
  oid_bytes out.

(** ObjectIdentifier_uper_encode, asn1crt_encoding_uper.c:32-56 *)
Definition ObjectIdentifier_uper_encode (c : cfg) (nCount : Z) (values : list Z) : M unit :=
  let* v0 := lift (nthZ values 0) in
  let* v1 := lift (nthZ values 1) in
  let* o := lift (sub_encode [] (u64 (u64 (v0 * 40) + v1))) in
  let* o' := lift (sub_encode_all (Z.to_nat (nCount - 2)) values 2 o) in
  oid_tail c o'.

(** RelativeOID_uper_encode, asn1crt_encoding_uper.c:58-82 *)
Definition RelativeOID_uper_encode (c : cfg) (nCount : Z) (values : list Z) : M unit :=
  let* o := lift (sub_encode_all (Z.to_nat nCount) values 0 []) in
  oid_tail c o.

(** ObjectIdentifier_subidentifiers_uper_decode, asn1crt_encoding_uper.c:84-102.
    [rem] is *pRemainingOctets (when negative the loop does not run either).
    Result: remaining octets and *siValue. *)
Fixpoint sub_decode (rem : nat) (si : Z) : M (option (nat * Z)) :=
  match rem with
  | O => ret (Some (O, si))
  | S r =>
      let? b := BitStream_ReadByte in
      let si' := Z.lor (u64 (Z.shiftl si 7)) (Z.land b 0x7F) in
      if Z.land b 0x80 =? 0 then ret (Some (r, si')) else sub_decode r si'
  end.

(** ObjectIdentifier_uper_decode_length, asn1crt_encoding_uper.c:104-116 *)
Definition oid_decode_length (c : cfg) : M (option Z) :=
  let? h := BitStream_DecodeConstraintWholeNumber c 0 0xFF in
  if 0x7F <? h then
    let? len2 := BitStream_DecodeConstraintWholeNumber c 0 0xFF in
    ret (Some (Z.land (Z.lor (Z.shiftl h 8) len2) 0x7FFF))
  else ret (Some h).

(** while (totalSize > 0 && nCount < 20), asn1crt_encoding_uper.c:130-137,
    151-157; [fuel] = 20 - nCount. Result: totalSize, nCount, values. *)
Fixpoint dec_arcs (fuel rem : nat) (n : Z) (vals : list Z) : M (option (nat * Z * list Z)) :=
  match fuel, rem with
  | O, _ | _, O => ret (Some (rem, n, vals))
  | S f, S _ =>
      let? p := sub_decode rem 0 in
      let* vals' := lift (updZ vals n (snd p)) in
      dec_arcs f (fst p) (n + 1) vals'
  end.

(** ObjectIdentifier_Init, asn1crt.c:110-116: values zeroed. *)
Definition oid_zero : list Z := repeat 0 20.

(** return totalSize == 0 *)
Definition oid_done (r : nat * Z * list Z) : M (option (Z * list Z)) :=
  let '(rem, n, vals) := r in
  ret (if Nat.eqb rem 0 then Some (n, vals) else None).

(** ObjectIdentifier_uper_decode, asn1crt_encoding_uper.c:118-142 *)
Definition ObjectIdentifier_uper_decode (c : cfg) : M (option (Z * list Z)) :=
  let? total := oid_decode_length c in
  let? p := sub_decode (Z.to_nat total) 0 in
  let* v1 := lift (updZ oid_zero 0 (snd p / 40)) in
  let* v2 := lift (updZ v1 1 (snd p mod 40)) in
  let? r := dec_arcs 18 (fst p) 2 v2 in
  oid_done r.

(** RelativeOID_uper_decode, asn1crt_encoding_uper.c:144-161 *)
Definition RelativeOID_uper_decode (c : cfg) : M (option (Z * list Z)) :=
  let? total := oid_decode_length c in
  let? r := dec_arcs 20 (Z.to_nat total) 0 oid_zero in
  oid_done r.
