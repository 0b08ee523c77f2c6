(** Helpers of asn1crt/asn1crt.c and the equality functions of
    asn1crt_encoding.c. *)
From Verif Require Import Base BitStream Ints.

(** int2uint, asn1crt.c:26-36 *)
Definition int2uint (c : cfg) (v : Z) : outcome Z :=
  if v <? 0 then obind (neg_m1 c v) (fun r => Ok (u64 (Z.lnot r)))
  else Ok (u64 v).

(** ber_aux, asn1crt.c:9-17 *)
Definition ber_aux : list Z :=
  [0xFF; 0xFF00; 0xFF0000; 0xFF000000; 0xFF00000000; 0xFF0000000000; 0xFF000000000000; 0xFF00000000000000].

(** for (i = WORD_SIZE-1; i >= uintSizeInBytes; i--) v |= ber_aux[i],
    asn1crt.c:44-45. [k] is i + 1 - uintSizeInBytes. *)
Fixpoint or_aux (k : nat) (i v : Z) : outcome Z :=
  match k with
  | O => Ok v
  | S k' => obind (nthZ ber_aux i) (fun m => or_aux k' (i - 1) (Z.lor v m))
  end.

(** uint2int, asn1crt.c:38-47. A shift amount outside 0..63 is UB. *)
Definition uint2int (c : cfg) (v n : Z) : outcome Z :=
  let sh := (n - 1) * 8 in
  if (sh <? 0) || (64 <=? sh) then UB
  else if Z.land v (u64 (Z.shiftl 0x80 sh)) =? 0 then Ok (s64 v)
  else
    obind (or_aux (Z.to_nat (8 - n)) 7 v) (fun v' =>
    obind (sres c (- s64 (u64 (Z.lnot v')))) (fun a => sres c (a - 1))).

(** GetCharIndex, asn1crt.c:49-56. [ch] is a (signed) char, [set] the bytes of
    Set, compared after promotion to int. *)
Fixpoint char_loop (k : nat) (ch : Z) (set : list Z) (i : Z) : outcome Z :=
  match k with
  | O => Ok 0
  | S k' => obind (nthZ set i) (fun b => if ch =? b then Ok i else char_loop k' ch set (i + 1))
  end.
Definition GetCharIndex (ch : Z) (set : list Z) (setLen : Z) : outcome Z :=
  char_loop (Z.to_nat setLen) ch set 0.

(** binarySearch, asn1crt.c:72-85 *)
Fixpoint bin_loop (fuel : nat) (arr : list Z) (low high value : Z) : outcome Z :=
  match fuel with
  | O => Diverge
  | S f =>
      if low <=? high then
        let mid := low + Z.quot (high - low) 2 in
        obind (nthZ arr mid) (fun x =>
          if x =? value then Ok mid
          else if x <? value then bin_loop f arr (mid + 1) high value
          else bin_loop f arr low (mid - 1) value)
      else Ok (-1)
  end.
(** Each iteration removes at least one index. *)
Definition binarySearch (arr : list Z) (size value : Z) : outcome Z :=
  bin_loop (S (Z.to_nat size)) arr 0 (size - 1) value.

(** linearSearch, asn1crt.c:87-93 *)
Fixpoint lin_loop (k : nat) (arr : list Z) (i value : Z) : outcome Z :=
  match k with
  | O => Ok (-1)
  | S k' => obind (nthZ arr i) (fun x => if x =? value then Ok i else lin_loop k' arr (i + 1) value)
  end.
Definition linearSearch (arr : list Z) (size value : Z) : outcome Z :=
  lin_loop (Z.to_nat size) arr 0 value.

(** memcmp(a, b, n) == 0 *)
Definition memeq (a b : list Z) (n : Z) : outcome bool :=
  if (n <? 0) || (Z.of_nat (length a) <? n) || (Z.of_nat (length b) <? n) then UB
  else Ok (forallb (fun p => fst p =? snd p) (combine (firstn (Z.to_nat n) a) (firstn (Z.to_nat n) b))).

(** OctetString_equal, asn1crt_encoding.c:19-22 *)
Definition OctetString_equal (n1 n2 : Z) (a1 a2 : list Z) : outcome bool :=
  if n1 =? n2 then memeq a1 a2 n1 else Ok false.

(** ObjectIdentifier_equal, asn1crt.c:126-139, for non-NULL pointers. *)
Fixpoint oid_eq_loop (k : nat) (v1 v2 : list Z) (i : Z) : outcome bool :=
  match k with
  | O => Ok true
  | S k' => obind (nthZ v1 i) (fun a => obind (nthZ v2 i) (fun b =>
      if a =? b then oid_eq_loop k' v1 v2 (i + 1) else Ok false))
  end.
Definition ObjectIdentifier_equal (n1 n2 : Z) (v1 v2 : list Z) : outcome bool :=
  if (n1 =? n2) && (n1 <=? 20) then oid_eq_loop (Z.to_nat n1) v1 v2 0 else Ok false.
