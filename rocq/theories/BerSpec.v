(** X.690: identifier, length and contents octets, independent of the code. *)
From Verif Require Import Bits RealSpec OidSpec.

(** [be n v]: v on n octets, most significant first (two's complement if v < 0). *)
Fixpoint be (n : nat) (v : Z) : list Z :=
  match n with
  | O => []
  | S k => (v / 256 ^ Z.of_nat k) mod 256 :: be k v
  end.

(** 8.1.2: identifier octets of a class (0..3), primitive or constructed, and a
    tag number. *)
Definition is_ident (class : Z) (constructed : bool) (number : Z) (l : list Z) : Prop :=
  let lead := 64 * class + (if constructed then 32 else 0) in
  if number <? 31 then l = [lead + number]
  else exists sub, is_subid number sub /\ l = (lead + 31) :: sub.

(** 8.1.3.3-5: what length octets mean; [Indef] is the indefinite form. *)
Inductive berlen := Def (n : Z) | Indef.
Definition length_of (l : list Z) : option berlen :=
  match l with
  | [b] => if b <? 128 then Some (Def b) else if b =? 128 then Some Indef else None
  | b :: t => if (128 <? b) && (b <? 255) && (Z.of_nat (length t) =? b - 128) then Some (Def (unsigned_octets t)) else None
  | [] => None
  end.
(** The shortest definite form (10.1). *)
Definition length_octets (n : Z) : list Z :=
  if n <? 128 then [n] else (128 + nbytes_u n) :: be (Z.to_nat (nbytes_u n)) n.

(** The number that is x modulo 2^32 and fits an int. *)
Definition wrap32 (x : Z) : Z := (x + 2 ^ 31) mod 2 ^ 32 - 2 ^ 31.
(** What the decoder makes of length octets: as X.690, but the reserved first
    octet 255 is like the others, a long length is taken modulo 2^32 as a signed
    number, and -1 stands for the indefinite form. *)
Definition len_result (bs : list Z) : option Z :=
  match bs with
  | [] => None
  | b :: t =>
      if b <? 128 then match t with [] => Some b | _ => None end
      else if b =? 128 then match t with [] => Some (-1) | _ => None end
      else if Z.of_nat (length t) =? b - 128 then Some (wrap32 (unsigned_octets t)) else None
  end.

(** An encoding with definite length. *)
Definition tlv (ident contents : list Z) : list Z :=
  ident ++ length_octets (Z.of_nat (length contents)) ++ contents.

(** 8.2, 8.3, 8.6: contents octets. *)
Definition bool_octets (b : bool) : list Z := [if b then 255 else 0].
Definition int_octets (v : Z) : list Z := be (Z.to_nat (nbytes_s v)) v.
Definition bits_octets (bs : list bool) : list Z :=
  ((- Z.of_nat (length bs)) mod 8) :: pack bs.

(** Identifier octets as a number (BerTag, asn1crt.h:295), most significant octet
    first. *)
Definition tag_octets (tag : Z) : list Z := be (Z.to_nat (nbytes_u tag)) tag.
(** The same identifier, whether primitive or constructed. *)
Definition same_ident (a b : list Z) : Prop :=
  match a, b with
  | x :: xs, y :: ys => xs = ys /\ Z.lor x 32 = Z.lor y 32
  | _, _ => False
  end.

(** A C array of [max] elements with contents [old] (and possibly more behind it)
    into which as much of [l] as fits has been received, the rest cleared. *)
Definition received (old : list Z) (max : Z) (l : list Z) : list Z :=
  let n := Z.to_nat max in
  firstn n l ++ repeat 0 (n - length l) ++ skipn n old.
(** The same for BIT STRING contents [u :: l] and an array for [max] bits, which is
    not cleared. The result includes the number of bits. *)
Definition bits_received (dst : list Z) (max u : Z) (l : list Z) : list Z * Z :=
  let n := Z.to_nat ((max + 7) / 8) in
  let k := Nat.min (length l) n in
  (firstn n l ++ skipn k dst, 8 * Z.of_nat k - (if (length l <=? n)%nat then u else 0)).
(** Lengths that fit an int. *)
Definition is_len (l : list Z) : Prop := Z.of_nat (length l) < 2 ^ 31.
