(** C15-C24: ACN runtime codecs; C46, C47: ACN decoders on arbitrary input.
    Statements only; the proofs are in AcnProofs*.v and Properties6Proofs.v. *)
From Verif Require Import Base Bits BitStream Ints Contracts Parse RealSpec RealC AcnSpec Acn AcnStr AcnReal.
From Verif Require SafeProofs ParseProofs AcnProofs4 AcnProofs6 AcnProofs7 HistoryProofs Properties1Proofs Properties6Proofs.

Ltac run :=
  lazymatch goal with
  | |- _ /\ _ => split; [run|run]
  | |- Forall _ _ => repeat constructor; vm_compute; discriminate
  | |- _ => vm_compute; first [reflexivity | discriminate | split; run | idtac]
  end.


(** [writes e a bs] and [reads d v bs] speak of any cursor position, any content
    before and after. Together they give, in a buffer of n bytes, the following. *)
Theorem C15_end_to_end : forall {A B} (enc : M A) (dec : M B) a v bs mem n, writes enc a bs -> reads dec v bs ->
  Forall is_byte mem -> 0 <= n <= Z.of_nat (length mem) -> Z.of_nat (length bs) <= 8 * n ->
  exists s0 s1, BitStream_Init mem n = Ok s0 /\ enc s0 = Ok (a, s1) /\
    let L := BitStream_GetLength s1 in
    L = (Z.of_nat (length bs) + 7) / 8 /\ L <= n /\
    bits_of_bytes (firstn (Z.to_nat n) (buf s1)) = bs ++ zeros (Z.to_nat (8 * n) - length bs) /\
    skipn (Z.to_nat n) (buf s1) = skipn (Z.to_nat n) mem /\
    forall tail, Forall is_byte tail ->
    exists s2, dec (BitStream_AttachBuffer (firstn (Z.to_nat L) (buf s1) ++ tail) L) = Ok (v, s2) /\
      pos s2 = pos s1.
Proof. exact @HistoryProofs.end_to_end. Qed.

(** * C15: fixed size unsigned integers *)
Theorem C15_nbits : forall c v n, is_u64 v -> 0 <= n -> v < 2 ^ n ->
  writes (Acn_Enc_Int_PositiveInteger_ConstSize c v n) tt (Zbits (Z.to_nat n) v) /\
  (n <= 64 -> reads (Acn_Dec_Int_PositiveInteger_ConstSize n) (Some v) (Zbits (Z.to_nat n) v)).
Proof. exact Properties6Proofs.nbits_int. Qed.
Theorem C15_octet : forall c v, is_byte v ->
  overwrites (Acn_Enc_Int_PositiveInteger_ConstSize_8 c v) tt (Zbits 8 v) /\
  reads Acn_Dec_Int_PositiveInteger_ConstSize_8 (Some v) (Zbits 8 v).
Proof. exact Properties6Proofs.octet_int. Qed.
Theorem C15_big_endian : forall c size v, 1 <= size <= 8 -> 0 <= v < 2 ^ (8 * size) ->
  overwrites (Acn_Enc_Int_PositiveInteger_ConstSize_big_endian c size v) tt (Zbits (Z.to_nat (8 * size)) v) /\
  reads (Acn_Dec_Int_PositiveInteger_ConstSize_big_endian size) (Some v) (Zbits (Z.to_nat (8 * size)) v).
Proof. exact Properties6Proofs.be_int. Qed.
Theorem C15_little_endian : forall c size v, 1 <= size <= 8 -> 0 <= v < 2 ^ (8 * size) ->
  overwrites (Acn_Enc_Int_PositiveInteger_ConstSize_little_endian c size v) tt (bits_of_bytes (le_octets (Z.to_nat size) v)) /\
  reads (Acn_Dec_Int_PositiveInteger_ConstSize_little_endian size) (Some v) (bits_of_bytes (le_octets (Z.to_nat size) v)).
Proof. exact Properties6Proofs.le_int. Qed.
(** Decoders for narrower C types give the same value. *)
Theorem C15_narrow : forall w f v bs, 0 <= v < 2 ^ w -> reads f (Some v) bs -> reads (narrow_u w f) (Some v) bs.
Proof. exact Properties6Proofs.narrow_u_ok. Qed.
Theorem C15_milbus : forall v, 1 <= v <= 32 -> milbus_decode (milbus_encode v) = v /\ 0 <= milbus_encode v < 32.
Proof. exact Properties6Proofs.milbus. Qed.
(** False for 0: it is sent as 0 and received as 32. *)
Theorem C15_milbus_refuted : exists v, 0 <= v <= 32 /\ milbus_decode (milbus_encode v) <> v.
Proof. exact Properties6Proofs.milbus_0. Qed.
Example C15_example : is_u64 40000 /\ 40000 < 2 ^ 17 /\
  Zbits 17 40000 = [false;true;false;false;true;true;true;false;false;false;true;false;false;false;false;false;false] /\
  le_octets 3 66051 = [3; 2; 1] /\ 0 <= 66051 < 2 ^ (8 * 3) /\ is_byte 200 /\ milbus_encode 32 = 0 /\
  Acn_Enc_Int_PositiveInteger_ConstSize iso 5 3 (mkbs [192; 0; 0] 2 0 6) = Ok (tt, mkbs [194; 128; 0] 2 1 1) /\
  Acn_Dec_Int_PositiveInteger_ConstSize 3 (mkbs [194; 128; 0] 2 0 6) = Ok (Some 5, mkbs [194; 128; 0] 2 1 1).
Proof. run. Qed.

(** * C16: fixed size two's complement *)
Theorem C16_nbits : forall c v n, 1 <= n <= 64 -> - 2 ^ (n - 1) <= v < 2 ^ (n - 1) ->
  (sfits c (- v) -> writes (Acn_Enc_Int_TwosComplement_ConstSize c v n) tt (Zbits (Z.to_nat n) v)) /\
  (shl_wrap c = true \/ 0 <= v -> reads (Acn_Dec_Int_TwosComplement_ConstSize c n) (Some v) (Zbits (Z.to_nat n) v)).
Proof. exact Properties6Proofs.nbits_twos. Qed.
Theorem C16_octet : forall c v, -128 <= v < 128 ->
  overwrites (Acn_Enc_Int_TwosComplement_ConstSize_8 c v) tt (Zbits 8 v) /\
  reads (Acn_Dec_Int_TwosComplement_ConstSize_8 c) (Some v) (Zbits 8 v).
Proof. exact Properties6Proofs.octet_twos. Qed.
Theorem C16_big_endian : forall c size v, 1 <= size <= 8 -> - 2 ^ (8 * size - 1) <= v < 2 ^ (8 * size - 1) ->
  (sfits c (- v) -> overwrites (Acn_Enc_Int_TwosComplement_ConstSize_big_endian c size v) tt (Zbits (Z.to_nat (8 * size)) v)) /\
  reads (Acn_Dec_Int_TwosComplement_ConstSize_big_endian c size) (Some v) (Zbits (Z.to_nat (8 * size)) v).
Proof. exact Properties6Proofs.be_twos. Qed.
Theorem C16_little_endian : forall c size v, 1 <= size <= 8 -> - 2 ^ (8 * size - 1) <= v < 2 ^ (8 * size - 1) ->
  (sfits c (- v) -> overwrites (Acn_Enc_Int_TwosComplement_ConstSize_little_endian c size v) tt
     (bits_of_bytes (le_octets (Z.to_nat size) v))) /\
  reads (Acn_Dec_Int_TwosComplement_ConstSize_little_endian c size) (Some v) (bits_of_bytes (le_octets (Z.to_nat size) v)).
Proof. exact Properties6Proofs.le_twos. Qed.
Theorem C16_narrow : forall w f v bs, 1 <= w -> - 2 ^ (w - 1) <= v < 2 ^ (w - 1) -> reads f (Some v) bs -> reads (narrow_s w f) (Some v) bs.
Proof. exact Properties6Proofs.narrow_s_ok. Qed.
(** False for -2^63: int2uint negates it, signed overflow. *)
Theorem C16_min_refuted : exists v s, is_s64 v /\ wfs s /\ pos s = 0 /\ 8 * count s >= 64 /\
  Acn_Enc_Int_TwosComplement_ConstSize gcc v 64 s = UB /\
  Acn_Enc_Int_TwosComplement_ConstSize_big_endian gcc 8 v s = UB /\
  Acn_Enc_Int_TwosComplement_VarSize_LengthEmbedded gcc v s = UB.
Proof. exact Properties6Proofs.twos_min_ub. Qed.
(** In ISO C the decoder shifts a negative number left. *)
Theorem C16_negative_refuted : exists v s, -8 <= v < 8 /\ wfs s /\ take_bits 16 (buf s) = Zbits 16 v /\ pos s = 0 /\ count s = 2 /\
  Acn_Dec_Int_TwosComplement_ConstSize iso 16 s = UB.
Proof. exact Properties6Proofs.twos_neg_ub. Qed.
Example C16_example : - 2 ^ (5 - 1) <= -3 < 2 ^ (5 - 1) /\ sfits iso 3 /\ Zbits 5 (-3) = [true;true;true;false;true] /\
  Acn_Enc_Int_TwosComplement_ConstSize iso (-3) 5 (mkbs [0; 0] 1 0 0) = Ok (tt, mkbs [232; 0] 1 0 5) /\
  Acn_Dec_Int_TwosComplement_ConstSize gcc 5 (mkbs [232; 0] 1 0 0) = Ok (Some (-3), mkbs [232; 0] 1 0 5) /\
  Acn_Dec_Int_TwosComplement_ConstSize_little_endian iso 2 (mkbs [253; 255; 0] 2 0 0) = Ok (Some (-3), mkbs [253; 255; 0] 2 2 0).
Proof. split; [lia|]. split; [left; red; unfold two63; lia|]. run. Qed.

(** * C17: integers with a length octet *)
Theorem C17_unsigned : forall c v, is_u64 v ->
  overwrites (Acn_Enc_Int_PositiveInteger_VarSize_LengthEmbedded c v) tt (semi_bits v) /\
  reads Acn_Dec_Int_PositiveInteger_VarSize_LengthEmbedded (Some v) (semi_bits v).
Proof. exact Properties6Proofs.var_u. Qed.
Theorem C17_signed : forall c v, is_s64 v ->
  (sfits c (- v) -> overwrites (Acn_Enc_Int_TwosComplement_VarSize_LengthEmbedded c v) tt (unc_bits v)) /\
  reads (Acn_Dec_Int_TwosComplement_VarSize_LengthEmbedded c) (Some v) (unc_bits v).
Proof. exact Properties6Proofs.var_s. Qed.
(** and the number of octets is the least possible. *)
Theorem C17_least_unsigned : forall u, 0 <= u ->
  1 <= nbytes_u u /\ u < 256 ^ nbytes_u u /\ (forall L, 1 <= L -> u < 256 ^ L -> nbytes_u u <= L).
Proof. exact Properties1Proofs.nbytes_u_min. Qed.
Theorem C17_least_signed : forall v,
  1 <= nbytes_s v /\ - 2 ^ (8 * nbytes_s v - 1) <= v < 2 ^ (8 * nbytes_s v - 1) /\
  (forall L, 1 <= L -> - 2 ^ (8 * L - 1) <= v < 2 ^ (8 * L - 1) -> nbytes_s v <= L).
Proof. exact Properties1Proofs.nbytes_s_min. Qed.
Example C17_example : is_u64 256 /\ semi_bits 256 = bits_of_bytes [2; 1; 0] /\ unc_bits (-129) = bits_of_bytes [2; 255; 127] /\
  Acn_Enc_Int_TwosComplement_VarSize_LengthEmbedded iso (-129) (mkbs [0; 0; 0; 0] 3 0 0) = Ok (tt, mkbs [2; 255; 127; 0] 3 3 0) /\
  Acn_Dec_Int_TwosComplement_VarSize_LengthEmbedded iso (mkbs [2; 255; 127; 0] 3 0 0) = Ok (Some (-129), mkbs [2; 255; 127; 0] 3 3 0).
Proof. run. Qed.

(** * C18: BCD *)
Theorem C18_const : forall c v n, is_u64 v -> v < 10 ^ Z.of_nat n ->
  ((n <= 100)%nat -> writes (Acn_Enc_Int_BCD_ConstSize c v (Z.of_nat n)) tt (nibbles (digits n v))) /\
  reads (Acn_Dec_Int_BCD_ConstSize (Z.of_nat n)) (Some v) (nibbles (digits n v)).
Proof. exact Properties6Proofs.bcd. Qed.
(** Up to 16 digits; with more the decoder refuses what the encoder wrote. *)
Theorem C18_length_partial : forall c v n, is_u64 v -> least_digits v n ->
  writes (Acn_Enc_Int_BCD_VarSize_LengthEmbedded c v) tt (Zbits 8 (Z.of_nat n) ++ nibbles (digits n v)) /\
  ((n <= 16)%nat -> reads Acn_Dec_Int_BCD_VarSize_LengthEmbedded (Some v) (Zbits 8 (Z.of_nat n) ++ nibbles (digits n v))) /\
  ((16 < n)%nat -> reads Acn_Dec_Int_BCD_VarSize_LengthEmbedded None (Zbits 8 (Z.of_nat n))).
Proof. exact Properties6Proofs.bcd_var. Qed.
Theorem C18_terminated : forall c v n, is_u64 v -> least_digits v n ->
  writes (Acn_Enc_Int_BCD_VarSize_NullTerminated c v) tt (nibbles (digits n v) ++ Zbits 4 15) /\
  reads Acn_Dec_Int_BCD_VarSize_NullTerminated (Some v) (nibbles (digits n v) ++ Zbits 4 15).
Proof. exact Properties6Proofs.bcd_null. Qed.
Theorem C18_size : forall v n, is_u64 v -> least_digits v n -> Acn_Get_Int_Size_BCD v = Ok (Z.of_nat n).
Proof. exact Properties6Proofs.bcd_size. Qed.
(** 17 digits are encoded but not decoded. *)
Theorem C18_length_refuted : exists v s s', is_u64 v /\
  Acn_Enc_Int_BCD_VarSize_LengthEmbedded iso v (mkbs (repeat 0 20) 20 0 0) = Ok (tt, s) /\
  Acn_Dec_Int_BCD_VarSize_LengthEmbedded (mkbs (buf s) 20 0 0) = Ok (None, s').
Proof. exact Properties6Proofs.bcd_var_refuted. Qed.
(** Nibbles above 9 are accepted by the fixed size decoder. *)
Theorem C18_nibble_refuted : exists s s' v, wfs s /\ Acn_Dec_Int_BCD_ConstSize 2 s = Ok (Some v, s') /\
  v >= 10 ^ 2 /\ forall l, Forall (fun d => 0 <= d <= 9) l -> take_bits 8 (buf s) <> nibbles l.
Proof. exact Properties6Proofs.bcd_nibble_refuted. Qed.
Example C18_example : least_digits 305 3 /\ digits 3 305 = [3; 0; 5] /\ nibbles (digits 4 305) = bits_of_bytes [3; 5] /\
  Acn_Enc_Int_BCD_VarSize_NullTerminated iso 305 (mkbs [0; 0; 0] 2 0 0) = Ok (tt, mkbs [48; 95; 0] 2 2 0) /\
  Acn_Dec_Int_BCD_VarSize_NullTerminated (mkbs [48; 95; 0] 2 0 0) = Ok (Some 305, mkbs [48; 95; 0] 2 2 0).
Proof.
  split; [split; [cbn; lia|intros m H; destruct m as [|[|[|m]]]; [cbn in H; lia..|lia]]|]. run.
Qed.

(** * C19: decimal text *)
Theorem C19_const_unsigned : forall c v n, is_u64 v -> v < 10 ^ Z.of_nat n ->
  ((n <= 100)%nat -> overwrites (Acn_Enc_UInt_ASCII_ConstSize c v (Z.of_nat n)) tt (bits_of_bytes (digit_chars (digits n v)))) /\
  reads (Acn_Dec_UInt_ASCII_ConstSize c (Z.of_nat n)) (Some v) (bits_of_bytes (digit_chars (digits n v))).
Proof. exact Properties6Proofs.ascii_u. Qed.
Theorem C19_const_signed : forall c v n, is_s64 v -> sfits c (- v) -> Z.abs v < 10 ^ Z.of_nat n ->
  ((n <= 100)%nat -> overwrites (Acn_Enc_SInt_ASCII_ConstSize c v (1 + Z.of_nat n)) tt
     (bits_of_bytes (sign_char v :: digit_chars (digits n (Z.abs v))))) /\
  reads (Acn_Dec_SInt_ASCII_ConstSize c (1 + Z.of_nat n)) (Some v)
    (bits_of_bytes (sign_char v :: digit_chars (digits n (Z.abs v)))).
Proof. exact Properties6Proofs.ascii_s. Qed.
Theorem C19_length_unsigned : forall c v n, is_u64 v -> text_digits v n ->
  overwrites (Acn_Enc_UInt_ASCII_VarSize_LengthEmbedded c v) tt (bits_of_bytes (Z.of_nat n :: digit_chars (digits n v))) /\
  reads (Acn_Dec_UInt_ASCII_VarSize_LengthEmbedded c) (Some v) (bits_of_bytes (Z.of_nat n :: digit_chars (digits n v))).
Proof. exact Properties6Proofs.ascii_var_u. Qed.
Theorem C19_length_signed : forall c v n, is_s64 v -> sfits c (- v) -> text_digits (Z.abs v) n ->
  overwrites (Acn_Enc_SInt_ASCII_VarSize_LengthEmbedded c v) tt
    (bits_of_bytes (1 + Z.of_nat n :: sign_char v :: digit_chars (digits n (Z.abs v)))) /\
  reads (Acn_Dec_SInt_ASCII_VarSize_LengthEmbedded c) (Some v)
    (bits_of_bytes (1 + Z.of_nat n :: sign_char v :: digit_chars (digits n (Z.abs v)))).
Proof. exact Properties6Proofs.ascii_var_s. Qed.
Theorem C19_terminated_unsigned : forall c v n p, is_u64 v -> text_digits v n -> Forall is_byte p ->
  overwrites (Acn_Enc_UInt_ASCII_VarSize_NullTerminated c v p (Z.of_nat (length p))) tt (bits_of_bytes (digit_chars (digits n v) ++ p)) /\
  ((1 <= length p <= 10)%nat -> terminates p (digit_chars (digits n v)) ->
   reads (Acn_Dec_UInt_ASCII_VarSize_NullTerminated p (Z.of_nat (length p))) (Some v) (bits_of_bytes (digit_chars (digits n v) ++ p))).
Proof. exact Properties6Proofs.ascii_null_u. Qed.
Theorem C19_terminated_signed : forall c v n p, is_s64 v -> sfits c (- v) -> text_digits (Z.abs v) n -> Forall is_byte p ->
  overwrites (Acn_Enc_SInt_ASCII_VarSize_NullTerminated c v p (Z.of_nat (length p))) tt
    (bits_of_bytes (sign_char v :: digit_chars (digits n (Z.abs v)) ++ p)) /\
  ((1 <= length p <= 10)%nat -> terminates p (digit_chars (digits n (Z.abs v))) ->
   reads (Acn_Dec_SInt_ASCII_VarSize_NullTerminated c p (Z.of_nat (length p))) (Some v)
     (bits_of_bytes (sign_char v :: digit_chars (digits n (Z.abs v)) ++ p))).
Proof. exact Properties6Proofs.ascii_null_s. Qed.
(** False for -2^63, and its text makes the decoder negate 2^63. *)
Theorem C19_min_refuted : exists v s, is_s64 v /\ wfs s /\ pos s = 0 /\
  Acn_Enc_SInt_ASCII_VarSize_LengthEmbedded gcc v s = UB /\
  Acn_Dec_SInt_ASCII_ConstSize gcc 20 (mkbs ([45; 57; 50; 50; 51; 51; 55; 50; 48; 51; 54; 56; 53; 52; 55; 55; 53; 56; 48; 56; 0]) 20 0 0) = UB.
Proof. exact Properties6Proofs.ascii_min_refuted. Qed.
(** On input that is no number the fixed size decoder aborts in a debug build; the
    terminated one reads it as a number. *)
Theorem C19_abort_refuted : exists s s', wfs s /\ Acn_Dec_UInt_ASCII_ConstSize iso 2 s = Abort /\
  Acn_Dec_UInt_ASCII_VarSize_NullTerminated [0] 1 s = Ok (Some 490, s').
Proof. exact Properties6Proofs.ascii_abort_refuted. Qed.
(** A terminator of more than ten bytes is written whole; the decoder reads ten. *)
Theorem C19_terminator_refuted : exists p l s s', Forall is_byte p /\ terminates p l /\
  Acn_Enc_UInt_ASCII_VarSize_NullTerminated iso 7 p (Z.of_nat (length p)) (mkbs (repeat 0 13) 12 0 0) = Ok (tt, s) /\ pos s = 96 /\
  bits_of_bytes (firstn 12 (buf s)) = bits_of_bytes (l ++ p) /\
  Acn_Dec_UInt_ASCII_VarSize_NullTerminated p (Z.of_nat (length p)) (mkbs (buf s) 12 0 0) = Ok (Some 7, s') /\ pos s' = 88.
Proof. exact Properties6Proofs.term_refuted. Qed.
Example C19_example : text_digits 42 2 /\ text_digits 0 1 /\ digit_chars (digits 2 42) = [52; 50] /\ terminates [0] [52; 50] /\
  Acn_Enc_SInt_ASCII_VarSize_NullTerminated iso (-42) [0] 1 (mkbs (repeat 1 5) 4 0 0) = Ok (tt, mkbs [45; 52; 50; 0; 1] 4 4 0) /\
  Acn_Dec_SInt_ASCII_VarSize_NullTerminated iso [0] 1 (mkbs [45; 52; 50; 0; 1] 4 0 0) = Ok (Some (-42), mkbs [45; 52; 50; 0; 1] 4 4 0).
Proof.
  split; [exists 2%nat; split; [split; [cbn; lia|intros m H; destruct m as [|[|m]]; [cbn in H; lia..|lia]]|reflexivity]|].
  split; [exists 0%nat; split; [split; [cbn; lia|intros; lia]|reflexivity]|].
  split; [reflexivity|]. split; [intros i Hi; cbn [length] in Hi; destruct i as [|[|i]]; [discriminate|discriminate|lia]|]. run.
Qed.

(** * C20: strings. [stored l max dst] is the array after decoding. *)
Theorem C20_array : forall l (max : nat) dst, (length l <= max)%nat -> (max < length dst)%nat ->
  length (stored l max dst) = length dst /\ nth max (stored l max dst) 1 = 0 /\ skipn (S max) (stored l max dst) = skipn (S max) dst /\
  (Forall (fun ch => ch <> 0) l -> c_string (stored l max dst) l).
Proof. exact Properties6Proofs.stored_terminated. Qed.
Theorem C20_ascii_fixed : forall c l tl dst, Forall is_byte l -> (length l < length dst)%nat ->
  let n := Z.of_nat (length l) in
  writes (Acn_Enc_String_Ascii_FixSize c n (l ++ tl)) tt (bits_of_bytes l) /\
  reads (Acn_Dec_String_Ascii_FixSize n dst) (Some (stored l (length l) dst)) (bits_of_bytes l).
Proof. exact Properties6Proofs.str_ascii_fix. Qed.
Theorem C20_index_fixed : forall c set l tl dst, Z.of_nat (length set) < 2 ^ 62 -> Forall (char_of set) l -> (length l < length dst)%nat ->
  let n := Z.of_nat (length l) in
  writes (Acn_Enc_String_CharIndex_FixSize c n set (Z.of_nat (length set)) (l ++ tl)) tt (index_bits set l) /\
  reads (Acn_Dec_String_CharIndex_FixSize c n set (Z.of_nat (length set)) dst) (Some (stored l (length l) dst)) (index_bits set l).
Proof. exact Properties6Proofs.str_index_fix. Qed.
Theorem C20_terminated : forall c mem l (max : nat) null dst, c_string mem l -> Forall is_byte l -> is_byte null -> ~ In null l ->
  (length l <= max)%nat -> (max < length dst)%nat ->
  writes (Acn_Enc_String_Ascii_Null_Terminated c (Z.of_nat max) null mem) tt (bits_of_bytes (l ++ [null])) /\
  reads (Acn_Dec_String_Ascii_Null_Terminated (Z.of_nat max) null dst) (Some (stored l max dst)) (bits_of_bytes (l ++ [null])).
Proof. exact Properties6Proofs.str_null. Qed.
Theorem C20_terminated_mult : forall c mem l (max : nat) p tl dst, c_string mem l -> Forall is_byte l -> Forall is_byte p ->
  (1 <= length p <= 10)%nat -> terminates p l -> (length l <= max)%nat -> (max < length dst)%nat ->
  writes (Acn_Enc_String_Ascii_Null_Terminated_mult c (Z.of_nat max) (p ++ tl) (Z.of_nat (length p)) mem) tt (bits_of_bytes (l ++ p)) /\
  reads (Acn_Dec_String_Ascii_Null_Terminated_mult (Z.of_nat max) p (Z.of_nat (length p)) dst) (Some (stored l max dst)) (bits_of_bytes (l ++ p)).
Proof. exact Properties6Proofs.str_null_mult. Qed.
Theorem C20_ascii_external : forall c mem l (max : nat) dst, c_string mem l -> Forall is_byte l -> (length l <= max)%nat -> (max < length dst)%nat ->
  writes (Acn_Enc_String_Ascii_External_Field_Determinant c (Z.of_nat max) mem) tt (bits_of_bytes l) /\
  reads (Acn_Dec_String_Ascii_External_Field_Determinant (Z.of_nat max) (Z.of_nat (length l)) dst) (Some (stored l max dst)) (bits_of_bytes l).
Proof. exact Properties6Proofs.str_ascii_ext. Qed.
Theorem C20_index_external : forall c set mem l (max : nat) dst, Z.of_nat (length set) < 2 ^ 62 -> c_string mem l -> Forall (char_of set) l ->
  (length l <= max)%nat -> (max < length dst)%nat ->
  writes (Acn_Enc_String_CharIndex_External_Field_Determinant c (Z.of_nat max) set (Z.of_nat (length set)) mem) tt (index_bits set l) /\
  reads (Acn_Dec_String_CharIndex_External_Field_Determinant c (Z.of_nat max) set (Z.of_nat (length set)) (Z.of_nat (length l)) dst)
    (Some (stored l max dst)) (index_bits set l).
Proof. exact Properties6Proofs.str_index_ext. Qed.
Theorem C20_ascii_internal : forall c mem l min (max : nat) dst, c_string mem l -> Forall is_byte l ->
  0 <= min <= Z.of_nat (length l) -> (length l <= max)%nat -> Z.of_nat max < 2 ^ 31 -> (max < length dst)%nat ->
  let bs := Zbits (crange min (Z.of_nat max)) (Z.of_nat (length l) - min) ++ bits_of_bytes l in
  writes (Acn_Enc_String_Ascii_Internal_Field_Determinant c (Z.of_nat max) min mem) tt bs /\
  reads (Acn_Dec_String_Ascii_Internal_Field_Determinant c (Z.of_nat max) min dst) (Some (stored l max dst)) bs.
Proof. exact Properties6Proofs.str_ascii_int. Qed.
Theorem C20_index_internal : forall c set mem l min (max : nat) dst, Z.of_nat (length set) < 2 ^ 62 -> c_string mem l -> Forall (char_of set) l ->
  0 <= min <= Z.of_nat (length l) -> (length l <= max)%nat -> Z.of_nat max < 2 ^ 31 -> (max < length dst)%nat ->
  let bs := Zbits (crange min (Z.of_nat max)) (Z.of_nat (length l) - min) ++ index_bits set l in
  writes (Acn_Enc_String_CharIndex_Internal_Field_Determinant c (Z.of_nat max) set (Z.of_nat (length set)) min mem) tt bs /\
  reads (Acn_Dec_String_CharIndex_Internal_Field_Determinant c (Z.of_nat max) set (Z.of_nat (length set)) min dst) (Some (stored l max dst)) bs.
Proof. exact Properties6Proofs.str_index_int. Qed.
Theorem C20_IA5 : forall c mem l min (max : nat) dst, c_string mem l -> Forall (fun ch => 0 < ch < 128) l ->
  0 <= min <= Z.of_nat (length l) -> (length l <= max)%nat -> Z.of_nat max < 2 ^ 31 -> (max < length dst)%nat ->
  let bs := concat (map (Zbits 7) l) in
  let n := Zbits (crange min (Z.of_nat max)) (Z.of_nat (length l) - min) in
  writes (Acn_Enc_IA5String_CharIndex_External_Field_Determinant c (Z.of_nat max) mem) tt bs /\
  reads (Acn_Dec_IA5String_CharIndex_External_Field_Determinant c (Z.of_nat max) (Z.of_nat (length l)) dst) (Some (stored l max dst)) bs /\
  writes (Acn_Enc_IA5String_CharIndex_Internal_Field_Determinant c (Z.of_nat max) min mem) tt (n ++ bs) /\
  reads (Acn_Dec_IA5String_CharIndex_Internal_Field_Determinant c (Z.of_nat max) min dst) (Some (stored l max dst)) (n ++ bs).
Proof. exact Properties6Proofs.str_ia5. Qed.
(** With a terminator of several bytes, input without terminator in the first
    max + 1 characters makes the decoder write strVal[max + 1], after the array. *)
Theorem C20_overflow_refuted : exists s, wfs s /\
  Acn_Dec_String_Ascii_Null_Terminated_mult 2 [0; 0] 2 (repeat 0 3) s = UB.
Proof. exact Properties6Proofs.mult_refuted. Qed.
(** With a larger array it returns a string longer than max. *)
Theorem C20_long_refuted : exists s s' d, wfs s /\
  Acn_Dec_String_Ascii_Null_Terminated_mult 2 [0; 0] 2 (repeat 9 5) s = Ok (Some d, s') /\ c_string d [65; 66; 67].
Proof. exact Properties6Proofs.mult_long_refuted. Qed.
(** A character above 127 is compared as a negative char and gets index 0. *)
Theorem C20_index_refuted : exists set ch s s', In ch set /\ is_byte ch /\
  Acn_Enc_String_CharIndex_FixSize iso 1 set 2 [ch] (mkbs [0; 0] 1 0 0) = Ok (tt, s) /\
  Acn_Dec_String_CharIndex_FixSize iso 1 set 2 [0; 0] (mkbs (buf s) 1 0 0) = Ok (Some [65; 0], s') /\ ch <> 65.
Proof. exact Properties6Proofs.index_high_refuted. Qed.
Example C20_example : c_string [65; 66; 0; 7] [65; 66] /\ char_of [65; 66; 67; 68; 69] 66 /\ ~ In 0 [65; 66] /\
  index_bits [65; 66; 67; 68; 69] [66; 69] = [false; false; true; true; false; false] /\
  stored [65; 66] 3 [9; 9; 9; 9; 9] = [65; 66; 0; 0; 9] /\ terminates [13; 10] [13; 13] /\
  Acn_Enc_String_Ascii_Null_Terminated_mult iso 3 [13; 10] 2 [13; 13; 0] (mkbs (repeat 0 5) 4 0 0) = Ok (tt, mkbs [13; 13; 13; 10; 0] 4 4 0) /\
  Acn_Dec_String_Ascii_Null_Terminated_mult 3 [13; 10] 2 (repeat 9 4) (mkbs [13; 13; 13; 10; 0] 4 0 0) =
    Ok (Some [13; 13; 0; 0], mkbs [13; 13; 13; 10; 0] 4 4 0) /\
  Acn_Dec_String_CharIndex_Internal_Field_Determinant iso 3 [65; 66; 67; 68; 69] 5 0 (repeat 9 4) (mkbs [0x8C; 0; 0] 2 0 0) =
    Ok (Some [66; 69; 0; 0], mkbs [0x8C; 0; 0] 2 1 0).
Proof.
  split; [exists [7]; split; [reflexivity|repeat constructor; lia]|]. split; [split; [lia|cbn; auto]|].
  split; [cbn; lia|]. split; [reflexivity|]. split; [reflexivity|].
  split; [intros i Hi; cbn [length] in Hi; destruct i as [|[|i]]; [discriminate|discriminate|lia]|]. run.
Qed.

(** * C21: boolean patterns *)
Theorem C21_pattern : forall c p n, Forall is_byte p -> 0 <= n <= 8 * Z.of_nat (length p) ->
  writes (BitStream_AppendBits c p n) tt (take_bits n p) /\
  reads (BitStream_ReadBitPattern p n) (Some true) (take_bits n p) /\
  reads (BitStream_ReadBitPattern_ignore_value n) (Some tt) (take_bits n p).
Proof. exact Properties6Proofs.bit_pattern. Qed.
Theorem C21_true_false : forall c p q n, Forall is_byte p -> Forall is_byte q ->
  0 <= n <= 8 * Z.of_nat (length p) -> n <= 8 * Z.of_nat (length q) -> take_bits n p <> take_bits n q ->
  forall b : bool, let pat := if b then p else q in
  writes (BitStream_AppendBits c pat n) tt (take_bits n pat) /\
  reads (BitStream_DecodeTrueFalseBoolean p q n) (Some b) (take_bits n pat).
Proof. exact Properties6Proofs.true_false. Qed.
(** On any input the answer is whether the next n bits are the pattern. *)
Theorem C21_verdict : forall p n bs, Forall is_byte p -> 0 <= n <= 8 * Z.of_nat (length p) ->
  Z.of_nat (length bs) = n ->
  exists r, reads (BitStream_ReadBitPattern p n) (Some r) bs /\ (r = true <-> bs = take_bits n p).
Proof. exact AcnProofs4.reads_ReadBitPattern. Qed.
Theorem C21_true_false_verdict : forall p q n bs, Forall is_byte p -> Forall is_byte q ->
  0 <= n <= 8 * Z.of_nat (length p) -> n <= 8 * Z.of_nat (length q) -> Z.of_nat (length bs) = n ->
  exists r, reads (BitStream_DecodeTrueFalseBoolean p q n) r bs /\
    (r = Some true <-> bs = take_bits n p) /\
    (r = Some false <-> bs = take_bits n q /\ bs <> take_bits n p) /\
    (r = None <-> bs <> take_bits n p /\ bs <> take_bits n q).
Proof. exact AcnProofs4.reads_TrueFalse. Qed.
Theorem C21_ignore : forall n bs, Z.of_nat (length bs) = n ->
  reads (BitStream_ReadBitPattern_ignore_value n) (Some tt) bs.
Proof. exact AcnProofs4.reads_ReadBitPattern_ignore. Qed.
Example C21_example : Forall is_byte [0xAB; 0xC0] /\ 0 <= 11 <= 8 * Z.of_nat (length [0xAB; 0xC0]) /\
  take_bits 11 [0xAB; 0xC0] <> take_bits 11 [0xAB; 0] /\
  BitStream_ReadBitPattern [0xAB; 0xC0] 11 (mkbs [0xAB; 0xDF; 0] 2 0 0) = Ok (Some true, mkbs [0xAB; 0xDF; 0] 2 1 3) /\
  BitStream_DecodeTrueFalseBoolean [0xAB; 0xC0] [0xAB; 0] 11 (mkbs [0xAB; 0x1F; 0] 2 0 0) = Ok (Some false, mkbs [0xAB; 0x1F; 0] 2 1 3) /\
  BitStream_DecodeTrueFalseBoolean [0xAB; 0xC0] [0xAB; 0] 11 (mkbs [0xAB; 0x2F; 0] 2 0 0) = Ok (None, mkbs [0xAB; 0x2F; 0] 2 1 3).
Proof. run. Qed.

(** * C22: alignment *)
Theorem C22_align : forall c s, inside s ->
  (align 8 (pos s) <= 8 * count s ->
   exists s', Acn_AlignToNextByte c s = Ok (tt, s') /\ pos s' = align 8 (pos s) /\ buf s' = buf s /\ count s' = count s /\ curBit s' = 0) /\
  (align 16 (pos s) <= 8 * count s ->
   exists s', Acn_AlignToNextWord c s = Ok (tt, s') /\ pos s' = align 16 (pos s) /\ buf s' = buf s /\ count s' = count s /\ curBit s' = 0) /\
  (align 32 (pos s) <= 8 * count s ->
   exists s', Acn_AlignToNextDWord c s = Ok (tt, s') /\ pos s' = align 32 (pos s) /\ buf s' = buf s /\ count s' = count s /\ curBit s' = 0).
Proof. exact Properties6Proofs.align_all. Qed.
Theorem C22_least : forall n p, 0 < n -> p <= align n p < p + n /\ (n | align n p) /\
  (forall q, p <= q -> (n | q) -> align n p <= q).
Proof. exact Properties6Proofs.align_spec. Qed.
Example C22_example : inside (mkbs [1; 2; 3; 4; 5] 4 1 3) /\ align 32 11 = 32 /\ align 16 32 = 32 /\
  Acn_AlignToNextDWord iso (mkbs [1; 2; 3; 4; 5] 4 1 3) = Ok (tt, mkbs [1; 2; 3; 4; 5] 4 4 0) /\
  Acn_AlignToNextByte iso (mkbs [1; 2; 3; 4; 5] 4 2 0) = Ok (tt, mkbs [1; 2; 3; 4; 5] 4 2 0).
Proof. split; [unfold inside, pos; cbn; lia|]. run. Qed.

(** * C23: deferred determinants *)
(** A patch changes the bits of its own field and nothing else; the cursor stays. *)
Theorem C23_patch : forall enc v d s A old bs B, det_set d = false ->
  overwrites (enc v) tt bs -> Forall is_byte (buf s) -> bits_of_bytes (buf s) = A ++ old ++ B ->
  Z.of_nat (length A) = 8 * fst (det_pos d) + snd (det_pos d) -> 0 <= snd (det_pos d) < 8 ->
  length old = length bs -> Z.of_nat (length A + length bs) <= 8 * count s ->
  exists m, Acn_PatchDet enc v d s = Ok ((true, mkdet (det_pos d) true v (det_str d)), mkbs m (count s) (curByte s) (curBit s)) /\
    Forall is_byte m /\ bits_of_bytes m = A ++ bs ++ B.
Proof. exact AcnProofs4.patch_run. Qed.
(** A second patch writes nothing and tells whether the value is the same. *)
Theorem C23_patch_again : forall enc v d s, det_set d = true ->
  Acn_PatchDet enc v d s = Ok ((det_value d =? v, d), s).
Proof. exact AcnProofs4.patch_again. Qed.
(** Save, encode anything, patch: as if the value had been written first. *)
Theorem C23_deferred_U8 : forall {A} c v d0 (body : M A) a bb, writes body a bb ->
  writes (let* d := Acn_InitDet_U8 c d0 in let* x := body in let* r := Acn_PatchDet_U8 c v d in ret (x, fst r, det_value (snd r)))
    (a, true, v) (Zbits 8 v ++ bb).
Proof. exact @Properties6Proofs.def_U8. Qed.
Theorem C23_deferred_big_endian : forall {A} c size v d0 (body : M A) a bb, 1 <= size <= 8 -> writes body a bb ->
  writes (let* d := Acn_InitDet_UN_BE c size d0 in let* x := body in let* r := Acn_PatchDet_UN_BE c size v d in ret (x, fst r, det_value (snd r)))
    (a, true, v) (Zbits (Z.to_nat (8 * size)) v ++ bb).
Proof. exact @Properties6Proofs.def_UN_BE. Qed.
Theorem C23_deferred_little_endian : forall {A} c size v d0 (body : M A) a bb, 1 <= size <= 8 -> writes body a bb ->
  writes (let* d := Acn_InitDet_UN_LE c size d0 in let* x := body in let* r := Acn_PatchDet_UN_LE c size v d in ret (x, fst r, det_value (snd r)))
    (a, true, v) (bits_of_bytes (le_octets (Z.to_nat size) v) ++ bb).
Proof. exact @Properties6Proofs.def_UN_LE. Qed.
Theorem C23_deferred_I8 : forall {A} c v d0 (body : M A) a bb, sfits c (- s64 v) -> writes body a bb ->
  writes (let* d := Acn_InitDet_I8 c d0 in let* x := body in let* r := Acn_PatchDet_I8 c v d in ret (x, fst r, det_value (snd r)))
    (a, true, v) (Zbits 8 v ++ bb).
Proof. exact @Properties6Proofs.def_I8. Qed.
Theorem C23_deferred_twos_big_endian : forall {A} c size v d0 (body : M A) a bb, 1 <= size <= 8 -> sfits c (- s64 v) -> writes body a bb ->
  writes (let* d := Acn_InitDet_IN_BE c size d0 in let* x := body in let* r := Acn_PatchDet_IN_BE c size v d in ret (x, fst r, det_value (snd r)))
    (a, true, v) (Zbits (Z.to_nat (8 * size)) v ++ bb).
Proof. exact @Properties6Proofs.def_IN_BE. Qed.
Theorem C23_deferred_bool : forall {A} c v d0 (body : M A) a bb, writes body a bb ->
  writes (let* d := Acn_InitDet_BOOL1 c d0 in let* x := body in let* r := Acn_PatchDet_BOOL1 c v d in ret (x, fst r, det_value (snd r)))
    (a, true, v) ([negb (v =? 0)] ++ bb).
Proof. exact @Properties6Proofs.def_BOOL1. Qed.
Theorem C23_deferred_nbits : forall {A} c v n d0 (body : M A) a bb, 0 <= n <= 64 -> writes body a bb ->
  writes (let* d := Acn_InitDet_ConstSize c n d0 in let* x := body in let* r := Acn_PatchDet_ConstSize c v n d in ret (x, fst r, det_value (snd r)))
    (a, true, v) (Zbits (Z.to_nat n) v ++ bb).
Proof. exact @Properties6Proofs.def_ConstSize. Qed.
Theorem C23_deferred_twos_nbits : forall {A} c v n d0 (body : M A) a bb, 1 <= n <= 64 -> writes body a bb ->
  writes (let* d := Acn_InitDet_TwosComplement_ConstSize c n d0 in let* x := body in
          let* r := Acn_PatchDet_ConstSize c v n d in ret (x, fst r, det_value (snd r)))
    (a, true, v) (Zbits (Z.to_nat n) v ++ bb).
Proof. exact @Properties6Proofs.def_TwosConstSize. Qed.
Theorem C23_deferred_IA5 : forall {A} c mem l n d0 (body : M A) a bb, c_string mem l -> Z.of_nat (length l) < 2 ^ 31 -> writes body a bb ->
  writes (let* d := Acn_InitDet_IA5String_FixSize c (Z.of_nat n) d0 in let* x := body in
          let* r := Acn_PatchDet_IA5String_FixSize c mem (Z.of_nat n) d in ret (x, fst r))
    (a, true) (ia5_padded l n ++ bb).
Proof. exact @Properties6Proofs.def_IA5. Qed.
Theorem C23_IA5_patch : forall c mem l n d s A old B, c_string mem l -> Z.of_nat (length l) < 2 ^ 31 ->
  det_set d = false -> Forall is_byte (buf s) -> bits_of_bytes (buf s) = A ++ old ++ B ->
  Z.of_nat (length A) = 8 * fst (det_pos d) + snd (det_pos d) -> 0 <= snd (det_pos d) < 8 ->
  length old = (n * 7)%nat -> Z.of_nat (length A + n * 7) <= 8 * count s ->
  exists m, Acn_PatchDet_IA5String_FixSize c mem (Z.of_nat n) d s =
      Ok ((true, mkdet (det_pos d) true (det_value d) (firstn 255 (l ++ repeat 0 255) ++ [0])),
          mkbs m (count s) (curByte s) (curBit s)) /\
    Forall is_byte m /\ bits_of_bytes m = A ++ ia5_padded l n ++ B.
Proof. exact AcnProofs4.patch_IA5_run. Qed.
Theorem C23_IA5_again : forall c mem l l' n d s, c_string mem l' -> Forall (fun ch => ch <> 0) l ->
  det_set d = true -> det_str d = firstn 255 (l ++ repeat 0 255) ++ [0] ->
  exists e, Acn_PatchDet_IA5String_FixSize c mem (Z.of_nat n) d s = Ok ((e, d), s) /\
    (e = true <-> firstn n (firstn 255 l) = firstn n l').
Proof. exact Properties6Proofs.patch_IA5_again. Qed.
Theorem C23_distance : forall a b, 0 <= fst a -> 0 <= snd a < 8 -> 0 <= snd b < 8 -> fst b < 2 ^ 60 ->
  8 * fst a + snd a <= 8 * fst b + snd b ->
  let n := (8 * fst b + snd b) - (8 * fst a + snd a) in
  Acn_BitStream_DistanceInBits a b = n /\ Acn_BitStream_DistanceInBytes a b = (n + 7) / 8.
Proof. exact Properties6Proofs.distance. Qed.
(** A string of 256 characters, patched twice with itself, is refused. *)
Theorem C23_IA5_refuted : exists mem l d s s1 d1, c_string mem l /\ Forall (fun ch => 0 < ch < 128) l /\
  Acn_PatchDet_IA5String_FixSize iso mem 256 d s = Ok ((true, d1), s1) /\
  Acn_PatchDet_IA5String_FixSize iso mem 256 d1 s1 = Ok ((false, d1), s1).
Proof. exact Properties6Proofs.patch_IA5_refuted. Qed.
Definition C23_prog := let* d := Acn_InitDet_ConstSize iso 5 (mkdet (0, 0) false 0 []) in
  let* x := BitStream_AppendByte iso 0xFF false in let* r := Acn_PatchDet_ConstSize iso 19 5 d in ret (x, fst r, det_value (snd r)).
Example C23_example : C23_prog (mkbs [224; 0; 0] 2 0 3) = Ok (tt, true, 19, mkbs [243; 255; 0] 2 2 0) /\
  c_string [72; 105; 0] [72; 105] /\ ia5_padded [72; 105] 3 = Zbits 7 72 ++ Zbits 7 105 ++ Zbits 7 32 /\
  Acn_BitStream_DistanceInBytes (1, 3) (4, 4) = 4.
Proof.
  split; [vm_compute; reflexivity|]. split; [exists []; split; [reflexivity|repeat constructor; lia]|]. run.
Qed.

(** * C24: IEEE 754 reals *)
Theorem C24_double : forall le v, is_double v -> exists u, 0 <= u < 2 ^ 64 /\ ieee_value 52 11 u = v /\
  overwrites (Acn_Enc_Real_IEEE754_64_big_endian le v) tt (Zbits 64 u) /\
  reads (Acn_Dec_Real_IEEE754_64_big_endian le) (Some v) (Zbits 64 u) /\
  overwrites (Acn_Enc_Real_IEEE754_64_little_endian le v) tt (bits_of_bytes (le_octets 8 u)) /\
  reads (Acn_Dec_Real_IEEE754_64_little_endian le) (Some v) (bits_of_bytes (le_octets 8 u)).
Proof. exact Properties6Proofs.real64. Qed.
Theorem C24_float : forall le v, is_double v -> exists u, 0 <= u < 2 ^ 32 /\ ieee_value 23 8 u = to_float v /\
  overwrites (Acn_Enc_Real_IEEE754_32_big_endian le v) tt (Zbits 32 u) /\
  reads (Acn_Dec_Real_IEEE754_32_big_endian_fp32 le) (Some (to_float v)) (Zbits 32 u) /\
  reads (Acn_Dec_Real_IEEE754_32_big_endian le) (Some (float_to_double (to_float v))) (Zbits 32 u) /\
  overwrites (Acn_Enc_Real_IEEE754_32_little_endian le v) tt (bits_of_bytes (le_octets 4 u)) /\
  reads (Acn_Dec_Real_IEEE754_32_little_endian_fp32 le) (Some (to_float v)) (bits_of_bytes (le_octets 4 u)) /\
  reads (Acn_Dec_Real_IEEE754_32_little_endian le) (Some (float_to_double (to_float v))) (bits_of_bytes (le_octets 4 u)).
Proof. exact Properties6Proofs.real32. Qed.
(** Every pattern that is no NaN is reproduced. (All NaNs are one value here.) *)
Theorem C24_double_pattern : forall le u, 0 <= u < 2 ^ 64 -> ieee_value 52 11 u <> S754_nan ->
  is_double (ieee_value 52 11 u) /\
  overwrites (Acn_Enc_Real_IEEE754_64_big_endian le (ieee_value 52 11 u)) tt (Zbits 64 u) /\
  overwrites (Acn_Enc_Real_IEEE754_64_little_endian le (ieee_value 52 11 u)) tt (bits_of_bytes (le_octets 8 u)).
Proof. exact Properties6Proofs.real_pattern64. Qed.
Theorem C24_float_pattern : forall le u, 0 <= u < 2 ^ 32 -> ieee_value 23 8 u <> S754_nan ->
  let v := float_to_double (ieee_value 23 8 u) in
  is_double v /\ to_float v = ieee_value 23 8 u /\
  overwrites (Acn_Enc_Real_IEEE754_32_big_endian le v) tt (Zbits 32 u) /\
  overwrites (Acn_Enc_Real_IEEE754_32_little_endian le v) tt (bits_of_bytes (le_octets 4 u)).
Proof. exact Properties6Proofs.real_pattern32. Qed.
(** A double encoded in 32 bits is rounded. *)
Theorem C24_float_refuted : exists v, is_double v /\ float_to_double (to_float v) <> v.
Proof. exact Properties6Proofs.real32_refuted. Qed.
Example C24_example : is_double (S754_finite true 6755399441055744 (-52)) /\
  ieee_value 52 11 0xBFF8000000000000 = S754_finite true 6755399441055744 (-52) /\
  ieee_value 23 8 0xBFC00000 = S754_finite true 12582912 (-23) /\
  ieee_value 23 8 1 = S754_finite false 1 (-149) /\ ieee_value 23 8 0xFF800000 = S754_infinity true /\
  Acn_Enc_Real_IEEE754_32_little_endian true (S754_finite true 6755399441055744 (-52)) (mkbs (repeat 0 5) 4 0 0) =
    Ok (tt, mkbs [0; 0; 0xC0; 0xBF; 0] 4 4 0).
Proof. run. Qed.

(** * C46: on any input the ACN decoders end without undefined behaviour (with one
    readable byte after the data), change nothing, and never report success after
    moving past the end. *)
Theorem C46_nbits : forall n, 0 <= n <= 64 ->
  safe (Acn_Dec_Int_PositiveInteger_ConstSize n) (fun v => 0 <= v < 2 ^ n).
Proof. exact SafeProofs.safe_DecodeNonNeg. Qed.
Theorem C46_octet : safe Acn_Dec_Int_PositiveInteger_ConstSize_8 is_byte.
Proof. exact AcnProofs6.safe_U8. Qed.
Theorem C46_big_endian : forall size, 0 <= size <= 8 ->
  safe (Acn_Dec_Int_PositiveInteger_ConstSize_big_endian size) (fun v => 0 <= v < 2 ^ (8 * size)).
Proof. exact AcnProofs6.safe_BE. Qed.
Theorem C46_little_endian : forall size, 0 <= size <= 8 ->
  safe (Acn_Dec_Int_PositiveInteger_ConstSize_little_endian size) (fun v => 0 <= v < 2 ^ (8 * size)).
Proof. exact AcnProofs6.safe_LE. Qed.
Theorem C46_length : safe Acn_Dec_Int_PositiveInteger_VarSize_LengthEmbedded is_u64.
Proof. exact AcnProofs6.safe_VarU. Qed.
Theorem C46_twos_nbits : forall c n, shl_wrap c = true -> 0 <= n -> safe (Acn_Dec_Int_TwosComplement_ConstSize c n) is_s64.
Proof. exact AcnProofs6.safe_Twos. Qed.
Theorem C46_twos_octet : forall c, safe (Acn_Dec_Int_TwosComplement_ConstSize_8 c) (fun v => -128 <= v < 128).
Proof. exact AcnProofs6.safe_I8. Qed.
Theorem C46_twos_big_endian : forall c size, 1 <= size <= 8 -> safe (Acn_Dec_Int_TwosComplement_ConstSize_big_endian c size)
  (fun v => - 2 ^ (8 * size - 1) <= v < 2 ^ (8 * size - 1)).
Proof. exact AcnProofs6.safe_IN_BE. Qed.
Theorem C46_twos_little_endian : forall c size, 1 <= size <= 8 -> safe (Acn_Dec_Int_TwosComplement_ConstSize_little_endian c size)
  (fun v => - 2 ^ (8 * size - 1) <= v < 2 ^ (8 * size - 1)).
Proof. exact AcnProofs6.safe_IN_LE. Qed.
Theorem C46_twos_length : forall c, safe (Acn_Dec_Int_TwosComplement_VarSize_LengthEmbedded c) is_s64.
Proof. exact AcnProofs6.safe_VarS. Qed.
Theorem C46_BCD : forall n, safe (Acn_Dec_Int_BCD_ConstSize n) is_u64.
Proof. exact AcnProofs6.safe_BCD. Qed.
Theorem C46_BCD_length : safe Acn_Dec_Int_BCD_VarSize_LengthEmbedded is_u64.
Proof. exact AcnProofs6.safe_BCD_Var. Qed.
Theorem C46_BCD_terminated : safe Acn_Dec_Int_BCD_VarSize_NullTerminated is_u64.
Proof. exact AcnProofs6.safe_BCD_Null. Qed.
Theorem C46_text : forall c n, ndebug c = true -> safe (Acn_Dec_UInt_ASCII_ConstSize c n) is_u64.
Proof. exact AcnProofs6.safe_ASCII_U. Qed.
Theorem C46_signed_text : forall c n, ndebug c = true -> ovf_wrap c = true -> safe (Acn_Dec_SInt_ASCII_ConstSize c n) is_s64.
Proof. exact AcnProofs6.safe_ASCII_S. Qed.
Theorem C46_text_length : forall c, ndebug c = true -> safe (Acn_Dec_UInt_ASCII_VarSize_LengthEmbedded c) is_u64.
Proof. exact AcnProofs6.safe_ASCII_VarU. Qed.
Theorem C46_signed_text_length : forall c, ndebug c = true -> ovf_wrap c = true -> safe (Acn_Dec_SInt_ASCII_VarSize_LengthEmbedded c) is_s64.
Proof. exact AcnProofs6.safe_ASCII_VarS. Qed.
Theorem C46_text_terminated : forall p n, n <= Z.of_nat (length p) -> safe (Acn_Dec_UInt_ASCII_VarSize_NullTerminated p n) is_u64.
Proof. exact AcnProofs6.safe_ASCII_NullU. Qed.
Theorem C46_signed_text_terminated : forall c p n, ndebug c = true -> ovf_wrap c = true -> n <= Z.of_nat (length p) ->
  safe (Acn_Dec_SInt_ASCII_VarSize_NullTerminated c p n) is_s64.
Proof. exact AcnProofs6.safe_ASCII_NullS. Qed.
Theorem C46_pattern : forall p n, 0 <= n <= 8 * Z.of_nat (length p) -> safe (BitStream_ReadBitPattern p n) (fun _ => True).
Proof. exact AcnProofs6.safe_ReadBitPattern. Qed.
Theorem C46_ignore : forall n, 0 <= n -> safe (BitStream_ReadBitPattern_ignore_value n) (fun _ => True).
Proof. exact AcnProofs6.safe_ReadBitPattern_ignore. Qed.
Theorem C46_true_false : forall p q n, 0 <= n <= 8 * Z.of_nat (length p) -> n <= 8 * Z.of_nat (length q) ->
  safe (BitStream_DecodeTrueFalseBoolean p q n) (fun _ => True).
Proof. exact AcnProofs6.safe_TrueFalse. Qed.
Theorem C46_string : forall n (max : nat) dst, n <= Z.of_nat max -> (max < length dst)%nat ->
  safe (Acn_Dec_String_Ascii_private (Z.of_nat max) n dst)
    (fun d => exists l, length l = Z.to_nat n /\ Forall is_byte l /\ d = stored l max dst).
Proof. exact AcnProofs6.safe_Ascii_private. Qed.
Theorem C46_string_external : forall ext (max : nat) dst, (max < length dst)%nat ->
  safe (Acn_Dec_String_Ascii_External_Field_Determinant (Z.of_nat max) ext dst)
    (fun d => exists l, (length l <= max)%nat /\ Forall is_byte l /\ d = stored l max dst).
Proof. exact AcnProofs6.safe_Ascii_External. Qed.
Theorem C46_string_internal : forall c min (max : nat) dst, 0 <= min <= Z.of_nat max -> Z.of_nat max < 2 ^ 31 -> (max < length dst)%nat ->
  safe (Acn_Dec_String_Ascii_Internal_Field_Determinant c (Z.of_nat max) min dst)
    (fun d => exists l, min <= Z.of_nat (length l) <= Z.of_nat max /\ Forall is_byte l /\ d = stored l max dst).
Proof. exact AcnProofs6.safe_Ascii_Internal. Qed.
Theorem C46_index : forall c set n (max : nat) dst, (0 < length set)%nat -> Z.of_nat (length set) < 2 ^ 62 ->
  n <= Z.of_nat max -> (max < length dst)%nat ->
  safe (Acn_Dec_String_CharIndex_private c (Z.of_nat max) n set (Z.of_nat (length set)) dst)
    (fun d => exists l, length l = Z.to_nat n /\ Forall (fun ch => In ch set) l /\ d = stored l max dst).
Proof. exact AcnProofs6.safe_CharIndex_private. Qed.
Theorem C46_index_external : forall c set ext (max : nat) dst, (0 < length set)%nat -> Z.of_nat (length set) < 2 ^ 62 ->
  (max < length dst)%nat ->
  safe (Acn_Dec_String_CharIndex_External_Field_Determinant c (Z.of_nat max) set (Z.of_nat (length set)) ext dst)
    (fun d => exists l, (length l <= max)%nat /\ Forall (fun ch => In ch set) l /\ d = stored l max dst).
Proof. exact AcnProofs6.safe_CharIndex_External. Qed.
Theorem C46_index_internal : forall c set min (max : nat) dst, (0 < length set)%nat -> Z.of_nat (length set) < 2 ^ 62 ->
  0 <= min <= Z.of_nat max -> Z.of_nat max < 2 ^ 31 -> (max < length dst)%nat ->
  safe (Acn_Dec_String_CharIndex_Internal_Field_Determinant c (Z.of_nat max) set (Z.of_nat (length set)) min dst)
    (fun d => exists l, min <= Z.of_nat (length l) <= Z.of_nat max /\ Forall (fun ch => In ch set) l /\ d = stored l max dst).
Proof. exact AcnProofs6.safe_CharIndex_Internal. Qed.
Theorem C46_string_terminated : forall null (max : nat) dst, (max < length dst)%nat ->
  safe (Acn_Dec_String_Ascii_Null_Terminated (Z.of_nat max) null dst)
    (fun d => exists l, (length l <= max)%nat /\ Forall is_byte l /\ ~ In null l /\ d = stored l max dst).
Proof. exact AcnProofs6.safe_Null. Qed.
Theorem C46_string_terminated_mult : forall p n (max : nat) dst, n <= Z.of_nat (length p) -> (S max < length dst)%nat ->
  safe (Acn_Dec_String_Ascii_Null_Terminated_mult (Z.of_nat max) p n dst)
    (fun d => exists l, (length l <= S max)%nat /\ Forall is_byte l /\
       d = l ++ 0 :: skipn (S (length l)) (repeat 0 (S max) ++ skipn (S max) dst)).
Proof. exact AcnProofs6.safe_Null_mult. Qed.
Theorem C46_real_big_endian : forall le k, safe (Acn_dec_real_big_endian le k) (fun u => 0 <= u < 256 ^ Z.of_nat k).
Proof. exact AcnProofs7.safe_real_be. Qed.
Theorem C46_real_little_endian : forall le k, safe (Acn_dec_real_little_endian le k) (fun u => 0 <= u < 256 ^ Z.of_nat k).
Proof. exact AcnProofs7.safe_real_le. Qed.
(** Whatever the memory, a decoder that returns has written nothing and does not
    claim bits after the end. *)
Theorem C46_tame_nbits : forall n, tame (Acn_Dec_Int_PositiveInteger_ConstSize n).
Proof. exact AcnProofs6.tame_ConstSize. Qed.
Theorem C46_tame_octet : tame Acn_Dec_Int_PositiveInteger_ConstSize_8.
Proof. exact AcnProofs6.tame_U8. Qed.
Theorem C46_tame_big_endian : forall n, tame (Acn_Dec_Int_PositiveInteger_ConstSize_big_endian n).
Proof. exact AcnProofs6.tame_BE. Qed.
Theorem C46_tame_little_endian : forall n, tame (Acn_Dec_Int_PositiveInteger_ConstSize_little_endian n).
Proof. exact AcnProofs6.tame_LE. Qed.
Theorem C46_tame_length : tame Acn_Dec_Int_PositiveInteger_VarSize_LengthEmbedded.
Proof. exact AcnProofs6.tame_VarU. Qed.
Theorem C46_tame_twos_nbits : forall c n, tame (Acn_Dec_Int_TwosComplement_ConstSize c n).
Proof. exact AcnProofs6.tame_Twos. Qed.
Theorem C46_tame_twos_octet : forall c, tame (Acn_Dec_Int_TwosComplement_ConstSize_8 c).
Proof. exact AcnProofs6.tame_I8. Qed.
Theorem C46_tame_twos_big_endian : forall c n, tame (Acn_Dec_Int_TwosComplement_ConstSize_big_endian c n).
Proof. exact AcnProofs6.tame_IN_BE. Qed.
Theorem C46_tame_twos_little_endian : forall c n, tame (Acn_Dec_Int_TwosComplement_ConstSize_little_endian c n).
Proof. exact AcnProofs6.tame_IN_LE. Qed.
Theorem C46_tame_twos_length : forall c, tame (Acn_Dec_Int_TwosComplement_VarSize_LengthEmbedded c).
Proof. exact AcnProofs6.tame_VarS. Qed.
Theorem C46_tame_BCD : forall n, tame (Acn_Dec_Int_BCD_ConstSize n).
Proof. exact AcnProofs6.tame_BCD. Qed.
Theorem C46_tame_BCD_length : tame Acn_Dec_Int_BCD_VarSize_LengthEmbedded.
Proof. exact AcnProofs6.tame_BCD_Var. Qed.
Theorem C46_tame_BCD_terminated : tame Acn_Dec_Int_BCD_VarSize_NullTerminated.
Proof. exact AcnProofs6.tame_BCD_Null. Qed.
Theorem C46_tame_text : forall c n, tame (Acn_Dec_UInt_ASCII_ConstSize c n).
Proof. exact AcnProofs6.tame_ASCII_U. Qed.
Theorem C46_tame_signed_text : forall c n, tame (Acn_Dec_SInt_ASCII_ConstSize c n).
Proof. exact AcnProofs6.tame_ASCII_S. Qed.
Theorem C46_tame_text_length : forall c, tame (Acn_Dec_UInt_ASCII_VarSize_LengthEmbedded c).
Proof. exact AcnProofs6.tame_ASCII_VarU. Qed.
Theorem C46_tame_signed_text_length : forall c, tame (Acn_Dec_SInt_ASCII_VarSize_LengthEmbedded c).
Proof. exact AcnProofs6.tame_ASCII_VarS. Qed.
Theorem C46_tame_text_terminated : forall p n, tame (Acn_Dec_UInt_ASCII_VarSize_NullTerminated p n).
Proof. exact AcnProofs6.tame_ASCII_NullU. Qed.
Theorem C46_tame_signed_text_terminated : forall c p n, tame (Acn_Dec_SInt_ASCII_VarSize_NullTerminated c p n).
Proof. exact AcnProofs6.tame_ASCII_NullS. Qed.
Theorem C46_tame_pattern : forall p n, tame (BitStream_ReadBitPattern p n).
Proof. exact AcnProofs6.tame_ReadBitPattern. Qed.
Theorem C46_tame_ignore : forall n, tame (BitStream_ReadBitPattern_ignore_value n).
Proof. exact AcnProofs6.tame_ReadBitPattern_ignore. Qed.
Theorem C46_tame_true_false : forall p q n, tame (BitStream_DecodeTrueFalseBoolean p q n).
Proof. exact AcnProofs6.tame_TrueFalse. Qed.
Theorem C46_tame_string : forall max n dst, tame (Acn_Dec_String_Ascii_private max n dst).
Proof. exact AcnProofs6.tame_Ascii_private. Qed.
Theorem C46_tame_string_internal : forall c max min dst, tame (Acn_Dec_String_Ascii_Internal_Field_Determinant c max min dst).
Proof. exact AcnProofs6.tame_Ascii_Internal. Qed.
Theorem C46_tame_index : forall c max n set size dst, tame (Acn_Dec_String_CharIndex_private c max n set size dst).
Proof. exact AcnProofs6.tame_CharIndex_private. Qed.
Theorem C46_tame_index_internal : forall c max set size min dst, tame (Acn_Dec_String_CharIndex_Internal_Field_Determinant c max set size min dst).
Proof. exact AcnProofs6.tame_CharIndex_Internal. Qed.
Theorem C46_tame_string_terminated : forall max null dst, tame (Acn_Dec_String_Ascii_Null_Terminated max null dst).
Proof. exact AcnProofs6.tame_Null. Qed.
Theorem C46_tame_string_terminated_mult : forall max p n dst, tame (Acn_Dec_String_Ascii_Null_Terminated_mult max p n dst).
Proof. exact AcnProofs6.tame_Null_mult. Qed.
Theorem C46_tame_real_big_endian : forall le k, tame (Acn_dec_real_big_endian le k).
Proof. exact AcnProofs6.tame_real_be. Qed.
Theorem C46_tame_real_little_endian : forall le k, tame (Acn_dec_real_little_endian le k).
Proof. exact AcnProofs6.tame_real_le. Qed.
Theorem C46_tame_narrow : forall w f, tame f -> tame (narrow_u w f).
Proof. exact AcnProofs6.tame_narrow_u. Qed.
Theorem C46_tame_narrow_signed : forall w f, tame f -> tame (narrow_s w f).
Proof. exact AcnProofs6.tame_narrow_s. Qed.
Example C46_example : wfs (mkbs [57; 57; 255; 0] 3 0 5) /\ inside (mkbs [57; 57; 255] 3 0 5) /\
  Acn_Dec_UInt_ASCII_VarSize_NullTerminated [0] 1 (mkbs [57; 57; 255; 7] 3 0 0) =
    Ok (None, mkbs [57; 57; 255; 7] 3 3 0) /\
  Acn_Dec_Int_BCD_ConstSize 5 (mkbs [18; 52; 0] 2 0 0) = Ok (None, mkbs [18; 52; 0] 2 2 4).
Proof.
  split; [unfold wfs; cbn; repeat split; try lia; repeat constructor; unfold is_byte; lia|].
  split; [unfold inside, pos; cbn; lia|]. run.
Qed.

(** * C47: on any input, what an accepting decoder has consumed is an encoding of
    the value it returns. *)
Theorem C47_nbits : forall n, 0 <= n <= 64 ->
  parses (Acn_Dec_Int_PositiveInteger_ConstSize n) (fun v bs => 0 <= v < 2 ^ n /\ bs = Zbits (Z.to_nat n) v).
Proof. exact ParseProofs.parses_DecodeNonNeg. Qed.
Theorem C47_twos_octet : forall c, parses (Acn_Dec_Int_TwosComplement_ConstSize_8 c) (fun v bs => -128 <= v < 128 /\ bs = Zbits 8 v).
Proof. exact AcnProofs7.parses_I8. Qed.
Theorem C47_big_endian : forall size, 0 <= size <= 8 ->
  parses (Acn_Dec_Int_PositiveInteger_ConstSize_big_endian size)
    (fun v bs => 0 <= v < 2 ^ (8 * size) /\ bs = Zbits (Z.to_nat (8 * size)) v).
Proof. exact AcnProofs7.parses_BE. Qed.
Theorem C47_little_endian : forall size, 0 <= size <= 8 ->
  parses (Acn_Dec_Int_PositiveInteger_ConstSize_little_endian size)
    (fun v bs => 0 <= v < 2 ^ (8 * size) /\ bs = bits_of_bytes (le_octets (Z.to_nat size) v)).
Proof. exact AcnProofs7.parses_LE. Qed.
Theorem C47_twos_big_endian : forall c size, 1 <= size <= 8 -> parses (Acn_Dec_Int_TwosComplement_ConstSize_big_endian c size)
  (fun v bs => - 2 ^ (8 * size - 1) <= v < 2 ^ (8 * size - 1) /\ bs = Zbits (Z.to_nat (8 * size)) v).
Proof. exact AcnProofs7.parses_IN_BE. Qed.
Theorem C47_twos_little_endian : forall c size, 1 <= size <= 8 -> parses (Acn_Dec_Int_TwosComplement_ConstSize_little_endian c size)
  (fun v bs => - 2 ^ (8 * size - 1) <= v < 2 ^ (8 * size - 1) /\ bs = bits_of_bytes (le_octets (Z.to_nat size) v)).
Proof. exact AcnProofs7.parses_IN_LE. Qed.
Theorem C47_length : parses Acn_Dec_Int_PositiveInteger_VarSize_LengthEmbedded
  (fun v bs => exists n, 0 <= n <= 8 /\ 0 <= v < 2 ^ (8 * n) /\ bs = Zbits 8 n ++ Zbits (Z.to_nat (8 * n)) v).
Proof. exact AcnProofs7.parses_VarU. Qed.
Theorem C47_twos_length : forall c, parses (Acn_Dec_Int_TwosComplement_VarSize_LengthEmbedded c)
  (fun v bs => exists n, 0 <= n <= 8 /\ bs = Zbits 8 n ++ Zbits (Z.to_nat (8 * n)) v /\
     (n = 0 -> v = 0) /\ (0 < n -> - 2 ^ (8 * n - 1) <= v < 2 ^ (8 * n - 1))).
Proof. exact AcnProofs7.parses_VarS. Qed.
Theorem C47_twos_nbits : forall c n, shl_wrap c = true -> 1 <= n <= 64 ->
  parses (Acn_Dec_Int_TwosComplement_ConstSize c n)
    (fun v bs => - 2 ^ (n - 1) <= v < 2 ^ (n - 1) /\ bs = Zbits (Z.to_nat n) v).
Proof. exact AcnProofs7.parses_Twos. Qed.
Theorem C47_BCD : forall n, parses (Acn_Dec_Int_BCD_ConstSize (Z.of_nat n))
  (fun v bs => exists l, length l = n /\ Forall is_nib l /\ bs = nibbles l /\ v = u64 (dval l)).
Proof. exact AcnProofs7.parses_BCD. Qed.
Theorem C47_BCD_length : parses Acn_Dec_Int_BCD_VarSize_LengthEmbedded
  (fun v bs => exists l, (length l <= 16)%nat /\ Forall is_nib l /\ bs = Zbits 8 (Z.of_nat (length l)) ++ nibbles l /\ v = u64 (dval l)).
Proof. exact AcnProofs7.parses_BCD_Var. Qed.
Theorem C47_BCD_terminated : parses Acn_Dec_Int_BCD_VarSize_NullTerminated
  (fun v bs => exists l t, Forall (fun d => 0 <= d <= 9) l /\ 9 < t <= 15 /\ bs = nibbles l ++ Zbits 4 t /\ v = u64 (dval l)).
Proof. exact AcnProofs7.parses_BCD_Null. Qed.
Theorem C47_text : forall c n, parses (Acn_Dec_UInt_ASCII_ConstSize c (Z.of_nat n))
  (fun v bs => exists l, length l = n /\ Forall is_dig l /\ bs = bits_of_bytes (digit_chars l) /\ v = u64 (dval l)).
Proof. exact AcnProofs7.parses_ASCII_U. Qed.
Theorem C47_signed_text : forall c n, parses (Acn_Dec_SInt_ASCII_ConstSize c (1 + Z.of_nat n))
  (fun v bs => exists sg l, (sg = 1 \/ sg = -1) /\ length l = n /\ Forall is_dig l /\
     bs = bits_of_bytes (sign_char sg :: digit_chars l) /\ v = s64 (sg * dval l)).
Proof. exact AcnProofs7.parses_ASCII_S. Qed.
Theorem C47_text_length : forall c, parses (Acn_Dec_UInt_ASCII_VarSize_LengthEmbedded c)
  (fun v bs => exists l, (length l < 256)%nat /\ Forall is_dig l /\ bs = bits_of_bytes (Z.of_nat (length l) :: digit_chars l) /\ v = u64 (dval l)).
Proof. exact AcnProofs7.parses_ASCII_VarU. Qed.
Theorem C47_signed_text_length : forall c, parses (Acn_Dec_SInt_ASCII_VarSize_LengthEmbedded c)
  (fun v bs => exists n sg l, is_byte n /\ (sg = 1 \/ sg = -1) /\ Z.of_nat (length l) = Z.max 0 (n - 1) /\ Forall is_dig l /\
     bs = bits_of_bytes (n :: sign_char sg :: digit_chars l) /\ v = s64 (sg * dval l)).
Proof. exact AcnProofs7.parses_ASCII_VarS. Qed.
Theorem C47_text_terminated : forall p, (1 <= length p <= 10)%nat -> Forall is_byte p ->
  parses (Acn_Dec_UInt_ASCII_VarSize_NullTerminated p (Z.of_nat (length p)))
    (fun v bs => exists l, Forall is_byte l /\ terminates p l /\ bs = bits_of_bytes (l ++ p) /\ v = u64 (text_value l)).
Proof. exact AcnProofs7.parses_ASCII_NullU. Qed.
Theorem C47_signed_text_terminated : forall c p, (1 <= length p <= 10)%nat -> Forall is_byte p ->
  parses (Acn_Dec_SInt_ASCII_VarSize_NullTerminated c p (Z.of_nat (length p)))
    (fun v bs => exists sg l, (sg = 1 \/ sg = -1) /\ Forall is_byte l /\ terminates p l /\
       bs = bits_of_bytes (sign_char sg :: l ++ p) /\ v = s64 (sg * text_value l)).
Proof. exact AcnProofs7.parses_ASCII_NullS. Qed.
Theorem C47_pattern : forall p n, Forall is_byte p -> 0 <= n <= 8 * Z.of_nat (length p) ->
  parses (BitStream_ReadBitPattern p n) (fun r bs => Z.of_nat (length bs) = n /\ (r = true <-> bs = take_bits n p)).
Proof. exact AcnProofs7.parses_ReadBitPattern. Qed.
Theorem C47_ignore : forall n, 0 <= n ->
  parses (BitStream_ReadBitPattern_ignore_value n) (fun _ bs => Z.of_nat (length bs) = n).
Proof. exact AcnProofs7.parses_ReadBitPattern_ignore. Qed.
Theorem C47_true_false : forall p q n, Forall is_byte p -> Forall is_byte q ->
  0 <= n <= 8 * Z.of_nat (length p) -> n <= 8 * Z.of_nat (length q) ->
  parses (BitStream_DecodeTrueFalseBoolean p q n)
    (fun r bs => bs = take_bits n (if r then p else q)).
Proof. exact AcnProofs7.parses_TrueFalse. Qed.
Theorem C47_string : forall (n max : nat) dst, (n <= max)%nat -> (max < length dst)%nat ->
  parses (Acn_Dec_String_Ascii_private (Z.of_nat max) (Z.of_nat n) dst)
    (fun d bs => exists l, length l = n /\ Forall is_byte l /\ bs = bits_of_bytes l /\ d = stored l max dst).
Proof. exact AcnProofs7.parses_Ascii_private. Qed.
Theorem C47_index : forall c set (n max : nat) dst, (0 < length set)%nat -> Z.of_nat (length set) < 2 ^ 62 -> NoDup set ->
  (n <= max)%nat -> (max < length dst)%nat ->
  parses (Acn_Dec_String_CharIndex_private c (Z.of_nat max) (Z.of_nat n) set (Z.of_nat (length set)) dst)
    (fun d bs => exists l, length l = n /\ Forall (fun ch => In ch set) l /\ bs = index_bits set l /\ d = stored l max dst).
Proof. exact AcnProofs7.parses_CharIndex_private. Qed.
Theorem C47_string_internal : forall c min (max : nat) dst, 0 <= min <= Z.of_nat max -> Z.of_nat max < 2 ^ 31 -> (max < length dst)%nat ->
  parses (Acn_Dec_String_Ascii_Internal_Field_Determinant c (Z.of_nat max) min dst)
    (fun d bs => exists l, min <= Z.of_nat (length l) <= Z.of_nat max /\ Forall is_byte l /\
       bs = Zbits (crange min (Z.of_nat max)) (Z.of_nat (length l) - min) ++ bits_of_bytes l /\ d = stored l max dst).
Proof. exact AcnProofs7.parses_Ascii_Internal. Qed.
Theorem C47_index_internal : forall c set min (max : nat) dst, (0 < length set)%nat -> Z.of_nat (length set) < 2 ^ 62 -> NoDup set ->
  0 <= min <= Z.of_nat max -> Z.of_nat max < 2 ^ 31 -> (max < length dst)%nat ->
  parses (Acn_Dec_String_CharIndex_Internal_Field_Determinant c (Z.of_nat max) set (Z.of_nat (length set)) min dst)
    (fun d bs => exists l, min <= Z.of_nat (length l) <= Z.of_nat max /\ Forall (fun ch => In ch set) l /\
       bs = Zbits (crange min (Z.of_nat max)) (Z.of_nat (length l) - min) ++ index_bits set l /\ d = stored l max dst).
Proof. exact AcnProofs7.parses_CharIndex_Internal. Qed.
Theorem C47_string_terminated : forall (max : nat) null dst, (max < length dst)%nat ->
  parses (Acn_Dec_String_Ascii_Null_Terminated (Z.of_nat max) null dst)
    (fun d bs => exists l, (length l <= max)%nat /\ Forall is_byte l /\ ~ In null l /\ bs = bits_of_bytes (l ++ [null]) /\ d = stored l max dst).
Proof. exact AcnProofs7.parses_Null. Qed.
Theorem C47_string_terminated_mult : forall p (max : nat) dst, (1 <= length p <= 10)%nat -> length dst = S max ->
  parses (Acn_Dec_String_Ascii_Null_Terminated_mult (Z.of_nat max) p (Z.of_nat (length p)) dst)
    (fun d bs => exists l, (length l <= max)%nat /\ Forall is_byte (l ++ p) /\ terminates p l /\ bs = bits_of_bytes (l ++ p) /\ d = stored l max dst).
Proof. exact AcnProofs7.parses_Null_mult_fit. Qed.
Theorem C47_string_terminated_mult_long : forall p (max : nat) dst, (1 <= length p <= 10)%nat -> (max < length dst)%nat ->
  parses (Acn_Dec_String_Ascii_Null_Terminated_mult (Z.of_nat max) p (Z.of_nat (length p)) dst)
    (fun d bs => exists l, (length l <= S max)%nat /\ (length l < length dst)%nat /\ Forall is_byte (l ++ p) /\ terminates p l /\ bs = bits_of_bytes (l ++ p) /\
       d = l ++ 0 :: skipn (S (length l)) (repeat 0 (S max) ++ skipn (S max) dst)).
Proof. exact AcnProofs7.parses_Null_mult. Qed.
Theorem C47_real_big_endian : forall le k, parses (Acn_dec_real_big_endian le k) (fun u bs => 0 <= u < 256 ^ Z.of_nat k /\ bs = Zbits (8 * k) u).
Proof. exact AcnProofs7.parses_real_be. Qed.
Theorem C47_real_little_endian : forall le k, parses (Acn_dec_real_little_endian le k)
  (fun u bs => 0 <= u < 256 ^ Z.of_nat k /\ bs = bits_of_bytes (le_octets k u)).
Proof. exact AcnProofs7.parses_real_le. Qed.
Example C47_example : wfp (mkbs [57; 57; 255; 0] 3 0 5) /\ NoDup [65; 66; 67] /\ text_value [49; 50] = 12 /\
  Acn_Dec_Int_PositiveInteger_VarSize_LengthEmbedded (mkbs [3; 0; 0; 7; 0] 4 0 0) = Ok (Some 7, mkbs [3; 0; 0; 7; 0] 4 4 0) /\
  Zbits 8 3 ++ Zbits (Z.to_nat (8 * 3)) 7 = bits_of_bytes [3; 0; 0; 7].
Proof.
  split; [repeat split; try (vm_compute; congruence); repeat constructor; unfold is_byte; discriminate|].
  split; [repeat constructor; cbn; lia|]. run.
Qed.

(** * Assumptions of all theorems above *)
Definition theorems6 := (
  @C15_end_to_end, @C15_nbits, @C15_octet, @C15_big_endian, @C15_little_endian, @C15_narrow,
  @C15_milbus, @C15_milbus_refuted, @C16_nbits, @C16_octet, @C16_big_endian, @C16_little_endian,
  @C16_narrow, @C16_min_refuted, @C16_negative_refuted, @C17_unsigned, @C17_signed, @C17_least_unsigned,
  @C17_least_signed, @C18_const, @C18_length_partial, @C18_terminated, @C18_size, @C18_length_refuted,
  @C18_nibble_refuted, @C19_const_unsigned, @C19_const_signed, @C19_length_unsigned, @C19_length_signed,
  @C19_terminated_unsigned, @C19_terminated_signed, @C19_min_refuted, @C19_abort_refuted,
  @C19_terminator_refuted, @C20_array, @C20_ascii_fixed, @C20_index_fixed, @C20_terminated,
  @C20_terminated_mult, @C20_ascii_external, @C20_index_external, @C20_ascii_internal,
  @C20_index_internal, @C20_IA5, @C20_overflow_refuted, @C20_long_refuted, @C20_index_refuted,
  @C21_pattern, @C21_true_false, @C21_verdict, @C21_true_false_verdict, @C21_ignore, @C22_align,
  @C22_least, @C23_patch, @C23_patch_again, @C23_deferred_U8, @C23_deferred_big_endian,
  @C23_deferred_little_endian, @C23_deferred_I8, @C23_deferred_twos_big_endian, @C23_deferred_bool,
  @C23_deferred_nbits, @C23_deferred_twos_nbits, @C23_deferred_IA5, @C23_IA5_patch, @C23_IA5_again,
  @C23_distance, @C23_IA5_refuted, @C24_double, @C24_float, @C24_double_pattern, @C24_float_pattern,
  @C24_float_refuted, @C46_nbits, @C46_octet, @C46_big_endian, @C46_little_endian, @C46_length,
  @C46_twos_nbits, @C46_twos_octet, @C46_twos_big_endian, @C46_twos_little_endian, @C46_twos_length,
  @C46_BCD, @C46_BCD_length, @C46_BCD_terminated, @C46_text, @C46_signed_text, @C46_text_length,
  @C46_signed_text_length, @C46_text_terminated, @C46_signed_text_terminated, @C46_pattern, @C46_ignore,
  @C46_true_false, @C46_string, @C46_string_external, @C46_string_internal, @C46_index,
  @C46_index_external, @C46_index_internal, @C46_string_terminated, @C46_string_terminated_mult,
  @C46_real_big_endian, @C46_real_little_endian, @C46_tame_nbits, @C46_tame_octet, @C46_tame_big_endian,
  @C46_tame_little_endian, @C46_tame_length, @C46_tame_twos_nbits, @C46_tame_twos_octet,
  @C46_tame_twos_big_endian, @C46_tame_twos_little_endian, @C46_tame_twos_length, @C46_tame_BCD,
  @C46_tame_BCD_length, @C46_tame_BCD_terminated, @C46_tame_text, @C46_tame_signed_text,
  @C46_tame_text_length, @C46_tame_signed_text_length, @C46_tame_text_terminated,
  @C46_tame_signed_text_terminated, @C46_tame_pattern, @C46_tame_ignore, @C46_tame_true_false,
  @C46_tame_string, @C46_tame_string_internal, @C46_tame_index, @C46_tame_index_internal,
  @C46_tame_string_terminated, @C46_tame_string_terminated_mult, @C46_tame_real_big_endian,
  @C46_tame_real_little_endian, @C46_tame_narrow, @C46_tame_narrow_signed, @C47_nbits, @C47_twos_octet,
  @C47_big_endian, @C47_little_endian, @C47_twos_big_endian, @C47_twos_little_endian, @C47_length,
  @C47_twos_length, @C47_twos_nbits, @C47_BCD, @C47_BCD_length, @C47_BCD_terminated, @C47_text,
  @C47_signed_text, @C47_text_length, @C47_signed_text_length, @C47_text_terminated,
  @C47_signed_text_terminated, @C47_pattern, @C47_ignore, @C47_true_false, @C47_string, @C47_index,
  @C47_string_internal, @C47_index_internal, @C47_string_terminated, @C47_string_terminated_mult,
  @C47_string_terminated_mult_long, @C47_real_big_endian, @C47_real_little_endian).
Print Assumptions theorems6.
