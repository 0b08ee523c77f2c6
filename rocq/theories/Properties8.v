(** C25: BER tags and lengths; C26: BER primitive values; C27: memory accesses of
    the BER runtime. Statements only; the proofs are in BerProofs*.v and
    Properties8Proofs.v. *)
From Coq Require Import SpecFloat.
From Verif Require Import Base Bits BitStream Contracts RealSpec OidSpec ByteStream BerSpec Ber.
From Verif Require BerProofs BerProofs2 BerProofs3 BerProofs4 BerProofs5 Properties8Proofs.

Ltac run :=
  lazymatch goal with
  | |- _ /\ _ => split; [run|run]
  | |- Forall _ _ => repeat constructor; vm_compute; discriminate
  | |- _ => vm_compute; first [reflexivity | discriminate | split; run | idtac]
  end.
(** A stream over the octets [l]. *)
Definition over (l : list Z) : bytes_ := mkby l (Z.of_nat (length l)) 0 false.
Definition blank (n : nat) : bytes_ := over (repeat 170 n).
(** What is in the buffer after encoding, and what decoding returns with the octets used. *)
Definition sends (f : B (option unit)) (n : nat) : option (list Z) :=
  match f (blank n) with Ok (Some tt, s) => Some (firstn (Z.to_nat (cur s)) (mem s)) | _ => None end.
Definition takes {A} (f : B (option A)) (l : list Z) : option (A * Z) :=
  match f (over l) with Ok (Some a, s) => Some (a, cur s) | _ => None end.
Definition undefined {A} (f : B (option A)) (l : list Z) : Prop :=
  match f (over l) with UB => True | _ => False end.

(** An encoder that writes [bs] and a decoder that reads [a] from [bs] round trip,
    anywhere in any buffer. All theorems below are of these two forms. *)
Theorem C26_round_trip : forall A (f : B (option unit)) (g : B (option A)) a bs, Forall is_byte bs -> puts f tt bs -> gets g a bs ->
  forall s pre old rest, Forall is_byte (mem s) -> bat s pre (old ++ rest) -> length old = length bs ->
    Z.of_nat (length pre + length bs) <= size s ->
    exists s1 s2, f s = Ok (Some tt, s1) /\ mem s1 = pre ++ bs ++ rest /\
      g (mkby (mem s1) (size s1) (cur s) (ws s1)) = Ok (Some a, s2) /\ mem s2 = mem s1 /\ cur s2 = cur s1.
Proof. exact Properties8Proofs.round_trip. Qed.
Theorem C26_tlv_bytes : forall t l, Forall is_byte l -> is_len l -> Forall is_byte (tlv (tag_octets t) l).
Proof. exact Properties8Proofs.tlv_bytes. Qed.

(** * C25: tags *)
(** A tag, the number whose octets are the identifier octets, is written as these octets. *)
Theorem C25_tag : forall t, is_u64 t -> puts (BerEncodeTag t) tt (tag_octets t).
Proof. exact BerProofs2.puts_Tag. Qed.
(** Up to four octets, it is read back; so is the identifier with the other
    value of the primitive/constructed bit. *)
Theorem C25_tag_read : forall t bs, 0 <= t < 2 ^ 32 -> Forall is_byte bs -> same_ident (tag_octets t) bs -> gets (BerDecodeTag t) tt bs.
Proof. exact BerProofs2.gets_Tag. Qed.
Theorem C25_tag_only : forall t, is_u64 t -> accepts (BerDecodeTag t) (fun _ bs => Forall is_byte bs /\ same_ident (tag_octets t) bs).
Proof. exact BerProofs2.accepts_Tag. Qed.
(** Any other octets there are refused. *)
Theorem C25_tag_refused : forall t s pre bs rest, 0 <= t < 2 ^ 32 -> Forall is_byte (mem s) -> Forall is_byte bs ->
  length bs = length (tag_octets t) ->
  bat s pre (bs ++ rest) -> Z.of_nat (length pre + length bs) <= size s ->
  exists r s', BerDecodeTag t s = Ok (r, s') /\ bat s' (pre ++ bs) rest /\ size s' = size s /\ ws s' = ws s /\ mem s' = mem s /\
    (r = Some tt <-> same_ident (tag_octets t) bs).
Proof. exact BerProofs2.decode_tag. Qed.
(** X.690 identifier octets of any class and number are such tags; they match
    if and only if class and number are equal. *)
Theorem C25_identifier : forall class cons n l, 0 <= class < 4 -> 0 <= n -> is_ident class cons n l -> Z.of_nat (length l) <= 8 ->
  puts (BerEncodeTag (unsigned_octets l)) tt l.
Proof. exact Properties8Proofs.tag_ident. Qed.
Theorem C25_identifier_read : forall class c1 c2 n l l', 0 <= class < 4 -> 0 <= n -> is_ident class c1 n l -> is_ident class c2 n l' -> Z.of_nat (length l) <= 4 ->
  gets (BerDecodeTag (unsigned_octets l)) tt l'.
Proof. exact Properties8Proofs.tag_ident_read. Qed.
Theorem C25_identifier_only : forall class c1 n l class' c2 n' l', 0 <= class < 4 -> 0 <= n -> 0 <= class' < 4 -> 0 <= n' ->
  is_ident class c1 n l -> is_ident class' c2 n' l' -> same_ident l l' -> class = class' /\ n = n'.
Proof. exact Properties8Proofs.ident_differ. Qed.
Example C25_identifier_example :
  is_ident 2 true 5 [0xA5] /\ is_ident 1 false 201 [0x5F; 0x81; 0x49] /\
  unsigned_octets [0x5F; 0x81; 0x49] = 0x5F8149 /\ tag_octets 0x5F8149 = [0x5F; 0x81; 0x49] /\
  sends (BerEncodeTag 0x5F8149) 4 = Some [0x5F; 0x81; 0x49] /\
  takes (BerDecodeTag 0x5F8149) [0x5F; 0x81; 0x49] = Some (tt, 3) /\
  takes (BerDecodeTag 0x5F8149) [0x7F; 0x81; 0x49] = Some (tt, 3) /\
  takes (BerDecodeTag 0x5F8149) [0x9F; 0x81; 0x49] = None /\ takes (BerDecodeTag 0xA5) [0xA6] = None.
Proof.
  split; [reflexivity|]. split; [exists [0x81; 0x49]; split; [exists [1], 0x49; repeat split; try discriminate; repeat constructor; discriminate|reflexivity]|].
  run.
Qed.
(** Identifiers of five octets or more (tag numbers from 2^21) are written but
    cannot be read: 0x20 is shifted by 32 or more. *)
Theorem C25_long_tag_refuted : exists n l, is_ident 2 false n l /\ puts (BerEncodeTag (unsigned_octets l)) tt l /\
  undefined (BerDecodeTag (unsigned_octets l)) l.
Proof.
  exists (2 ^ 21), [0x9F; 0x81; 0x80; 0x80; 0x00].
  assert (H : is_ident 2 false (2 ^ 21) [0x9F; 0x81; 0x80; 0x80; 0x00]).
  { exists [0x81; 0x80; 0x80; 0x00]. split; [exists [1; 0; 0], 0; repeat split; try discriminate; repeat constructor; discriminate|reflexivity]. }
  split; [exact H|]. split; [|exact I].
  eapply Properties8Proofs.tag_ident; [| |exact H|]; [split|..]; vm_compute; discriminate || reflexivity.
Qed.

(** * C25: lengths *)
Theorem C25_length : forall n, 0 <= n < 2 ^ 31 -> puts (BerEncodeLength n) tt (length_octets n).
Proof. exact BerProofs3.puts_Length. Qed.
Theorem C25_length_shortest : forall n, 0 <= n < 2 ^ 31 -> Forall is_byte (length_octets n) /\ length_of (length_octets n) = Some (Def n).
Proof. exact BerProofs3.length_octets_ok. Qed.
(** Length octets of any form that mean n, or the indefinite form, are read. *)
Theorem C25_length_read : forall bs a, Forall is_byte bs -> len_result bs = Some a -> gets BerDecodeLength a bs.
Proof. exact BerProofs3.gets_Length. Qed.
Theorem C25_length_meaning : forall bs n, Forall is_byte bs -> length_of bs = Some (Def n) -> n < 2 ^ 31 -> len_result bs = Some n /\ 0 <= n.
Proof. exact BerProofs3.length_result. Qed.
Theorem C25_length_only : accepts BerDecodeLength (fun a bs => Forall is_byte bs /\ len_result bs = Some a).
Proof. exact BerProofs3.accepts_Length. Qed.
(** With at most four octets after the first, a nonnegative result is what X.690 says. *)
Theorem C25_length_only_partial : forall b t a, is_byte b -> Forall is_byte t -> len_result (b :: t) = Some a -> b <= 132 -> 0 <= a ->
  length_of (b :: t) = Some (Def a).
Proof. exact BerProofs3.result_length. Qed.
Example C25_length_example :
  sends (BerEncodeLength 70000) 8 = Some [0x83; 0x01; 0x11; 0x70] /\ length_octets 70000 = [0x83; 0x01; 0x11; 0x70] /\
  takes BerDecodeLength [0x83; 0x01; 0x11; 0x70] = Some (70000, 4) /\
  takes BerDecodeLength [0x85; 0; 0; 0; 0; 7] = Some (7, 6) /\ length_of [0x85; 0; 0; 0; 0; 7] = Some (Def 7) /\
  takes BerDecodeLength [0x80] = Some (-1, 1) /\ length_of [0x80] = Some Indef /\
  sends (BerEncodeLength 127) 8 = Some [127] /\ sends (BerEncodeLength 128) 8 = Some [0x81; 128].
Proof. run. Qed.
(** Longer lengths are accepted modulo 2^32, lengths from 2^31 come out negative,
    2^32 - 1 as the indefinite form, and the reserved octet 0xFF is accepted. *)
Theorem C25_length_refuted :
  (exists bs n, length_of bs = Some (Def n) /\ n = 2 ^ 32 + 1 /\ takes BerDecodeLength bs = Some (1, Z.of_nat (length bs))) /\
  (exists bs n, length_of bs = Some (Def n) /\ n = 2 ^ 32 - 1 /\ takes BerDecodeLength bs = Some (-1, Z.of_nat (length bs))) /\
  (exists bs, length_of bs = None /\ takes BerDecodeLength bs = Some (5, Z.of_nat (length bs))).
Proof.
  split; [exists [0x85; 1; 0; 0; 0; 1], (2 ^ 32 + 1); run|].
  split; [exists [0x84; 255; 255; 255; 255], (2 ^ 32 - 1); run|].
  exists (0xFF :: repeat 0 126 ++ [5]). run.
Qed.
(** Indefinite form: the start of the length and the end-of-contents octets. *)
Theorem C25_indefinite : puts BerEncodeLengthStart tt [128] /\ len_result [128] = Some (-1) /\
  puts BerEncodeLengthEnd tt [0; 0] /\ gets BerDecodeTwoZeroes tt [0; 0] /\ accepts BerDecodeTwoZeroes (fun _ bs => bs = [0; 0]).
Proof.
  split; [exact BerProofs5.puts_LengthStart|]. split; [reflexivity|]. split; [exact BerProofs5.puts_LengthEnd|].
  split; [exact BerProofs5.gets_TwoZeroes|exact BerProofs5.accepts_TwoZeroes].
Qed.
(** Look-ahead: the state is unchanged and the answer tells what is next. *)
Theorem C25_next_tag : forall t s, 0 <= t < 2 ^ 32 -> bwf s ->
  exists b, NextTagMatches t s = Ok (b, s) /\
    (b = true -> exists pre id rest, bat s pre (id ++ rest) /\ same_ident (tag_octets t) id) /\
    (forall pre id rest, bat s pre (id ++ rest) -> Forall is_byte id -> same_ident (tag_octets t) id ->
       Z.of_nat (length pre + length id) <= size s -> b = true).
Proof. exact BerProofs5.NextTag_spec. Qed.
Theorem C25_next_zeroes : forall s, bwf s ->
  exists b, LA_Next_Two_Bytes_00 s = Ok (b, s) /\
    (b = true -> exists pre rest, bat s pre ([0; 0] ++ rest)) /\
    (forall pre rest, bat s pre ([0; 0] ++ rest) -> Z.of_nat (length pre + 2) <= size s -> b = true).
Proof. exact BerProofs5.NextZeroes_spec. Qed.
Example C25_next_example : let s := mkby [0x30; 0x80; 0; 0; 77] 4 2 false in
  bwf s /\ LA_Next_Two_Bytes_00 s = Ok (true, s) /\ NextTagMatches 0x30 s = Ok (false, s) /\
  NextTagMatches 0x30 (mkby [0x30; 0x80; 0; 0; 77] 4 0 false) = Ok (true, mkby [0x30; 0x80; 0; 0; 77] 4 0 false).
Proof. split; [repeat split; try discriminate; repeat constructor; discriminate|run]. Qed.

(** * C26 *)
(** INTEGER: shortest two's complement contents. [sfits]: -v is computed. *)
Theorem C26_integer : forall c t v, is_u64 t -> is_s64 v -> sfits c (- v) ->
  puts (BerEncodeInteger c t v) tt (tlv (tag_octets t) (int_octets v)).
Proof. exact BerProofs3.puts_Integer. Qed.
Theorem C26_integer_back : forall c t v, 0 <= t < 2 ^ 32 -> is_s64 v -> gets (BerDecodeInteger c t) v (tlv (tag_octets t) (int_octets v)).
Proof. exact Properties8Proofs.back_Integer. Qed.
(** Any legal form of an INTEGER of up to 8 octets is read. *)
Theorem C26_integer_read : forall c t id lo l, 0 <= t < 2 ^ 32 -> Forall is_byte id -> same_ident (tag_octets t) id ->
  Forall is_byte lo -> length_of lo = Some (Def (Z.of_nat (length l))) -> Forall is_byte l -> (1 <= length l <= 8)%nat ->
  gets (BerDecodeInteger c t) (signed_octets l) (id ++ lo ++ l).
Proof. exact BerProofs3.gets_Integer. Qed.
Theorem C26_integer_only : forall c t, is_u64 t ->
  accepts (BerDecodeInteger c t) (fun v bs => exists id lo l, bs = id ++ lo ++ l /\ same_ident (tag_octets t) id /\
    len_result lo = Some (Z.of_nat (length l)) /\ (1 <= length l <= 8)%nat /\ v = signed_octets l).
Proof. exact BerProofs3.accepts_Integer. Qed.
Example C26_integer_example :
  sends (BerEncodeInteger gcc 0x02 (-129)) 10 = Some [2; 2; 0xFF; 0x7F] /\ tlv (tag_octets 2) (int_octets (-129)) = [2; 2; 0xFF; 0x7F] /\
  takes (BerDecodeInteger gcc 0x02) [2; 2; 0xFF; 0x7F] = Some (-129, 4) /\
  takes (BerDecodeInteger gcc 0x02) [2; 0x81; 3; 0; 0; 200] = Some (200, 6) /\ signed_octets [0; 0; 200] = 200 /\
  sends (BerEncodeInteger gcc 0x02 (- 2 ^ 63 + 1)) 10 = Some [2; 8; 128; 0; 0; 0; 0; 0; 0; 1].
Proof. run. Qed.
(** Lengths 0 and 9, and the indefinite form, lead to shifts by 64 or more or
    by a negative amount: undefined. *)
Theorem C26_integer_refuted : forall c, undefined (BerDecodeInteger c 2) [2; 0] /\
  undefined (BerDecodeInteger c 2) [2; 9; 0; 1; 1; 1; 1; 1; 1; 1; 1] /\ undefined (BerDecodeInteger c 2) [2; 0x80; 1; 0; 0].
Proof. intros [a b d]. repeat split. Qed.
(** These are the only causes. *)
Theorem C26_integer_outcome : forall c t s, 0 <= t < 2 ^ 32 -> bwf s ->
  (exists r s', BerDecodeInteger c t s = Ok (r, s') /\ mem s' = mem s /\ size s' = size s /\ cur s <= cur s' <= size s + 1) \/
  (BerDecodeInteger c t s = UB /\ exists pre id lo rest n, bat s pre (id ++ lo ++ rest) /\ same_ident (tag_octets t) id /\
     len_result lo = Some n /\ ~ 1 <= n <= 8).
Proof. exact BerProofs5.Integer_outcome. Qed.

(** BOOLEAN; any octet but 0 is TRUE. *)
Theorem C26_boolean : forall t v, is_u64 t -> puts (BerEncodeBoolean t v) tt (tlv (tag_octets t) (bool_octets v)).
Proof. exact BerProofs3.puts_Boolean. Qed.
Theorem C26_boolean_back : forall t v, 0 <= t < 2 ^ 32 -> gets (BerDecodeBoolean t) v (tlv (tag_octets t) (bool_octets v)).
Proof. exact Properties8Proofs.back_Boolean. Qed.
Theorem C26_boolean_read : forall t id lo b, 0 <= t < 2 ^ 32 -> Forall is_byte id -> same_ident (tag_octets t) id ->
  Forall is_byte lo -> length_of lo = Some (Def 1) ->
  gets (BerDecodeBoolean t) (negb (b =? 0)) (id ++ lo ++ [b]).
Proof. exact BerProofs3.gets_Boolean. Qed.
Theorem C26_boolean_only : forall t, is_u64 t ->
  accepts (BerDecodeBoolean t) (fun v bs => exists id lo b, bs = id ++ lo ++ [b] /\ same_ident (tag_octets t) id /\
    len_result lo = Some 1 /\ v = negb (b =? 0)).
Proof. exact BerProofs3.accepts_Boolean. Qed.
(** NULL *)
Theorem C26_null : forall t, is_u64 t -> puts (BerEncodeNull t) tt (tlv (tag_octets t) []).
Proof. exact BerProofs3.puts_Null. Qed.
Theorem C26_null_back : forall t, 0 <= t < 2 ^ 32 -> gets (BerDecodeNull t) tt (tlv (tag_octets t) []).
Proof. exact Properties8Proofs.back_Null. Qed.
Theorem C26_null_only : forall t, is_u64 t ->
  accepts (BerDecodeNull t) (fun v bs => exists id lo, bs = id ++ lo /\ same_ident (tag_octets t) id /\ len_result lo = Some 0).
Proof. exact BerProofs3.accepts_Null. Qed.
Example C26_boolean_example : sends (BerEncodeBoolean 1 true) 4 = Some [1; 1; 255] /\ takes (BerDecodeBoolean 1) [1; 1; 255] = Some (true, 3) /\
  takes (BerDecodeBoolean 1) [1; 1; 0] = Some (false, 3) /\ takes (BerDecodeBoolean 1) [1; 2; 0; 0] = None /\
  sends (BerEncodeNull 5) 4 = Some [5; 0] /\ takes (BerDecodeNull 5) [5; 0] = Some (tt, 2) /\ takes (BerDecodeNull 5) [5; 1; 0] = None.
Proof. run. Qed.

(** OCTET STRING, IA5String: the array [l ++ q] sent holds the value first. *)
Theorem C26_octets : forall t l q, is_u64 t -> is_len l ->
  puts (BerEncodeOctetString t (l ++ q) (Z.of_nat (length l))) tt (tlv (tag_octets t) l).
Proof. exact BerProofs4.puts_OctetString. Qed.
Theorem C26_octets_back : forall t l dst max, 0 <= t < 2 ^ 32 -> Forall is_byte l -> is_len l -> Z.of_nat (length l) <= max <= Z.of_nat (length dst) ->
  gets (BerDecodeOctetString t dst max) (l ++ repeat 0 (Z.to_nat max - length l) ++ skipn (Z.to_nat max) dst, Z.of_nat (length l)) (tlv (tag_octets t) l).
Proof. exact Properties8Proofs.back_OctetString. Qed.
(** Any form of length; longer strings are cut to [max]. *)
Theorem C26_octets_read : forall t id lo l dst max, 0 <= t < 2 ^ 32 -> Forall is_byte id -> same_ident (tag_octets t) id ->
  Forall is_byte lo -> length_of lo = Some (Def (Z.of_nat (length l))) -> is_len l -> Forall is_byte l ->
  0 <= max <= Z.of_nat (length dst) ->
  gets (BerDecodeOctetString t dst max) (received dst max l, Z.min (Z.of_nat (length l)) max) (id ++ lo ++ l).
Proof. exact BerProofs4.gets_OctetString. Qed.
Theorem C26_octets_only : forall t dst max, is_u64 t ->
  accepts (BerDecodeOctetString t dst max) (fun r bs => exists id lo n l, bs = id ++ lo ++ l /\ same_ident (tag_octets t) id /\
    len_result lo = Some n /\ length l = Z.to_nat n /\ r = (received dst max l, Z.min n max)).
Proof. exact BerProofs4.accepts_OctetString. Qed.
Theorem C26_ia5 : forall t l q, is_u64 t -> is_len l ->
  puts (BerEncodeIA5String t (l ++ q) (Z.of_nat (length l))) tt (tlv (tag_octets t) l).
Proof. exact BerProofs4.puts_IA5String. Qed.
Theorem C26_ia5_back : forall t l dst max, 0 <= t < 2 ^ 32 -> Forall is_byte l -> is_len l -> Z.of_nat (length l) <= max <= Z.of_nat (length dst) ->
  gets (BerDecodeIA5String t dst max) (l ++ repeat 0 (Z.to_nat max - length l) ++ skipn (Z.to_nat max) dst) (tlv (tag_octets t) l).
Proof. exact Properties8Proofs.back_IA5String. Qed.
Theorem C26_ia5_read : forall t id lo l dst max, 0 <= t < 2 ^ 32 -> Forall is_byte id -> same_ident (tag_octets t) id ->
  Forall is_byte lo -> length_of lo = Some (Def (Z.of_nat (length l))) -> is_len l -> Forall is_byte l ->
  0 <= max <= Z.of_nat (length dst) ->
  gets (BerDecodeIA5String t dst max) (received dst max l) (id ++ lo ++ l).
Proof. exact BerProofs4.gets_IA5String. Qed.
Theorem C26_ia5_only : forall t dst max, is_u64 t ->
  accepts (BerDecodeIA5String t dst max) (fun r bs => exists id lo n l, bs = id ++ lo ++ l /\ same_ident (tag_octets t) id /\
    len_result lo = Some n /\ length l = Z.to_nat n /\ r = received dst max l).
Proof. exact BerProofs4.accepts_IA5String. Qed.
Example C26_octets_example :
  sends (BerEncodeOctetString 4 [10; 20; 30; 99] 3) 9 = Some [4; 3; 10; 20; 30] /\
  takes (BerDecodeOctetString 4 [7; 7; 7; 7; 7] 4) [4; 3; 10; 20; 30] = Some (([10; 20; 30; 0; 7], 3), 5) /\
  takes (BerDecodeIA5String 22 [7; 7; 7; 7; 7] 4) [22; 0x81; 3; 65; 66; 67] = Some ([65; 66; 67; 0; 7], 6).
Proof. run. Qed.
(** A string that does not fit is silently cut; the indefinite form gives the
    number of octets -1. *)
Theorem C26_octets_refuted :
  takes (BerDecodeOctetString 4 [7; 7] 2) [4; 3; 10; 20; 30] = Some (([10; 20], 2), 5) /\
  takes (BerDecodeOctetString 4 [7; 7] 2) [4; 0x80; 10; 20; 30] = Some (([0; 0], -1), 2).
Proof. run. Qed.

(** BIT STRING *)
Theorem C26_bits : forall t bs q, is_u64 t -> Z.of_nat (length bs) < 2 ^ 31 - 16 ->
  puts (BerEncodeBitString t (pack bs ++ q) (Z.of_nat (length bs))) tt (tlv (tag_octets t) (bits_octets bs)).
Proof. exact BerProofs4.puts_BitString. Qed.
Theorem C26_bits_back : forall c t bs dst max, 0 <= t < 2 ^ 32 -> Z.of_nat (length bs) <= max < 2 ^ 31 - 16 -> (max + 7) / 8 <= Z.of_nat (length dst) ->
  gets (BerDecodeBitString c t dst max) (pack bs ++ skipn (length (pack bs)) dst, Z.of_nat (length bs)) (tlv (tag_octets t) (bits_octets bs)).
Proof. exact Properties8Proofs.back_BitString. Qed.
Theorem C26_bits_read : forall c t id lo u l dst max, 0 <= t < 2 ^ 32 -> Forall is_byte id -> same_ident (tag_octets t) id ->
  Forall is_byte lo -> length_of lo = Some (Def (Z.of_nat (length (u :: l)))) -> is_len (u :: l) -> Forall is_byte (u :: l) ->
  0 <= max -> (max + 7) / 8 <= Z.of_nat (length dst) ->
  gets (BerDecodeBitString c t dst max) (bits_received dst max u l) (id ++ lo ++ u :: l).
Proof. exact BerProofs5.gets_BitString. Qed.
Theorem C26_bits_only : forall c t dst max, is_u64 t -> 0 <= max -> (max + 7) / 8 <= Z.of_nat (length dst) ->
  accepts (BerDecodeBitString c t dst max) (fun r bs => exists id lo n u l, bs = id ++ lo ++ u :: l /\ same_ident (tag_octets t) id /\
    len_result lo = Some n /\ (- 2 ^ 31 < n -> length l = Z.to_nat (n - 1)) /\ is_byte u /\ r = bits_received dst max u l).
Proof. exact BerProofs5.accepts_BitString. Qed.
Example C26_bits_example : let bs := [true; false; true; true; false; true; true; true; false; true] in
  bits_octets bs = [6; 0xB7; 0x40] /\ sends (BerEncodeBitString 3 (pack bs ++ [99]) 10) 9 = Some [3; 3; 6; 0xB7; 0x40] /\
  takes (BerDecodeBitString gcc 3 [1; 1; 1] 12) [3; 3; 6; 0xB7; 0x40] = Some (([0xB7; 0x40; 1], 10), 5).
Proof. run. Qed.
(** The octet with the number of unused bits is not checked: a negative number
    of bits is returned. A length of 0 still consumes that octet. A string that
    does not fit is cut to a multiple of 8 bits, possibly more than the maximum. *)
Theorem C26_bits_refuted : forall c,
  takes (BerDecodeBitString c 3 [1; 1] 12) [3; 1; 255] = Some (([1; 1], -255), 3) /\
  takes (BerDecodeBitString c 3 [1; 1] 12) [3; 0; 9] = Some (([1; 1], -9), 3) /\
  takes (BerDecodeBitString c 3 [1; 1] 12) [3; 4; 0; 5; 6; 7] = Some (([5; 6], 16), 6).
Proof. intros [a b d]. run. Qed.

(** REAL: the contents octets of the uPER codec, with one length octet. *)
Theorem C26_real : forall c t x, is_u64 t -> is_double x ->
  puts (BerEncodeReal c t x) tt (tlv (tag_octets t) (real_octets (sent x))).
Proof. exact BerProofs5.puts_Real. Qed.
Theorem C26_real_back : forall c t x, 0 <= t < 2 ^ 32 -> is_double x ->
  (shl_wrap c = true \/ match sent x with S754_finite _ _ e => 0 <= e | _ => True end) ->
  gets (BerDecodeReal c t) (returned x) (tlv (tag_octets t) (real_octets (sent x))).
Proof. exact Properties8Proofs.back_Real. Qed.
Example C26_real_example : let x := S754_finite true 4503599627370497 3 in
  is_double x /\ sent x = x /\ returned x = x /\ sends (BerEncodeReal gcc 9 x) 20 = Some [9; 9; 0xC0; 3; 16; 0; 0; 0; 0; 0; 1] /\
  takes (BerDecodeReal gcc 9) [9; 9; 0xC0; 3; 16; 0; 0; 0; 0; 0; 1] = Some (x, 11).
Proof. run. Qed.
(** A length in the long form, legal in BER, is not understood. *)
Theorem C26_real_refuted : exists lo l, length_of lo = Some (Def (Z.of_nat (length l))) /\
  takes (BerDecodeReal wrapv 9) ([9; Z.of_nat (length l)] ++ l) = Some (S754_finite false 4503599627370496 (-52), 5) /\
  takes (BerDecodeReal wrapv 9) ([9] ++ lo ++ l) = None.
Proof. exists [0x81; 3], [0x80; 0; 1]. run. Qed.

(** * C27 *)
(** At the end of the buffer a byte is still written, or read, one past the end. *)
Theorem C27_put_refuted : exists v s s', cur s = size s /\ Z.of_nat (length (mem s)) = size s + 1 /\
  ByteStream_PutByte v s = Ok (Some tt, s') /\ mem s' <> mem s /\ cur s' > size s'.
Proof. exists 5, (mkby [1; 2; 3] 2 2 false), (mkby [1; 2; 5] 2 3 false). run. Qed.
Theorem C27_get_refuted : exists s s', cur s = size s /\ Z.of_nat (length (mem s)) = size s + 1 /\
  ByteStream_GetByte s = Ok (Some 3, s') /\ cur s' > size s'.
Proof. exists (mkby [1; 2; 3] 2 2 false), (mkby [1; 2; 3] 2 3 false). run. Qed.
Theorem C27_no_spare_byte_refuted : forall v, ByteStream_PutByte v (over [1; 2]) <> UB /\
  ByteStream_PutByte v (mkby [1; 2] 2 2 false) = UB /\ ByteStream_GetByte (mkby [1; 2] 2 2 false) = UB.
Proof. intros v. repeat split. discriminate. Qed.
(** With one spare byte behind the buffer, nothing else is touched. *)
Theorem C27_get_partial : guarded ByteStream_GetByte is_byte.
Proof. exact BerProofs.guarded_GetByte. Qed.
Theorem C27_put_partial : forall v, is_byte v -> bounded (ByteStream_PutByte v).
Proof. exact BerProofs.bounded_PutByte. Qed.
Theorem C27_decode_tag_partial : forall t, 0 <= t < 2 ^ 32 -> guarded (BerDecodeTag t) (fun _ => True).
Proof. exact BerProofs2.guarded_Tag. Qed.
Theorem C27_decode_length_partial : guarded BerDecodeLength (fun n => - 2 ^ 31 <= n < 2 ^ 31).
Proof. exact BerProofs3.guarded_Length. Qed.
Theorem C27_decode_zeroes_partial : guarded BerDecodeTwoZeroes (fun _ => True).
Proof. exact BerProofs5.guarded_TwoZeroes. Qed.
Theorem C27_decode_boolean_partial : forall t, 0 <= t < 2 ^ 32 -> guarded (BerDecodeBoolean t) (fun _ => True).
Proof. exact BerProofs5.guarded_Boolean. Qed.
Theorem C27_decode_null_partial : forall t, 0 <= t < 2 ^ 32 -> guarded (BerDecodeNull t) (fun _ => True).
Proof. exact BerProofs5.guarded_Null. Qed.
Theorem C27_decode_octets_partial : forall t dst max, 0 <= t < 2 ^ 32 -> 0 <= max <= Z.of_nat (length dst) -> Forall is_byte dst ->
  guarded (BerDecodeOctetString t dst max) (fun r => length (fst r) = length dst /\ Forall is_byte (fst r) /\ snd r <= max).
Proof. exact BerProofs5.guarded_OctetString. Qed.
Theorem C27_decode_ia5_partial : forall t dst max, 0 <= t < 2 ^ 32 -> 0 <= max <= Z.of_nat (length dst) -> Forall is_byte dst ->
  guarded (BerDecodeIA5String t dst max) (fun r => length r = length dst /\ Forall is_byte r).
Proof. exact BerProofs5.guarded_IA5String. Qed.
Theorem C27_decode_bits_partial : forall c t dst max, ovf_wrap c = true -> 0 <= t < 2 ^ 32 -> 0 <= max -> (max + 7) / 8 <= Z.of_nat (length dst) -> Forall is_byte dst ->
  guarded (BerDecodeBitString c t dst max) (fun r => length (fst r) = length dst /\ Forall is_byte (fst r)).
Proof. exact BerProofs5.guarded_BitString. Qed.
Theorem C27_decode_real_partial : forall c t, 0 <= t < 2 ^ 32 -> ovf_wrap c = true -> shl_wrap c = true -> guarded (BerDecodeReal c t) is_double.
Proof. exact BerProofs5.guarded_Real. Qed.
Theorem C27_encode_tag_partial : forall t, bounded (BerEncodeTag t).
Proof. exact BerProofs5.bounded_Tag. Qed.
Theorem C27_encode_length_partial : forall n, - 2 ^ 31 <= n < 2 ^ 31 -> bounded (BerEncodeLength n).
Proof. exact BerProofs3.bounded_Length. Qed.
Theorem C27_encode_integer_partial : forall c t v, is_s64 v -> sfits c (- v) -> bounded (BerEncodeInteger c t v).
Proof. exact BerProofs5.bounded_Integer. Qed.
Theorem C27_encode_boolean_partial : forall t v, bounded (BerEncodeBoolean t v).
Proof. exact BerProofs5.bounded_Boolean. Qed.
Theorem C27_encode_null_partial : forall t, bounded (BerEncodeNull t).
Proof. exact BerProofs5.bounded_Null. Qed.
Theorem C27_encode_octets_partial : forall t l n, Forall is_byte l -> 0 <= n <= Z.of_nat (length l) -> n < 2 ^ 31 ->
  bounded (BerEncodeOctetString t l n) /\ bounded (BerEncodeIA5String t l n).
Proof. intros t l n F N L. split; exact (BerProofs5.bounded_octets t l n F N L). Qed.
Theorem C27_encode_bits_partial : forall t l n, Forall is_byte l -> 0 <= n -> (n + 7) / 8 <= Z.of_nat (length l) -> n < 2 ^ 31 - 16 ->
  bounded (BerEncodeBitString t l n).
Proof. exact BerProofs5.bounded_BitString. Qed.
Theorem C27_encode_real_partial : forall c t x, is_double x -> bounded (BerEncodeReal c t x).
Proof. exact BerProofs5.bounded_Real. Qed.
Theorem C27_encode_indefinite_partial : bounded BerEncodeLengthStart /\ bounded BerEncodeLengthEnd.
Proof. split; [exact BerProofs5.bounded_LengthStart|exact BerProofs5.bounded_LengthEnd]. Qed.
(** A string cut off by the end of the buffer, and one that does not fit. *)
Example C27_example : let s := mkby [4; 9; 1; 2; 3; 200] 5 0 false in
  bwf s /\ BerDecodeOctetString 4 [7; 7; 7] 2 s = Ok (None, mkby [4; 9; 1; 2; 3; 200] 5 6 false) /\
  BerEncodeOctetString 4 [1; 2; 3; 4; 5; 6] 6 s = Ok (None, mkby [4; 6; 1; 2; 3; 4] 5 6 false).
Proof. split; [repeat split; try discriminate; repeat constructor; discriminate|run]. Qed.

(** * Assumptions of all theorems above *)
Definition theorems8 := (
  @C26_round_trip, @C26_tlv_bytes, @C25_tag, @C25_tag_read, @C25_tag_only, @C25_tag_refused,
  @C25_identifier, @C25_identifier_read, @C25_identifier_only, @C25_long_tag_refuted, @C25_length,
  @C25_length_shortest, @C25_length_read, @C25_length_meaning, @C25_length_only,
  @C25_length_only_partial, @C25_length_refuted, @C25_indefinite, @C25_next_tag, @C25_next_zeroes,
  @C26_integer, @C26_integer_back, @C26_integer_read, @C26_integer_only, @C26_integer_refuted,
  @C26_integer_outcome, @C26_boolean, @C26_boolean_back, @C26_boolean_read, @C26_boolean_only,
  @C26_null, @C26_null_back, @C26_null_only, @C26_octets, @C26_octets_back, @C26_octets_read,
  @C26_octets_only, @C26_ia5, @C26_ia5_back, @C26_ia5_read, @C26_ia5_only, @C26_octets_refuted,
  @C26_bits, @C26_bits_back, @C26_bits_read, @C26_bits_only, @C26_bits_refuted, @C26_real,
  @C26_real_back, @C26_real_refuted, @C27_put_refuted, @C27_get_refuted, @C27_no_spare_byte_refuted,
  @C27_get_partial, @C27_put_partial, @C27_decode_tag_partial, @C27_decode_length_partial,
  @C27_decode_zeroes_partial, @C27_decode_boolean_partial, @C27_decode_null_partial,
  @C27_decode_octets_partial, @C27_decode_ia5_partial, @C27_decode_bits_partial,
  @C27_decode_real_partial, @C27_encode_tag_partial, @C27_encode_length_partial,
  @C27_encode_integer_partial, @C27_encode_boolean_partial, @C27_encode_null_partial,
  @C27_encode_octets_partial, @C27_encode_bits_partial, @C27_encode_real_partial,
  @C27_encode_indefinite_partial).
Print Assumptions theorems8.
