(** C07, C08, C14, C28, C29, C37, C42, C44, C45: object identifiers,
    reinterpretation helpers, table search, equality functions. Statements only. *)
From Verif Require Import Base Bits StrSpec BitStream Ints Contracts Octets OidSpec Oid Misc Parse.
From Verif Require MiscProofs OidProofs Properties3Proofs.
From Coq Require Import Sorted.

(** * C14 *)
(** [is_subid] determines the octets of an arc. *)
Theorem C14_subid_unique : forall v a b, is_subid v a -> is_subid v b -> a = b.
Proof. exact OidProofs.subid_unique. Qed.
(** The written bits are the length-prefixed subidentifiers of X.690 8.19. *)
Theorem C14_encode : forall c a b vs ls rest, is_u64 a -> is_u64 b -> is_u64 (40 * a + b) -> Forall is_u64 vs ->
  Forall2 is_subid (40 * a + b :: vs) ls -> (length vs <= 18)%nat ->
  writes (ObjectIdentifier_uper_encode c (Z.of_nat (2 + length vs)) (a :: b :: vs ++ rest)) tt (frag (octets (concat ls))).
Proof. exact OidProofs.writes_ObjectIdentifier. Qed.
Theorem C14_decode : forall c a b vs ls, 0 <= a -> 0 <= b < 40 -> is_u64 (40 * a + b) -> Forall is_u64 vs ->
  Forall2 is_subid (40 * a + b :: vs) ls -> (length vs <= 18)%nat ->
  reads (ObjectIdentifier_uper_decode c) (Some (Z.of_nat (2 + length vs), a :: b :: vs ++ repeat 0 (18 - length vs)))
    (frag (octets (concat ls))).
Proof. exact OidProofs.reads_ObjectIdentifier. Qed.
Theorem C14_encode_relative : forall c vs ls rest, Forall is_u64 vs -> Forall2 is_subid vs ls -> (length vs <= 20)%nat ->
  writes (RelativeOID_uper_encode c (Z.of_nat (length vs)) (vs ++ rest)) tt (frag (octets (concat ls))).
Proof. exact OidProofs.writes_RelativeOID. Qed.
Theorem C14_decode_relative : forall c vs ls, Forall is_u64 vs -> Forall2 is_subid vs ls -> (length vs <= 20)%nat ->
  reads (RelativeOID_uper_decode c) (Some (Z.of_nat (length vs), vs ++ repeat 0 (20 - length vs)))
    (frag (octets (concat ls))).
Proof. exact OidProofs.reads_RelativeOID. Qed.
(** Every value accepted by the validity predicate, from Init to the receiver. *)
Theorem C14_end_to_end : forall c n values mem N, length values = 20%nat -> Forall is_u64 values -> n <= 20 ->
  ObjectIdentifier_isValid n values = Ok true ->
  exists ls, Forall2 is_subid (40 * nth 0 values 0 + nth 1 values 0 :: skipn 2 (firstn (Z.to_nat n) values)) ls /\
    let bs := frag (octets (concat ls)) in
    (Forall is_byte mem -> 0 <= N <= Z.of_nat (length mem) -> Z.of_nat (length bs) <= 8 * N ->
     exists s0 s1, BitStream_Init mem N = Ok s0 /\ ObjectIdentifier_uper_encode c n values s0 = Ok (tt, s1) /\
       pos s1 = Z.of_nat (length bs) /\ take_bits (Z.of_nat (length bs)) (buf s1) = bs /\
       forall tail, Forall is_byte tail -> exists s2,
         ObjectIdentifier_uper_decode c
           (BitStream_AttachBuffer (firstn (Z.to_nat (BitStream_GetLength s1)) (buf s1) ++ tail) (BitStream_GetLength s1))
         = Ok (Some (n, firstn (Z.to_nat n) values ++ repeat 0 (Z.to_nat (20 - n))), s2) /\ pos s2 = pos s1).
Proof. exact Properties3Proofs.C14_oid. Qed.
Theorem C14_end_to_end_relative : forall c n values mem N, length values = 20%nat -> Forall is_u64 values -> n <= 20 ->
  RelativeOID_isValid n = true ->
  exists ls, Forall2 is_subid (firstn (Z.to_nat n) values) ls /\
    let bs := frag (octets (concat ls)) in
    (Forall is_byte mem -> 0 <= N <= Z.of_nat (length mem) -> Z.of_nat (length bs) <= 8 * N ->
     exists s0 s1, BitStream_Init mem N = Ok s0 /\ RelativeOID_uper_encode c n values s0 = Ok (tt, s1) /\
       pos s1 = Z.of_nat (length bs) /\ take_bits (Z.of_nat (length bs)) (buf s1) = bs /\
       forall tail, Forall is_byte tail -> exists s2,
         RelativeOID_uper_decode c
           (BitStream_AttachBuffer (firstn (Z.to_nat (BitStream_GetLength s1)) (buf s1) ++ tail) (BitStream_GetLength s1))
         = Ok (Some (n, firstn (Z.to_nat n) values ++ repeat 0 (Z.to_nat (20 - n))), s2) /\ pos s2 = pos s1).
Proof. exact Properties3Proofs.C14_relative. Qed.
(** {1 2 840 113549}, RSA: 2A 86 48 86 F7 0D *)
Example C14_example : let values := [1; 2; 840; 113549] ++ repeat 0 16 in
  length values = 20%nat /\ ObjectIdentifier_isValid 4 values = Ok true /\
  is_subid 42 [0x2A] /\ is_subid 840 [0x86; 0x48] /\ is_subid 113549 [0x86; 0xF7; 0x0D] /\
  ObjectIdentifier_uper_encode iso 4 values (mkbs (repeat 0 8) 8 0 0) =
    Ok (tt, mkbs [6; 0x2A; 0x86; 0x48; 0x86; 0xF7; 0x0D; 0] 8 7 0) /\
  ObjectIdentifier_uper_decode iso (mkbs [6; 0x2A; 0x86; 0x48; 0x86; 0xF7; 0x0D] 7 0 0) =
    Ok (Some (4, values), mkbs [6; 0x2A; 0x86; 0x48; 0x86; 0xF7; 0x0D] 7 7 0).
Proof.
  cbv zeta. repeat split; try (vm_compute; congruence).
  - exists [], 0x2A. repeat split; try (vm_compute; congruence). constructor.
  - exists [6], 0x48. repeat split; try (vm_compute; congruence). repeat constructor; unfold is_digit; discriminate.
  - exists [6; 0x77], 0x0D. repeat split; try (vm_compute; congruence). repeat constructor; unfold is_digit; discriminate.
Qed.
(** False for object identifiers in general: {2 999}, legal in ASN.1, is written
    correctly and read back as {26 39}; the validity predicate rejects it. *)
Theorem C14_joint_iso_refuted : exists s1 s2,
  let values := [2; 999] ++ repeat 0 18 in
  ObjectIdentifier_isValid 2 values = Ok false /\
  ObjectIdentifier_uper_encode iso 2 values (mkbs (repeat 0 3) 3 0 0) = Ok (tt, s1) /\
  ObjectIdentifier_uper_decode iso (BitStream_AttachBuffer (buf s1) (BitStream_GetLength s1)) =
    Ok (Some (2, [26; 39] ++ repeat 0 18), s2).
Proof. exists (mkbs [2; 0x88; 0x37] 3 3 0), (mkbs [2; 0x88; 0x37] 3 3 0). repeat split; vm_compute; reflexivity. Qed.
(** The validity predicate does not bound nCount: a struct with nCount = 21 is
    accepted and the encoder reads outside values. *)
Theorem C14_count_refuted : exists s, fits s /\ ObjectIdentifier_isValid 21 (repeat 1 20) = Ok true /\
  ObjectIdentifier_uper_encode iso 21 (repeat 1 20) s = UB.
Proof.
  exists (mkbs (repeat 0 40) 40 0 0). repeat split; try (vm_compute; congruence).
  cbn [buf repeat]. repeat constructor; unfold is_byte; discriminate.
Qed.

(** * C45: what the decoders accept *)
(** The announced octets are exactly those consumed, but they need not be a
    sequence of subidentifiers: with no octets at all the result is {0 0}; an
    unterminated last subidentifier is accepted; a subidentifier over 64 bits
    wraps; a leading 0x80 is accepted. *)
Theorem C45_empty_refuted : exists s', ObjectIdentifier_uper_decode iso (mkbs [0] 1 0 0) = Ok (Some (2, repeat 0 20), s').
Proof. exists (mkbs [0] 1 1 0). vm_compute. reflexivity. Qed.
Theorem C45_unterminated_refuted : exists s', (forall v, ~ is_subid v [0x81]) /\
  RelativeOID_uper_decode iso (mkbs [1; 0x81] 2 0 0) = Ok (Some (1, 1 :: repeat 0 19), s').
Proof.
  exists (mkbs [1; 0x81] 2 2 0). split; [|vm_compute; reflexivity].
  intros v (ds & e & H & _ & [E1 E2] & _). destruct ds as [|d [|d2 ds]]; cbn in H; injection H as H; try discriminate.
  subst e. discriminate E2.
Qed.
Theorem C45_overflow_refuted : exists s', let l := [0x82; 0x80; 0x80; 0x80; 0x80; 0x80; 0x80; 0x80; 0x80; 0x05] in
  is_subid (2 ^ 64 + 5) l /\
  RelativeOID_uper_decode iso (mkbs (10 :: l) 11 0 0) = Ok (Some (1, 5 :: repeat 0 19), s').
Proof.
  exists (mkbs [10; 0x82; 0x80; 0x80; 0x80; 0x80; 0x80; 0x80; 0x80; 0x80; 0x05] 11 11 0). cbv zeta.
  split; [|vm_compute; reflexivity].
  exists [2; 0; 0; 0; 0; 0; 0; 0; 0], 5. repeat split; try (vm_compute; congruence).
  repeat constructor; unfold is_digit; discriminate.
Qed.
Theorem C45_padded_refuted : exists s', (forall v, ~ is_subid v [0x80; 7]) /\
  RelativeOID_uper_decode iso (mkbs [2; 0x80; 7] 3 0 0) = Ok (Some (1, 7 :: repeat 0 19), s').
Proof.
  exists (mkbs [2; 0x80; 7] 3 3 0). split; [|vm_compute; reflexivity].
  intros v (ds & e & H & _ & _ & HH & _). destruct ds as [|d ds]; [discriminate H|]. cbn [map app hd] in H, HH.
  assert (E : 128 = 128 + d) by congruence. lia.
Qed.
(** A decoded object identifier need not satisfy the validity predicate. *)
Theorem C45_invalid_refuted : exists s' vals, ObjectIdentifier_uper_decode iso (mkbs [1; 120] 2 0 0) = Ok (Some (2, vals), s') /\
  ObjectIdentifier_isValid 2 vals = Ok false.
Proof. exists (mkbs [1; 120] 2 2 0), ([3; 0] ++ repeat 0 18). split; vm_compute; reflexivity. Qed.

(** * C07, C08, C42 for the object identifier decoders *)
Theorem C07_ObjectIdentifier_uper_decode : forall c, tame (ObjectIdentifier_uper_decode c).
Proof. exact OidProofs.tame_ObjectIdentifier. Qed.
Theorem C07_RelativeOID_uper_decode : forall c, tame (RelativeOID_uper_decode c).
Proof. exact OidProofs.tame_RelativeOID. Qed.
Theorem C08_ObjectIdentifier_uper_decode : forall c, safe (ObjectIdentifier_uper_decode c)
  (fun p => 2 <= fst p <= 20 /\ length (snd p) = 20%nat /\ Forall is_u64 (snd p)).
Proof. exact OidProofs.safe_ObjectIdentifier. Qed.
Theorem C08_RelativeOID_uper_decode : forall c, safe (RelativeOID_uper_decode c)
  (fun p => 0 <= fst p <= 20 /\ length (snd p) = 20%nat /\ Forall is_u64 (snd p)).
Proof. exact OidProofs.safe_RelativeOID. Qed.
Theorem C42_ObjectIdentifier_uper_decode : forall c,
  parses (ObjectIdentifier_uper_decode c) (fun _ bs => exists h t, bs = h ++ t /\
    (length h = 8%nat /\ Z.of_nat (length t) = 8 * bval h /\ bval h <= 127 \/
     length h = 16%nat /\ Z.of_nat (length t) = 8 * (bval h - 32768))).
Proof. exact OidProofs.parses_ObjectIdentifier. Qed.
Theorem C42_RelativeOID_uper_decode : forall c,
  parses (RelativeOID_uper_decode c) (fun _ bs => exists h t, bs = h ++ t /\
    (length h = 8%nat /\ Z.of_nat (length t) = 8 * bval h /\ bval h <= 127 \/
     length h = 16%nat /\ Z.of_nat (length t) = 8 * (bval h - 32768))).
Proof. exact OidProofs.parses_RelativeOID. Qed.
Example C08_example_oid : wfs (mkbs [3; 0x2A; 0x86; 0x48; 9] 4 0 0) /\
  ObjectIdentifier_uper_decode iso (mkbs [3; 0x2A; 0x86; 0x48; 9] 4 0 0) =
    Ok (Some (3, [1; 2; 840] ++ repeat 0 17), mkbs [3; 0x2A; 0x86; 0x48; 9] 4 4 0).
Proof. repeat split; try (vm_compute; congruence). repeat constructor; unfold is_byte; discriminate. Qed.

(** * C28 *)
Theorem C28_int2uint : forall c v, is_s64 v -> sfits c (- v) -> int2uint c v = Ok (v mod 2 ^ 64).
Proof. exact MiscProofs.int2uint_ok. Qed.
Theorem C28_uint2int : forall c v n, 1 <= n <= 8 -> 0 <= v < 2 ^ (8 * n) ->
  uint2int c v n = Ok (if v <? 2 ^ (8 * n - 1) then v else v - 2 ^ (8 * n)).
Proof. exact MiscProofs.uint2int_ok. Qed.
Theorem C28_roundtrip : forall c v n u, 1 <= n <= 8 -> - 2 ^ (8 * n - 1) <= v < 2 ^ (8 * n - 1) -> sfits c (- v) ->
  int2uint c v = Ok u -> uint2int c (u mod 2 ^ (8 * n)) n = Ok v.
Proof. exact MiscProofs.C28_roundtrip. Qed.
Example C28_example : int2uint iso (-2) = Ok (2 ^ 64 - 2) /\ uint2int iso ((2 ^ 64 - 2) mod 2 ^ (8 * 3)) 3 = Ok (-2) /\
  - 2 ^ (8 * 3 - 1) <= -2 < 2 ^ (8 * 3 - 1) /\ sfits iso (- -2).
Proof. repeat split; try (vm_compute; congruence). left. split; [discriminate|reflexivity]. Qed.
(** The side condition: negating INT64_MIN is undefined behaviour in ISO C. *)
Theorem C28_min_refuted : exists v, is_s64 v /\ int2uint iso v = UB.
Proof. exists (- 2 ^ 63). repeat split; vm_compute; congruence. Qed.
(** With width 0 or more than 8 the shift is undefined. *)
Theorem C28_width_refuted : exists n v, 0 <= n /\ 0 <= v < 2 ^ (8 * n) /\ uint2int iso v n = UB.
Proof. exists 9, 1. repeat split; vm_compute; congruence. Qed.

(** * C29 *)
Theorem C29_binarySearch : forall arr value, StronglySorted Z.lt arr ->
  exists r, binarySearch arr (Z.of_nat (length arr)) value = Ok r /\
    (0 <= r < Z.of_nat (length arr) /\ nth (Z.to_nat r) arr 0 = value \/ r = -1 /\ ~ In value arr).
Proof. exact MiscProofs.binarySearch_ok. Qed.
Theorem C29_linearSearch : forall arr value,
  exists r, linearSearch arr (Z.of_nat (length arr)) value = Ok r /\
    ((0 <= r < Z.of_nat (length arr) /\ nth (Z.to_nat r) arr 0 = value /\
      forall j, 0 <= j < r -> nth (Z.to_nat j) arr 0 <> value) \/
     r = -1 /\ ~ In value arr).
Proof. exact MiscProofs.linearSearch_ok. Qed.
Theorem C29_agree : forall arr value, StronglySorted Z.lt arr ->
  binarySearch arr (Z.of_nat (length arr)) value = linearSearch arr (Z.of_nat (length arr)) value.
Proof. exact MiscProofs.searches_agree. Qed.
Example C29_example : StronglySorted Z.lt [-5; 2; 7; 11] /\
  binarySearch [-5; 2; 7; 11] 4 7 = Ok 2 /\ binarySearch [-5; 2; 7; 11] 4 8 = Ok (-1).
Proof. split; [repeat constructor|split; vm_compute; reflexivity]. Qed.
(** On an unsorted table a value that is present may be missed. *)
Theorem C29_unsorted_refuted : exists arr value, In value arr /\
  binarySearch arr (Z.of_nat (length arr)) value = Ok (-1).
Proof. exists [2; 3; 1], 1. split; [cbn; auto|vm_compute; reflexivity]. Qed.

(** * C37, run-time half: GetCharIndex *)
Theorem C37_GetCharIndex : forall ch set, In ch set ->
  exists r, GetCharIndex ch set (Z.of_nat (length set)) = Ok r /\ 0 <= r < Z.of_nat (length set) /\
    nth (Z.to_nat r) set 0 = ch.
Proof. exact MiscProofs.GetCharIndex_in. Qed.
Theorem C37_GetCharIndex_missing : forall ch set, ~ In ch set -> GetCharIndex ch set (Z.of_nat (length set)) = Ok 0.
Proof. exact MiscProofs.GetCharIndex_notin. Qed.
Example C37_example_index : In 67 [65; 66; 67] /\ GetCharIndex 67 [65; 66; 67] 3 = Ok 2 /\
  ~ In 68 [65; 66; 67] /\ GetCharIndex 68 [65; 66; 67] 3 = Ok 0.
Proof.
  repeat split; try (vm_compute; reflexivity); [cbn; auto|]. cbn. intros [H|[H|[H|H]]]; try discriminate; auto.
Qed.
(** A byte of 0x80 and above in the set is never matched by the same char: char
    is signed. *)
Theorem C37_high_refuted : exists b set, In b set /\ is_byte b /\ b - 256 = s32 (b - 256) /\
  GetCharIndex (b - 256) set (Z.of_nat (length set)) = Ok 0 /\ nth 0 set 0 <> b.
Proof. exists 0xE9, [65; 0xE9]. repeat split; try (vm_compute; congruence). cbn. auto. Qed.

(** * C44: equality functions *)
Theorem C44_OctetString_equal : forall n1 n2 a1 a2,
  0 <= n1 <= Z.of_nat (length a1) -> 0 <= n2 <= Z.of_nat (length a2) ->
  exists b, OctetString_equal n1 n2 a1 a2 = Ok b /\
    (b = true <-> firstn (Z.to_nat n1) a1 = firstn (Z.to_nat n2) a2).
Proof. exact MiscProofs.OctetString_equal_ok. Qed.
Theorem C44_BitString_equal : forall n1 n2 a1 a2, Forall is_byte a1 -> Forall is_byte a2 ->
  0 <= n1 <= 8 * Z.of_nat (length a1) -> 0 <= n2 <= 8 * Z.of_nat (length a2) ->
  exists b, BitString_equal n1 n2 a1 a2 = Ok b /\ (b = true <-> take_bits n1 a1 = take_bits n2 a2).
Proof. exact MiscProofs.BitString_equal_ok. Qed.
Theorem C44_ObjectIdentifier_equal : forall n1 n2 v1 v2, length v1 = 20%nat -> length v2 = 20%nat ->
  0 <= n1 <= 20 -> 0 <= n2 <= 20 ->
  exists b, ObjectIdentifier_equal n1 n2 v1 v2 = Ok b /\
    (b = true <-> firstn (Z.to_nat n1) v1 = firstn (Z.to_nat n2) v2).
Proof. exact MiscProofs.ObjectIdentifier_equal_ok. Qed.
Example C44_example : BitString_equal 11 11 [0xAB; 0xE0] [0xAB; 0xFF] = Ok true /\
  BitString_equal 12 12 [0xAB; 0xE0] [0xAB; 0xFF] = Ok false /\ BitString_equal 11 12 [0xAB; 0xE0] [0xAB; 0xE0] = Ok false /\
  OctetString_equal 2 2 [1; 2; 3] [1; 2; 4] = Ok true /\ OctetString_equal 3 3 [1; 2; 3] [1; 2; 4] = Ok false.
Proof. repeat split; vm_compute; reflexivity. Qed.

(** * Assumptions of all theorems above *)
Definition theorems3 := (
  @C14_subid_unique, @C14_encode, @C14_decode, @C14_encode_relative, @C14_decode_relative,
  @C14_end_to_end, @C14_end_to_end_relative, @C14_joint_iso_refuted, @C14_count_refuted,
  @C45_empty_refuted, @C45_unterminated_refuted, @C45_overflow_refuted, @C45_padded_refuted,
  @C45_invalid_refuted, @C07_ObjectIdentifier_uper_decode, @C07_RelativeOID_uper_decode,
  @C08_ObjectIdentifier_uper_decode, @C08_RelativeOID_uper_decode, @C42_ObjectIdentifier_uper_decode,
  @C42_RelativeOID_uper_decode, @C28_int2uint, @C28_uint2int, @C28_roundtrip, @C28_min_refuted,
  @C28_width_refuted, @C29_binarySearch, @C29_linearSearch, @C29_agree, @C29_unsorted_refuted,
  @C37_GetCharIndex, @C37_GetCharIndex_missing, @C37_high_refuted, @C44_OctetString_equal,
  @C44_BitString_equal, @C44_ObjectIdentifier_equal).
Print Assumptions theorems3.
