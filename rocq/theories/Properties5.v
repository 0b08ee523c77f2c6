(** C12 (and C07, C08 for REAL). Statements only; the proofs are in
    RealProofs.v and Properties5Proofs.v. *)
From Verif Require Import Base Bits BitStream Contracts RealSpec RealC.
From Verif Require RealProofs Properties5Proofs.

Ltac run :=
  lazymatch goal with
  | |- _ /\ _ => split; [run|run]
  | |- Forall _ _ => repeat constructor; vm_compute; discriminate
  | |- _ => vm_compute; first [reflexivity | discriminate | split; run | idtac]
  end.

(** * C12 *)
(** Every double except -0 and the subnormal numbers is written as contents
    octets that X.690 interprets as exactly that double. *)
Theorem C12_encode : forall c x, is_double x -> encodable x ->
  writes (BitStream_EncodeReal c x) tt (real_bits x) /\ x690_real (real_octets x) = Some (exactly x).
Proof. exact Properties5Proofs.encode_kept. Qed.
(** Doubles of magnitude 2^-971 or more, +0, infinities and NaN are read back.
    A negative exponent needs a compiler that defines left shifts of negative
    numbers. *)
Theorem C12_decode : forall c x, is_double x -> kept x ->
  (shl_wrap c = true \/ match x with S754_finite _ _ e => 0 <= e | _ => True end) ->
  reads (BitStream_DecodeReal c) (Some x) (real_bits x).
Proof. exact Properties5Proofs.decode_kept. Qed.
(** What happens to every double, and which are read back unchanged. *)
Theorem C12_any_double : forall c x, is_double x -> shl_wrap c = true ->
  writes (BitStream_EncodeReal c x) tt (real_bits (sent x)) /\
  reads (BitStream_DecodeReal c) (Some (returned x)) (real_bits (sent x)).
Proof. exact Properties5Proofs.any_double. Qed.
Theorem C12_unchanged_iff : forall x, returned x = x <-> kept x.
Proof. exact Properties5Proofs.returned_iff. Qed.
(** The decoder accepts every X.690 binary encoding (any base, scaling factor,
    padding of exponent and mantissa) except the form with a separate exponent
    length, with mantissa below 2^64, and returns the nearest double. *)
Theorem C12_decode_x690 : forall c l r, Forall is_byte l -> Z.of_nat (length l) <= 127 ->
  x690_real l = Some r ->
  match l with h :: _ => Z.testbit h 7 = true -> h mod 4 <> 3 | [] => True end ->
  match r with RNum _ M E => M < two64 /\ -1023 <= E /\ (shl_wrap c = true \/ 0 <= E) | _ => True end ->
  reads (BitStream_DecodeReal c) (Some (nearest r)) (bits_of_bytes (Z.of_nat (length l) :: l)).
Proof. exact Properties5Proofs.decode_nearest. Qed.
(** Without the bound on the exponent: zero below -1023. *)
Theorem C12_decode_x690_small : forall c l r, Forall is_byte l -> Z.of_nat (length l) <= 127 ->
  x690_real l = Some r ->
  match l with h :: _ => Z.testbit h 7 = true -> h mod 4 <> 3 | [] => True end ->
  match r with RNum _ M E => M < two64 /\ (shl_wrap c = true \/ 0 <= E) | _ => True end ->
  reads (BitStream_DecodeReal c) (Some (flushed r)) (bits_of_bytes (Z.of_nat (length l) :: l)).
Proof. exact Properties5Proofs.decode_x690. Qed.
(** Single precision: all floats except -0, subnormal ones included. *)
Theorem C12_float : forall c x, is_float x -> x <> S754_zero true -> shl_wrap c = true ->
  writes (BitStream_EncodeReal c (float_to_double x)) tt (real_bits (float_to_double x)) /\
  reads (BitStream_DecodeReal_fp32 c) (Some x) (real_bits (float_to_double x)).
Proof. exact Properties5Proofs.float_round. Qed.

(** -1.5 = -3 * 2^-1; 10 in base 16 with scaling factor 1 *)
Definition C12_x : double := S754_finite true 6755399441055744 (-52).
Example C12_example : is_double C12_x /\ encodable C12_x /\ kept C12_x /\ shl_wrap gcc = true /\
  real_octets C12_x = [0xC0; 0xCC; 24; 0; 0; 0; 0; 0; 0] /\
  BitStream_EncodeReal gcc C12_x (mkbs (repeat 0 11) 10 0 0) =
    Ok (tt, mkbs [9; 0xC0; 0xCC; 24; 0; 0; 0; 0; 0; 0; 0] 10 10 0) /\
  BitStream_DecodeReal gcc (mkbs [9; 0xC0; 0xCC; 24; 0; 0; 0; 0; 0; 0] 10 0 0) =
    Ok (Some C12_x, mkbs [9; 0xC0; 0xCC; 24; 0; 0; 0; 0; 0; 0] 10 10 0).
Proof. run. Qed.
Example C12_x690_example : x690_real [0xA4; 0; 5] = Some (RNum false 10 0) /\
  x690_real [0x99; 0xFF; 0xFF; 0; 3] = Some (RNum false 12 (-3)) /\
  BitStream_DecodeReal iso (mkbs [3; 0xA4; 0; 5] 4 0 0) =
    Ok (Some (S754_finite false 5629499534213120 (-49)), mkbs [3; 0xA4; 0; 5] 4 4 0) /\
  nearest (RNum false 10 0) = S754_finite false 5629499534213120 (-49) /\
  BitStream_DecodeReal gcc (mkbs [5; 0x99; 0xFF; 0xFF; 0; 3] 6 0 0) =
    Ok (Some (S754_finite false 6755399441055744 (-52)), mkbs [5; 0x99; 0xFF; 0xFF; 0; 3] 6 6 0).
Proof. run. Qed.
Example C12_float_example : is_float (S754_finite true 1 (-149)) /\ S754_finite true 1 (-149) <> S754_zero true /\
  float_to_double (S754_finite true 1 (-149)) = S754_finite true 4503599627370496 (-201).
Proof. run. Qed.

(** ** Where C12 fails *)
(** A normal number is read back as zero although its encoding is right. *)
Theorem C12_small_refuted : exists x s s', is_double x /\ normal x /\ x690_real (real_octets x) = Some (exactly x) /\
  BitStream_EncodeReal gcc x (mkbs (repeat 0 12) 12 0 0) = Ok (tt, s) /\
  BitStream_DecodeReal gcc (mkbs (buf s) 12 0 0) = Ok (Some (S754_zero false), s').
Proof.
  exists (S754_finite false 4503599627370496 (-1024)). eexists. eexists.
  run.
Qed.
(** A subnormal number is written as another number. *)
Theorem C12_subnormal_refuted : exists x s, is_double x /\
  BitStream_EncodeReal gcc x (mkbs (repeat 0 11) 11 0 0) = Ok (tt, s) /\
  exactly x = RNum false 1 (-1074) /\
  x690_real (skipn 1 (buf s)) = Some (RNum false (1 + 2 ^ 52) (-1075)).
Proof.
  exists (S754_finite false 1 (-1074)). eexists.
  run.
Qed.
Theorem C12_minus_zero_refuted : exists s s', is_double (S754_zero true) /\
  BitStream_EncodeReal gcc (S754_zero true) (mkbs (repeat 0 2) 2 0 0) = Ok (tt, s) /\
  BitStream_DecodeReal gcc (mkbs (buf s) 2 0 0) = Ok (Some (S754_zero false), s').
Proof. eexists. eexists. run. Qed.
(** The form with a separate exponent length denotes 6, and is refused. *)
Theorem C12_exponent_length_refuted : exists l s', x690_real l = Some (RNum false 3 1) /\
  BitStream_DecodeReal gcc (mkbs (Z.of_nat (length l) :: l ++ [0; 0]) (Z.of_nat (length l) + 1) 0 0) = Ok (None, s').
Proof. exists [0x83; 1; 1; 3]. eexists. run. Qed.
(** A mantissa of 2^64 is read as zero. *)
Theorem C12_mantissa_refuted : exists l s', x690_real l = Some (RNum false (2 ^ 64) 0) /\
  BitStream_DecodeReal gcc (mkbs (Z.of_nat (length l) :: l ++ [0; 0]) (Z.of_nat (length l) + 1) 0 0)
    = Ok (Some (S754_zero false), s').
Proof. exists [0x80; 0; 1; 0; 0; 0; 0; 0; 0; 0; 0]. eexists. run. Qed.
(** Decimal encodings are read as binary ones: "1.E0" gives 0. *)
Theorem C12_decimal_refuted : exists s', 
  BitStream_DecodeReal gcc (mkbs [5; 3; 0x31; 0x2E; 0x45; 0x30; 0] 6 0 0) = Ok (Some (S754_zero false), s').
Proof. eexists. vm_compute. reflexivity. Qed.
(** The mantissa is not reduced to an odd number (X.690 11.3.1, X.691 15.1). *)
Theorem C12_canonical_refuted : exists x, is_double x /\ encodable x /\ ~ canonical_real (real_octets x).
Proof.
  exists one. split; [reflexivity|]. split; [vm_compute; discriminate|].
  vm_compute. intros [H|H]; discriminate H.
Qed.
(** In ISO C, reading the encoding of 1.0 shifts a negative number. *)
Theorem C12_iso_refuted : exists s, BitStream_EncodeReal iso one (mkbs (repeat 0 12) 12 0 0) = Ok (tt, s) /\
  BitStream_DecodeReal iso (mkbs (buf s) 12 0 0) = UB.
Proof. eexists. run. Qed.

(** * C07 and C08 for REAL *)
Theorem C07_DecodeReal : forall c, tame (BitStream_DecodeReal c).
Proof. exact Properties5Proofs.tame_DecodeReal. Qed.
Theorem C07_DecodeReal_fp32 : forall c, tame (BitStream_DecodeReal_fp32 c).
Proof. exact Properties5Proofs.tame_DecodeReal_fp32. Qed.
(** With a guard byte, and a compiler that wraps signed arithmetic, any bytes give
    a double or a failure. *)
Theorem C08_DecodeReal : forall c, ovf_wrap c = true -> shl_wrap c = true ->
  safe (BitStream_DecodeReal c) is_double.
Proof. exact RealProofs.safe_DecodeReal. Qed.
Theorem C08_DecodeReal_fp32 : forall c, ovf_wrap c = true -> shl_wrap c = true ->
  safe (BitStream_DecodeReal_fp32 c) (fun _ => True).
Proof. exact Properties5Proofs.safe_DecodeReal_fp32. Qed.
Example C08_real_example : ovf_wrap wrapv = true /\ shl_wrap wrapv = true /\ wfs (mkbs [4; 0xC1; 3; 200; 9; 77] 5 0 0) /\
  inside (mkbs [4; 0xC1; 3; 200; 9; 77] 5 0 0).
Proof. run. Qed.
(** Without the guard byte: the sign of an absent exponent is read. *)
Theorem C08_DecodeReal_refuted : exists s, fits s /\ count s = 2 /\ pos s = 0 /\ BitStream_DecodeReal gcc s = UB.
Proof.
  exists (mkbs [2; 0x80] 2 0 0). run.
Qed.
(** With signed overflow undefined, four exponent octets overflow the product. *)
Theorem C08_DecodeReal_overflow_refuted : exists s, wfs s /\ BitStream_DecodeReal gcc s = UB.
Proof.
  exists (mkbs [6; 0x93; 0x7F; 0xFF; 0xFF; 0xFF; 1; 0] 7 0 0).
  run.
Qed.

(** * Assumptions of all theorems above *)
Definition theorems5 := (
  @C12_encode, @C12_decode, @C12_any_double, @C12_unchanged_iff, @C12_decode_x690,
  @C12_decode_x690_small, @C12_float, @C12_small_refuted, @C12_subnormal_refuted,
  @C12_minus_zero_refuted, @C12_exponent_length_refuted, @C12_mantissa_refuted, @C12_decimal_refuted,
  @C12_canonical_refuted, @C12_iso_refuted, @C07_DecodeReal, @C07_DecodeReal_fp32, @C08_DecodeReal,
  @C08_DecodeReal_fp32, @C08_DecodeReal_refuted, @C08_DecodeReal_overflow_refuted).
Print Assumptions theorems5.
