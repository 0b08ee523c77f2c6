(** Remaining proofs for Properties1.v. *)
From Verif Require Import Base Bits BitStream Ints Contracts History BitsProofs BitStreamProofs IntsProofs HistoryProofs RangeProofs SafeProofs.
From Coq Require Import ZifyBool ZifyNat.
Ltac Zify.zify_post_hook ::= Z.div_mod_to_equations.

Lemma C01_history : forall c os mem n,
  Forall op_ok os -> Forall is_byte mem -> 0 <= n <= Z.of_nat (length mem) ->
  Z.of_nat (length (ops_bits os)) <= 8 * n ->
  exists s0 s1, BitStream_Init mem n = Ok s0 /\ run_ops c os s0 = Ok (tt, s1) /\
    let L := BitStream_GetLength s1 in
    L = (Z.of_nat (length (ops_bits os)) + 7) / 8 /\ L <= n /\
    bits_of_bytes (firstn (Z.to_nat n) (buf s1)) =
      ops_bits os ++ zeros (Z.to_nat (8 * n) - length (ops_bits os)) /\
    skipn (Z.to_nat n) (buf s1) = skipn (Z.to_nat n) mem /\
    forall tail, Forall is_byte tail ->
    exists s2,
      read_ops os (BitStream_AttachBuffer (firstn (Z.to_nat L) (buf s1) ++ tail) L)
        = Ok (Some (map op_item os), s2) /\
      pos s2 = pos s1.
Proof.
  intros c os mem n HO HB Hn HL.
  apply (end_to_end (run_ops c os) (read_ops os) tt (Some (map op_item os)) (ops_bits os) mem n); auto.
  - apply writes_run_ops; auto.
  - apply reads_read_ops; auto.
Qed.

Lemma C02_width : forall min max, min <= max ->
  max - min < 2 ^ Z.of_nat (crange min max) /\
  (forall n, 0 <= n -> max - min < 2 ^ n -> Z.of_nat (crange min max) <= n).
Proof.
  intros min max H. unfold crange. pose proof (nbits_nonneg (max - min)). rewrite Z2Nat.id by lia.
  split; [apply nbits_bound; lia|]. intros. apply nbits_min; lia.
Qed.

Lemma pow256 : forall n, 0 <= n -> 256 ^ n = 2 ^ (8 * n).
Proof. intros. change 256 with (2 ^ 8). rewrite <- Z.pow_mul_r by lia. reflexivity. Qed.

Lemma nbytes_u_min : forall u, 0 <= u ->
  1 <= nbytes_u u /\ u < 256 ^ nbytes_u u /\ (forall L, 1 <= L -> u < 256 ^ L -> nbytes_u u <= L).
Proof.
  intros u Hu. pose proof (nbits_nonneg u). pose proof (nbytes_u_bits u). unfold nbytes_u in *.
  splits; try lia.
  - rewrite pow256 by lia. apply nbits_pow; lia.
  - intros L HL HU. rewrite pow256 in HU by lia. apply nbits_pow in HU; lia.
Qed.

Lemma nbytes_s_min : forall v,
  1 <= nbytes_s v /\ - 2 ^ (8 * nbytes_s v - 1) <= v < 2 ^ (8 * nbytes_s v - 1) /\
  (forall L, 1 <= L -> - 2 ^ (8 * L - 1) <= v < 2 ^ (8 * L - 1) -> nbytes_s v <= L).
Proof.
  intros v. unfold nbytes_s. set (w := if v <? 0 then - v - 1 else v).
  assert (HW : 0 <= w) by (subst w; destruct (v <? 0) eqn:E; lia).
  assert (EQ : forall k, 0 <= k -> (- 2 ^ k <= v < 2 ^ k <-> w < 2 ^ k)).
  { intros. assert (0 < 2 ^ k) by (apply Z.pow_pos_nonneg; lia). subst w. destruct (v <? 0) eqn:E; lia. }
  pose proof (nbits_nonneg w). splits; try lia.
  - apply EQ; [lia|]. apply nbits_pow; lia.
  - apply EQ; [lia|]. apply nbits_pow; lia.
  - intros L HL HV. apply EQ in HV; [|lia]. apply nbits_pow in HV; lia.
Qed.

Lemma C02_refuted : exists v min max s, is_s64 min /\ is_s64 max /\ min <= v <= max /\
  wfs s /\ 8 * count s - pos s >= 64 /\
  BitStream_EncodeConstraintWholeNumber gcc v min max s = UB /\
  BitStream_DecodeConstraintWholeNumber gcc min max s = UB.
Proof.
  exists 0, (- two63), (two63 - 1), (mkbs [0;0;0;0;0;0;0;0;0] 8 0 0).
  assert (F : Forall is_byte [0;0;0;0;0;0;0;0;0]) by (repeat constructor; unfold is_byte; discriminate).
  unfold is_s64, wfs. splits; auto; try (vm_compute; congruence).
Qed.
Lemma C05_encode_refuted : exists s, wfs s /\ 8 * count s - pos s >= 72 /\
  BitStream_EncodeUnConstraintWholeNumber gcc (- two63) s = UB.
Proof.
  exists (mkbs [0;0;0;0;0;0;0;0;0;0] 9 0 0).
  assert (F : Forall is_byte [0;0;0;0;0;0;0;0;0;0]) by (repeat constructor; unfold is_byte; discriminate).
  unfold wfs. splits; auto; try (vm_compute; congruence).
Qed.
Lemma C05_decode_refuted : exists s, wfs s /\ 8 * count s - pos s = 16 /\
  bits_of_bytes (buf s) = unc_bits (-1) ++ zeros 8 /\
  BitStream_DecodeUnConstraintWholeNumber iso s = UB.
Proof.
  exists (mkbs [1;255;0] 2 0 0).
  assert (F : Forall is_byte [1;255;0]) by (repeat constructor; unfold is_byte; discriminate).
  unfold wfs. splits; auto; try (vm_compute; congruence).
Qed.

Lemma C06_signed : forall c min max s v s', is_s64 min -> is_s64 max -> Forall is_byte (buf s) ->
  BitStream_DecodeConstraintWholeNumber c min max s = Ok (Some v, s') -> min <= v <= max.
Proof. intros. apply (yields_DecodeConstraint c min max H H0 s (Some v) s'); auto. Qed.
Lemma C06_unsigned : forall c min max s v s', is_u64 min -> is_u64 max -> Forall is_byte (buf s) ->
  BitStream_DecodeConstraintPosWholeNumber c min max s = Ok (Some v, s') -> min <= v <= max.
Proof. intros. apply (yields_DecodeConstraintPos c min max H H0 s (Some v) s'); auto. Qed.
Lemma C06_signed_narrow : forall c w min max s v s', w = 8 \/ w = 16 \/ w = 32 ->
  - 2 ^ (w - 1) <= min -> max < 2 ^ (w - 1) -> is_s64 min -> is_s64 max -> Forall is_byte (buf s) ->
  BitStream_DecodeConstraintWholeNumberIntN c w min max s = Ok (Some v, s') -> min <= v <= max.
Proof. intros. apply (yields_IntN c w min max H H0 H1 H2 H3 s (Some v) s'); auto. Qed.
Lemma C06_unsigned_narrow : forall c w min max s v s', w = 8 \/ w = 16 \/ w = 32 ->
  is_u64 min -> max < 2 ^ w -> is_u64 max -> Forall is_byte (buf s) ->
  BitStream_DecodeConstraintPosWholeNumberUIntN c w min max s = Ok (Some v, s') -> min <= v <= max.
Proof. intros. apply (yields_UIntN c w min max H H0 H1 H2 s (Some v) s'); auto. Qed.

Ltac fit m := assert (F : Forall is_byte m) by (repeat constructor; unfold is_byte; discriminate);
  unfold fits; splits; auto; try (vm_compute; congruence).
Lemma C08_ReadBit_refuted : exists s, fits s /\ BitStream_ReadBit s = UB.
Proof. exists (mkbs [7] 1 1 0). fit [7]. Qed.
Lemma C08_ReadPartialByte_refuted : exists s, fits s /\ 0 < count s /\ BitStream_ReadPartialByte 3 s = UB.
Proof. exists (mkbs [7] 1 0 6). fit [7]. Qed.
Lemma C08_DecodeUnConstraint_refuted : exists s, fits s /\ count s = 1 /\ pos s = 0 /\
  BitStream_DecodeUnConstraintWholeNumber wrapv s = UB.
Proof. exists (mkbs [1] 1 0 0). fit [1]. Qed.
Lemma C08_DecodeConstraint_refuted : exists s, fits s /\ count s = 1 /\ pos s = 4 /\
  BitStream_DecodeConstraintWholeNumber wrapv 0 100 s = UB.
Proof. exists (mkbs [1] 1 0 4). fit [1]. Qed.

Lemma C13_bits : forall v, is_u64 v -> exists n, GetNumberOfBitsForNonNegativeInteger v = Ok n /\
  0 <= n /\ v < 2 ^ n /\ (forall m, 0 <= m -> v < 2 ^ m -> n <= m).
Proof.
  intros v H. exists (nbits v). splits; [apply GetNumberOfBits_ok; auto|apply nbits_nonneg|apply nbits_bound|].
  - unfold is_u64 in H; lia.
  - intros. apply nbits_min; auto.
Qed.
Lemma C13_bytes_unsigned : forall v, is_u64 v -> let L := GetLengthInBytesOfUInt v in
  1 <= L /\ v < 256 ^ L /\ (forall m, 1 <= m -> v < 256 ^ m -> L <= m).
Proof. intros v H. cbv zeta. rewrite GetLengthUInt_ok by auto. apply nbytes_u_min. unfold is_u64 in H; lia. Qed.
Lemma C13_bytes_signed : forall c v, is_s64 v -> sfits c (- v) ->
  exists L, GetLengthInBytesOfSInt c v = Ok L /\ 1 <= L /\ - 2 ^ (8 * L - 1) <= v < 2 ^ (8 * L - 1) /\
  (forall m, 1 <= m -> - 2 ^ (8 * m - 1) <= v < 2 ^ (8 * m - 1) -> L <= m).
Proof.
  intros c v H HF. exists (nbytes_s v). split; [apply GetLengthSInt_ok; auto|]. apply nbytes_s_min.
Qed.
