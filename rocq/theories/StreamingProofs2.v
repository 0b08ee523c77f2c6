(** Proofs about the streaming integer encoders, with a pushData that clears the
    buffer and blocks of at least 8 bytes. *)
From Coq Require Import ZArith List Bool Lia.
From Coq Require Import ZifyBool ZifyNat.
From Verif Require Import Base Bits BitsProofs BitStream Ints Contracts BitStreamProofs BitStreamProofs2 IntsProofs Streaming StreamingSpec StreamingProofs.
Import ListNotations.
Open Scope Z_scope.
Ltac Zify.zify_post_hook ::= Z.div_mod_to_equations.

Lemma swrites_enc32_bytes : forall N, 8 <= N -> forall c neg v fuel k, Z.of_nat k < Z.of_nat fuel -> Z.of_nat k <= 4 ->
  swrites true N (senc32_bytes c true fuel v (8 * Z.of_nat k) neg) tt (Zbits (8 * k) (if neg then Z.lnot v else v)).
Proof.
  intros N HN c neg v fuel. induction fuel; intros k HF HK; [lia|]. cbn [senc32_bytes].
  destruct (8 * Z.of_nat k =? 0) eqn:E.
  - destruct k; [|lia]. apply swrites_ret.
  - destruct k as [|k]; [lia|].
    destruct (masks2_byte v (Z.of_nat (S k))) as (m & Hm & Hb); [lia|].
    assert (SH : Z.shiftr (8 * Z.of_nat (S k)) 3 = Z.of_nat (S k)).
    { rewrite Z.shiftr_div_pow2 by lia. change (2 ^ 3) with 8. lia. }
    rewrite SH. eapply swrites_pure_l with (a := m).
    { apply onb_pure. intros. unfold tbl, lift. rewrite Hm. reflexivity. }
    cbv beta zeta. replace (8 * Z.of_nat (S k) - 8) with (8 * Z.of_nat k) by lia.
    replace (8 * (Z.of_nat (S k) - 1)) with (8 * Z.of_nat k) in Hb by lia. rewrite Hb.
    replace (8 * S k)%nat with (8 + 8 * k)%nat by lia. rewrite Zbits_app.
    eapply swrites_bind.
    + eapply swrites_eq; [apply swrites_AppendByte; apply is_byte_byte_of|].
      rewrite Zbits_neg_byte by lia. do 2 f_equal. lia.
    + apply IHfuel; lia.
Qed.

Lemma swrites_Encode32Neg : forall N, 8 <= N -> forall c v neg, is_u32 v ->
  swrites true N (sEncode32Neg c true v neg) tt
    (Zbits (Z.to_nat (nbits v)) (if neg then Z.lnot v else v)).
Proof.
  intros N HN c v neg H. unfold sEncode32Neg.
  destruct (v =? 0) eqn:E0.
  { replace v with 0 by lia. rewrite nbits_0. apply swrites_ret. }
  unfold is_u32, two32 in H.
  assert (HV : 0 < v) by lia. pose proof (nbits_pos v HV) as NP.
  assert (exists cc, (if v <? 256 then (8, 128) else if v <? 65536 then (16, 32768) else if v <? 16777216 then (24, 8388608) else (32, 2147483648))
            = (cc, 2 ^ (cc - 1)) /\ nbits v <= cc /\ cc <= 32) as (cc & -> & C1 & C2).
  { destruct (v <? 256) eqn:E1; [exists 8|destruct (v <? 65536) eqn:E2; [exists 16|destruct (v <? 16777216) eqn:E3; [exists 24|exists 32]]];
    (split; [reflexivity|split; [apply nbits_min; cbn; lia|lia]]). }
  eapply swrites_pure_l with (a := nbits v).
  { apply onb_pure. intros. unfold lift. rewrite msb_loop_ok by (auto; lia). reflexivity. }
  cbv beta zeta. rewrite Z.rem_mod_nonneg by lia.
  set (p := nbits v mod 8). set (k := Z.to_nat (nbits v / 8)).
  assert (HK : nbits v - p = 8 * Z.of_nat k) by (unfold p, k; lia).
  destruct (p =? 0) eqn:EP; cbn [negb].
  - eapply swrites_eq; [replace (nbits v) with (8 * Z.of_nat k) by lia; apply swrites_enc32_bytes; lia|].
    f_equal. lia.
  - rewrite HK. replace (Z.to_nat (nbits v)) with (Z.to_nat p + 8 * k)%nat by lia. rewrite Zbits_app.
    assert (SV : 0 <= Z.shiftr v (8 * Z.of_nat k) < 2 ^ p).
    { replace p with (nbits v - 8 * Z.of_nat k) by lia. apply shiftr_lt; [lia|]. pose proof (nbits_bound v). lia. }
    assert (P8 : 2 ^ p <= 2 ^ 8) by (apply Z.pow_le_mono_r; lia).
    rewrite (byte_of_id p) by (unfold is_byte, p; lia).
    rewrite (byte_of_id (Z.shiftr _ _)) by (unfold is_byte; lia).
    eapply swrites_bind.
    + eapply swrites_eq; [apply swrites_AppendPartialByte; try lia|].
      apply Zbits_ext. intros i Hi. destruct neg.
      * rewrite Z.lnot_spec, !Z.shiftr_spec, Z.lnot_spec by lia. do 2 f_equal. lia.
      * rewrite !Z.shiftr_spec by lia. f_equal. lia.
    + cbv beta. apply swrites_enc32_bytes; lia.
Qed.

Lemma swrites_lo32 : forall N, 8 <= N -> forall c lo, is_u32 lo ->
  swrites true N (do nBits <- slift (GetNumberOfBitsForNonNegativeInteger lo) in
          sAppendNBitZero true (32 - nBits) ;>>
          sEncode32Neg c true lo false) tt (Zbits 32 lo).
Proof.
  intros N HN c lo H.
  assert (N32 : nbits lo <= 32) by (apply nbits_min; unfold is_u32, two32 in *; lia).
  pose proof (nbits_nonneg lo).
  eapply swrites_pure_l with (a := nbits lo).
  { apply onb_pure. intros. unfold lift. rewrite GetNumberOfBits_ok; auto. unfold is_u32, is_u64, two32, two64 in *; lia. }
  cbv beta. eapply swrites_eq.
  - eapply swrites_bind; [apply swrites_AppendNBitZero; lia|apply swrites_Encode32Neg; auto].
  - cbv iota. rewrite (Zbits_pad (Z.to_nat (nbits lo)) 32 lo); [f_equal; f_equal; lia| |lia].
    rewrite Z2Nat.id by lia. pose proof (nbits_bound lo). unfold is_u32 in *; lia.
Qed.

Lemma swrites_EncodeNonNeg : forall N, 8 <= N -> forall c v, is_u64 v ->
  swrites true N (sEncodeNonNeg c true v) tt (Zbits (Z.to_nat (nbits v)) v).
Proof.
  intros N HN c v H. unfold sEncodeNonNeg.
  destruct (v <? 4294967296) eqn:E.
  - assert (is_u32 v) by (unfold is_u64, is_u32, two32 in *; lia). rewrite u32_id by auto.
    apply (swrites_Encode32Neg N HN c v false); auto.
  - rewrite Zbits_split32 by (auto; lia).
    rewrite (u32_id (Z.shiftr v 32)) by (apply hi_u32; auto).
    eapply swrites_bind; [apply (swrites_Encode32Neg N HN c _ false); apply hi_u32; auto|].
    cbv beta. rewrite <- Zbits_u32. apply swrites_lo32; auto. apply u32_range.
Qed.

Lemma swrites_EncodeNonNegNeg : forall N, 8 <= N -> forall c v neg, is_u64 v ->
  swrites true N (sEncodeNonNegNeg c true v neg) tt (Zbits (Z.to_nat (nbits v)) (if neg then Z.lnot v else v)).
Proof.
  intros N HN c v neg H. unfold sEncodeNonNegNeg.
  destruct (v <? 4294967296) eqn:E.
  - assert (is_u32 v) by (unfold is_u64, is_u32, two32 in *; lia). rewrite u32_id by auto.
    apply (swrites_Encode32Neg N HN c v neg); auto.
  - assert (NB := nbits_u64 v H).
    assert (33 <= nbits v).
    { destruct (Z_lt_dec (nbits v) 33); [|lia]. assert (v < 2 ^ 32); [|cbn in *; lia]. apply nbits_pow; lia. }
    rewrite (u32_id (Z.shiftr v 32)) by (apply hi_u32; auto).
    replace (Z.to_nat (nbits v)) with (Z.to_nat (nbits (Z.shiftr v 32)) + 32)%nat
      by (rewrite nbits_shiftr by (cbn; lia); lia).
    rewrite Zbits_app.
    eapply swrites_bind.
    + eapply swrites_eq; [apply (swrites_Encode32Neg N HN c _ neg); apply hi_u32; auto|].
      apply Zbits_ext. intros i Hi. destruct neg; auto.
      rewrite Z.lnot_spec, !Z.shiftr_spec, Z.lnot_spec by lia. reflexivity.
    + cbv beta zeta. eapply swrites_eq; [apply swrites_lo32; auto; destruct neg; apply u32_range|].
      destruct neg; rewrite Zbits_u32; auto.
      apply Zbits_ext. intros i Hi. rewrite !Z.lnot_spec by lia. f_equal.
      unfold u32, two32. apply Z.mod_pow2_bits_low. lia.
Qed.

Lemma swrites_padded : forall N, 8 <= N -> forall c v n, is_u64 v -> nbits v <= n -> n <= 64 ->
  swrites true N (sAppendNBitZero true (n - nbits v) ;>> sEncodeNonNeg c true v) tt (Zbits (Z.to_nat n) v).
Proof.
  intros N HN c v n HU64 HNB HN64. pose proof (nbits_nonneg v). eapply swrites_eq.
  - eapply swrites_bind; [apply swrites_AppendNBitZero; lia|apply swrites_EncodeNonNeg; auto].
  - rewrite (Zbits_pad (Z.to_nat (nbits v)) (Z.to_nat n) v); [f_equal; f_equal; lia| |lia].
    rewrite Z2Nat.id by lia. pose proof (nbits_bound v). unfold is_u64 in *; lia.
Qed.

Lemma swrites_EncodeConstraint : forall N, 8 <= N -> forall c v min max, is_s64 min -> is_s64 max -> min <= v <= max ->
  sfits c (max - min) ->
  swrites true N (sEncodeConstraint c true v min max) tt (Zbits (crange min max) (v - min)).
Proof.
  intros N HN c v min max Hmin Hmax Hv HF. unfold sEncodeConstraint, crange.
  assert (Hvs : is_s64 v) by (unfold is_s64 in *; lia).
  eapply swrites_pure_l with (a := tt). { apply onb_pure. intros. apply massert_true. lia. }
  eapply swrites_pure_l with (a := s64 (max - min)). { apply onb_pure. intros. unfold lift. rewrite sres_s64; auto. }
  cbv zeta. rewrite u64_sub by (auto; lia).
  assert (HR : is_u64 (max - min)) by (unfold is_s64, is_u64, two63, two64 in *; lia).
  destruct (max - min =? 0) eqn:E.
  { replace (max - min) with 0 by lia. rewrite nbits_0. apply swrites_ret. }
  eapply swrites_pure_l with (a := nbits (max - min)). { apply onb_pure. intros. unfold lift. rewrite GetNumberOfBits_ok; auto. }
  assert (HD : is_u64 (v - min)) by (unfold is_s64, is_u64, two63, two64 in *; lia).
  eapply swrites_pure_l with (a := s64 (v - min)).
  { apply onb_pure. intros. unfold lift. rewrite sres_s64; auto. destruct HF as [HF|HF]; [left|right; auto].
    unfold is_s64, two63 in *; lia. }
  rewrite u64_sub by (auto; lia).
  eapply swrites_pure_l with (a := nbits (v - min)). { apply onb_pure. intros. unfold lift. rewrite GetNumberOfBits_ok; auto. }
  apply swrites_padded; auto; [apply nbits_mono; lia|]. pose proof (nbits_u64 _ HR). lia.
Qed.

Lemma swrites_EncodeConstraintPos : forall N, 8 <= N -> forall c v min max, 0 <= min -> max < two64 -> min <= v <= max ->
  swrites true N (sEncodeConstraintPos c true v min max) tt (Zbits (crange min max) (v - min)).
Proof.
  intros N HN c v min max Hmin Hmax Hv. unfold sEncodeConstraintPos, crange.
  eapply swrites_pure_l with (a := tt). { apply onb_pure. intros. apply massert_true. lia. }
  eapply swrites_pure_l with (a := tt). { apply onb_pure. intros. apply massert_true. lia. }
  assert (HR : is_u64 (max - min)) by (unfold is_u64 in *; lia).
  assert (HD : is_u64 (v - min)) by (unfold is_u64 in *; lia).
  cbv zeta. rewrite !u64_id by auto.
  destruct (max - min =? 0) eqn:E.
  { replace (max - min) with 0 by lia. rewrite nbits_0. apply swrites_ret. }
  eapply swrites_pure_l with (a := nbits (max - min)). { apply onb_pure. intros. unfold lift. rewrite GetNumberOfBits_ok; auto. }
  eapply swrites_pure_l with (a := nbits (v - min)). { apply onb_pure. intros. unfold lift. rewrite GetNumberOfBits_ok; auto. }
  apply swrites_padded; auto; [apply nbits_mono; lia|]. pose proof (nbits_u64 _ HR). lia.
Qed.

Lemma swrites_len255 : forall N, 8 <= N -> forall c n, 0 <= n <= 255 ->
  swrites true N (sEncodeConstraint c true n 0 255) tt (Zbits 8 n).
Proof.
  intros N HN c n Hn. eapply swrites_eq; [apply swrites_EncodeConstraint; auto; try (unfold is_s64, two63; lia)|].
  - left. unfold is_s64, two63; lia.
  - unfold crange. rewrite !Z.sub_0_r. reflexivity.
Qed.

Lemma swrites_semi_tail : forall N, 8 <= N -> forall c u, is_u64 u ->
  swrites true N (sEncodeConstraint c true (GetLengthInBytesOfUInt u) 0 255 ;>>
    do nb <- slift (GetNumberOfBitsForNonNegativeInteger u) in
    sAppendNBitZero true (GetLengthInBytesOfUInt u * 8 - nb) ;>>
    sEncodeNonNeg c true u) tt (semi_bits u).
Proof.
  intros N HN c u H. rewrite GetLengthUInt_ok by auto. unfold semi_bits.
  pose proof (nbytes_u_range u H). pose proof (nbytes_u_bits u).
  eapply swrites_bind; [apply swrites_len255; lia|].
  eapply swrites_pure_l with (a := nbits u). { apply onb_pure. intros. unfold lift. rewrite GetNumberOfBits_ok; auto. }
  replace (8 * nbytes_u u) with (nbytes_u u * 8) in * by lia. apply swrites_padded; auto; lia.
Qed.

Lemma swrites_EncodeSemi : forall N, 8 <= N -> forall c v min, is_s64 v -> is_s64 min -> min <= v -> sfits c (v - min) ->
  swrites true N (sEncodeSemi c true v min) tt (semi_bits (v - min)).
Proof.
  intros N HN c v min Hv Hm Hle HF. unfold sEncodeSemi.
  eapply swrites_pure_l with (a := tt). { apply onb_pure. intros. apply massert_true. lia. }
  eapply swrites_pure_l with (a := s64 (v - min)). { apply onb_pure. intros. unfold lift. rewrite sres_s64; auto. }
  cbv zeta. rewrite u64_sub by auto. apply swrites_semi_tail; auto.
  unfold is_u64, is_s64, two63, two64 in *; lia.
Qed.

Lemma swrites_EncodeSemiPos : forall N, 8 <= N -> forall c v min, is_u64 v -> is_u64 min -> min <= v ->
  swrites true N (sEncodeSemiPos c true v min) tt (semi_bits (v - min)).
Proof.
  intros N HN c v min Hv Hm Hle. unfold sEncodeSemiPos.
  eapply swrites_pure_l with (a := tt). { apply onb_pure. intros. apply massert_true. lia. }
  assert (is_u64 (v - min)) by (unfold is_u64 in *; lia).
  cbv zeta. rewrite u64_id by auto. apply swrites_semi_tail; auto.
Qed.

Lemma swrites_EncodeUnc : forall N, 8 <= N -> forall c v, is_s64 v -> sfits c (- v) ->
  swrites true N (sEncodeUnc c true v) tt (unc_bits v).
Proof.
  intros N HN c v Hv HF. unfold sEncodeUnc, unc_bits.
  pose proof (nbytes_s_range v Hv). pose proof (nbytes_s_bits v) as NB.
  eapply swrites_pure_l with (a := nbytes_s v). { apply onb_pure. intros. unfold lift. rewrite GetLengthSInt_ok; auto. }
  eapply swrites_bind; [apply swrites_len255; lia|].
  destruct (0 <=? v) eqn:E.
  - replace (v <? 0) with false in NB by lia.
    assert (HU : is_u64 v) by (unfold is_u64, is_s64, two63, two64 in *; lia).
    rewrite u64_id by auto.
    eapply swrites_pure_l with (a := nbits v). { apply onb_pure. intros. unfold lift. rewrite GetNumberOfBits_ok; auto. }
    replace (8 * nbytes_s v) with (nbytes_s v * 8) in * by lia. apply swrites_padded; auto; lia.
  - replace (v <? 0) with true in NB by lia.
    eapply swrites_pure_l with (a := - v - 1). { apply onb_pure. intros. unfold lift. rewrite neg_m1_ok; auto. lia. }
    assert (HU : is_u64 (- v - 1)) by (unfold is_u64, is_s64, two63, two64 in *; lia).
    eapply swrites_pure_l with (a := nbits (- v - 1)). { apply onb_pure. intros. unfold lift. rewrite GetNumberOfBits_ok; auto. }
    pose proof (nbits_nonneg (- v - 1)). pose proof (nbits_bound (- v - 1)).
    eapply swrites_eq.
    + eapply swrites_bind; [apply swrites_AppendNBitOne; lia|].
      apply swrites_EncodeNonNegNeg; auto.
    + cbv iota. replace (Z.lnot (- v - 1)) with v by (unfold Z.lnot; lia).
      rewrite (Zbits_ones_pad (Z.to_nat (nbits (- v - 1))) (Z.to_nat (8 * nbytes_s v)) v).
      * f_equal. f_equal. lia.
      * rewrite Z2Nat.id by lia. unfold is_s64 in *; lia.
      * lia.
Qed.
