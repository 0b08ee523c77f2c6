(** Proofs about the integer codecs. *)
From Coq Require Import ZArith List Bool Lia.
From Coq Require Import ZifyBool ZifyNat.
From Verif Require Import Base Bits BitsProofs BitStream Contracts BitStreamProofs BitStreamProofs2 BitStreamProofs3 Ints.
Import ListNotations.
Open Scope Z_scope.
Ltac Zify.zify_post_hook ::= Z.div_mod_to_equations.

(** ** Machine integer facts *)
Lemma u64_id : forall x, is_u64 x -> u64 x = x.
Proof. intros. apply Z.mod_small. auto. Qed.
Lemma u32_id : forall x, is_u32 x -> u32 x = x.
Proof. intros. apply Z.mod_small. auto. Qed.
Lemma u32_range : forall x, is_u32 (u32 x).
Proof. intros. apply Z.mod_pos_bound. reflexivity. Qed.
Lemma u64_range : forall x, is_u64 (u64 x).
Proof. intros. apply Z.mod_pos_bound. reflexivity. Qed.
Lemma s64_id : forall x, is_s64 x -> s64 x = x.
Proof.
  intros. unfold s64, is_s64 in *. change two64 with (2 * two63) in *.
  destruct (x mod (2 * two63) <? two63) eqn:E; unfold two63 in *; lia.
Qed.
Lemma s64_range : forall x, is_s64 (s64 x).
Proof.
  intros. unfold s64, is_s64. pose proof (Z.mod_pos_bound x two64 eq_refl) as H.
  destruct (x mod two64 <? two63) eqn:E; unfold two64, two63 in *; lia.
Qed.
Lemma s64_cong : forall x, exists k, s64 x = x + k * two64.
Proof.
  intros. unfold s64. pose proof (Z.div_mod x two64 ltac:(discriminate)).
  destruct (x mod two64 <? two63); [exists (- (x / two64))|exists (- (x / two64) - 1)]; lia.
Qed.
Lemma u64_cong : forall x, exists k, u64 x = x + k * two64.
Proof.
  intros. exists (- (x / two64)). unfold u64. pose proof (Z.div_mod x two64 ltac:(discriminate)). lia.
Qed.
Lemma u64_add_k : forall x k, u64 (x + k * two64) = u64 x.
Proof. intros. apply Z.mod_add. discriminate. Qed.
Lemma s64_add_k : forall x k, s64 (x + k * two64) = s64 x.
Proof. intros. unfold s64. rewrite Z.mod_add by discriminate. reflexivity. Qed.
Lemma u64_s64 : forall x, u64 (s64 x) = u64 x.
Proof. intros. destruct (s64_cong x) as [k ->]. apply u64_add_k. Qed.
Lemma s64_u64 : forall x, s64 (u64 x) = s64 x.
Proof. intros. destruct (u64_cong x) as [k ->]. apply s64_add_k. Qed.

Lemma in_s64_iff : forall x, in_s64 x = true <-> is_s64 x.
Proof. intros. unfold in_s64, is_s64. lia. Qed.

Lemma sres_ok : forall c x, is_s64 x -> sres c x = Ok x.
Proof. intros. unfold sres. apply in_s64_iff in H. rewrite H. reflexivity. Qed.

(** Does the configuration give a defined result to a signed operation whose
    exact result is x? *)

Lemma sres_s64 : forall c x, sfits c x -> sres c x = Ok (s64 x).
Proof.
  intros c x [H|H].
  - rewrite sres_ok, s64_id; auto.
  - unfold sres. destruct (in_s64 x) eqn:E.
    + apply in_s64_iff in E. rewrite s64_id; auto.
    + rewrite H. reflexivity.
Qed.

(** ** Bit counts *)
Lemma nbits_0 : nbits 0 = 0. Proof. reflexivity. Qed.
Lemma nbits_pos : forall v, 0 < v -> 1 <= nbits v.
Proof. intros. unfold nbits. destruct (v <=? 0) eqn:E; [lia|]. pose proof (Z.log2_nonneg v). lia. Qed.
Lemma nbits_zero : forall v, 0 <= v -> nbits v = 0 -> v = 0.
Proof. intros. destruct (Z.eq_dec v 0); auto. pose proof (nbits_pos v). lia. Qed.

Lemma nbits_shiftr : forall v k, 0 <= k -> 2 ^ k <= v -> nbits (Z.shiftr v k) = nbits v - k.
Proof.
  intros. assert (0 < 2 ^ k) by (apply Z.pow_pos_nonneg; lia).
  assert (k <= Z.log2 v) by (apply Z.log2_le_pow2; lia).
  assert (0 < Z.shiftr v k).
  { rewrite Z.shiftr_div_pow2 by lia. apply Z.div_str_pos. lia. }
  unfold nbits. destruct (Z.shiftr v k <=? 0) eqn:E1; [lia|]. destruct (v <=? 0) eqn:E2; [lia|].
  rewrite Z.log2_shiftr by lia. lia.
Qed.

Lemma nbits_shiftr1 : forall v, 0 < v -> nbits (Z.shiftr v 1) = nbits v - 1.
Proof.
  intros. destruct (Z.eq_dec v 1) as [->|]; [reflexivity|]. apply nbits_shiftr; cbn; lia.
Qed.

Lemma shiftr_nonneg' : forall v k, 0 <= v -> 0 <= Z.shiftr v k.
Proof. intros. apply Z.shiftr_nonneg. auto. Qed.

Lemma nb_loop_ok : forall fuel v r, 0 <= v -> nbits v < Z.of_nat fuel -> nb_loop fuel v r = Ok (r + nbits v).
Proof.
  induction fuel; intros; [pose proof (nbits_nonneg v); lia|]. cbn [nb_loop].
  destruct (0 <? v) eqn:E.
  - assert (S1 : nbits (Z.shiftr v 1) = nbits v - 1) by (apply nbits_shiftr1; lia).
    rewrite IHfuel; [f_equal; lia|apply shiftr_nonneg'; lia|lia].
  - replace v with 0 by lia. rewrite nbits_0. f_equal. lia.
Qed.

Lemma shiftr_lt : forall v n k, 0 <= k <= n -> 0 <= v < 2 ^ n -> 0 <= Z.shiftr v k < 2 ^ (n - k).
Proof.
  intros. rewrite Z.shiftr_div_pow2 by lia.
  assert (2 ^ n = 2 ^ k * 2 ^ (n - k)) by (rewrite <- Z.pow_add_r by lia; f_equal; lia).
  assert (0 < 2 ^ k) by (apply Z.pow_pos_nonneg; lia).
  split; [apply Z.div_pos; lia|]. apply Z.div_lt_upper_bound; lia.
Qed.

Lemma GetNumberOfBits32_ok : forall v, is_u32 v -> GetNumberOfBitsForNonNegativeInteger32 v = Ok (nbits v).
Proof.
  unfold is_u32, GetNumberOfBitsForNonNegativeInteger32, two32; intros.
  assert (NB : nbits v <= 32) by (apply nbits_min; lia).
  destruct (v <? 256) eqn:E1; [rewrite nb_loop_ok by lia; f_equal; lia|].
  destruct (v <? 65536) eqn:E2.
  { rewrite nb_loop_ok; rewrite ?(nbits_shiftr v 8) by (cbn; lia); try lia; [f_equal; lia|apply shiftr_nonneg'; lia]. }
  destruct (v <? 16777216) eqn:E3.
  { rewrite nb_loop_ok; rewrite ?(nbits_shiftr v 16) by (cbn; lia); try lia; [f_equal; lia|apply shiftr_nonneg'; lia]. }
  rewrite nb_loop_ok; rewrite ?(nbits_shiftr v 24) by (cbn; lia); try lia; [f_equal; lia|apply shiftr_nonneg'; lia].
Qed.

Lemma hi_u32 : forall v, is_u64 v -> is_u32 (Z.shiftr v 32).
Proof. unfold is_u64, is_u32, two64, two32. intros. apply (shiftr_lt v 64 32); lia. Qed.

Lemma GetNumberOfBits_ok : forall v, is_u64 v -> GetNumberOfBitsForNonNegativeInteger v = Ok (nbits v).
Proof.
  intros v H. unfold GetNumberOfBitsForNonNegativeInteger.
  destruct (v <? 4294967296) eqn:E.
  - assert (is_u32 v) by (unfold is_u64, is_u32, two32 in *; lia).
    rewrite u32_id by auto. apply GetNumberOfBits32_ok; auto.
  - rewrite u32_id by (apply hi_u32; auto). rewrite GetNumberOfBits32_ok by (apply hi_u32; auto).
    cbn [obind]. rewrite nbits_shiftr by (unfold is_u64 in *; cbn; lia). f_equal. lia.
Qed.

Lemma nbits_u64 : forall v, is_u64 v -> 0 <= nbits v <= 64.
Proof. intros. split; [apply nbits_nonneg|]. apply nbits_min; [lia|]. unfold is_u64, two64 in *; lia. Qed.

(** ** Most significant bit search *)
Lemma testbit_nbits : forall v, 0 < v -> Z.testbit v (nbits v - 1) = true.
Proof.
  intros. unfold nbits. destruct (v <=? 0) eqn:E; [lia|].
  replace (Z.log2 v + 1 - 1) with (Z.log2 v) by lia. apply Z.bit_log2. auto.
Qed.

Lemma msb_loop_ok : forall fuel v cc, 0 < v -> nbits v <= cc -> cc - nbits v < Z.of_nat fuel ->
  msb_loop fuel v (2 ^ (cc - 1)) cc = Ok (nbits v).
Proof.
  induction fuel; intros; [lia|]. cbn [msb_loop].
  pose proof (nbits_pos v H).
  assert (T : negb (Z.land v (2 ^ (cc - 1)) =? 0) = Z.testbit v (cc - 1)) by (apply land_pow2_testbit; lia).
  destruct (Z.eq_dec (nbits v) cc) as [EC|EC].
  - subst cc. rewrite testbit_nbits in T by auto. destruct (Z.land v (2 ^ (nbits v - 1)) =? 0); [discriminate|reflexivity].
  - assert (Z.testbit v (cc - 1) = false).
    { apply testbit_high0 with (n := nbits v); try lia. pose proof (nbits_bound v). lia. }
    rewrite H3 in T. destruct (Z.land v (2 ^ (cc - 1)) =? 0) eqn:E0; [|discriminate].
    rewrite Z.shiftr_div_pow2 by lia.
    replace (2 ^ (cc - 1) / 2 ^ 1) with (2 ^ (cc - 1 - 1)).
    + apply IHfuel; auto; lia.
    + replace (2 ^ (cc - 1)) with (2 ^ (cc - 1 - 1) * 2 ^ 1) by (rewrite <- Z.pow_add_r by lia; f_equal; lia).
      rewrite Z.div_mul by (cbn; lia). reflexivity.
Qed.

(** ** 32-bit encode *)
Lemma masks2_byte : forall v k, 1 <= k <= 4 ->
  exists m, nthZ masks2 k = Ok m /\ byte_of (Z.shiftr (Z.land v m) (8 * (k - 1))) = byte_of (Z.shiftr v (8 * (k - 1))).
Proof.
  intros. exists (Z.shiftl 255 (8 * (k - 1))). split.
  - assert (k = 1 \/ k = 2 \/ k = 3 \/ k = 4) as [->|[->|[->| ->]]] by lia; reflexivity.
  - apply Z.bits_inj'. intros i Hi. destruct (Z_lt_dec i 8).
    + rewrite !byte_of_testbit by lia. rewrite !Z.shiftr_spec, Z.land_spec, Z.shiftl_spec by lia.
      replace (i + 8 * (k - 1) - 8 * (k - 1)) with i by lia.
      change 255 with (Z.ones 8). rewrite Z.ones_spec_low by lia. apply andb_true_r.
    + rewrite !byte_testbit_high; auto using is_byte_byte_of; lia.
Qed.

Lemma Zbits_neg_byte : forall neg v k, 0 <= k ->
  Zbits 8 (if (neg : bool) then Z.lnot (byte_of (Z.shiftr v k)) else byte_of (Z.shiftr v k)) =
  Zbits 8 (Z.shiftr (if neg then Z.lnot v else v) k).
Proof.
  intros. apply Zbits_ext. intros i Hi. destruct neg.
  - rewrite Z.lnot_spec, byte_of_testbit, !Z.shiftr_spec, Z.lnot_spec by lia. reflexivity.
  - rewrite byte_of_testbit by lia. reflexivity.
Qed.

Lemma overwrites_enc32_bytes : forall c neg v fuel k, Z.of_nat k < Z.of_nat fuel -> Z.of_nat k <= 4 ->
  overwrites (enc32_bytes c fuel v (8 * Z.of_nat k) neg) tt (Zbits (8 * k) (if neg then Z.lnot v else v)).
Proof.
  intros c neg v fuel. induction fuel; intros k HF HK; [lia|]. cbn [enc32_bytes].
  destruct (8 * Z.of_nat k =? 0) eqn:E.
  - destruct k; [|lia]. apply overwrites_ret.
  - destruct k as [|k]; [lia|].
    destruct (masks2_byte v (Z.of_nat (S k))) as (m & Hm & Hb); [lia|].
    assert (SH : Z.shiftr (8 * Z.of_nat (S k)) 3 = Z.of_nat (S k)).
    { rewrite Z.shiftr_div_pow2 by lia. change (2 ^ 3) with 8. lia. }
    rewrite SH. eapply overwrites_pure_l with (a := m).
    { intros. unfold tbl, lift. rewrite Hm. reflexivity. }
    cbv beta zeta. replace (8 * Z.of_nat (S k) - 8) with (8 * Z.of_nat k) by lia.
    replace (8 * (Z.of_nat (S k) - 1)) with (8 * Z.of_nat k) in Hb by lia. rewrite Hb.
    replace (8 * S k)%nat with (8 + 8 * k)%nat by lia. rewrite Zbits_app.
    eapply overwrites_bind.
    + eapply overwrites_eq; [apply overwrites_AppendByte; apply is_byte_byte_of|].
      rewrite Zbits_neg_byte by lia. do 2 f_equal. lia.
    + apply IHfuel; lia.
Qed.

Lemma writes_Encode32Neg : forall c v neg, is_u32 v ->
  writes (BitStream_EncodeNonNegativeInteger32Neg c v neg) tt
    (Zbits (Z.to_nat (nbits v)) (if neg then Z.lnot v else v)).
Proof.
  intros c v neg H. unfold BitStream_EncodeNonNegativeInteger32Neg.
  destruct (v =? 0) eqn:E0.
  { replace v with 0 by lia. rewrite nbits_0. apply writes_ret. }
  unfold is_u32, two32 in H.
  assert (HV : 0 < v) by lia. pose proof (nbits_pos v HV) as NP.
  assert (exists cc, (if v <? 256 then (8, 128) else if v <? 65536 then (16, 32768) else if v <? 16777216 then (24, 8388608) else (32, 2147483648))
            = (cc, 2 ^ (cc - 1)) /\ nbits v <= cc /\ cc <= 32) as (cc & -> & C1 & C2).
  { destruct (v <? 256) eqn:E1; [exists 8|destruct (v <? 65536) eqn:E2; [exists 16|destruct (v <? 16777216) eqn:E3; [exists 24|exists 32]]];
    (split; [reflexivity|split; [apply nbits_min; cbn; lia|lia]]). }
  eapply writes_pure_l with (a := nbits v).
  { intros. unfold lift. rewrite msb_loop_ok by (auto; lia). reflexivity. }
  cbv beta zeta. rewrite Z.rem_mod_nonneg by lia.
  set (p := nbits v mod 8). set (k := Z.to_nat (nbits v / 8)).
  assert (HK : nbits v - p = 8 * Z.of_nat k) by (unfold p, k; lia).
  destruct (p =? 0) eqn:EP; cbn [negb].
  - eapply writes_eq; [apply overwrites_writes; replace (nbits v) with (8 * Z.of_nat k) by lia; apply overwrites_enc32_bytes; lia|].
    f_equal. lia.
  - rewrite HK. replace (Z.to_nat (nbits v)) with (Z.to_nat p + 8 * k)%nat by lia. rewrite Zbits_app.
    assert (SV : 0 <= Z.shiftr v (8 * Z.of_nat k) < 2 ^ p).
    { replace p with (nbits v - 8 * Z.of_nat k) by lia. apply shiftr_lt; [lia|]. pose proof (nbits_bound v). lia. }
    assert (P8 : 2 ^ p <= 2 ^ 8) by (apply Z.pow_le_mono_r; lia).
    rewrite (byte_of_id p) by (unfold is_byte, p; lia).
    rewrite (byte_of_id (Z.shiftr _ _)) by (unfold is_byte; lia).
    eapply writes_bind.
    + eapply writes_eq; [apply writes_AppendPartialByte; try lia|].
      apply Zbits_ext. intros i Hi. destruct neg.
      * rewrite Z.lnot_spec, !Z.shiftr_spec, Z.lnot_spec by lia. do 2 f_equal. lia.
      * rewrite !Z.shiftr_spec by lia. f_equal. lia.
    + cbv beta. apply overwrites_writes. apply overwrites_enc32_bytes; lia.
Qed.

(** Lay a nonnegative number out on n bits. *)
Lemma Zbits_split32 : forall v, is_u64 v -> 4294967296 <= v ->
  Zbits (Z.to_nat (nbits v)) v = Zbits (Z.to_nat (nbits (Z.shiftr v 32))) (Z.shiftr v 32) ++ Zbits 32 v.
Proof.
  intros. rewrite nbits_shiftr by (cbn; lia). pose proof (nbits_u64 v H).
  assert (33 <= nbits v).
  { destruct (Z_lt_dec (nbits v) 33); [|lia]. assert (v < 2 ^ 32); [|cbn in *; lia]. apply nbits_pow; lia. }
  replace (Z.to_nat (nbits v)) with (Z.to_nat (nbits v - 32) + 32)%nat by lia. rewrite Zbits_app. reflexivity.
Qed.

Lemma Zbits_u32 : forall v, Zbits 32 (u32 v) = Zbits 32 v.
Proof. intros. apply (Zbits_mod 32 v). Qed.

Lemma writes_lo32 : forall c lo, is_u32 lo ->
  writes (let* nBits := lift (GetNumberOfBitsForNonNegativeInteger lo) in
          BitStream_AppendNBitZero (32 - nBits) ;;;
          BitStream_EncodeNonNegativeInteger32Neg c lo false) tt (Zbits 32 lo).
Proof.
  intros c lo H.
  assert (N32 : nbits lo <= 32) by (apply nbits_min; unfold is_u32, two32 in *; lia).
  pose proof (nbits_nonneg lo).
  eapply writes_pure_l with (a := nbits lo).
  { intros. unfold lift. rewrite GetNumberOfBits_ok; auto. unfold is_u32, is_u64, two32, two64 in *; lia. }
  cbv beta. eapply writes_eq.
  - eapply writes_bind; [apply writes_AppendNBitZero; lia|apply writes_Encode32Neg; auto].
  - cbv iota. rewrite (Zbits_pad (Z.to_nat (nbits lo)) 32 lo); [f_equal; f_equal; lia| |lia].
    rewrite Z2Nat.id by lia. pose proof (nbits_bound lo). unfold is_u32 in *; lia.
Qed.

Lemma writes_EncodeNonNeg : forall c v, is_u64 v ->
  writes (BitStream_EncodeNonNegativeInteger c v) tt (Zbits (Z.to_nat (nbits v)) v).
Proof.
  intros c v H. unfold BitStream_EncodeNonNegativeInteger.
  destruct (v <? 4294967296) eqn:E.
  - assert (is_u32 v) by (unfold is_u64, is_u32, two32 in *; lia). rewrite u32_id by auto.
    apply (writes_Encode32Neg c v false); auto.
  - rewrite Zbits_split32 by (auto; lia).
    rewrite (u32_id (Z.shiftr v 32)) by (apply hi_u32; auto).
    eapply writes_bind; [apply (writes_Encode32Neg c _ false); apply hi_u32; auto|].
    cbv beta. rewrite <- Zbits_u32. apply writes_lo32. apply u32_range.
Qed.

Lemma writes_EncodeNonNegNeg : forall c v neg, is_u64 v ->
  writes (BitStream_EncodeNonNegativeIntegerNeg c v neg) tt (Zbits (Z.to_nat (nbits v)) (if neg then Z.lnot v else v)).
Proof.
  intros c v neg H. unfold BitStream_EncodeNonNegativeIntegerNeg.
  destruct (v <? 4294967296) eqn:E.
  - assert (is_u32 v) by (unfold is_u64, is_u32, two32 in *; lia). rewrite u32_id by auto.
    apply (writes_Encode32Neg c v neg); auto.
  - assert (NB := nbits_u64 v H).
    assert (33 <= nbits v).
    { destruct (Z_lt_dec (nbits v) 33); [|lia]. assert (v < 2 ^ 32); [|cbn in *; lia]. apply nbits_pow; lia. }
    rewrite (u32_id (Z.shiftr v 32)) by (apply hi_u32; auto).
    replace (Z.to_nat (nbits v)) with (Z.to_nat (nbits (Z.shiftr v 32)) + 32)%nat
      by (rewrite nbits_shiftr by (cbn; lia); lia).
    rewrite Zbits_app.
    eapply writes_bind.
    + eapply writes_eq; [apply (writes_Encode32Neg c _ neg); apply hi_u32; auto|].
      apply Zbits_ext. intros i Hi. destruct neg; auto.
      rewrite Z.lnot_spec, !Z.shiftr_spec, Z.lnot_spec by lia. reflexivity.
    + cbv beta zeta. eapply writes_eq; [apply writes_lo32; destruct neg; apply u32_range|].
      destruct neg; rewrite Zbits_u32; auto.
      apply Zbits_ext. intros i Hi. rewrite !Z.lnot_spec by lia. f_equal.
      unfold u32, two32. apply Z.mod_pow2_bits_low. lia.
Qed.

(** Zero padding followed by the significant bits. *)
Lemma writes_padded : forall c v n, is_u64 v -> nbits v <= n ->
  writes (BitStream_AppendNBitZero (n - nbits v) ;;; BitStream_EncodeNonNegativeInteger c v) tt (Zbits (Z.to_nat n) v).
Proof.
  intros. pose proof (nbits_nonneg v). eapply writes_eq.
  - eapply writes_bind; [apply writes_AppendNBitZero; lia|apply writes_EncodeNonNeg; auto].
  - rewrite (Zbits_pad (Z.to_nat (nbits v)) (Z.to_nat n) v); [f_equal; f_equal; lia| |lia].
    rewrite Z2Nat.id by lia. pose proof (nbits_bound v). unfold is_u64 in *; lia.
Qed.

(** ** Decoding a nonnegative integer *)
Lemma lor_add : forall a b k, 0 <= k -> 0 <= b < 2 ^ k -> Z.lor (a * 2 ^ k) b = a * 2 ^ k + b.
Proof.
  intros. symmetry. rewrite <- Z.lxor_lor.
  - apply Z.add_nocarry_lxor. apply Z.bits_inj'. intros i Hi. rewrite Z.land_spec, Z.testbit_0_l.
    destruct (Z_lt_dec i k).
    + rewrite Z.mul_pow2_bits_low by lia. reflexivity.
    + rewrite (testbit_high0 b k i) by lia. apply andb_false_r.
  - apply Z.bits_inj'. intros i Hi. rewrite Z.land_spec, Z.testbit_0_l.
    destruct (Z_lt_dec i k).
    + rewrite Z.mul_pow2_bits_low by lia. reflexivity.
    + rewrite (testbit_high0 b k i) by lia. apply andb_false_r.
Qed.

Lemma shl_lor_u : forall m v k b, 0 <= v -> 0 <= k -> 0 <= b < 2 ^ k -> (v + 1) * 2 ^ k <= 2 ^ m -> 0 <= m ->
  Z.lor ((Z.shiftl v k) mod 2 ^ m) b = v * 2 ^ k + b.
Proof.
  intros. rewrite Z.shiftl_mul_pow2 by lia.
  assert (0 < 2 ^ k) by (apply Z.pow_pos_nonneg; lia).
  rewrite Z.mod_small by nia. apply lor_add; auto.
Qed.

Lemma Zbits_byte_app : forall k x, 0 <= x < 2 ^ (8 * Z.of_nat (S k)) ->
  Zbits (8 * S k) x = Zbits 8 (x / 2 ^ (8 * Z.of_nat k)) ++ Zbits (8 * k) (x mod 2 ^ (8 * Z.of_nat k)).
Proof.
  intros. replace (8 * S k)%nat with (8 + 8 * k)%nat by lia. rewrite Zbits_app. f_equal.
  - rewrite Z.shiftr_div_pow2 by lia. do 3 f_equal. lia.
  - rewrite <- Zbits_mod. do 3 f_equal. lia.
Qed.

Lemma reads_dec32_bytes : forall k v x, 0 <= v -> (v + 1) * 2 ^ (8 * Z.of_nat k) <= 2 ^ 32 ->
  0 <= x < 2 ^ (8 * Z.of_nat k) ->
  reads (dec32_bytes k v) (Some (v * 2 ^ (8 * Z.of_nat k) + x)) (Zbits (8 * k) x).
Proof.
  induction k; intros v x HV HB HX.
  - cbn in HX. replace x with 0 by lia. rewrite Z.mul_1_r, Z.add_0_r. apply reads_ret.
  - rewrite Zbits_byte_app by auto.
    assert (P : 2 ^ (8 * Z.of_nat (S k)) = 256 * 2 ^ (8 * Z.of_nat k)).
    { change 256 with (2 ^ 8). rewrite <- Z.pow_add_r by lia. f_equal. lia. }
    set (q := 2 ^ (8 * Z.of_nat k)) in *.
    assert (Q : 0 < q) by (apply Z.pow_pos_nonneg; lia).
    rewrite P in *.
    assert (XB : is_byte (x / q)).
    { unfold is_byte. split; [apply Z.div_pos; lia|]. apply Z.div_lt_upper_bound; lia. }
    cbn [dec32_bytes].
    eapply reads_bindo; [apply reads_ReadByte; auto|].
    assert (E : Z.lor (u32 (Z.shiftl v 8)) (x / q) = v * 2 ^ 8 + x / q).
    { unfold u32, two32. unfold is_byte in XB. apply shl_lor_u; change (2 ^ 8) with 256; try lia; nia. }
    rewrite E.
    replace (v * (256 * q) + x) with ((v * 2 ^ 8 + x / q) * q + x mod q).
    2:{ pose proof (Z.div_mod x q). change (2 ^ 8) with 256. nia. }
    apply IHk; fold q; change (2 ^ 8) with 256; unfold is_byte in XB; try nia.
Qed.

Lemma reads_Decode32 : forall n v, 0 <= n <= 32 -> 0 <= v < 2 ^ n ->
  reads (BitStream_DecodeNonNegativeInteger32Neg n) (Some v) (Zbits (Z.to_nat n) v).
Proof.
  intros n v N V. unfold BitStream_DecodeNonNegativeInteger32Neg.
  replace (n <? 0) with false by lia.
  set (k := Z.to_nat (n / 8)). set (r := n mod 8).
  replace (Z.to_nat n) with (8 * k + Z.to_nat r)%nat by lia. rewrite Zbits_app.
  rewrite Z2Nat.id by lia.
  set (h := Z.shiftr v r).
  assert (H : 0 <= h < 2 ^ (8 * Z.of_nat k)).
  { replace (8 * Z.of_nat k) with (n - r) by lia. apply shiftr_lt; lia. }
  assert (PB : 2 ^ (8 * Z.of_nat k) <= 2 ^ 32) by (apply Z.pow_le_mono_r; lia).
  eapply reads_bindo.
  - apply reads_dec32_bytes; auto; lia.
  - cbv beta zeta. rewrite Z.mul_0_l, Z.add_0_l.
    destruct (r =? 0) eqn:R.
    + replace (Z.to_nat r) with 0%nat by lia. unfold h. replace r with 0 by lia. rewrite Z.shiftr_0_r. apply reads_ret.
    + assert (Q : 0 < 2 ^ r) by (apply Z.pow_pos_nonneg; lia).
      eapply reads_eq.
      * eapply reads_bindo; [apply reads_ReadPartialByte with (v := v mod 2 ^ r); try lia; apply Z.mod_pos_bound; auto|].
        replace (Z.lor (u32 (Z.shiftl h r)) (v mod 2 ^ r)) with v; [apply reads_ret|].
        unfold u32, two32. rewrite shl_lor_u; try lia.
        -- unfold h. rewrite Z.shiftr_div_pow2 by lia. pose proof (Z.div_mod v (2 ^ r)). lia.
        -- assert (2 ^ (8 * Z.of_nat k) * 2 ^ r = 2 ^ n) by (rewrite <- Z.pow_add_r by lia; f_equal; lia).
           assert (2 ^ n <= 2 ^ 32) by (apply Z.pow_le_mono_r; lia). nia.
      * rewrite app_nil_r.
        replace (v mod 2 ^ r) with (v mod 2 ^ Z.of_nat (Z.to_nat r)) by (do 2 f_equal; lia). apply Zbits_mod.
Qed.

Lemma reads_DecodeNonNeg : forall n v, 0 <= n <= 64 -> 0 <= v < 2 ^ n ->
  reads (BitStream_DecodeNonNegativeInteger n) (Some v) (Zbits (Z.to_nat n) v).
Proof.
  intros n v N V. unfold BitStream_DecodeNonNegativeInteger.
  destruct (n <=? 32) eqn:E; [apply reads_Decode32; lia|].
  replace (Z.to_nat n) with (32 + Z.to_nat (n - 32))%nat by lia. rewrite Zbits_app.
  rewrite Z2Nat.id by lia.
  assert (H : 0 <= Z.shiftr v (n - 32) < 2 ^ 32).
  { pose proof (shiftr_lt v n (n - 32)) as S. replace (n - (n - 32)) with 32 in S by lia. apply S; lia. }
  assert (Q : 0 < 2 ^ (n - 32)) by (apply Z.pow_pos_nonneg; lia).
  eapply reads_bindo; [apply (reads_Decode32 32); lia|].
  eapply reads_eq.
  - eapply reads_bindo; [apply (reads_Decode32 (n - 32) (v mod 2 ^ (n - 32))); try lia; apply Z.mod_pos_bound; auto|].
    cbv beta. replace (96 <=? n) with false by lia.
    replace (Z.lor (u64 (Z.shiftl (Z.shiftr v (n - 32)) (n - 32))) (v mod 2 ^ (n - 32))) with v; [apply reads_ret|].
    unfold u64, two64. rewrite shl_lor_u; try lia.
    + rewrite Z.shiftr_div_pow2 by lia. pose proof (Z.div_mod v (2 ^ (n - 32))). lia.
    + assert (2 ^ 32 * 2 ^ (n - 32) = 2 ^ n) by (rewrite <- Z.pow_add_r by lia; f_equal; lia).
      assert (2 ^ n <= 2 ^ 64) by (apply Z.pow_le_mono_r; lia). nia.
  - rewrite app_nil_r.
    replace (v mod 2 ^ (n - 32)) with (v mod 2 ^ Z.of_nat (Z.to_nat (n - 32))) by (do 2 f_equal; lia). apply Zbits_mod.
Qed.

(** ** Constrained whole numbers *)
Lemma massert_true : forall c b s, b = true -> massert c b s = Ok (tt, s).
Proof. intros; subst. reflexivity. Qed.

(** range and offset as computed by the code *)
Lemma u64_sub : forall a b, is_s64 a -> is_s64 b -> b <= a -> u64 (s64 (a - b)) = a - b.
Proof.
  intros. rewrite u64_s64. apply u64_id. unfold is_s64, is_u64, two63, two64 in *. lia.
Qed.


Lemma writes_EncodeConstraint : forall c v min max, is_s64 min -> is_s64 max -> min <= v <= max ->
  sfits c (max - min) ->
  writes (BitStream_EncodeConstraintWholeNumber c v min max) tt (Zbits (crange min max) (v - min)).
Proof.
  intros c v min max Hmin Hmax Hv HF. unfold BitStream_EncodeConstraintWholeNumber, crange.
  assert (Hvs : is_s64 v) by (unfold is_s64 in *; lia).
  eapply writes_pure_l with (a := tt). { intros. apply massert_true. lia. }
  eapply writes_pure_l with (a := s64 (max - min)). { intros. unfold lift. rewrite sres_s64; auto. }
  cbv zeta. rewrite u64_sub by (auto; lia).
  assert (HR : is_u64 (max - min)) by (unfold is_s64, is_u64, two63, two64 in *; lia).
  destruct (max - min =? 0) eqn:E.
  { replace (max - min) with 0 by lia. rewrite nbits_0. apply writes_ret. }
  eapply writes_pure_l with (a := nbits (max - min)). { intros. unfold lift. rewrite GetNumberOfBits_ok; auto. }
  assert (HD : is_u64 (v - min)) by (unfold is_s64, is_u64, two63, two64 in *; lia).
  eapply writes_pure_l with (a := s64 (v - min)).
  { intros. unfold lift. rewrite sres_s64; auto. destruct HF as [HF|HF]; [left|right; auto].
    unfold is_s64, two63 in *; lia. }
  rewrite u64_sub by (auto; lia).
  eapply writes_pure_l with (a := nbits (v - min)). { intros. unfold lift. rewrite GetNumberOfBits_ok; auto. }
  apply writes_padded; auto. apply nbits_mono. lia.
Qed.

Lemma writes_EncodeConstraintPos : forall c v min max, 0 <= min -> max < two64 -> min <= v <= max ->
  writes (BitStream_EncodeConstraintPosWholeNumber c v min max) tt (Zbits (crange min max) (v - min)).
Proof.
  intros c v min max Hmin Hmax Hv. unfold BitStream_EncodeConstraintPosWholeNumber, crange.
  eapply writes_pure_l with (a := tt). { intros. apply massert_true. lia. }
  eapply writes_pure_l with (a := tt). { intros. apply massert_true. lia. }
  assert (HR : is_u64 (max - min)) by (unfold is_u64 in *; lia).
  assert (HD : is_u64 (v - min)) by (unfold is_u64 in *; lia).
  cbv zeta. rewrite !u64_id by auto.
  destruct (max - min =? 0) eqn:E.
  { replace (max - min) with 0 by lia. rewrite nbits_0. apply writes_ret. }
  eapply writes_pure_l with (a := nbits (max - min)). { intros. unfold lift. rewrite GetNumberOfBits_ok; auto. }
  eapply writes_pure_l with (a := nbits (v - min)). { intros. unfold lift. rewrite GetNumberOfBits_ok; auto. }
  apply writes_padded; auto. apply nbits_mono. lia.
Qed.

Lemma reads_DecodeConstraint : forall c v min max, is_s64 min -> is_s64 max -> min <= v <= max ->
  sfits c (max - min) ->
  reads (BitStream_DecodeConstraintWholeNumber c min max) (Some v) (Zbits (crange min max) (v - min)).
Proof.
  intros c v min max Hmin Hmax Hv HF. unfold BitStream_DecodeConstraintWholeNumber, crange.
  assert (Hvs : is_s64 v) by (unfold is_s64 in *; lia).
  eapply reads_pure_l with (a := s64 (max - min)). { intros. unfold lift. rewrite sres_s64; auto. }
  cbv zeta. rewrite u64_sub by (auto; lia). unfold assert_or_false.
  replace (min <=? max) with true by lia.
  eapply reads_pure_l with (a := tt). { intros. apply massert_true. lia. }
  assert (HR : is_u64 (max - min)) by (unfold is_s64, is_u64, two63, two64 in *; lia).
  destruct (max - min =? 0) eqn:E.
  { replace (max - min) with 0 by lia. rewrite nbits_0. replace v with min by lia. apply reads_ret. }
  eapply reads_pure_l with (a := nbits (max - min)). { intros. unfold lift. rewrite GetNumberOfBits_ok; auto. }
  pose proof (nbits_u64 _ HR). pose proof (nbits_bound (max - min)).
  eapply reads_eq.
  - eapply reads_bindo; [apply (reads_DecodeNonNeg _ (v - min)); lia|].
    cbv beta. replace (max - min <? v - min) with false by lia.
    eapply reads_pure_l with (a := v); [|apply reads_ret].
    intros. unfold lift. destruct (s64_cong (v - min)) as [k Hk].
    rewrite sres_s64.
    + rewrite Hk. replace (v - min + k * two64 + min) with (v + k * two64) by lia.
      rewrite s64_add_k, s64_id; auto.
    + destruct HF as [HF|HF]; [left|right; auto].
      rewrite s64_id; [replace (v - min + min) with v by lia; auto|]. unfold is_s64, two63 in *; lia.
  - apply app_nil_r.
Qed.

Lemma reads_DecodeConstraintPos : forall c v min max, 0 <= min -> max < two64 -> min <= v <= max ->
  reads (BitStream_DecodeConstraintPosWholeNumber c min max) (Some v) (Zbits (crange min max) (v - min)).
Proof.
  intros c v min max Hmin Hmax Hv. unfold BitStream_DecodeConstraintPosWholeNumber, crange.
  assert (HR : is_u64 (max - min)) by (unfold is_u64 in *; lia).
  cbv zeta. rewrite !u64_id by auto. unfold assert_or_false. replace (min <=? max) with true by lia.
  eapply reads_pure_l with (a := tt). { intros. apply massert_true. lia. }
  destruct (max - min =? 0) eqn:E.
  { replace (max - min) with 0 by lia. rewrite nbits_0. replace v with min by lia. apply reads_ret. }
  eapply reads_pure_l with (a := nbits (max - min)). { intros. unfold lift. rewrite GetNumberOfBits_ok; auto. }
  pose proof (nbits_u64 _ HR). pose proof (nbits_bound (max - min)).
  eapply reads_eq.
  - eapply reads_bindo; [apply (reads_DecodeNonNeg _ (v - min)); lia|].
    cbv beta. replace (max - min <? v - min) with false by lia.
    replace (u64 (v - min + min)) with v; [apply reads_ret|].
    replace (v - min + min) with v by lia. symmetry. apply u64_id. unfold is_u64; lia.
  - apply app_nil_r.
Qed.

(** Narrow decoders *)
Lemma sN_id : forall w x, 1 <= w -> - 2 ^ (w - 1) <= x < 2 ^ (w - 1) -> sN w x = x.
Proof.
  intros. unfold sN.
  assert (P : 2 ^ w = 2 * 2 ^ (w - 1)) by (rewrite <- Z.pow_succ_r by lia; f_equal; lia).
  assert (0 < 2 ^ (w - 1)) by (apply Z.pow_pos_nonneg; lia).
  destruct (Z_le_dec 0 x).
  - rewrite Z.mod_small by lia. replace (x <? 2 ^ (w - 1)) with true by lia. reflexivity.
  - replace (x mod 2 ^ w) with (x + 2 ^ w).
    + replace (x + 2 ^ w <? 2 ^ (w - 1)) with false by lia. lia.
    + apply Z.mod_unique with (q := -1); lia.
Qed.

Lemma reads_DecodeConstraintIntN : forall c w v min max, w = 8 \/ w = 16 \/ w = 32 ->
  - 2 ^ (w - 1) <= min -> max < 2 ^ (w - 1) -> min <= v <= max ->
  reads (BitStream_DecodeConstraintWholeNumberIntN c w min max) (Some v) (Zbits (crange min max) (v - min)).
Proof.
  intros c w v min max W Hmin Hmax Hv. unfold BitStream_DecodeConstraintWholeNumberIntN.
  assert (2 ^ (w - 1) <= 2 ^ 31) by (apply Z.pow_le_mono_r; lia).
  eapply reads_eq.
  - eapply reads_bindo.
    + apply reads_DecodeConstraint with (v := v); auto; try (unfold is_s64, two63; lia).
      left. unfold is_s64, two63; lia.
    + cbv beta. rewrite sN_id by lia. apply reads_ret.
  - apply app_nil_r.
Qed.

Lemma reads_DecodeConstraintUIntN : forall c w v min max, w = 8 \/ w = 16 \/ w = 32 ->
  0 <= min -> max < 2 ^ w -> min <= v <= max ->
  reads (BitStream_DecodeConstraintPosWholeNumberUIntN c w min max) (Some v) (Zbits (crange min max) (v - min)).
Proof.
  intros c w v min max W Hmin Hmax Hv. unfold BitStream_DecodeConstraintPosWholeNumberUIntN.
  assert (2 ^ w <= 2 ^ 32) by (apply Z.pow_le_mono_r; lia).
  eapply reads_eq.
  - eapply reads_bindo.
    + apply reads_DecodeConstraintPos with (v := v); auto. unfold two64; lia.
    + cbv beta. rewrite Z.mod_small by lia. apply reads_ret.
  - apply app_nil_r.
Qed.

(** ** Byte lengths *)
Lemma GetLengthUInt_ok : forall v, is_u64 v -> GetLengthInBytesOfUInt v = nbytes_u v.
Proof.
  intros v H. unfold GetLengthInBytesOfUInt, nbytes_u, is_u64, two64 in *.
  pose proof (nbits_nonneg v) as N0.
  assert (N : forall n, 0 <= n -> (nbits v <= n <-> v < 2 ^ n)) by (intros; apply nbits_pow; auto).
  pose proof (N 8). pose proof (N 16). pose proof (N 24). pose proof (N 32).
  pose proof (N 40). pose proof (N 48). pose proof (N 56). pose proof (N 64).
  cbn [Z.pow Z.pow_pos Pos.iter] in *.
  destruct (4294967295 <? v) eqn:E.
  - rewrite u32_id by (apply hi_u32; unfold is_u64, two64; lia).
    assert (SH : forall k, 0 <= k -> (Z.shiftr v 32 < 2 ^ k <-> v < 2 ^ (32 + k))).
    { intros. rewrite Z.shiftr_div_pow2 by lia. rewrite Z.pow_add_r by lia.
      assert (0 < 2 ^ k) by (apply Z.pow_pos_nonneg; lia).
      split; intros; [apply Z.lt_nge; intro; assert (2 ^ k <= v / 2 ^ 32) by (apply Z.div_le_lower_bound; lia); lia|
        apply Z.div_lt_upper_bound; lia]. }
    pose proof (SH 8 ltac:(lia)). pose proof (SH 16 ltac:(lia)). pose proof (SH 24 ltac:(lia)).
    cbn [Z.add Pos.add Pos.add_carry Z.pow Z.pow_pos Pos.iter Pos.succ Z.mul Pos.mul] in *.
    destruct (Z.shiftr v 32 <? 256) eqn:E1; [lia|].
    destruct (Z.shiftr v 32 <? 65536) eqn:E2; [lia|].
    destruct (Z.shiftr v 32 <? 16777216) eqn:E3; lia.
  - rewrite u32_id by (unfold is_u32, two32; lia).
    destruct (v <? 256) eqn:E1; [lia|].
    destruct (v <? 65536) eqn:E2; [lia|].
    destruct (v <? 16777216) eqn:E3; lia.
Qed.

Lemma nbytes_u_range : forall v, is_u64 v -> 1 <= nbytes_u v <= 8.
Proof. intros. unfold nbytes_u. pose proof (nbits_u64 v H). lia. Qed.
Lemma nbytes_u_bits : forall v, nbits v <= 8 * nbytes_u v.
Proof. intros. unfold nbytes_u. pose proof (nbits_nonneg v). lia. Qed.

Lemma GetLengthSIntHelper_ok : forall v, 0 <= v < two63 -> GetLengthSIntHelper v = (nbits v + 8) / 8.
Proof.
  intros v H. unfold GetLengthSIntHelper, two63 in *.
  pose proof (nbits_nonneg v) as N0.
  assert (N : forall n, 0 <= n -> (nbits v <= n <-> v < 2 ^ n)) by (intros; apply nbits_pow; auto).
  pose proof (N 7). pose proof (N 15). pose proof (N 23). pose proof (N 31).
  pose proof (N 39). pose proof (N 47). pose proof (N 55). pose proof (N 63).
  cbn [Z.pow Z.pow_pos Pos.iter] in *.
  destruct (2147483647 <? v) eqn:E.
  - rewrite u32_id by (apply hi_u32; unfold is_u64, two64; lia).
    assert (SH : forall k, 0 <= k -> (Z.shiftr v 32 < 2 ^ k <-> v < 2 ^ (32 + k))).
    { intros. rewrite Z.shiftr_div_pow2 by lia. rewrite Z.pow_add_r by lia.
      assert (0 < 2 ^ k) by (apply Z.pow_pos_nonneg; lia).
      split; intros; [apply Z.lt_nge; intro; assert (2 ^ k <= v / 2 ^ 32) by (apply Z.div_le_lower_bound; lia); lia|
        apply Z.div_lt_upper_bound; lia]. }
    pose proof (SH 7 ltac:(lia)). pose proof (SH 15 ltac:(lia)). pose proof (SH 23 ltac:(lia)).
    cbn [Z.add Pos.add Pos.add_carry Z.pow Z.pow_pos Pos.iter Pos.succ Z.mul Pos.mul] in *.
    destruct (Z.shiftr v 32 <=? 127) eqn:E1; [lia|].
    destruct (Z.shiftr v 32 <=? 32767) eqn:E2; [lia|].
    destruct (Z.shiftr v 32 <=? 8388607) eqn:E3; lia.
  - rewrite u32_id by (unfold is_u32, two32; lia).
    destruct (v <=? 127) eqn:E1; [lia|].
    destruct (v <=? 32767) eqn:E2; [lia|].
    destruct (v <=? 8388607) eqn:E3; lia.
Qed.

Lemma neg_m1_ok : forall c v, is_s64 v -> v < 0 -> sfits c (- v) -> neg_m1 c v = Ok (- v - 1).
Proof.
  intros c v H HV HF. unfold neg_m1. rewrite (sres_s64 c (- v)) by auto. cbn [obind].
  destruct (Z.eq_dec v (- two63)) as [->|NE].
  - destruct HF as [HF|HF]; [unfold is_s64, two63 in HF; lia|].
    rewrite sres_s64 by (right; auto). reflexivity.
  - assert (is_s64 (- v)) by (unfold is_s64, two63 in *; lia).
    rewrite s64_id by auto. rewrite sres_ok by (unfold is_s64, two63 in *; lia). cbn [obind].
    rewrite u64_id; auto. unfold is_u64, is_s64, two63, two64 in *; lia.
Qed.

Lemma GetLengthSInt_ok : forall c v, is_s64 v -> sfits c (- v) -> GetLengthInBytesOfSInt c v = Ok (nbytes_s v).
Proof.
  intros c v H HF. unfold GetLengthInBytesOfSInt, nbytes_s.
  destruct (0 <=? v) eqn:E.
  - replace (v <? 0) with false by lia. rewrite u64_id by (unfold is_u64, is_s64, two63, two64 in *; lia).
    rewrite GetLengthSIntHelper_ok; auto. unfold is_s64 in *; lia.
  - replace (v <? 0) with true by lia. rewrite neg_m1_ok by (auto; lia). cbn [obind].
    rewrite GetLengthSIntHelper_ok; auto. unfold is_s64, two63 in *; lia.
Qed.

Lemma nbytes_s_range : forall v, is_s64 v -> 1 <= nbytes_s v <= 8.
Proof.
  intros v H. unfold nbytes_s, is_s64, two63 in *.
  set (w := if v <? 0 then - v - 1 else v).
  assert (0 <= nbits w <= 63); [|lia].
  split; [apply nbits_nonneg|]. apply nbits_min; [lia|]. subst w. destruct (v <? 0) eqn:E; lia.
Qed.

(** ** Semi-constrained *)
Lemma writes_len255 : forall c n, 0 <= n <= 255 ->
  writes (BitStream_EncodeConstraintWholeNumber c n 0 255) tt (Zbits 8 n).
Proof.
  intros. eapply writes_eq; [apply writes_EncodeConstraint; try (unfold is_s64, two63; lia)|].
  - left. unfold is_s64, two63; lia.
  - unfold crange. rewrite !Z.sub_0_r. reflexivity.
Qed.
Lemma reads_len255 : forall c n, 0 <= n <= 255 ->
  reads (BitStream_DecodeConstraintWholeNumber c 0 255) (Some n) (Zbits 8 n).
Proof.
  intros. eapply reads_eq; [apply reads_DecodeConstraint; try (unfold is_s64, two63; lia)|].
  - left. unfold is_s64, two63; lia.
  - unfold crange. rewrite !Z.sub_0_r. reflexivity.
Qed.

Lemma writes_semi_tail : forall c u, is_u64 u ->
  writes (BitStream_EncodeConstraintWholeNumber c (GetLengthInBytesOfUInt u) 0 255 ;;;
    let* nb := lift (GetNumberOfBitsForNonNegativeInteger u) in
    BitStream_AppendNBitZero (GetLengthInBytesOfUInt u * 8 - nb) ;;;
    BitStream_EncodeNonNegativeInteger c u) tt (semi_bits u).
Proof.
  intros c u H. rewrite GetLengthUInt_ok by auto. unfold semi_bits.
  pose proof (nbytes_u_range u H). pose proof (nbytes_u_bits u).
  eapply writes_bind; [apply writes_len255; lia|].
  eapply writes_pure_l with (a := nbits u). { intros. unfold lift. rewrite GetNumberOfBits_ok; auto. }
  replace (8 * nbytes_u u) with (nbytes_u u * 8) in * by lia. apply writes_padded; auto.
Qed.

Lemma writes_EncodeSemi : forall c v min, is_s64 v -> is_s64 min -> min <= v -> sfits c (v - min) ->
  writes (BitStream_EncodeSemiConstraintWholeNumber c v min) tt (semi_bits (v - min)).
Proof.
  intros c v min Hv Hm Hle HF. unfold BitStream_EncodeSemiConstraintWholeNumber.
  eapply writes_pure_l with (a := tt). { intros. apply massert_true. lia. }
  eapply writes_pure_l with (a := s64 (v - min)). { intros. unfold lift. rewrite sres_s64; auto. }
  cbv zeta. rewrite u64_sub by auto. apply writes_semi_tail.
  unfold is_u64, is_s64, two63, two64 in *; lia.
Qed.

Lemma writes_EncodeSemiPos : forall c v min, is_u64 v -> is_u64 min -> min <= v ->
  writes (BitStream_EncodeSemiConstraintPosWholeNumber c v min) tt (semi_bits (v - min)).
Proof.
  intros c v min Hv Hm Hle. unfold BitStream_EncodeSemiConstraintPosWholeNumber.
  eapply writes_pure_l with (a := tt). { intros. apply massert_true. lia. }
  assert (is_u64 (v - min)) by (unfold is_u64 in *; lia).
  cbv zeta. rewrite u64_id by auto. apply writes_semi_tail; auto.
Qed.

Lemma reads_dec_ubytes : forall k v x, 0 <= v -> (v + 1) * 2 ^ (8 * Z.of_nat k) <= 2 ^ 64 ->
  0 <= x < 2 ^ (8 * Z.of_nat k) ->
  reads (dec_ubytes k v) (Some (v * 2 ^ (8 * Z.of_nat k) + x)) (Zbits (8 * k) x).
Proof.
  induction k; intros v x HV HB HX.
  - cbn in HX. replace x with 0 by lia. rewrite Z.mul_1_r, Z.add_0_r. apply reads_ret.
  - rewrite Zbits_byte_app by auto.
    assert (P : 2 ^ (8 * Z.of_nat (S k)) = 256 * 2 ^ (8 * Z.of_nat k)).
    { change 256 with (2 ^ 8). rewrite <- Z.pow_add_r by lia. f_equal. lia. }
    set (q := 2 ^ (8 * Z.of_nat k)) in *.
    assert (Q : 0 < q) by (apply Z.pow_pos_nonneg; lia).
    rewrite P in *.
    assert (XB : is_byte (x / q)).
    { unfold is_byte. split; [apply Z.div_pos; lia|]. apply Z.div_lt_upper_bound; lia. }
    cbn [dec_ubytes].
    eapply reads_bindo; [apply reads_ReadByte; auto|].
    assert (E : Z.lor (u64 (Z.shiftl v 8)) (x / q) = v * 2 ^ 8 + x / q).
    { unfold u64, two64. unfold is_byte in XB. apply shl_lor_u; change (2 ^ 8) with 256; try lia; nia. }
    rewrite E.
    replace (v * (256 * q) + x) with ((v * 2 ^ 8 + x / q) * q + x mod q).
    2:{ pose proof (Z.div_mod x q). change (2 ^ 8) with 256. nia. }
    apply IHk; fold q; change (2 ^ 8) with 256; unfold is_byte in XB; try nia.
Qed.

(** Signed accumulation: works for every start value when << wraps; otherwise
    needs the exact value to stay in range. *)
Lemma s64_lor_byte : forall a b, 0 <= b < 256 -> Z.lor (s64 (a * 256)) b = s64 (a * 256 + b).
Proof.
  intros. destruct (s64_cong (a * 256)) as [k Hk].
  assert (E : s64 (a * 256) = (a + k * 2 ^ 56) * 2 ^ 8) by (rewrite Hk; unfold two64; lia).
  rewrite E. rewrite lor_add by (cbn; lia).
  replace (a * 256 + b) with ((a + k * 2 ^ 56) * 2 ^ 8 + b + (- k) * two64) by (unfold two64; lia).
  rewrite s64_add_k. symmetry. apply s64_id.
  pose proof (s64_range (a * 256)) as R. rewrite E in R. unfold is_s64, two63 in *. change (2 ^ 8) with 256 in *. lia.
Qed.

(** Two's complement accumulation of k octets, starting from v. *)
Lemma reads_dec_sbytes : forall c k v x, shl_wrap c = true ->
  0 <= x < 2 ^ (8 * Z.of_nat k) ->
  is_s64 v ->
  reads (dec_sbytes c k v) (Some (s64 (v * 2 ^ (8 * Z.of_nat k) + x))) (Zbits (8 * k) x).
Proof.
  intros c k. induction k; intros v x HC HX HV.
  - cbn in HX. replace x with 0 by lia. rewrite Z.mul_1_r, Z.add_0_r, s64_id by auto. apply reads_ret.
  - rewrite Zbits_byte_app by auto.
    assert (P : 2 ^ (8 * Z.of_nat (S k)) = 256 * 2 ^ (8 * Z.of_nat k)).
    { change 256 with (2 ^ 8). rewrite <- Z.pow_add_r by lia. f_equal. lia. }
    set (q := 2 ^ (8 * Z.of_nat k)) in *.
    assert (Q : 0 < q) by (apply Z.pow_pos_nonneg; lia).
    rewrite P in *.
    assert (XB : is_byte (x / q)).
    { unfold is_byte. split; [apply Z.div_pos; lia|]. apply Z.div_lt_upper_bound; lia. }
    cbn [dec_sbytes].
    eapply reads_bindo; [apply reads_ReadByte; auto|].
    eapply reads_pure_l with (a := s64 (v * 256)).
    { intros. unfold lift, sshl. change (2 ^ 8) with 256. rewrite HC.
      destruct ((0 <=? v) && in_s64 (v * 256)) eqn:E; [|reflexivity].
      apply andb_true_iff in E. destruct E as [_ E]. apply in_s64_iff in E. rewrite s64_id; auto. }
    rewrite s64_lor_byte by (exact XB).
    destruct (s64_cong (v * 256 + x / q)) as [m Hm].
    replace (s64 (v * (256 * q) + x)) with (s64 (s64 (v * 256 + x / q) * q + x mod q)).
    + apply IHk; auto; [fold q; apply Z.mod_pos_bound; auto|apply s64_range].
    + rewrite Hm.
      replace ((v * 256 + x / q + m * two64) * q + x mod q) with (v * (256 * q) + x + (m * q) * two64).
      * apply s64_add_k.
      * pose proof (Z.div_mod x q). nia.
Qed.

(** Without wrapping, the accumulation of a nonnegative value below 2^63 is
    exact. *)
Lemma reads_dec_sbytes_nn : forall c k v x, 0 <= v -> (v + 1) * 2 ^ (8 * Z.of_nat k) <= 2 ^ 63 \/ v * 2 ^ (8 * Z.of_nat k) + x < 2 ^ 63 ->
  0 <= x < 2 ^ (8 * Z.of_nat k) ->
  reads (dec_sbytes c k v) (Some (v * 2 ^ (8 * Z.of_nat k) + x)) (Zbits (8 * k) x).
Proof.
  intros c k. induction k; intros v x HV HB HX.
  - cbn in HX. replace x with 0 by lia. rewrite Z.mul_1_r, Z.add_0_r. apply reads_ret.
  - rewrite Zbits_byte_app by auto.
    assert (P : 2 ^ (8 * Z.of_nat (S k)) = 256 * 2 ^ (8 * Z.of_nat k)).
    { change 256 with (2 ^ 8). rewrite <- Z.pow_add_r by lia. f_equal. lia. }
    set (q := 2 ^ (8 * Z.of_nat k)) in *.
    assert (Q : 0 < q) by (apply Z.pow_pos_nonneg; lia).
    rewrite P in *.
    assert (XB : is_byte (x / q)).
    { unfold is_byte. split; [apply Z.div_pos; lia|]. apply Z.div_lt_upper_bound; lia. }
    pose proof (Z.div_mod x q ltac:(lia)) as DM. pose proof (Z.mod_pos_bound x q Q) as MB.
    assert (T : v * (256 * q) + x < 2 ^ 63) by (destruct HB; nia).
    cbn [dec_sbytes].
    eapply reads_bindo; [apply reads_ReadByte; auto|].
    eapply reads_pure_l with (a := v * 256).
    { intros. unfold lift, sshl. change (2 ^ 8) with 256.
      assert (is_s64 (v * 256)).
      { unfold is_s64, two63. nia. }
      apply in_s64_iff in H. rewrite H. replace (0 <=? v) with true by lia. reflexivity. }
    assert (E : Z.lor (v * 256) (x / q) = v * 2 ^ 8 + x / q).
    { change (v * 256) with (v * 2 ^ 8). apply lor_add; [lia|exact XB]. }
    rewrite E. change (2 ^ 8) with 256.
    replace (v * (256 * q) + x) with ((v * 256 + x / q) * q + x mod q) by nia.
    apply IHk; fold q; auto; [unfold is_byte in XB; lia|]. right. nia.
Qed.

Lemma reads_DecodeSemi : forall c v min, is_s64 v -> is_s64 min -> min <= v ->
  (shl_wrap c = true /\ sfits c (v - min)) \/ is_s64 (v - min) ->
  reads (BitStream_DecodeSemiConstraintWholeNumber c min) (Some v) (semi_bits (v - min)).
Proof.
  intros c v min Hv Hm Hle HF. unfold BitStream_DecodeSemiConstraintWholeNumber, semi_bits.
  set (u := v - min) in *.
  assert (HU : is_u64 u) by (unfold u, is_u64, is_s64, two63, two64 in *; lia).
  pose proof (nbytes_u_range u HU). pose proof (nbytes_u_bits u) as NB.
  eapply reads_bindo; [apply reads_len255; lia|].
  replace (8 <? nbytes_u u) with false by lia.
  replace (Z.to_nat (8 * nbytes_u u)) with (8 * Z.to_nat (nbytes_u u))%nat by lia.
  set (k := Z.to_nat (nbytes_u u)).
  assert (UX : 0 <= u < 2 ^ (8 * Z.of_nat k)).
  { split; [unfold is_u64 in HU; lia|]. apply nbits_pow; lia. }
  assert (CR : reads (dec_sbytes c k 0) (Some (s64 u)) (Zbits (8 * k) u)).
  { destruct HF as [[HC HF]|HF].
    - replace u with (0 * 2 ^ (8 * Z.of_nat k) + u) at 1 by lia.
      apply (reads_dec_sbytes c k 0 u HC UX). unfold is_s64, two63; lia.
    - rewrite s64_id by auto. replace u with (0 * 2 ^ (8 * Z.of_nat k) + u) at 1 by lia.
      apply reads_dec_sbytes_nn; [lia| |auto]. right. unfold is_s64, two63 in HF. lia. }
  eapply reads_eq; [eapply reads_bindo; [exact CR|]|apply app_nil_r].
  cbv beta.
  eapply reads_pure_l with (a := v); [|apply reads_ret]. intros. unfold lift.
  destruct (s64_cong u) as [m Hm']. rewrite sres_s64.
  - rewrite Hm'. replace (u + m * two64 + min) with (v + m * two64) by (unfold u; lia).
    rewrite s64_add_k, s64_id; auto.
  - destruct HF as [[HC [HF|HF]]|HF].
    + left. rewrite s64_id by auto. replace (u + min) with v by (unfold u; lia). auto.
    + right; auto.
    + left. rewrite s64_id by auto. replace (u + min) with v by (unfold u; lia). auto.
Qed.

Lemma reads_DecodeSemiPos : forall c v min, is_u64 v -> is_u64 min -> min <= v ->
  reads (BitStream_DecodeSemiConstraintPosWholeNumber c min) (Some v) (semi_bits (v - min)).
Proof.
  intros c v min Hv Hm Hle. unfold BitStream_DecodeSemiConstraintPosWholeNumber, semi_bits.
  set (u := v - min) in *.
  assert (HU : is_u64 u) by (unfold u, is_u64 in *; lia).
  pose proof (nbytes_u_range u HU). pose proof (nbytes_u_bits u) as NB.
  eapply reads_bindo; [apply reads_len255; lia|].
  replace (8 <? nbytes_u u) with false by lia.
  replace (Z.to_nat (8 * nbytes_u u)) with (8 * Z.to_nat (nbytes_u u))%nat by lia.
  set (k := Z.to_nat (nbytes_u u)).
  assert (UX : 0 <= u < 2 ^ (8 * Z.of_nat k)).
  { split; [unfold is_u64 in HU; lia|]. apply nbits_pow; lia. }
  eapply reads_eq; [eapply reads_bindo|apply app_nil_r].
  - apply (reads_dec_ubytes k 0 u); auto; [lia|].
    assert (2 ^ (8 * Z.of_nat k) <= 2 ^ 64) by (apply Z.pow_le_mono_r; lia). lia.
  - cbv beta. replace (0 * 2 ^ (8 * Z.of_nat k) + u + min) with v by (unfold u; lia).
    rewrite u64_id by auto. apply reads_ret.
Qed.

(** ** Unconstrained *)
Lemma nbytes_s_bits : forall v, nbits (if v <? 0 then - v - 1 else v) < 8 * nbytes_s v.
Proof. intros. unfold nbytes_s. pose proof (nbits_nonneg (if v <? 0 then - v - 1 else v)). lia. Qed.

Lemma Zbits_ones_pad : forall n k v, 0 <= - v - 1 < 2 ^ Z.of_nat n -> (n <= k)%nat ->
  Zbits k v = ones (k - n) ++ Zbits n v.
Proof.
  intros. replace k with ((k - n) + n)%nat at 1 by lia.
  rewrite Zbits_app. f_equal. rewrite <- Zbits_m1. apply Zbits_ext. intros.
  rewrite Z.shiftr_spec by lia. rewrite Z.bits_m1 by lia.
  replace v with (Z.lnot (- v - 1)) by (unfold Z.lnot; lia).
  rewrite Z.lnot_spec by lia. rewrite (testbit_high0 (- v - 1) (Z.of_nat n)) by lia. reflexivity.
Qed.

Lemma writes_EncodeUnc : forall c v, is_s64 v -> sfits c (- v) ->
  writes (BitStream_EncodeUnConstraintWholeNumber c v) tt (unc_bits v).
Proof.
  intros c v Hv HF. unfold BitStream_EncodeUnConstraintWholeNumber, unc_bits.
  pose proof (nbytes_s_range v Hv). pose proof (nbytes_s_bits v) as NB.
  eapply writes_pure_l with (a := nbytes_s v). { intros. unfold lift. rewrite GetLengthSInt_ok; auto. }
  eapply writes_bind; [apply writes_len255; lia|].
  destruct (0 <=? v) eqn:E.
  - replace (v <? 0) with false in NB by lia.
    assert (HU : is_u64 v) by (unfold is_u64, is_s64, two63, two64 in *; lia).
    rewrite u64_id by auto.
    eapply writes_pure_l with (a := nbits v). { intros. unfold lift. rewrite GetNumberOfBits_ok; auto. }
    replace (8 * nbytes_s v) with (nbytes_s v * 8) in * by lia. apply writes_padded; auto. lia.
  - replace (v <? 0) with true in NB by lia.
    eapply writes_pure_l with (a := - v - 1). { intros. unfold lift. rewrite neg_m1_ok; auto. lia. }
    assert (HU : is_u64 (- v - 1)) by (unfold is_u64, is_s64, two63, two64 in *; lia).
    eapply writes_pure_l with (a := nbits (- v - 1)). { intros. unfold lift. rewrite GetNumberOfBits_ok; auto. }
    pose proof (nbits_nonneg (- v - 1)). pose proof (nbits_bound (- v - 1)).
    eapply writes_eq.
    + eapply writes_bind; [apply overwrites_writes; apply overwrites_AppendNBitOne; lia|].
      apply writes_EncodeNonNegNeg; auto.
    + cbv iota. replace (Z.lnot (- v - 1)) with v by (unfold Z.lnot; lia).
      rewrite (Zbits_ones_pad (Z.to_nat (nbits (- v - 1))) (Z.to_nat (8 * nbytes_s v)) v).
      * f_equal. f_equal. lia.
      * rewrite Z2Nat.id by lia. unfold is_s64 in *; lia.
      * lia.
Qed.

Lemma reads_DecodeUnc : forall c v, is_s64 v -> shl_wrap c = true \/ 0 <= v ->
  reads (BitStream_DecodeUnConstraintWholeNumber c) (Some v) (unc_bits v).
Proof.
  intros c v Hv HC. unfold BitStream_DecodeUnConstraintWholeNumber, unc_bits.
  pose proof (nbytes_s_range v Hv). pose proof (nbytes_s_bits v) as NB.
  eapply reads_bindo; [apply reads_len255; lia|].
  replace (8 <? nbytes_s v) with false by lia.
  replace (Z.to_nat (8 * nbytes_s v)) with (8 * Z.to_nat (nbytes_s v))%nat by lia.
  set (k := Z.to_nat (nbytes_s v)).
  set (P := 2 ^ (8 * Z.of_nat k)).
  assert (PP : 0 < P) by (apply Z.pow_pos_nonneg; lia).
  assert (TOP : Z.testbit v (8 * Z.of_nat k - 1) = (v <? 0)).
  { destruct (v <? 0) eqn:E.
    - replace v with (Z.lnot (- v - 1)) by (unfold Z.lnot; lia). rewrite Z.lnot_spec by lia.
      pose proof (nbits_bound (- v - 1) ltac:(lia)). pose proof (nbits_nonneg (- v - 1)).
      rewrite (testbit_high0 (- v - 1) (nbits (- v - 1))); [reflexivity|lia|lia|lia].
    - pose proof (nbits_bound v ltac:(lia)). pose proof (nbits_nonneg v).
      rewrite (testbit_high0 v (nbits v)); [reflexivity|lia|lia|lia]. }
  assert (VB : if v <? 0 then - P <= v else v < P).
  { destruct (v <? 0) eqn:E.
    - assert (- v - 1 < P); [|lia]. apply nbits_pow; lia.
    - apply nbits_pow; lia. }
  assert (CR : reads (dec_sbytes c k (if v <? 0 then -1 else 0)) (Some v) (Zbits (8 * k) v)).
  { replace (Zbits (8 * k) v) with (Zbits (8 * k) (v mod P)).
    2:{ unfold P. replace (8 * Z.of_nat k) with (Z.of_nat (8 * k)) by lia. apply Zbits_mod. }
    pose proof (Z.mod_pos_bound v P PP) as MB.
    destruct (v <? 0) eqn:E.
    - destruct HC as [HC|HC]; [|lia].
      replace (Some v) with (Some (s64 (-1 * 2 ^ (8 * Z.of_nat k) + v mod P))).
      + apply reads_dec_sbytes; auto. unfold is_s64, two63; lia.
      + f_equal. fold P. replace (v mod P) with (v + P).
        * replace (-1 * P + (v + P)) with v by lia. apply s64_id; auto.
        * apply Z.mod_unique with (q := -1); lia.
    - rewrite Z.mod_small by lia.
      replace (Some v) with (Some (0 * 2 ^ (8 * Z.of_nat k) + v)) by (f_equal; lia).
      apply reads_dec_sbytes_nn; try lia. right. unfold is_s64, two63 in *; lia. }
  (* the peek sees the sign bit *)
  intros s pre rest HA HL.
  destruct k as [|k'] eqn:EK; [lia|].
  assert (HP : BitStream_PeekBit s = Ok (v <? 0, s)).
  { apply PeekBit_spec with (pre := pre) (rest := tl (Zbits (8 * S k') v) ++ rest).
    replace (8 * S k')%nat with (S (7 + 8 * k')) in * by lia. cbn [Zbits tl app] in *.
    replace (Z.of_nat (7 + 8 * k')) with (8 * Z.of_nat (S k') - 1) in HA by lia. rewrite TOP in HA. exact HA. }
  unfold bind. rewrite HP. apply CR; auto.
Qed.
