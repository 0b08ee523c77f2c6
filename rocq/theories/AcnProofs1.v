(** ACN alignment and binary integers: exact behaviour. *)
From Verif Require Import Base Bits BitStream Ints Contracts Misc AcnSpec Acn.
From Verif Require Import BitsProofs BitStreamProofs BitStreamProofs2 BitStreamProofs3 IntsProofs SafeProofs MiscProofs.
From Coq Require Import ZifyBool ZifyNat.
Ltac Zify.zify_post_hook ::= Z.div_mod_to_equations.

Lemma at_pos : forall s pre rest, at_ s pre rest -> pos s = Z.of_nat (length pre).
Proof. intros s pre rest (_ & _ & H & _). auto. Qed.

Lemma overwrites_check : forall c, overwrites (check_stream c) tt [].
Proof.
  intros c s pre old rest Hat Hl Hc. destruct old; [|discriminate].
  exists s. rewrite app_nil_r. cbn [length] in Hc.
  split; [|auto]. unfold check_stream, bind, get. apply massert_true.
  rewrite in_stream_pos. rewrite (at_pos _ _ _ Hat). lia.
Qed.
Lemma writes_check : forall c, writes (check_stream c) tt [].
Proof. intros. apply overwrites_writes, overwrites_check. Qed.

Lemma overwrites_checked : forall {A} c (f : M A) a bs, overwrites f a bs -> overwrites (f ;;; check_stream c) tt bs.
Proof. intros. rewrite <- (app_nil_r bs). eapply overwrites_bind; [eassumption|apply overwrites_check]. Qed.
Lemma writes_checked : forall {A} c (f : M A) a bs, writes f a bs -> writes (f ;;; check_stream c) tt bs.
Proof. intros. rewrite <- (app_nil_r bs). eapply writes_bind; [eassumption|apply writes_check]. Qed.

(** ** Alignment *)
Lemma align_ge : forall n p, 0 < n -> p <= align n p.
Proof. intros. unfold align. nia. Qed.
Lemma align_least : forall n p q, 0 < n -> p <= q -> (n | q) -> align n p <= q.
Proof.
  intros n p q Hn Hp [k ->]. unfold align.
  assert ((p + n - 1) / n <= k); [|nia].
  assert (p + n - 1 < (k + 1) * n) by nia.
  apply Z.lt_succ_r. apply Z.div_lt_upper_bound; lia.
Qed.
Lemma align_divides : forall n p, (n | align n p).
Proof. intros. unfold align. exists ((p + n - 1) / n). reflexivity. Qed.

Lemma align_pre : forall k p, 0 <= k -> Z.land (2 ^ k - p mod 2 ^ k) (2 ^ k - 1) = align (2 ^ k) p - p.
Proof.
  intros. replace (2 ^ k - 1) with (Z.ones k) by (rewrite Z.ones_equiv; lia).
  rewrite Z.land_ones by lia. unfold align. assert (0 < 2 ^ k) by (apply Z.pow_pos_nonneg; lia).
  set (n := 2 ^ k) in *. clearbody n.
  pose proof (Z.div_mod p n ltac:(lia)). pose proof (Z.mod_pos_bound p n ltac:(lia)).
  set (r := p mod n) in *. set (q := p / n) in *. clearbody r q.
  destruct (Z.eq_dec r 0) as [->|Hr].
  - rewrite Z.sub_0_r, Z.mod_same by lia.
    replace (p + n - 1) with (n - 1 + q * n) by lia. rewrite Z.div_add, Z.div_small by lia. lia.
  - rewrite Z.mod_small by lia.
    replace (p + n - 1) with (r - 1 + (q + 1) * n) by lia. rewrite Z.div_add, Z.div_small by lia. lia.
Qed.

Lemma AlignByte_run : forall c s, inside s -> align 8 (pos s) <= 8 * count s ->
  Acn_AlignToNextByte c s = Ok (tt, mkbs (buf s) (count s) (align 8 (pos s) / 8) 0).
Proof.
  intros c s (H1 & H2 & H3) Ha. destruct s as [m n cy cb]. cbn [curByte curBit count buf] in *.
  assert (Hp : Z.land (8 - cb) 7 = align 8 (8 * cy + cb) - (8 * cy + cb)).
  { pose proof (align_pre 3 (8 * cy + cb) ltac:(lia)) as E. change (2 ^ 3) with 8 in E.
    change (8 - 1) with 7 in E. rewrite <- E. do 2 f_equal. lia. }
  unfold pos in *. cbn [curByte curBit count buf] in *.
  unfold Acn_AlignToNextByte, check_pre, bind, get. cbn [curByte curBit count buf].
  rewrite massert_true by (rewrite Hp; lia).
  destruct (Z.eqb_spec cb 0) as [->|Hne]; cbn [negb].
  - unfold ret. do 3 f_equal. unfold align. lia.
  - unfold set_cur, check_stream, bind, get. cbn [curByte curBit count buf].
    rewrite massert_true.
    + do 3 f_equal. unfold align. lia.
    + unfold in_stream. cbn [curByte curBit count buf]. unfold align in Ha. lia.
Qed.

Lemma AlignN_run : forall c w k s, 0 <= k -> w = 2 ^ k -> inside s -> align (8 * w) (pos s) <= 8 * count s ->
  Acn_AlignToNextN c w s = Ok (tt, mkbs (buf s) (count s) (align (8 * w) (pos s) / 8) 0).
Proof.
  intros c w k s Hk Hw Hi Ha.
  assert (Hw0 : 0 < w) by (subst; apply Z.pow_pos_nonneg; lia).
  assert (Hp : Z.land (8 * w - (8 * Z.land (curByte s) (w - 1) + curBit s)) (8 * w - 1) =
               align (8 * w) (pos s) - pos s).
  { assert (E : 2 ^ (3 + k) = 8 * w) by (rewrite Z.pow_add_r by lia; subst; reflexivity).
    rewrite <- E, <- align_pre by lia. rewrite E. f_equal. f_equal.
    replace (w - 1) with (Z.ones k) by (rewrite Z.ones_equiv; lia).
    rewrite Z.land_ones by lia. rewrite <- Hw. unfold pos. destruct Hi as (H1 & H2 & _).
    pose proof (Z.div_mod (curByte s) w ltac:(lia)). pose proof (Z.mod_pos_bound (curByte s) w Hw0).
    apply Z.mod_unique with (q := curByte s / w); lia. }
  assert (A8 : align 8 (pos s) <= align (8 * w) (pos s)).
  { apply align_least; [lia|apply align_ge; lia|].
    destruct (align_divides (8 * w) (pos s)) as [q E]. exists (q * w). lia. }
  unfold Acn_AlignToNextN, check_pre. unfold bind at 1, get at 1. unfold bind at 1 2. unfold get at 1.
  rewrite massert_true.
  2:{ rewrite Hp. unfold pos in *. lia. }
  unfold bind at 1. rewrite AlignByte_run by (auto; lia).
  unfold bind at 1, get at 1. cbn [curByte curBit count buf].
  assert (Q : Z.quot (align 8 (pos s) / 8 + (w - 1)) w * w = align (8 * w) (pos s) / 8).
  { assert (0 <= pos s) by (destruct Hi as (?&?&?); unfold pos; lia).
    pose proof (align_ge 8 (pos s) ltac:(lia)).
    rewrite Z.quot_div_nonneg by lia.
    unfold align.
    replace ((pos s + 8 * w - 1) / (8 * w) * (8 * w)) with ((pos s + 8 * w - 1) / (8 * w) * w * 8) by lia.
    rewrite !Z.div_mul by lia.
    f_equal.
    rewrite <- Z.div_div by lia. f_equal. lia. }
  rewrite Q. unfold set_cur, check_stream, bind, get. cbn [curByte curBit count buf].
  rewrite massert_true; [reflexivity|].
  unfold in_stream. cbn [curByte curBit count buf].
  assert (align (8 * w) (pos s) / 8 * 8 = align (8 * w) (pos s)).
  { destruct (align_divides (8 * w) (pos s)) as [q E]. rewrite E.
    replace (q * (8 * w)) with (q * w * 8) by lia. now rewrite Z.div_mul by lia. }
  lia.
Qed.

(** ** Bytes of an integer *)
Lemma land_byte_mask : forall v k, 0 <= k ->
  byte_of (Z.shiftr (Z.land v (255 * 2 ^ k)) k) = byte_of (Z.shiftr v k).
Proof.
  intros. rewrite <- Z.shiftl_mul_pow2 by lia. unfold byte_of. rewrite Z.shiftr_land.
  rewrite Z.shiftr_shiftl_l, Z.sub_diag by lia. rewrite Z.shiftl_0_r.
  change 255 with (Z.ones 8). rewrite Z.land_ones by lia. change (2 ^ 8) with 256.
  now rewrite Z.mod_mod by lia.
Qed.
Lemma Zbits_byte_of : forall v, Zbits 8 (byte_of v) = Zbits 8 v.
Proof. intros. unfold byte_of. exact (Zbits_mod 8 v). Qed.

Lemma overwrites_byte0 : forall v, overwrites (BitStream_AppendByte0 (byte_of v)) true (Zbits 8 v).
Proof.
  intros. eapply overwrites_eq; [apply overwrites_AppendByte0, is_byte_byte_of|apply Zbits_byte_of].
Qed.

Lemma overwrites_be_loop : forall k size v i, Z.of_nat k = size - i -> 0 <= i ->
  overwrites (be_loop size v (255 * 2 ^ (8 * (size - i - 1)) / 1) i k) tt (Zbits (8 * k) v).
Proof.
  induction k; intros size v i Hk Hi; cbn [be_loop].
  - apply overwrites_ret.
  - rewrite Z.div_1_r. replace (8 * S k)%nat with (8 + 8 * k)%nat by lia. rewrite Zbits_app.
    eapply overwrites_bind.
    + replace ((size - i - 1) * 8) with (8 * (size - i - 1)) by lia.
      rewrite land_byte_mask by lia.
      replace (8 * (size - i - 1)) with (Z.of_nat (8 * k)) by lia.
      apply overwrites_byte0.
    + destruct k as [|k'].
      * cbn [be_loop]. apply overwrites_ret.
      * replace (Z.shiftr (255 * 2 ^ (8 * (size - i - 1))) 8) with (255 * 2 ^ (8 * (size - (i + 1) - 1)) / 1).
        { apply IHk; lia. }
        rewrite Z.div_1_r, Z.shiftr_div_pow2 by lia.
        replace (8 * (size - i - 1)) with (8 * (size - (i + 1) - 1) + 8) by lia.
        rewrite Z.pow_add_r by lia. rewrite Z.mul_assoc, Z.div_mul by lia. reflexivity.
Qed.

Lemma overwrites_BE : forall c size v, 1 <= size <= 8 ->
  overwrites (Acn_Enc_Int_PositiveInteger_ConstSize_big_endian c size v) tt (Zbits (Z.to_nat (8 * size)) v).
Proof.
  intros. unfold Acn_Enc_Int_PositiveInteger_ConstSize_big_endian.
  eapply overwrites_checked.
  replace (u64 (Z.shiftl 255 ((size - 1) * 8))) with (255 * 2 ^ (8 * (size - 0 - 1)) / 1).
  - eapply overwrites_eq; [apply overwrites_be_loop; lia|]. f_equal. lia.
  - rewrite Z.shiftl_mul_pow2 by lia. rewrite Z.div_1_r. unfold u64, two64.
    assert (size = 1 \/ size = 2 \/ size = 3 \/ size = 4 \/ size = 5 \/ size = 6 \/ size = 7 \/ size = 8)
      as [->|[->|[->|[->|[->|[->|[->| ->]]]]]]] by lia; reflexivity.
Qed.

Lemma overwrites_le_loop : forall k v, overwrites (le_loop v k) tt (bits_of_bytes (le_octets k v)).
Proof.
  induction k; intros; cbn [le_loop le_octets].
  - apply overwrites_ret.
  - change (bits_of_bytes (v mod 256 :: le_octets k (v / 256))) with
      (bits_of_byte (byte_of v) ++ bits_of_bytes (le_octets k (v / 256))).
    rewrite Zbits8, Zbits_byte_of.
    eapply overwrites_bind; [apply overwrites_byte0|].
    rewrite Z.shiftr_div_pow2 by lia. change (2 ^ 8) with 256. apply IHk.
Qed.
Lemma overwrites_LE : forall c size v,
  overwrites (Acn_Enc_Int_PositiveInteger_ConstSize_little_endian c size v) tt
    (bits_of_bytes (le_octets (Z.to_nat size) v)).
Proof. intros. eapply overwrites_checked. apply overwrites_le_loop. Qed.

Lemma overwrites_U8 : forall c v, overwrites (Acn_Enc_Int_PositiveInteger_ConstSize_8 c v) tt (Zbits 8 v).
Proof. intros. eapply overwrites_checked. apply overwrites_byte0. Qed.

Lemma writes_ConstSize : forall c v n, is_u64 v -> 0 <= n -> v < 2 ^ n ->
  writes (Acn_Enc_Int_PositiveInteger_ConstSize c v n) tt (Zbits (Z.to_nat n) v).
Proof.
  intros c v n Hv Hn Hlt. unfold Acn_Enc_Int_PositiveInteger_ConstSize.
  destruct (Z.eqb_spec n 0) as [->|Hne].
  - cbn. apply writes_ret.
  - rewrite <- (app_nil_r (Zbits _ _)).
    eapply writes_pure_l.
    { intro s. unfold lift. rewrite GetNumberOfBits_ok by assumption. reflexivity. }
    assert (nbits v <= n) by (apply nbits_min; lia).
    eapply writes_ext with (f := (BitStream_AppendNBitZero (n - nbits v) ;;; BitStream_EncodeNonNegativeInteger c v) ;;; check_stream c).
    { intro s. unfold bind. destruct (BitStream_AppendNBitZero _ _) as [[? ?]| | |]; auto. }
    eapply writes_bind; [apply writes_padded; assumption|apply writes_check].
Qed.

Lemma reads_U8 : forall v, is_byte v -> reads Acn_Dec_Int_PositiveInteger_ConstSize_8 (Some v) (Zbits 8 v).
Proof. exact reads_ReadByte. Qed.
Lemma reads_BE : forall size v, 0 <= size <= 8 -> 0 <= v < 2 ^ (8 * size) ->
  reads (Acn_Dec_Int_PositiveInteger_ConstSize_big_endian size) (Some v) (Zbits (Z.to_nat (8 * size)) v).
Proof.
  intros size v Hs Hv. unfold Acn_Dec_Int_PositiveInteger_ConstSize_big_endian.
  replace (8 * size) with (8 * Z.of_nat (Z.to_nat size)) in Hv by lia.
  pose proof (reads_dec_ubytes (Z.to_nat size) 0 v ltac:(lia)) as R.
  rewrite Z.mul_0_l, Z.add_0_l in R.
  eapply reads_eq; [apply R; [|assumption]|f_equal; lia].
  rewrite Z.mul_1_l. apply Z.pow_le_mono_r; lia.
Qed.

Lemma reads_dec_le : forall k i r v, 0 <= i -> i + Z.of_nat k <= 8 -> 0 <= r < 2 ^ (8 * i) ->
  0 <= v < 2 ^ (8 * Z.of_nat k) ->
  reads (dec_le i r k) (Some (r + v * 2 ^ (8 * i))) (bits_of_bytes (le_octets k v)).
Proof.
  induction k; intros i r v Hi Hk Hr Hv; cbn [dec_le le_octets].
  - change (2 ^ (8 * Z.of_nat 0)) with 1 in Hv. replace v with 0 by lia.
    rewrite Z.mul_0_l, Z.add_0_r. apply reads_ret.
  - change (bits_of_bytes (v mod 256 :: le_octets k (v / 256))) with
      (bits_of_byte (v mod 256) ++ bits_of_bytes (le_octets k (v / 256))).
    rewrite Zbits8.
    assert (B : is_byte (v mod 256)) by (apply Z.mod_pos_bound; lia).
    eapply reads_bindo with (a := v mod 256); [apply reads_ReadByte; assumption|].
    assert (P8 : 2 ^ (8 * (i + 1)) = 256 * 2 ^ (8 * i)).
    { replace (8 * (i + 1)) with (8 + 8 * i) by lia. rewrite Z.pow_add_r by lia. reflexivity. }
    assert (Pp : 0 < 2 ^ (8 * i)) by (apply Z.pow_pos_nonneg; lia).
    assert (E : Z.lor r (u64 (Z.shiftl (v mod 256) (i * 8))) = r + v mod 256 * 2 ^ (8 * i)).
    { rewrite Z.shiftl_mul_pow2 by lia. replace (i * 8) with (8 * i) by lia.
      rewrite u64_id.
      - rewrite Z.lor_comm, lor_add by lia. lia.
      - split; [nia|]. unfold two64.
        apply Z.lt_le_trans with (2 ^ (8 * (i + 1))); [rewrite P8; red in B; nia|].
        apply Z.pow_le_mono_r; lia. }
    rewrite E.
    replace (r + v * 2 ^ (8 * i)) with (r + v mod 256 * 2 ^ (8 * i) + v / 256 * 2 ^ (8 * (i + 1))).
    + apply IHk; [lia|lia| |].
      * rewrite P8. red in B. nia.
      * split; [apply Z.div_pos; lia|]. apply Z.div_lt_upper_bound; [lia|].
        replace (8 * Z.of_nat (S k)) with (8 + 8 * Z.of_nat k) in Hv by lia.
        rewrite Z.pow_add_r in Hv by lia. change (2 ^ 8) with 256 in Hv. lia.
    + rewrite P8. pose proof (Z.div_mod v 256 ltac:(lia)). nia.
Qed.
Lemma reads_LE : forall size v, 0 <= size <= 8 -> 0 <= v < 2 ^ (8 * size) ->
  reads (Acn_Dec_Int_PositiveInteger_ConstSize_little_endian size) (Some v)
    (bits_of_bytes (le_octets (Z.to_nat size) v)).
Proof.
  intros size v Hs Hv. unfold Acn_Dec_Int_PositiveInteger_ConstSize_little_endian.
  pose proof (reads_dec_le (Z.to_nat size) 0 0 v) as R. change (8 * 0) with 0 in R.
  change (2 ^ 0) with 1 in R. rewrite Z.mul_1_r, Z.add_0_l in R. apply R; try lia.
  replace (8 * Z.of_nat (Z.to_nat size)) with (8 * size) by lia. assumption.
Qed.

(** ** Two's complement *)
Lemma writes_Twos : forall c v n, 1 <= n <= 64 -> - 2 ^ (n - 1) <= v < 2 ^ (n - 1) -> sfits c (- v) ->
  writes (Acn_Enc_Int_TwosComplement_ConstSize c v n) tt (Zbits (Z.to_nat n) v).
Proof.
  intros c v n Hn Hv Hc. unfold Acn_Enc_Int_TwosComplement_ConstSize.
  assert (2 ^ (n - 1) <= 2 ^ 63) by (apply Z.pow_le_mono_r; lia).
  assert (Hs : is_s64 v) by (unfold is_s64, two63; lia).
  eapply writes_checked.
  destruct (Z.leb_spec 0 v).
  - assert (is_u64 v) by (unfold is_u64, two64; lia).
    rewrite u64_id by assumption.
    eapply writes_pure_l.
    { intro s. unfold lift. rewrite GetNumberOfBits_ok by assumption. reflexivity. }
    apply writes_padded; [assumption|]. assert (nbits v <= n - 1) by (apply nbits_min; lia). lia.
  - eapply writes_pure_l.
    { intro s. unfold lift. rewrite neg_m1_ok by (assumption || lia). reflexivity. }
    assert (U : is_u64 (- v - 1)) by (unfold is_u64, two64; lia).
    eapply writes_pure_l.
    { intro s. unfold lift. rewrite GetNumberOfBits_ok by assumption. reflexivity. }
    assert (nbits (- v - 1) <= n - 1) by (apply nbits_min; lia).
    pose proof (nbits_nonneg (- v - 1)).
    rewrite (Zbits_ones_pad (Z.to_nat (nbits (- v - 1)))).
    + eapply writes_bind.
      * eapply writes_eq; [apply overwrites_writes, overwrites_AppendNBitOne; lia|f_equal; lia].
      * eapply writes_eq; [apply writes_EncodeNonNegNeg; assumption|].
        f_equal. unfold Z.lnot. lia.
    + rewrite Z2Nat.id by lia. split; [lia|]. apply nbits_bound. lia.
    + lia.
Qed.

Lemma overwrites_I8 : forall c v, is_s64 v -> sfits c (- v) ->
  overwrites (Acn_Enc_Int_TwosComplement_ConstSize_8 c v) tt (Zbits 8 v).
Proof.
  intros. eapply overwrites_pure_l.
  { intro s. unfold lift. rewrite int2uint_ok by assumption. reflexivity. }
  eapply overwrites_eq; [apply overwrites_U8|].
  apply Zbits_ext. intros i Hi. unfold two64. rewrite Z.mod_pow2_bits_low by lia. reflexivity.
Qed.
Lemma Zbits_mod64 : forall k v, (k <= 64)%nat -> Zbits k (v mod two64) = Zbits k v.
Proof. intros. apply Zbits_ext. intros i Hi. unfold two64. rewrite Z.mod_pow2_bits_low by lia. reflexivity. Qed.
Lemma le_octets_mod : forall k m v, (k <= m)%nat -> le_octets k (v mod 2 ^ (8 * Z.of_nat m)) = le_octets k v.
Proof.
  induction k; intros m v Hk; cbn [le_octets]; [reflexivity|].
  destruct m; [lia|].
  replace (8 * Z.of_nat (S m)) with (8 + 8 * Z.of_nat m) by lia.
  rewrite Z.pow_add_r by lia. change (2 ^ 8) with 256.
  assert (0 < 2 ^ (8 * Z.of_nat m)) by (apply Z.pow_pos_nonneg; lia).
  rewrite Z.rem_mul_r by lia. f_equal.
  - rewrite Z.mul_comm, Z.mod_add by lia. now rewrite Z.mod_mod by lia.
  - rewrite (Z.mul_comm 256), Z.div_add by lia. rewrite (Z.div_small (v mod 256)) by (apply Z.mod_pos_bound; lia).
    rewrite Z.add_0_l. apply IHk. lia.
Qed.
Lemma overwrites_IN_BE : forall c size v, 1 <= size <= 8 -> is_s64 v -> sfits c (- v) ->
  overwrites (Acn_Enc_Int_TwosComplement_ConstSize_big_endian c size v) tt (Zbits (Z.to_nat (8 * size)) v).
Proof.
  intros. eapply overwrites_pure_l.
  { intro s. unfold lift. rewrite int2uint_ok by assumption. reflexivity. }
  eapply overwrites_eq; [apply overwrites_BE; assumption|]. apply Zbits_mod64. lia.
Qed.
Lemma overwrites_IN_LE : forall c size v, 1 <= size <= 8 -> is_s64 v -> sfits c (- v) ->
  overwrites (Acn_Enc_Int_TwosComplement_ConstSize_little_endian c size v) tt
    (bits_of_bytes (le_octets (Z.to_nat size) v)).
Proof.
  intros. eapply overwrites_pure_l.
  { intro s. unfold lift. rewrite int2uint_ok by assumption. reflexivity. }
  eapply overwrites_eq; [apply overwrites_LE|]. f_equal.
  change two64 with (2 ^ (8 * Z.of_nat 8)). apply le_octets_mod. lia.
Qed.

(** The value a two's complement field of k octets stands for. *)
Lemma uint2int_inv : forall c v n, 1 <= n <= 8 -> - 2 ^ (8 * n - 1) <= v < 2 ^ (8 * n - 1) ->
  uint2int c (v mod 2 ^ (8 * n)) n = Ok v.
Proof.
  intros c v n Hn Hv.
  assert (P : 2 ^ (8 * n) = 2 * 2 ^ (8 * n - 1)) by (rewrite <- Z.pow_succ_r by lia; f_equal; lia).
  assert (0 < 2 ^ (8 * n - 1)) by (apply Z.pow_pos_nonneg; lia).
  rewrite uint2int_ok; [|lia|apply Z.mod_pos_bound; lia].
  f_equal. destruct (Z.ltb_spec v 0).
  - assert (v mod 2 ^ (8 * n) = v + 2 ^ (8 * n)) as -> by (symmetry; apply Z.mod_unique with (q := -1); lia).
    destruct (_ <? _) eqn:E; lia.
  - rewrite Z.mod_small by lia. destruct (_ <? _) eqn:E; lia.
Qed.
Lemma reads_I8 : forall c v, -128 <= v < 128 ->
  reads (Acn_Dec_Int_TwosComplement_ConstSize_8 c) (Some v) (Zbits 8 v).
Proof.
  intros c v Hv. unfold Acn_Dec_Int_TwosComplement_ConstSize_8.
  rewrite <- (app_nil_r (Zbits 8 v)), <- (Zbits_mod 8 v).
  eapply reads_bindo with (a := v mod 256).
  - apply reads_U8. apply Z.mod_pos_bound. lia.
  - eapply reads_pure_l; [|apply reads_ret].
    intro s. unfold lift. change 256 with (2 ^ (8 * 1)). rewrite uint2int_inv; [reflexivity|lia|].
    change (2 ^ (8 * 1 - 1)) with 128. lia.
Qed.
Lemma reads_IN_BE : forall c size v, 1 <= size <= 8 -> - 2 ^ (8 * size - 1) <= v < 2 ^ (8 * size - 1) ->
  reads (Acn_Dec_Int_TwosComplement_ConstSize_big_endian c size) (Some v) (Zbits (Z.to_nat (8 * size)) v).
Proof.
  intros c size v Hs Hv. unfold Acn_Dec_Int_TwosComplement_ConstSize_big_endian.
  rewrite <- (app_nil_r (Zbits _ v)), <- (Zbits_mod (Z.to_nat (8 * size)) v).
  rewrite Z2Nat.id by lia.
  eapply reads_bindo with (a := v mod 2 ^ (8 * size)).
  - apply reads_BE; [lia|]. apply Z.mod_pos_bound. apply Z.pow_pos_nonneg; lia.
  - eapply reads_pure_l; [|apply reads_ret].
    intro s. unfold lift. rewrite uint2int_inv by assumption. reflexivity.
Qed.
Lemma reads_IN_LE : forall c size v, 1 <= size <= 8 -> - 2 ^ (8 * size - 1) <= v < 2 ^ (8 * size - 1) ->
  reads (Acn_Dec_Int_TwosComplement_ConstSize_little_endian c size) (Some v)
    (bits_of_bytes (le_octets (Z.to_nat size) v)).
Proof.
  intros c size v Hs Hv. unfold Acn_Dec_Int_TwosComplement_ConstSize_little_endian.
  rewrite <- (app_nil_r (bits_of_bytes _)).
  rewrite <- (le_octets_mod (Z.to_nat size) (Z.to_nat size) v) by lia.
  replace (8 * Z.of_nat (Z.to_nat size)) with (8 * size) by lia.
  eapply reads_bindo with (a := v mod 2 ^ (8 * size)).
  - apply reads_LE; [lia|]. apply Z.mod_pos_bound. apply Z.pow_pos_nonneg; lia.
  - eapply reads_pure_l; [|apply reads_ret].
    intro s. unfold lift. rewrite uint2int_inv by assumption. reflexivity.
Qed.
