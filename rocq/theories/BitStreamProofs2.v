(** Proofs about the bit stream primitives, continued: partial bytes, byte
    arrays and bit arrays. *)
From Coq Require Import ZArith List Bool Lia.
From Coq Require Import ZifyBool ZifyNat.
From Verif Require Import Base Bits BitsProofs BitStream Contracts BitStreamProofs.
Import ListNotations.
Open Scope Z_scope.
Ltac Zify.zify_post_hook ::= Z.div_mod_to_equations.

(** ** Partial bytes *)
Lemma byte_part : forall b v n cb pb old tb, is_byte b -> 0 <= v < 2 ^ n -> 0 <= cb -> 1 <= n <= 8 -> cb + n <= 8 ->
  bits_of_byte b = pb ++ old ++ tb -> Z.of_nat (length pb) = cb -> Z.of_nat (length old) = n ->
  let b' := Z.lor (Z.land b (Z.lor (256 - 2 ^ (8 - cb)) (2 ^ (8 - (cb + n)) - 1))) (byte_of (Z.shiftl v (8 - (cb + n)))) in
  is_byte b' /\ bits_of_byte b' = pb ++ Zbits (Z.to_nat n) v ++ tb.
Proof.
  intros b v n cb pb old tb B V C0 N C E L LO b'. subst b'.
  assert (VB : is_byte v).
  { unfold is_byte. assert (2 ^ n <= 2 ^ 8) by (apply Z.pow_le_mono_r; lia). lia. }
  assert (LL : length (bits_of_byte b) = length (pb ++ old ++ tb)) by congruence.
  rewrite len_bits_of_byte, !app_length in LL.
  assert (HV : forall i, n <= i -> Z.testbit v i = false) by (intros; eapply testbit_high0; eauto; lia).
  assert (n = 8 \/ 1 <= n < 8) as [N8|N8] by lia; [assert (cb = 0) by lia; subst cb; subst n|cst8 n; try lia; cst8 cb; try lia];
  lst pb; lst old; lst tb; evc;
  repeat match goal with |- context[8 - (?a + ?b)] => let y := eval cbv in (8 - (a+b)) in change (8 - (a+b)) with y end; evc;
  repeat match goal with |- context[Z.lor (Zpos ?a) (Zpos ?b)] => let y := eval cbv in (Z.lor (Zpos a) (Zpos b)) in change (Z.lor (Zpos a) (Zpos b)) with y end;
  repeat match goal with |- context[Z.lor (Zpos ?a) Z0] => let y := eval cbv in (Z.lor (Zpos a) Z0) in change (Z.lor (Zpos a) Z0) with y end;
  repeat match goal with |- context[Z.lor Z0 (Zpos ?a)] => let y := eval cbv in (Z.lor Z0 (Zpos a)) in change (Z.lor Z0 (Zpos a)) with y end;
  (split; [isbyte|]); solve_byte E; rewrite HV by lia; rewrite ?orb_false_r, ?orb_false_l; try reflexivity; try congruence.
Qed.

Lemma bits0_byte : forall b n, is_byte b -> bits_of_byte b = zeros n -> b = 0.
Proof.
  intros. apply bits_of_byte_inj; auto; [unfold is_byte; lia|].
  assert (length (bits_of_byte b) = length (zeros n)) by congruence.
  rewrite len_bits_of_byte, len_zeros in H1. subst n. rewrite H0. reflexivity.
Qed.

Lemma zeros_split : forall n a b, zeros n = a ++ b -> a = zeros (length a) /\ b = zeros (length b).
Proof.
  intros. assert (L : length (zeros n) = length (a ++ b)) by congruence.
  rewrite len_zeros, app_length in L. subst n. rewrite zeros_app in H.
  apply app_split in H; [|apply len_zeros]. destruct H. auto.
Qed.

Lemma zeros_app_split : forall n tl a b, zeros n ++ tl = a ++ b -> (length a <= n)%nat -> a = zeros (length a).
Proof.
  intros. replace n with (length a + (n - length a))%nat in H by lia. rewrite zeros_app, <- app_assoc in H.
  apply app_split in H; [|apply len_zeros]. destruct H; auto.
Qed.

(** v << (8-n) laid out as a byte. *)
Lemma shl_byte : forall v n, 0 <= v < 2 ^ n -> 0 <= n <= 8 -> is_byte (Z.shiftl v (8 - n)).
Proof.
  intros. unfold is_byte. rewrite Z.shiftl_mul_pow2 by lia.
  assert (2 ^ n * 2 ^ (8 - n) = 256) by (rewrite <- Z.pow_add_r by lia; replace (n + (8-n)) with 8 by lia; reflexivity).
  nia.
Qed.

Lemma shl_byte_bits : forall v n, 0 <= n <= 8 ->
  Zbits 8 (Z.shiftl v (8 - n)) = Zbits (Z.to_nat n) v ++ zeros (Z.to_nat (8 - n)).
Proof.
  intros. replace 8%nat with (Z.to_nat n + Z.to_nat (8 - n))%nat at 1 by lia.
  rewrite Zbits_app. f_equal.
  - rewrite Z2Nat.id by lia. rewrite Z.shiftr_shiftl_l by lia. f_equal.
    rewrite Z.sub_diag. apply Z.shiftl_0_r.
  - rewrite <- Zbits_0. apply Zbits_ext. intros.
    rewrite Z.shiftl_spec_low by lia. rewrite Z.testbit_0_l. reflexivity.
Qed.

Definition pneg (neg : bool) (v n : Z) : Z := if neg then Z.land (2 ^ n - 1) (bnot v) else v.

Lemma pneg_bits : forall neg v n, 0 <= n <= 8 ->
  Zbits (Z.to_nat n) (pneg neg v n) = Zbits (Z.to_nat n) (if neg then Z.lnot v else v).
Proof.
  intros. unfold pneg. destruct neg; auto. apply Zbits_ext. intros i Hi.
  rewrite Z.land_spec. unfold bnot. rewrite byte_of_testbit by lia.
  replace (2 ^ n - 1) with (Z.ones n) by (rewrite Z.ones_equiv; lia).
  rewrite Z.ones_spec_low by lia. reflexivity.
Qed.

Lemma pneg_range : forall neg v n, 0 <= n <= 8 -> (neg = false -> 0 <= v < 2 ^ n) -> 0 <= pneg neg v n < 2 ^ n.
Proof.
  intros. unfold pneg. destruct neg; auto.
  replace (2 ^ n - 1) with (Z.ones n) by (rewrite Z.ones_equiv; lia).
  rewrite Z.land_comm, Z.land_ones by lia. apply Z.mod_pos_bound. apply Z.pow_pos_nonneg; lia.
Qed.

(** Inside one byte the partial append is exact. *)
Lemma AppendPartialByte_inbyte : forall c v n neg s pre old rest,
  1 <= n <= 8 -> (neg = false -> 0 <= v < 2 ^ n) ->
  at_ s pre (old ++ rest) -> Z.of_nat (length old) = n -> curBit s + n <= 8 ->
  Z.of_nat (length pre) + n <= 8 * count s ->
  exists s', BitStream_AppendPartialByte c v n neg s = Ok (tt, s') /\
    at_ s' (pre ++ Zbits (Z.to_nat n) (if neg then Z.lnot v else v)) rest /\ count s' = count s.
Proof.
  intros c v n neg s pre old rest N V (F & E & L & C) LO T LE. unfold pos in *.
  rewrite <- pneg_bits by lia. set (w := pneg neg v n).
  assert (W : 0 <= w < 2 ^ n) by (apply pneg_range; auto; lia).
  destruct (mem_write (buf s) pre old rest (Zbits (Z.to_nat n) w) (curByte s) (curBit s)) as
    (b & pb & tb & HN & B & EB & LP & [HI RR] & HW); auto; try (rewrite ?len_Zbits; lia).
  destruct (byte_part b w n (curBit s) pb old tb) as [B' EB']; auto; try lia.
  destruct (HW _ B' EB') as (m' & HU & F' & E' & L').
  unfold BitStream_AppendPartialByte.
  assert (EN : forall st, (if neg then (let* mn := tbl masksb n in ret (Z.land mn (bnot v))) else ret v) st = Ok (w, st)).
  { intros. unfold w, pneg. destruct neg; [|reflexivity]. run. rewrite nthZ_masksb by lia. reflexivity. }
  run. unfold bind, tbl, lift, ret in EN. rewrite EN. run.
  rewrite nthZ_masksb by lia. run. rewrite bnot_mask by lia.
  replace (curBit s + n <=? 8) with true by lia. run.
  rewrite nthZ_masksb by lia. run. rewrite HN. run. rewrite HU. run. unfold in_stream.
  destruct (curBit s + n =? 8) eqn:E8; cbn [buf count curByte curBit].
  - replace ((curByte s + 1) * 8 + 0 <=? count s * 8) with true by lia. cbn [orb].
    eexists; split; [reflexivity|]. unfold at_, pos; cbn [buf count curByte curBit].
    rewrite <- app_assoc, app_length, len_Zbits. splits; auto; lia.
  - replace (curByte s * 8 + (curBit s + n) <=? count s * 8) with true by lia. cbn [orb].
    eexists; split; [reflexivity|]. unfold at_, pos; cbn [buf count curByte curBit].
    rewrite <- app_assoc, app_length, len_Zbits. splits; auto; lia.
Qed.

Lemma writes_AppendPartialByte : forall c v n neg,
  1 <= n <= 8 -> (neg = false -> 0 <= v < 2 ^ n) ->
  writes (BitStream_AppendPartialByte c v n neg) tt (Zbits (Z.to_nat n) (if neg then Z.lnot v else v)).
Proof.
  intros c v n neg N V s pre k tl HA HK HL. rewrite len_Zbits in *.
  destruct (Z_le_dec (curBit s + n) 8) as [T|T].
  - destruct (AppendPartialByte_inbyte c v n neg s pre (zeros (Z.to_nat n)) (zeros (k - Z.to_nat n) ++ tl)) as (s' & E & A & CC); auto.
    + rewrite app_assoc, <- zeros_app. replace (Z.to_nat n + (k - Z.to_nat n))%nat with k by lia. auto.
    + rewrite len_zeros. lia.
    + lia.
    + eauto.
  - destruct HA as (F & E & L & C). unfold pos in *.
    rewrite <- pneg_bits by lia. set (w := pneg neg v n).
    assert (W : 0 <= w < 2 ^ n) by (apply pneg_range; auto; lia).
    set (w8 := Z.shiftl w (8 - n)).
    assert (W8 : is_byte w8) by (apply shl_byte; lia).
    assert (K16 : Z.of_nat k >= 16 - curBit s) by lia.
    destruct (mem_byte (buf s) pre (zeros 8) (zeros (k - 8) ++ tl) (curByte s) (curBit s) w8) as
      (b & m1 & HN & HU & LM & HB & HZ & HP); auto.
    { rewrite E. f_equal. rewrite app_assoc, <- zeros_app. do 2 f_equal. lia. }
    destruct HP as (b2 & m2 & HN2 & HU2 & LM2 & F2 & E2 & B2 & tb & r' & ER & EB2); [lia|].
    assert (LT : (length tb + Z.to_nat (curBit s) = 8)%nat).
    { assert (LL : length (bits_of_byte b2) = length (skipn (Z.to_nat (8 - curBit s)) (zeros 8) ++ tb)) by congruence.
      rewrite len_bits_of_byte, app_length, skipn_length, len_zeros in LL. lia. }
    assert (ET : tb = zeros (length tb)) by (eapply zeros_app_split; eauto; lia).
    assert (b2 = 0).
    { apply (bits0_byte b2 8); auto. rewrite EB2, ET.
      replace 8%nat with (Z.to_nat (8 - curBit s) + Z.to_nat (curBit s))%nat at 1 by lia.
      rewrite zeros_app, skipn_app, len_zeros, Nat.sub_diag, skipn_O.
      rewrite skipn_all2 by (rewrite len_zeros; lia). cbn [app]. rewrite <- zeros_app. f_equal. lia. }
    subst b2.
    assert (EN : forall st, (if neg then (let* mn := tbl masksb n in ret (Z.land mn (bnot v))) else ret v) st = Ok (w, st)).
    { intros. unfold w, pneg. destruct neg; [|reflexivity]. run. rewrite nthZ_masksb by lia. reflexivity. }
    unfold BitStream_AppendPartialByte.
    run. unfold bind, tbl, lift, ret in EN. rewrite EN. run.
    rewrite nthZ_masksb by lia. run. rewrite bnot_mask by lia.
    replace (curBit s + n <=? 8) with false by lia. run.
    rewrite HN. run.
    assert (SH : byte_of (Z.shiftr w (curBit s + n - 8)) = byte_of (Z.shiftr w8 (curBit s))).
    { f_equal. unfold w8. rewrite Z.shiftr_shiftl_r by lia. f_equal. lia. }
    rewrite SH. fold (put_hi b w8 (curBit s)). rewrite HU. run.
    rewrite nthZ_masksb by lia. run. rewrite HN2. run.
    assert (SL : Z.lor (Z.land 0 (bnot (2 ^ (8 - (curBit s + n - 8)) - 1))) (byte_of (Z.shiftl w (8 - (curBit s + n - 8)))) = put_lo 0 w8 (curBit s)).
    { unfold put_lo. rewrite !Z.land_0_l, !Z.lor_0_l. unfold w8. rewrite Z.shiftl_shiftl by lia. do 2 f_equal. lia. }
    rewrite SL, HU2. run. unfold in_stream. cbn [buf count curByte curBit].
    replace ((curByte s + 1) * 8 + (curBit s + n - 8) <=? count s * 8) with true by lia. cbn [orb].
    eexists; split; [reflexivity|]. unfold at_, pos; cbn [buf count curByte curBit].
    rewrite app_length, len_Zbits. splits; auto; try lia.
    rewrite E2. unfold w8. rewrite shl_byte_bits by lia. rewrite <- !app_assoc. do 2 f_equal.
    rewrite app_assoc, <- zeros_app. do 2 f_equal. lia.
Qed.

(** ** Reading a partial byte *)
Lemma byte_getpart : forall b v n cb pb tb, is_byte b -> 0 <= v < 2 ^ n -> 0 <= cb -> 1 <= n <= 8 -> cb + n <= 8 ->
  bits_of_byte b = pb ++ Zbits (Z.to_nat n) v ++ tb -> Z.of_nat (length pb) = cb ->
  byte_of (Z.land (Z.shiftr b (8 - (cb + n))) (2 ^ n - 1)) = v.
Proof.
  intros b v n cb pb tb B V C N T E L.
  replace (2 ^ n - 1) with (Z.ones n) by (rewrite Z.ones_equiv; lia).
  rewrite Z.land_ones by lia.
  assert (LL : length (bits_of_byte b) = length (pb ++ Zbits (Z.to_nat n) v ++ tb)) by congruence.
  rewrite len_bits_of_byte, !app_length, len_Zbits in LL.
  assert (HB : bval (bits_of_byte b) = b) by (apply bval_byte; auto).
  rewrite E in HB. rewrite !bval_app, bval_Zbits_small in HB by (rewrite Z2Nat.id by lia; auto).
  rewrite app_length, len_Zbits in HB.
  rewrite Z.shiftr_div_pow2 by lia.
  replace (Z.of_nat (length tb)) with (8 - (cb + n)) in HB by lia.
  replace (Z.of_nat (Z.to_nat n + length tb)) with (n + (8 - (cb + n))) in HB by lia.
  rewrite Z.pow_add_r in HB by lia.
  pose proof (bval_bounds tb) as BT. replace (Z.of_nat (length tb)) with (8 - (cb + n)) in BT by lia.
  assert (ED : b / 2 ^ (8 - (cb + n)) = bval pb * 2 ^ n + v).
  { rewrite <- HB. symmetry. apply Z.div_unique with (r := bval tb); [left; lia|]. ring. }
  rewrite ED. rewrite Z.add_comm, Z.mod_add by (apply Z.pow_nonzero; lia).
  rewrite Z.mod_small by auto. apply byte_of_id. unfold is_byte.
  assert (2 ^ n <= 2 ^ 8) by (apply Z.pow_le_mono_r; lia). lia.
Qed.

Lemma reads_ReadPartialByte : forall v n, 1 <= n <= 8 -> 0 <= v < 2 ^ n ->
  reads (BitStream_ReadPartialByte n) (Some v) (Zbits (Z.to_nat n) v).
Proof.
  intros v n N V s pre rest (F & E & L & C) LE. rewrite len_Zbits in *. unfold pos in *.
  unfold BitStream_ReadPartialByte. run. rewrite nthZ_masksb by lia. run.
  destruct (curBit s + n <=? 8) eqn:T.
  - destruct (mem_write (buf s) pre (Zbits (Z.to_nat n) v) rest (Zbits (Z.to_nat n) v) (curByte s) (curBit s)) as
      (b & pb & tb & HN & B & EB & LP & [HI RR] & HW); auto; try (rewrite ?len_Zbits; lia).
    run. rewrite HN. run. rewrite (byte_getpart b v n (curBit s) pb tb) by (auto; lia).
    unfold in_stream.
    destruct (curBit s + n =? 8) eqn:E8; cbn [buf count curByte curBit].
    + replace ((curByte s + 1) * 8 + 0 <=? count s * 8) with true by lia.
      eexists; split; [reflexivity|]. unfold at_, pos; cbn [buf count curByte curBit].
      rewrite <- app_assoc, app_length, len_Zbits. splits; auto; lia.
    + replace (curByte s * 8 + (curBit s + n) <=? count s * 8) with true by lia.
      eexists; split; [reflexivity|]. unfold at_, pos; cbn [buf count curByte curBit].
      rewrite <- app_assoc, app_length, len_Zbits. splits; auto; lia.
  - set (q := Z.to_nat (8 - n)).
    pose proof (len_bits_of_bytes (buf s)) as LB. rewrite E, !app_length, len_Zbits in LB.
    assert (SR : rest = firstn q rest ++ skipn q rest) by (symmetry; apply firstn_skipn).
    assert (LQ : length (firstn q rest) = q) by (rewrite firstn_length; lia).
    set (u := bval (firstn q rest)).
    assert (U : 0 <= u < 2 ^ (8 - n)).
    { pose proof (bval_bounds (firstn q rest)). unfold u. rewrite LQ in H. unfold q in *. rewrite Z2Nat.id in H by lia. auto. }
    set (w8 := v * 2 ^ (8 - n) + u).
    assert (P8 : 2 ^ n * 2 ^ (8 - n) = 256) by (rewrite <- Z.pow_add_r by lia; replace (n + (8-n)) with 8 by lia; reflexivity).
    assert (W8 : is_byte w8) by (unfold is_byte, w8; nia).
    assert (EW : Zbits 8 w8 = Zbits (Z.to_nat n) v ++ firstn q rest).
    { apply bval_inj; [rewrite app_length, !len_Zbits; lia|].
      rewrite bval_Zbits_small by exact W8. rewrite bval_app, bval_Zbits_small by (rewrite Z2Nat.id by lia; auto).
      rewrite LQ. unfold w8, u, q. rewrite Z2Nat.id by lia. reflexivity. }
    destruct (mem_get (buf s) pre (skipn q rest) (curByte s) (curBit s) w8) as (b & HN & B & HI & _ & HP); auto.
    { rewrite E, EW, <- app_assoc. do 2 f_equal. auto. }
    destruct HP as (b2 & HN2 & HI2 & EV); [lia|].
    run. rewrite HN. run. rewrite HN2. run.
    assert (EVV : Z.land (Z.lor (byte_of (Z.shiftl b (curBit s + n - 8))) (byte_of (Z.shiftr b2 (8 - (curBit s + n - 8))))) (2 ^ n - 1) = v).
    { replace v with (Z.shiftr w8 (8 - n)) at 1.
      2:{ rewrite Z.shiftr_div_pow2 by lia. unfold w8. symmetry. apply Z.div_unique with (r := u); [left; lia|]. ring. }
      replace (2 ^ n - 1) with (Z.ones n) by (rewrite Z.ones_equiv; lia).
      apply Z.bits_inj'. intros i Hi. rewrite Z.land_spec, Z.shiftr_spec by lia.
      destruct (Z_lt_dec i n).
      - rewrite Z.ones_spec_low by lia. rewrite andb_true_r, Z.lor_spec, !byte_of_testbit by lia.
        rewrite <- EV at 1. rewrite Z.lor_spec, !byte_of_testbit by lia.
        rewrite !Z.shiftl_spec, !Z.shiftr_spec by lia. f_equal; f_equal; lia.
      - rewrite Z.ones_spec_high by lia. rewrite andb_false_r. symmetry. apply byte_testbit_high; auto. lia. }
    rewrite EVV. unfold in_stream. cbn [buf count curByte curBit].
    replace ((curByte s + 1) * 8 + (curBit s + n - 8) <=? count s * 8) with true by lia.
    eexists; split; [reflexivity|]. unfold at_, pos; cbn [buf count curByte curBit].
    rewrite <- app_assoc, app_length, len_Zbits. splits; auto; lia.
Qed.

