(** Streaming: integers of any size. They are read from the start of a byte, or
    when their whole bytes end before the last byte of the block; otherwise the
    decoder fails. *)
From Coq Require Import ZArith List Bool Lia.
From Coq Require Import ZifyBool ZifyNat.
From Verif Require Import Base Bits BitsProofs BitStream Ints Contracts BitStreamProofs BitStreamProofs2 BitStreamProofs3 IntsProofs
  Streaming StreamingSpec StreamingProofs StreamingProofs2 StreamingProofs3 StreamingProofs4.
Import ListNotations.
Open Scope Z_scope.
Ltac Zify.zify_post_hook ::= Z.div_mod_to_equations.

Lemma sReadByte_pos : forall st v st', sReadByte st = Ok (Some v, st') ->
  curBit (sb st') = curBit (sb st) /\ (curByte (sb st) + 1 < count (sb st) -> curByte (sb st') = curByte (sb st) + 1).
Proof.
  intros st v st' H. unfold sReadByte in H. rewrite (sb_step _ _ _ _ _ _ _ (sget _)) in H. cbv zeta in H.
  destruct (count (sb st) - curByte (sb st) <? (if 0 <? curBit (sb st) then 2 else 1)); [discriminate|].
  destruct (nthZ (buf (sb st)) (curByte (sb st))) eqn:E1.
  2-4: unfold sbind at 1 in H; unfold onb, rd, bind, lift in H; rewrite E1 in H; discriminate.
  rewrite (sb_step _ _ _ _ _ _ _ (srd _ _ _ E1)), (sb_step _ _ _ _ _ _ _ (scur _ _ _)) in H.
  unfold sbind at 1 in H. destruct (fetch_if _) as [[[] st2]| | |] eqn:EF; try discriminate.
  assert (P2 : curBit (sb st2) = curBit (sb st) /\ (curByte (sb st) + 1 < count (sb st) -> curByte (sb st2) = curByte (sb st) + 1)).
  { unfold fetch_if in EF. fldin EF. destruct (curByte (sb st) + 1 =? count (sb st)) eqn:EE.
    - destruct (_ <? _) in EF; [discriminate|]. injection EF as <-. fld. lia.
    - injection EF as <-. fld. auto. }
  destruct (0 <? curBit (sb st)).
  - rewrite (sb_step _ _ _ _ _ _ _ (sget _)) in H.
    destruct (nthZ (buf (sb st2)) (curByte (sb st2))) eqn:E2.
    2-4: unfold sbind at 1 in H; unfold onb, rd, bind, lift in H; rewrite E2 in H; discriminate.
    rewrite (sb_step _ _ _ _ _ _ _ (srd _ _ _ E2)) in H. injection H as _ <-. auto.
  - injection H as _ <-. auto.
Qed.

Definition room (N m : Z) (st : sstream) : Prop := curBit (sb st) = 0 \/ curByte (sb st) + m < N.
Definition moved (m : Z) (st st' : sstream) : Prop :=
  curBit (sb st') = curBit (sb st) /\ (curBit (sb st) <> 0 -> curByte (sb st') = curByte (sb st) + m).

Lemma sdec_bytes : forall N k v x st rest, 0 <= v -> (v + 1) * 2 ^ (8 * Z.of_nat k) <= 2 ^ 32 ->
  0 <= x < 2 ^ (8 * Z.of_nat k) -> unread N st (Zbits (8 * k) x ++ rest) -> room N (Z.of_nat k) st ->
  exists st', sdec32_bytes k v st = Ok (Some (v * 2 ^ (8 * Z.of_nat k) + x), st') /\ unread N st' rest /\ moved (Z.of_nat k) st st'.
Proof.
  intros N. induction k; intros v x st rest HV HB HX U RM.
  - cbn in HX. replace x with 0 by lia. rewrite Z.mul_1_r, Z.add_0_r. exists st. cbn in U |- *. unfold moved. splits; auto; lia.
  - rewrite Zbits_byte_app in U by auto.
    assert (P : 2 ^ (8 * Z.of_nat (S k)) = 256 * 2 ^ (8 * Z.of_nat k)).
    { change 256 with (2 ^ 8). rewrite <- Z.pow_add_r by lia. f_equal. lia. }
    set (q := 2 ^ (8 * Z.of_nat k)) in *.
    assert (Q : 0 < q) by (apply Z.pow_pos_nonneg; lia).
    rewrite P in *.
    assert (XB : is_byte (x / q)).
    { unfold is_byte. split; [apply Z.div_pos; lia|]. apply Z.div_lt_upper_bound; lia. }
    cbn [sdec32_bytes]. rewrite <- app_assoc in U.
    destruct (sReadByte_ok N (x / q) st _ XB U) as (st1 & E1 & U1).
    { destruct RM as [RM|RM]; [auto|right; clear - RM; lia]. }
    destruct (sReadByte_pos _ _ _ E1) as (P1 & P2).
    assert (CN : count (sb st) = N) by (destruct U as (_ & _ & UU); apply UU).
    unfold sbindo. rewrite (sb_step _ _ _ _ _ _ _ E1).
    assert (E : Z.lor (u32 (Z.shiftl v 8)) (x / q) = v * 2 ^ 8 + x / q).
    { unfold u32, two32. unfold is_byte in XB. apply shl_lor_u; change (2 ^ 8) with 256; try lia; nia. }
    rewrite E.
    replace (v * (256 * q) + x) with ((v * 2 ^ 8 + x / q) * q + x mod q).
    2:{ pose proof (Z.div_mod x q). change (2 ^ 8) with 256. nia. }
    destruct (IHk (v * 2 ^ 8 + x / q) (x mod q) st1 rest) as (st2 & E2 & U2 & M1 & M2); auto.
    { change (2 ^ 8) with 256; unfold is_byte in XB; nia. }
    { fold q. change (2 ^ 8) with 256; unfold is_byte in XB; nia. }
    { fold q. apply Z.mod_pos_bound. auto. }
    { clear - RM P1 P2 CN. unfold room in *. destruct RM as [RM|RM]; [left; congruence|right; rewrite P2 by lia; lia]. }
    exists st2. splits; auto. clear - RM P1 P2 M1 M2 CN. unfold moved, room in *. split; [congruence|].
    intros C0. rewrite M2 by congruence. rewrite P2 by lia. lia.
Qed.
Lemma bits8_byte : forall l : list bool, length l = 8%nat -> exists v, is_byte v /\ l = Zbits 8 v.
Proof.
  intros l H. do 8 (destruct l as [|? l]; [discriminate|]). destruct l; [|discriminate].
  exists (128 * Z.b2z b + 64 * Z.b2z b0 + 32 * Z.b2z b1 + 16 * Z.b2z b2 + 8 * Z.b2z b3 + 4 * Z.b2z b4 + 2 * Z.b2z b5 + Z.b2z b6).
  unfold is_byte. split; [destruct b, b0, b1, b2, b3, b4, b5, b6; cbn; lia|].
  destruct b, b0, b1, b2, b3, b4, b5, b6; reflexivity.
Qed.
Lemma sdec_bytes_fail : forall N k v st l, unread N st l -> curBit (sb st) <> 0 -> N <= curByte (sb st) + Z.of_nat k ->
  exists st', sdec32_bytes k v st = Ok (None, st').
Proof.
  intros N. induction k; intros v st l U C0 H.
  { destruct U. lia. }
  cbn [sdec32_bytes]. unfold sbindo. assert (CN : count (sb st) = N) by (destruct U as (_ & _ & UU); apply UU).
  pose proof U as (HB & Hb & _).
  destruct (Z.eq_dec (curByte (sb st) + 1) N) as [EL|NL].
  - rewrite (sb_step _ _ _ _ _ _ _ (sReadByte_last N st l U C0 EL)). eexists; reflexivity.
  - assert (exists v0 l', is_byte v0 /\ eqz l (Zbits 8 v0 ++ l')) as (v0 & l' & V0 & EZ).
    { destruct (bits8_byte (firstn 8 (l ++ zeros 8))) as (v0 & V0 & EV).
      { rewrite firstn_length, app_length, len_zeros. lia. }
      exists v0, (skipn 8 (l ++ zeros 8)). split; auto. rewrite <- EV, firstn_skipn.
      intros i. symmetry. apply eqz_app_zeros. }
    destruct (sReadByte_ok N v0 st l' V0 (unread_eqz _ _ _ _ U EZ)) as (st1 & E1 & U1); [right; lia|].
    destruct (sReadByte_pos _ _ _ E1) as (P1 & P2).
    rewrite (sb_step _ _ _ _ _ _ _ E1). apply (IHk _ _ l'); auto; [congruence|]. rewrite P2 by lia. lia.
Qed.

(** 32 bits or fewer. *)
Lemma sDecode32_ok : forall N n v st rest, 0 <= n <= 32 -> 0 <= v < 2 ^ n ->
  unread N st (Zbits (Z.to_nat n) v ++ rest) -> room N (n / 8) st ->
  exists st', sDecode32Neg n st = Ok (Some v, st') /\ unread N st' rest /\ (n mod 8 = 0 -> moved (n / 8) st st').
Proof.
  intros N n v st rest HN V U RM. unfold sDecode32Neg. replace (n <? 0) with false by lia.
  set (k := Z.to_nat (n / 8)) in *. set (r := n mod 8) in *. replace (n / 8) with (Z.of_nat k) in * by lia.
  replace (Z.to_nat n) with (8 * k + Z.to_nat r)%nat in U by lia. rewrite Zbits_app, <- app_assoc in U.
  rewrite Z2Nat.id in U by lia.
  set (h := Z.shiftr v r) in *.
  assert (H : 0 <= h < 2 ^ (8 * Z.of_nat k)).
  { replace (8 * Z.of_nat k) with (n - r) by lia. apply shiftr_lt; lia. }
  assert (PB : 2 ^ (8 * Z.of_nat k) <= 2 ^ 32) by (apply Z.pow_le_mono_r; lia).
  destruct (sdec_bytes N k 0 h st _ ltac:(lia) ltac:(lia) H U RM) as (st1 & E1 & U1 & M1).
  unfold sbindo. rewrite (sb_step _ _ _ _ _ _ _ E1). cbv zeta. rewrite Z.mul_0_l, Z.add_0_l.
  destruct (r =? 0) eqn:R.
  - exists st1. splits; auto.
    + unfold h. replace r with 0 by lia. rewrite Z.shiftr_0_r. reflexivity.
    + replace (Z.to_nat r) with 0%nat in U1 by lia. exact U1.
  - assert (Q : 0 < 2 ^ r) by (apply Z.pow_pos_nonneg; lia).
    assert (EB : Zbits (Z.to_nat r) v = Zbits (Z.to_nat r) (v mod 2 ^ r)).
    { replace (v mod 2 ^ r) with (v mod 2 ^ Z.of_nat (Z.to_nat r)) by (do 2 f_equal; lia). symmetry. apply Zbits_mod. }
    rewrite EB in U1.
    destruct (sreads_ReadPartialByte N (v mod 2 ^ r) r ltac:(lia) (Z.mod_pos_bound v (2 ^ r) Q) st1 rest U1) as (st2 & E2 & U2).
    rewrite (sb_step _ _ _ _ _ _ _ E2).
    exists st2. splits; auto; [|lia].
    unfold sret. repeat f_equal. unfold u32, two32. rewrite shl_lor_u; try lia.
    + unfold h. rewrite Z.shiftr_div_pow2 by lia. pose proof (Z.div_mod v (2 ^ r)). lia.
    + assert (2 ^ (8 * Z.of_nat k) * 2 ^ r = 2 ^ n) by (rewrite <- Z.pow_add_r by lia; f_equal; lia).
      assert (2 ^ n <= 2 ^ 32) by (apply Z.pow_le_mono_r; lia). nia.
Qed.
Lemma sDecode32_fail : forall N n st l, 0 <= n -> unread N st l -> curBit (sb st) <> 0 -> N <= curByte (sb st) + n / 8 ->
  exists st', sDecode32Neg n st = Ok (None, st').
Proof.
  intros N n st l HN U C0 H. unfold sDecode32Neg. replace (n <? 0) with false by lia.
  destruct (sdec_bytes_fail N (Z.to_nat (n / 8)) 0 st l U C0 ltac:(lia)) as (st1 & E1).
  unfold sbindo. rewrite (sb_step _ _ _ _ _ _ _ E1). eexists; reflexivity.
Qed.

Lemma sDecodeNonNeg_ok : forall N n v st rest, 0 <= n <= 64 -> 0 <= v < 2 ^ n ->
  unread N st (Zbits (Z.to_nat n) v ++ rest) -> room N (n / 8) st ->
  exists st', sDecodeNonNeg n st = Ok (Some v, st') /\ unread N st' rest.
Proof.
  intros N n v st rest HN V U RM. unfold sDecodeNonNeg.
  destruct (n <=? 32) eqn:E.
  { destruct (sDecode32_ok N n v st rest ltac:(lia) V U RM) as (st' & A & B & _). eauto. }
  replace (Z.to_nat n) with (32 + Z.to_nat (n - 32))%nat in U by lia. rewrite Zbits_app, <- app_assoc in U.
  rewrite Z2Nat.id in U by lia.
  assert (H : 0 <= Z.shiftr v (n - 32) < 2 ^ 32).
  { pose proof (shiftr_lt v n (n - 32)) as SS. replace (n - (n - 32)) with 32 in SS by lia. apply SS; lia. }
  assert (Q : 0 < 2 ^ (n - 32)) by (apply Z.pow_pos_nonneg; lia).
  destruct (sDecode32_ok N 32 _ st _ ltac:(lia) H U) as (st1 & E1 & U1 & M).
  { unfold room in *. change (32 / 8) with 4. clear - RM E. lia. }
  specialize (M eq_refl). change (32 / 8) with 4 in M.
  assert (EB : Zbits (Z.to_nat (n - 32)) v = Zbits (Z.to_nat (n - 32)) (v mod 2 ^ (n - 32))).
  { replace (v mod 2 ^ (n - 32)) with (v mod 2 ^ Z.of_nat (Z.to_nat (n - 32))) by (do 2 f_equal; lia). symmetry. apply Zbits_mod. }
  rewrite EB in U1.
  destruct (sDecode32_ok N (n - 32) _ st1 rest ltac:(lia) (Z.mod_pos_bound v _ Q) U1) as (st2 & E2 & U2 & _).
  { clear - RM M E. unfold room, moved in *. destruct M as (M1 & M2). destruct RM as [RM|RM]; [left; congruence|].
    destruct (Z.eq_dec (curBit (sb st)) 0) as [C|C]; [left; congruence|right]. rewrite M2 by auto. lia. }
  exists st2. unfold sbindo. rewrite (sb_step _ _ _ _ _ _ _ E1), (sb_step _ _ _ _ _ _ _ E2).
  replace (96 <=? n) with false by lia. split; auto. unfold sret. repeat f_equal.
  unfold u64, two64. rewrite shl_lor_u; try lia.
  - rewrite Z.shiftr_div_pow2 by lia. pose proof (Z.div_mod v (2 ^ (n - 32))). lia.
  - assert (2 ^ 32 * 2 ^ (n - 32) = 2 ^ n) by (rewrite <- Z.pow_add_r by lia; f_equal; lia).
    assert (2 ^ n <= 2 ^ 64) by (apply Z.pow_le_mono_r; lia). nia.
Qed.
Lemma sDecodeNonNeg_fail : forall N n st v rest, 0 <= n <= 64 -> 0 <= v < 2 ^ n -> unread N st (Zbits (Z.to_nat n) v ++ rest) ->
  curBit (sb st) <> 0 -> N <= curByte (sb st) + n / 8 ->
  exists st', sDecodeNonNeg n st = Ok (None, st').
Proof.
  intros N n st v rest HN V U C0 H. unfold sDecodeNonNeg.
  destruct (n <=? 32) eqn:E.
  { eapply sDecode32_fail; eauto; lia. }
  destruct (Z_lt_dec (curByte (sb st) + 4) N) as [L|L].
  - replace (Z.to_nat n) with (32 + Z.to_nat (n - 32))%nat in U by lia. rewrite Zbits_app, <- app_assoc in U.
    rewrite Z2Nat.id in U by lia.
    assert (HH : 0 <= Z.shiftr v (n - 32) < 2 ^ 32).
    { pose proof (shiftr_lt v n (n - 32)) as SS. replace (n - (n - 32)) with 32 in SS by lia. apply SS; lia. }
    destruct (sDecode32_ok N 32 _ st _ ltac:(lia) HH U) as (st1 & E1 & U1 & M).
    { right. change (32 / 8) with 4. lia. }
    destruct (M eq_refl) as (M1 & M2). change (32 / 8) with 4 in M2. specialize (M2 C0).
    unfold sbindo at 1. rewrite (sb_step _ _ _ _ _ _ _ E1).
    destruct (sDecode32_fail N (n - 32) st1 _ ltac:(lia) U1) as (st2 & E2); [congruence| |].
    { rewrite M2. clear - H E. lia. }
    unfold sbindo. rewrite (sb_step _ _ _ _ _ _ _ E2). eexists; reflexivity.
  - destruct (sDecode32_fail N 32 st _ ltac:(lia) U C0) as (st2 & E2). { change (32 / 8) with 4. lia. }
    unfold sbindo at 1. rewrite (sb_step _ _ _ _ _ _ _ E2). eexists; reflexivity.
Qed.

Lemma sDecodeConstraint_gen : forall N c v min max st rest, is_s64 min -> is_s64 max -> min <= v <= max -> sfits c (max - min) ->
  unread N st (Zbits (crange min max) (v - min) ++ rest) ->
  (curBit (sb st) = 0 \/ curByte (sb st) + Z.of_nat (crange min max) / 8 < N ->
   exists st', sDecodeConstraint c min max st = Ok (Some v, st') /\ unread N st' rest) /\
  (curBit (sb st) <> 0 /\ N <= curByte (sb st) + Z.of_nat (crange min max) / 8 ->
   exists st', sDecodeConstraint c min max st = Ok (None, st')).
Proof.
  intros N c v min max st rest Hmin Hmax Hv HF U. unfold sDecodeConstraint, crange in *.
  assert (Hvs : is_s64 v) by (unfold is_s64 in *; lia).
  assert (E1 : slift (sres c (max - min)) st = Ok (s64 (max - min), st)).
  { apply onb_pure. intros. unfold lift. rewrite sres_s64; auto. }
  rewrite (sb_step _ _ _ _ _ _ _ E1). cbv zeta. rewrite u64_sub by (auto; lia).
  replace (min <=? max) with true by lia.
  assert (HR : is_u64 (max - min)) by (unfold is_s64, is_u64, two63, two64 in *; lia).
  pose proof (nbits_u64 _ HR) as NU. pose proof (nbits_bound (max - min)) as NB. rewrite Z2Nat.id by lia.
  destruct (max - min =? 0) eqn:E.
  { assert (EM : max - min = 0) by lia. assert (EV : v = min) by lia. rewrite EM, nbits_0 in *. rewrite EV in *. clear - U. split.
    - intros _. exists st. split; auto.
    - intros [_ H]. destruct U as (UB & _). change (0 / 8) with 0 in H. lia. }
  assert (E2 : slift (GetNumberOfBitsForNonNegativeInteger (max - min)) st = Ok (nbits (max - min), st)).
  { apply onb_pure. intros. unfold lift. rewrite GetNumberOfBits_ok; auto. }
  rewrite (sb_step _ _ _ _ _ _ _ E2). unfold sbindo. split.
  - intros RM. destruct (sDecodeNonNeg_ok N (nbits (max - min)) (v - min) st rest) as (st1 & E3 & U3); auto; try lia.
    rewrite (sb_step _ _ _ _ _ _ _ E3). replace (max - min <? v - min) with false by lia.
    assert (E4 : slift (sres c (s64 (v - min) + min)) st1 = Ok (s64 (s64 (v - min) + min), st1)).
    { apply onb_pure. intros. unfold lift. rewrite sres_s64; auto. destruct HF as [HF|HF]; [|right; auto].
      left. rewrite s64_id; [|unfold is_s64, two63 in *; lia]. replace (v - min + min) with v by lia. auto. }
    rewrite (sb_step _ _ _ _ _ _ _ E4). exists st1. split; auto. unfold sret. repeat f_equal.
    destruct (s64_cong (v - min)) as [m Hm']. rewrite Hm'. replace (v - min + m * two64 + min) with (v + m * two64) by lia.
    rewrite s64_add_k, s64_id; auto.
  - intros [C0 H]. destruct (sDecodeNonNeg_fail N (nbits (max - min)) st (v - min) rest) as (st1 & E3); auto; try lia.
    rewrite (sb_step _ _ _ _ _ _ _ E3). eexists; reflexivity.
Qed.
