(** Streaming: octet strings inside a block, alignment, small integers and whole
    messages. *)
From Coq Require Import ZArith List Bool Lia.
From Coq Require Import ZifyBool ZifyNat.
From Verif Require Import Base Bits BitsProofs BitStream Ints Contracts BitStreamProofs BitStreamProofs2 BitStreamProofs3 IntsProofs
  Streaming StreamingSpec StreamingProofs StreamingProofs2 StreamingProofs3.
Import ListNotations.
Open Scope Z_scope.
Ltac Zify.zify_post_hook ::= Z.div_mod_to_equations.

(** ** Start and end of a message *)
Lemma sinit_sat : forall cl n, (0 < n)%nat -> sat cl (Z.of_nat n) (sinit n) [].
Proof.
  intros cl n H. unfold sat, sinit, pos. fld. splits; try lia.
  exists [], (zeros (8 * n)). fld. rewrite bits_repeat0, repeat_length. splits; auto; try lia.
  - apply bytes_repeat0.
  - intros _. rewrite len_zeros. auto.
Qed.

Lemma flushed_bits : forall cl N st pre, sat cl N st pre ->
  Forall is_byte (flushed st) /\
  exists pad, bits_of_bytes (flushed st) = pre ++ pad /\ (length pad < 8)%nat /\ (cl = true -> pad = zeros (length pad)).
Proof.
  intros cl N st pre (HB & Hb & p & r & F & F2 & E & L & C & LB & P & EP & Z). unfold pos in L. unfold flushed.
  set (g := Z.to_nat _). assert (LG : (g <= length (buf (sb st)))%nat) by (subst g; destruct (curBit (sb st) =? 0) eqn:?; lia).
  split. { apply Forall_app. split; auto. apply Forall_firstn_. auto. }
  rewrite <- (firstn_skipn g (buf (sb st))), bits_of_bytes_app in E.
  assert (LF : length (firstn g (buf (sb st))) = g) by (rewrite firstn_length; lia).
  assert (LP : (length p <= 8 * g)%nat) by (subst g; destruct (curBit (sb st) =? 0) eqn:?; lia).
  exists (skipn (length p) (bits_of_bytes (firstn g (buf (sb st))))).
  assert (EQ : bits_of_bytes (firstn g (buf (sb st))) = p ++ skipn (length p) (bits_of_bytes (firstn g (buf (sb st))))).
  { rewrite <- (firstn_skipn (length p) (bits_of_bytes (firstn g (buf (sb st))))) in E at 1. rewrite <- app_assoc in E.
    apply app_split in E. 2:{ rewrite firstn_length, len_bits_of_bytes. lia. }
    destruct E as [E _]. etransitivity; [symmetry; apply (firstn_skipn (length p))|]. f_equal. auto. }
  splits.
  - rewrite bits_of_bytes_app, EP, <- app_assoc. f_equal. auto.
  - rewrite skipn_length, len_bits_of_bytes, LF. subst g. destruct (curBit (sb st) =? 0) eqn:?; lia.
  - intros T. specialize (Z T). rewrite EQ in E. rewrite <- app_assoc in E. apply app_inv_head in E.
    rewrite Z in E. symmetry in E. apply zeros_split in E. apply E.
Qed.

Lemma sattach_unread : forall n data, (0 < n)%nat -> Forall is_byte data ->
  unread (Z.of_nat n) (sattach n data) (bits_of_bytes data).
Proof.
  intros n data H F. unfold unread, sattach, pos, rblk. fld. pose proof (firstn_length n data) as LF. splits; try lia.
  - apply Forall_app. split; [apply Forall_firstn_; auto|apply bytes_repeat0].
  - apply Forall_skipn_. auto.
  - rewrite app_length, repeat_length. lia.
  - replace (Z.to_nat (8 * 0 + 0)) with O by lia. cbn [skipn]. rewrite bits_of_bytes_app, bits_repeat0.
    destruct (Nat.le_gt_cases n (length data)).
    + replace (n - length (firstn n data))%nat with O by lia. cbn [Nat.mul zeros repeat].
      rewrite app_nil_r, <- bits_of_bytes_app, firstn_skipn. apply eqz_refl.
    + rewrite skipn_all2, firstn_all2 by lia. cbn [bits_of_bytes]. rewrite app_nil_r. apply eqz_app_zeros.
Qed.

Lemma unread_eqz : forall N st l l', unread N st l -> eqz l l' -> unread N st l'.
Proof. intros N st l l' (A & B & C) H. unfold unread. splits; auto; try lia. eapply rblk_eqz; eauto. Qed.

(** ** Octets inside the block *)
Lemma sEncodeOctets_ok : forall cl N arr k st pre, Forall is_byte arr -> 0 <= k <= Z.of_nat (length arr) ->
  sat cl N st pre -> curBit (sb st) = 0 -> curByte (sb st) + k <= N ->
  exists st', sEncodeOctets cl arr k st = Ok (true, st') /\
    sat cl N st' (pre ++ bits_of_bytes (firstn (Z.to_nat k) arr)).
Proof.
  intros cl N arr k st pre FA K (HB & Hb & B) C0 FIT. unfold pos in B. rewrite C0, Z.add_0_r in B.
  pose proof (blk_len _ _ _ _ _ B) as (CN & LN & P & _).
  unfold sEncodeOctets. rewrite (sb_step _ _ _ _ _ _ _ (sget _)). rewrite C0. cbn [Z.eqb].
  destruct (Z.eq_dec k 0) as [->|KP].
  { exists st. cbn. split; auto. rewrite app_nil_r. unfold sat, pos. rewrite C0, Z.add_0_r. splits; auto; lia. }
  destruct B as (p & r & F & F2 & E & L & _ & _ & _ & EP & Z).
  set (d := firstn (Z.to_nat k) arr). assert (LD : length d = Z.to_nat k) by (unfold d; rewrite firstn_length; lia).
  assert (FD : Forall is_byte d) by (apply Forall_firstn_; auto).
  set (i := Z.to_nat (curByte (sb st))).
  set (m' := blit (buf (sb st)) i d).
  assert (EM : m' = firstn i (buf (sb st)) ++ d ++ skipn (i + Z.to_nat k) (buf (sb st))) by (unfold m', blit; rewrite LD; auto).
  assert (LF : length (firstn i (buf (sb st))) = i) by (rewrite firstn_length; lia).
  assert (EPF : p = bits_of_bytes (firstn i (buf (sb st)))).
  { rewrite <- (firstn_skipn i (buf (sb st))), bits_of_bytes_app in E. apply app_split in E; [symmetry; apply E|].
    rewrite len_bits_of_bytes, LF. lia. }
  assert (ER : r = bits_of_bytes (skipn i (buf (sb st)))).
  { rewrite <- (firstn_skipn i (buf (sb st))), bits_of_bytes_app in E. apply app_split in E; [symmetry; apply E|].
    rewrite len_bits_of_bytes, LF. lia. }
  set (st1 := mkss (mkbs m' N (curByte (sb st) + k) 0) (sent st) (src st)).
  destruct (blk_push cl N st1 (pre ++ bits_of_bytes d)) as (st2 & EPU & B2 & R2 & C2).
  { subst st1. fld. exists (p ++ bits_of_bytes d), (bits_of_bytes (skipn (i + Z.to_nat k) (buf (sb st)))). fld. splits; auto.
    - rewrite EM. apply Forall_app; split; [apply Forall_firstn_; auto|]. apply Forall_app; split; auto. apply Forall_skipn_; auto.
    - rewrite EM, !bits_of_bytes_app, EPF, <- app_assoc. auto.
    - rewrite app_length, len_bits_of_bytes. lia.
    - rewrite EM, !app_length, LF, skipn_length. lia.
    - rewrite EP, <- app_assoc. auto.
    - intros T. specialize (Z T). rewrite ER in Z.
      replace (skipn (i + Z.to_nat k) (buf (sb st))) with (skipn (Z.to_nat k) (skipn i (buf (sb st)))) by (rewrite skipn_skipn_; f_equal; lia).
      rewrite <- (firstn_skipn (Z.to_nat k) (skipn i (buf (sb st)))), bits_of_bytes_app in Z. symmetry in Z.
      apply zeros_split in Z. apply Z. }
  { subst st1. fld. lia. }
  exists st2. subst st1. fldin C2. split.
  2:{ unfold sat, pos. rewrite C2, Z.add_0_r. splits; auto; lia. }
  erewrite sb_step; [reflexivity|].
  cbn [ssend_loop]. replace (0 <? k) with true by lia.
  rewrite (sb_step _ _ _ _ _ _ _ (sget _)). replace (curByte (sb st) + k <=? count (sb st)) with true by lia.
  replace ((k <? 0) || (Z.of_nat (length arr) <? k)) with false by lia. fold d.
  assert (EW : onb (wr_many (curByte (sb st)) d) st = Ok (tt, mkss (mkbs m' (count (sb st)) (curByte (sb st)) (curBit (sb st))) (sent st) (src st))).
  { unfold onb, wr_many. replace ((curByte (sb st) <? 0) || (Z.of_nat (length (buf (sb st))) <? curByte (sb st) + Z.of_nat (length d))) with false by lia.
    reflexivity. }
  rewrite (sb_step _ _ _ _ _ _ _ EW), (sb_step _ _ _ _ _ _ _ (scur _ _ _)). fld. rewrite C0, CN.
  rewrite (sb_step _ _ _ _ _ _ _ EPU). rewrite Z.sub_diag. destruct (Z.to_nat k); reflexivity.
Qed.

Lemma sDecodeOctets_ok : forall N arr d st rest, Forall is_byte d -> length d = length arr ->
  unread N st (bits_of_bytes d ++ rest) -> curBit (sb st) = 0 -> curByte (sb st) + Z.of_nat (length d) <= N ->
  exists st', sDecodeOctets arr (Z.of_nat (length d)) st = Ok (Some d, st') /\ unread N st' rest.
Proof.
  intros N arr d st rest FD LD (HB & Hb & R) C0 FIT. unfold pos in R. rewrite C0, Z.add_0_r in R.
  assert (CN : count (sb st) = N) by apply R.
  unfold sDecodeOctets. rewrite (sb_step _ _ _ _ _ _ _ (sget _)). rewrite C0. cbn [Z.eqb].
  destruct d as [|d0 d1].
  { destruct arr; [|discriminate]. exists st. cbn. split; auto. unfold unread, pos. rewrite C0, Z.add_0_r. splits; auto; lia. }
  set (d := d0 :: d1) in *. assert (LP : 0 < Z.of_nat (length d)) by (cbn; lia). clearbody d. clear d0 d1.
  set (k := Z.of_nat (length d)) in *.
  destruct R as (F & F2 & _ & LN & P & K & E).
  set (i := Z.to_nat (curByte (sb st))).
  replace (Z.to_nat (8 * curByte (sb st))) with (8 * i)%nat in E by lia.
  assert (SK : skipn (8 * i) (bits_of_bytes (buf (sb st))) = bits_of_bytes (skipn i (buf (sb st)))).
  { rewrite <- (firstn_skipn i (buf (sb st))) at 1. rewrite bits_of_bytes_app, skipn_app, skipn_all2.
    - rewrite len_bits_of_bytes, firstn_length. replace (8 * i - _)%nat with O by lia. reflexivity.
    - rewrite len_bits_of_bytes, firstn_length. lia. }
  rewrite SK in E. rewrite <- (firstn_skipn (length d) (skipn i (buf (sb st)))), bits_of_bytes_app, <- app_assoc in E.
  apply eqz_app_inv in E. 2:{ rewrite !len_bits_of_bytes, firstn_length, skipn_length. lia. }
  destruct E as [ED E2].
  apply bits_of_bytes_inj in ED; auto. 2:{ apply Forall_firstn_, Forall_skipn_; auto. }
  set (st1 := mkss (mkbs (buf (sb st)) N (curByte (sb st) + k) 0) (sent st) (src st)).
  destruct (rblk_fetch N st1 rest) as (st2 & EF & R2 & I2 & C2).
  { subst st1. unfold rblk. fld. splits; auto; try lia.
    eapply eqz_trans; [|exact E2]. replace (Z.to_nat (8 * (curByte (sb st) + k))) with (8 * length d + 8 * i)%nat by lia.
    rewrite <- skipn_skipn_, SK. rewrite <- (firstn_skipn (length d) (skipn i (buf (sb st)))) at 1.
    rewrite bits_of_bytes_app, skipn_app, skipn_all2 by (rewrite len_bits_of_bytes, ED; lia).
    rewrite len_bits_of_bytes, ED. replace (8 * length d - 8 * length d)%nat with O by lia. apply eqz_refl. }
  { subst st1. fld. lia. }
  subst st1. fldin C2. exists st2. split.
  2:{ unfold unread, pos. rewrite C2, Z.add_0_r. splits; auto; lia. }
  erewrite sb_step; [reflexivity|].
  cbn [sfetch_loop]. replace (0 <? k) with true by lia.
  rewrite (sb_step _ _ _ _ _ _ _ (sget _)). replace (curByte (sb st) + k <=? count (sb st)) with true by lia. cbv zeta.
  assert (ER : onb (rd_many (curByte (sb st)) k) st = Ok (d, st)).
  { unfold onb, rd_many. replace ((curByte (sb st) <? 0) || (k <? 0) || (Z.of_nat (length (buf (sb st))) <? curByte (sb st) + k)) with false by lia.
    replace (Z.to_nat k) with (length d) by lia. fold i. rewrite ED. destruct st; reflexivity. }
  rewrite (sb_step _ _ _ _ _ _ _ ER).
  replace (Z.of_nat (length arr) <? k) with false by lia.
  rewrite (sb_step _ _ _ _ _ tt st) by reflexivity. rewrite (sb_step _ _ _ _ _ _ _ (scur _ _ _)). fld. rewrite C0, CN.
  rewrite (sb_step _ _ _ _ _ _ _ EF). rewrite Z.sub_diag.
  assert (EB : blit arr 0 d = d). { unfold blit. cbn [firstn app Nat.add]. rewrite LD, skipn_all, app_nil_r. auto. }
  rewrite EB. destruct (Z.to_nat k); reflexivity.
Qed.

(** ** Small integers *)
Lemma sreads_DecodeSmall : forall N n v, 1 <= n <= 7 -> 0 <= v < 2 ^ n ->
  sreads N (sDecodeNonNeg n) (Some v) (Zbits (Z.to_nat n) v).
Proof.
  intros N n v H V. unfold sDecodeNonNeg. replace (n <=? 32) with true by lia.
  unfold sDecode32Neg. replace (n <? 0) with false by lia.
  replace (n / 8) with 0 by lia. cbn [Z.to_nat sdec32_bytes].
  replace (n mod 8) with n by lia.
  eapply sreads_eq with (bs := [] ++ Zbits (Z.to_nat n) v ++ []); [|rewrite app_nil_r; auto].
  eapply sreads_bindo; [apply sreads_ret|]. cbv beta zeta. replace (n =? 0) with false by lia.
  eapply sreads_bindo; [apply sreads_ReadPartialByte; auto; lia|]. cbv beta.
  rewrite Z.shiftl_0_l. cbn [u32]. change (u32 0) with 0. rewrite Z.lor_0_l. apply sreads_ret.
Qed.

Lemma sreads_DecodeConstraint : forall N c v min max, is_s64 min -> is_s64 max -> min <= v <= max -> max - min < 128 ->
  sreads N (sDecodeConstraint c min max) (Some v) (Zbits (crange min max) (v - min)).
Proof.
  intros N c v min max Hmin Hmax Hv SM_. unfold sDecodeConstraint, crange.
  assert (Hvs : is_s64 v) by (unfold is_s64 in *; lia).
  assert (HF : sfits c (max - min)) by (left; unfold is_s64, two63 in *; lia).
  eapply sreads_pure_l with (a := s64 (max - min)). { apply onb_pure. intros. unfold lift. rewrite sres_s64; auto. }
  cbv zeta. rewrite u64_sub by (auto; lia).
  replace (min <=? max) with true by lia.
  assert (HR : is_u64 (max - min)) by (unfold is_s64, is_u64, two63, two64 in *; lia).
  destruct (max - min =? 0) eqn:E.
  { replace (max - min) with 0 by lia. rewrite nbits_0. replace v with min by lia. apply sreads_ret. }
  eapply sreads_pure_l with (a := nbits (max - min)). { apply onb_pure. intros. unfold lift. rewrite GetNumberOfBits_ok; auto. }
  pose proof (nbits_u64 _ HR). pose proof (nbits_bound (max - min)).
  assert (nbits (max - min) <= 7) by (apply nbits_min; lia).
  pose proof (nbits_pos (max - min) ltac:(lia)).
  eapply sreads_eq.
  - eapply sreads_bindo; [apply (sreads_DecodeSmall _ _ (v - min)); lia|].
    cbv beta. replace (max - min <? v - min) with false by lia.
    eapply sreads_pure_l with (a := v); [|apply sreads_ret].
    apply onb_pure. intros. unfold lift. rewrite s64_id by (unfold is_s64, two63 in *; lia).
    replace (v - min + min) with v by lia. rewrite sres_s64; [rewrite s64_id; auto|left; auto].
  - apply app_nil_r.
Qed.
