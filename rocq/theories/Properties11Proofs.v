(** Proofs of the statements in Properties11.v that are not lemmas of the
    streaming files. *)
From Coq Require Import ZArith List Bool Lia.
From Coq Require Import ZifyBool ZifyNat.
From Verif Require Import Base Bits BitsProofs BitStream Ints Contracts BitStreamProofs BitStreamProofs2 BitStreamProofs3 IntsProofs
  Streaming StreamingSpec StreamingProofs StreamingProofs2 StreamingProofs3 StreamingProofs4 StreamingProofs5.
Import ListNotations.
Open Scope Z_scope.
Ltac Zify.zify_post_hook ::= Z.div_mod_to_equations.

Lemma bit : forall c cl N b, swrites cl N (sAppendBit c cl b) tt [b] /\
  swrites cl N (sAppendBitOne c cl) tt [true] /\ swrites cl N (sAppendBitZero c cl) tt [false].
Proof. intros. splits; [apply swrites_AppendBit|apply swrites_AppendBitOne|apply swrites_AppendBitZero]. Qed.

Lemma bytes : forall c cl N v neg k, is_byte v -> 0 <= k ->
  swrites cl N (sAppendByte c cl v neg) tt (Zbits 8 (if neg then Z.lnot v else v)) /\
  swrites cl N (sAppendByte0 cl v) true (Zbits 8 v) /\
  swrites cl N (sAppendNBitOne c cl k) tt (ones (Z.to_nat k)).
Proof. intros. splits; [apply swrites_AppendByte|apply swrites_AppendByte0|apply swrites_AppendNBitOne]; auto. Qed.

Lemma cleared : forall c N v n neg k, 1 <= n <= 8 -> (neg = false -> 0 <= v < 2 ^ n) -> 0 <= k -> (k + 7) / 8 <= N ->
  swrites true N (sAppendPartialByte c true v n neg) tt (Zbits (Z.to_nat n) (if neg then Z.lnot v else v)) /\
  swrites true N (sAppendNBitZero true k) tt (zeros (Z.to_nat k)).
Proof. intros. split; [apply swrites_AppendPartialByte|apply swrites_AppendNBitZero]; auto. Qed.

Lemma read_small : forall N c b v n min max, 1 <= n <= 8 -> 0 <= v < 2 ^ n ->
  sreads N sReadBit (true, b) [b] /\
  sreads N (sReadPartialByte n) (Some v) (Zbits (Z.to_nat n) v) /\
  (is_s64 min -> is_s64 max -> min <= v <= max -> max - min < 128 ->
   sreads N (sDecodeConstraint c min max) (Some v) (Zbits (crange min max) (v - min))).
Proof.
  intros. splits; [apply sreads_ReadBit|apply sreads_ReadPartialByte; auto|intros; apply sreads_DecodeConstraint; auto].
Qed.

Lemma read_byte : forall N v st rest, is_byte v -> unread N st (Zbits 8 v ++ rest) ->
  (curBit (sb st) = 0 \/ curByte (sb st) + 1 < N -> exists st', sReadByte st = Ok (Some v, st') /\ unread N st' rest) /\
  (curBit (sb st) <> 0 /\ curByte (sb st) + 1 = N -> sReadByte st = Ok (None, st)).
Proof.
  intros N v st rest V U. split; intros H; [eapply sReadByte_ok; eauto|]. destruct H. eapply sReadByte_last; eauto.
Qed.

(** Byte arrays that end in the last byte of the block or later. *)
Lemma sread_loop_ub : forall N l k i cb ncb st, 0 <= i -> unread N st l -> (1 <= k)%nat -> N <= i + Z.of_nat k ->
  sread_loop i cb ncb k st = UB.
Proof.
  intros N l k. induction k as [|k IH]; intros i cb ncb st Hi U H1 H2; [lia|].
  pose proof U as (HB & Hb & R). destruct R as (_ & _ & CN & LN & _).
  cbn [sread_loop]. destruct (nthZ (buf (sb st)) i) eqn:E1; cycle 1.
  1-3: unfold sbind at 1; unfold onb, rd, bind, lift; rewrite E1; unfold nthZ in E1; destruct (i <? 0); [try discriminate; reflexivity|];
     destruct (nth_error _ _); try discriminate; reflexivity.
  rewrite (sb_step _ _ _ _ _ _ _ (srd _ _ _ E1)).
  assert (EF : fetch_if st = Ok (tt, st)).
  { unfold fetch_if. replace (curByte (sb st) =? count (sb st)) with false by lia. reflexivity. }
  rewrite (sb_step _ _ _ _ _ _ _ EF).
  destruct (nthZ (buf (sb st)) (i + 1)) eqn:E2; cycle 1.
  1-3: unfold sbind at 1; unfold onb, rd, bind, lift; rewrite E2; unfold nthZ in E2; destruct (i + 1 <? 0); [try discriminate; reflexivity|];
     destruct (nth_error _ _); try discriminate; reflexivity.
  rewrite (sb_step _ _ _ _ _ _ _ (srd _ _ _ E2)). cbv zeta.
  assert (I2 : i + 1 < N).
  { unfold nthZ in E2. destruct (i + 1 <? 0) eqn:?; [lia|]. destruct (nth_error (buf (sb st)) (Z.to_nat (i + 1))) eqn:E3; [|discriminate].
    assert (nth_error (buf (sb st)) (Z.to_nat (i + 1)) <> None) by congruence. apply nth_error_Some in H. lia. }
  unfold sbind at 1. rewrite IH; auto; lia.
Qed.

Lemma byte_array_ub : forall N st l n, unread N st l -> 1 <= n -> N <= curByte (sb st) + n -> sReadByteArray n st = UB.
Proof.
  intros N st l n U H1 H2. unfold sReadByteArray. rewrite (sb_step _ _ _ _ _ _ _ (sget _)). cbv zeta.
  unfold sbind at 1. pose proof U as (HB & _). rewrite (sread_loop_ub N l); auto; lia.
Qed.

Lemma byte_array_refused : forall cl N st pre arr n, sat cl N st pre -> 8 * N < 8 * (curByte (sb st) + n) + curBit (sb st) ->
  sAppendByteArray cl arr n st = Ok (false, st).
Proof.
  intros cl N st pre arr n (HB & Hb & B) H. pose proof (blk_len _ _ _ _ _ B) as (CN & _).
  unfold sAppendByteArray. rewrite (sb_step _ _ _ _ _ _ _ (sget _)). cbv zeta.
  assert (ET : exists m, nthZ masksb (8 - curBit (sb st)) = Ok m).
  { assert (C : curBit (sb st) = 0 \/ curBit (sb st) = 1 \/ curBit (sb st) = 2 \/ curBit (sb st) = 3 \/ curBit (sb st) = 4 \/
      curBit (sb st) = 5 \/ curBit (sb st) = 6 \/ curBit (sb st) = 7) by lia.
    repeat (destruct C as [C|C]; [rewrite C; eexists; reflexivity|]). rewrite C; eexists; reflexivity. }
  destruct ET as (m & ET). rewrite (sb_step _ _ _ _ _ _ _ (stbl _ _ _ _ ET)).
  replace (count (sb st) * 8 <? (curByte (sb st) + n) * 8 + curBit (sb st)) with true by lia. reflexivity.
Qed.

(** More zeros than fit in the block and the next one: the cursor is left
    outside the block, and the next bit is written there. *)
Lemma zeros_out : forall c N cl st pre n b, sat cl N st pre -> 2 * N <= curByte (sb st) + (curBit (sb st) + n) / 8 -> 0 <= n ->
  exists st', sAppendNBitZero cl n st = Ok (tt, st') /\ N <= curByte (sb st') /\ sAppendBit c cl b st' = UB.
Proof.
  intros c N cl st pre n b (HB & Hb & B) H Hn. pose proof (blk_len _ _ _ _ _ B) as (CN & LB & P & _).
  unfold sAppendNBitZero. rewrite (sb_step _ _ _ _ _ _ _ (sget _)). cbv zeta.
  rewrite Z.quot_div_nonneg, Z.rem_mod_nonneg by lia.
  replace (curByte (sb st) + (curBit (sb st) + n) / 8 <=? count (sb st)) with false by lia.
  rewrite (sb_step _ _ _ _ _ _ _ (scur _ _ _)). unfold push_if. unfold sbind at 1. fld.
  rewrite Z.eqb_refl. replace (Z.of_nat (length (buf (sb st))) <? count (sb st)) with false by lia. rewrite scur. fld.
  set (L' := if cl then _ else _). assert (LL : Z.of_nat (length L') = N).
  { subst L'. destruct cl; auto. rewrite app_length, repeat_length, skipn_length. lia. }
  eexists. split; [reflexivity|]. fld. split; [lia|].
  unfold sAppendBit. rewrite (sb_step _ _ _ _ _ _ _ (sget _)). fld.
  set (cb := (curBit (sb st) + n) mod 8). assert (C8 : 0 <= cb < 8) by (subst cb; lia).
  set (i := curByte (sb st) + (curBit (sb st) + n) / 8 - count (sb st)).
  assert (IN : N <= i) by (subst i; lia). clearbody cb i L'.
  assert (ET : exists m, nthZ masks cb = Ok m).
  { assert (C : cb = 0 \/ cb = 1 \/ cb = 2 \/ cb = 3 \/ cb = 4 \/ cb = 5 \/ cb = 6 \/ cb = 7) by lia.
    repeat (destruct C as [C|C]; [rewrite C; eexists; reflexivity|]). rewrite C; eexists; reflexivity. }
  destruct ET as (m & ET). rewrite (sb_step _ _ _ _ _ _ _ (stbl _ _ _ _ ET)).
  unfold sbind at 1. unfold onb, rd, bind, lift. fld. unfold nthZ. replace (i <? 0) with false by lia.
  replace (nth_error L' (Z.to_nat i)) with (@None Z) by (symmetry; apply nth_error_None; lia). reflexivity.
Qed.
