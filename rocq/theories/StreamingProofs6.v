(** Streaming: alignment to words. *)
From Coq Require Import ZArith List Bool Lia.
From Coq Require Import ZifyBool ZifyNat.
From Verif Require Import Base Bits BitsProofs BitStream Ints Contracts BitStreamProofs BitStreamProofs2 BitStreamProofs3 IntsProofs
  Streaming StreamingSpec StreamingProofs StreamingProofs2 StreamingProofs3 StreamingProofs4 StreamingProofs5.
Import ListNotations.
Open Scope Z_scope.
Ltac Zify.zify_post_hook ::= Z.div_mod_to_equations.
Lemma word_div : forall w B N, w = 2 \/ w = 4 -> N mod w = 0 -> 0 <= B < N ->
  exists q r p, B = w * q + r /\ 0 <= r < w /\ N = w * p /\ B mod w = r /\ q < p.
Proof.
  intros w B N HW HN HB. exists (B / w), (B mod w), (N / w).
  pose proof (Z.div_mod B w ltac:(lia)) as A1. pose proof (Z.mod_pos_bound B w ltac:(lia)) as A2. pose proof (Z.div_mod N w ltac:(lia)) as A3.
  rewrite HN, Z.add_0_r in A3. splits; auto; try lia.
Qed.
Lemma word_pad : forall w x, w = 2 \/ w = 4 -> 0 <= x < 8 * w -> (8 * w - x) mod (8 * w) = if x =? 0 then 0 else 8 * w - x.
Proof.
  intros w x HW H. destruct (x =? 0) eqn:E.
  - replace (8 * w - x) with (8 * w) by lia. apply Z.mod_same. lia.
  - apply Z.mod_small. lia.
Qed.
Lemma word_fit : forall w B b N, w = 2 \/ w = 4 -> N mod w = 0 -> 0 <= B < N -> 0 <= b < 8 ->
  B * 8 + b + (8 * w - (8 * (B mod w) + b)) mod (8 * w) <= N * 8.
Proof.
  intros w B b N HW HN HB Hb. destruct (word_div w B N HW HN HB) as (q & r & p & E1 & R & E2 & E3 & QP).
  rewrite E3, word_pad by (auto; destruct HW as [->| ->]; lia). clear HN E3.
  destruct (8 * r + b =? 0) eqn:E; destruct HW as [->| ->]; lia.
Qed.
Lemma word_up : forall w B N, w = 2 \/ w = 4 -> N mod w = 0 -> 0 <= B < N ->
  let T := (B + (w - 1)) / w * w in B <= T < B + w /\ T mod w = 0 /\ T <= N /\ 8 * (T - B) = (- (8 * B)) mod (8 * w).
Proof.
  intros w B N HW HN HB T. destruct (word_div w B N HW HN HB) as (q & r & p & E1 & R & E2 & E3 & QP).
  assert (ET : T = w * (if r =? 0 then q else q + 1)).
  { subst T. rewrite Z.mul_comm. f_equal. symmetry. destruct (r =? 0) eqn:E.
    - apply (Z.div_unique _ _ _ (r + (w - 1))); lia.
    - apply (Z.div_unique _ _ _ (r - 1)); lia. }
  clearbody T. clear HN E3. splits.
  - destruct (r =? 0) eqn:E; destruct HW as [->| ->]; lia.
  - destruct (r =? 0) eqn:E; destruct HW as [->| ->]; lia.
  - rewrite ET, Z.mul_comm. apply Z.mod_mul. lia.
  - destruct (r =? 0) eqn:E; destruct HW as [->| ->]; lia.
  - apply (Z.mod_unique _ _ (- (if r =? 0 then q else q + 1))); [left|]; destruct (r =? 0) eqn:E; destruct HW as [->| ->]; lia.
Qed.

Lemma pad_sum : forall w B b N, w = 2 \/ w = 4 -> N mod w = 0 -> 0 <= B < N -> 0 <= b < 8 ->
  (- b) mod 8 + (- (8 * (if b =? 0 then B else if B + 1 =? N then 0 else B + 1))) mod (8 * w) = (- (8 * B + b)) mod (8 * w).
Proof.
  intros w B b N HW HN HB Hb. destruct (b =? 0) eqn:E.
  - replace b with 0 by lia. rewrite Z.add_0_r. reflexivity.
  - replace ((- b) mod 8) with (8 - b) by lia.
    assert (EW : (- (8 * (if B + 1 =? N then 0 else B + 1))) mod (8 * w) = (- (8 * (B + 1))) mod (8 * w)).
    { destruct (B + 1 =? N) eqn:EN; auto. replace (B + 1) with N by lia.
      pose proof (Z.div_mod N w). change (-(8 * 0)) with 0. rewrite Z.mod_0_l by lia.
      apply Z.mod_unique with (q := - (N / w)); lia. }
    rewrite EW. clear EW. destruct (word_div w B N HW HN HB) as (q & r & p & E1 & R & E2 & E3 & QP).
    assert (A : (- (8 * (B + 1))) mod (8 * w) = if r + 1 =? w then 0 else 8 * (w - r - 1)).
    { destruct (r + 1 =? w) eqn:EE; symmetry; apply Z.mod_unique with (q := - (q + 1)); try (left; destruct HW as [->| ->]; lia); clear HN E3 E2; destruct HW as [->| ->]; lia. }
    rewrite A. clear A. apply Z.mod_unique with (q := - (q + 1)); [left|]; clear HN E3 E2; destruct (r + 1 =? w) eqn:EE; destruct HW as [->| ->]; lia.
Qed.

Ltac Zify.zify_post_hook ::= idtac.
(** Words: right if the block is a whole number of words. *)
Lemma sAlignN_ok : forall c N w st pre, w = 2 \/ w = 4 -> N mod w = 0 -> sat true N st pre ->
  exists st', sAlignToNextN c (push_if true) w st = Ok (tt, st') /\ curBit (sb st') = 0 /\ curByte (sb st') mod w = 0 /\
    sat true N st' (pre ++ zeros (Z.to_nat ((- pos (sb st)) mod (8 * w)))).
Proof.
  intros c N w st pre HW HN HS. pose proof HS as (HB & Hb & B).
  pose proof (blk_len _ _ _ _ _ B) as (CN & LB & P & _).
  unfold sAlignToNextN. rewrite (sb_step _ _ _ _ _ _ _ (sget _)).
  assert (EL : Z.land (curByte (sb st)) (w - 1) = curByte (sb st) mod w).
  { destruct HW as [->| ->]; [change (2 - 1) with (Z.ones 1)|change (4 - 1) with (Z.ones 2)]; rewrite Z.land_ones by lia; reflexivity. }
  assert (ER : forall x, Z.land x (8 * w - 1) = x mod (8 * w)).
  { intros x. destruct HW as [->| ->]; [change (8 * 2 - 1) with (Z.ones 4)|change (8 * 4 - 1) with (Z.ones 5)]; rewrite Z.land_ones by lia; reflexivity. }
  assert (EC : scheck_pre c (Z.land (8 * w - (8 * Z.land (curByte (sb st)) (w - 1) + curBit (sb st))) (8 * w - 1)) st = Ok (tt, st)).
  { unfold scheck_pre. rewrite (sb_step _ _ _ _ _ _ _ (sget _)). rewrite EL, ER.
    unfold onb, massert, bind. match goal with |- context [?a <=? ?b] => replace (a <=? b) with true end.
    2:{ symmetry. apply Z.leb_le. rewrite CN. apply word_fit; auto. }
    cbn [orb]. destruct st; reflexivity. }
  rewrite (sb_step _ _ _ _ _ _ _ EC).
  destruct (sAlignByte_pos c N st pre HS) as (st1 & E1 & C1 & POS1 & HB1 & Hb1 & B1).
  rewrite (sb_step _ _ _ _ _ _ _ E1), (sb_step _ _ _ _ _ _ _ (sget _)).
  unfold pos in B1. rewrite C1, Z.add_0_r in B1. pose proof (blk_len _ _ _ _ _ B1) as (CN1 & LB1 & _ & _).
  set (B1' := curByte (sb st1)) in *. rewrite Z.quot_div_nonneg by lia.
  set (T := (B1' + (w - 1)) / w * w). set (j := 8 * (T - B1')).
  destruct (word_up w B1' N HW HN HB1) as (T1 & T2 & T3 & T4). fold T in T1, T2, T3, T4. clearbody T.
  assert (J : 0 <= j /\ 8 * B1' + j <= 8 * N /\ 8 * T = 8 * B1' + j) by (subst j; clear - T1 T3; lia).
  assert (EZ : zeros (Z.to_nat ((- pos (sb st)) mod (8 * w))) = zeros (Z.to_nat ((- curBit (sb st)) mod 8)) ++ zeros (Z.to_nat j)).
  { rewrite <- zeros_app. f_equal. rewrite <- Z2Nat.inj_add; [|apply Z.mod_pos_bound; lia|apply J]. f_equal.
    subst j. rewrite T4, POS1. unfold pos. symmetry. apply pad_sum; auto. }
  destruct J as (J1 & J2 & J3). clear T4. clearbody j.
  pose proof (blk_skip N _ st1 _ j B1 J1 J2) as BS. rewrite <- app_assoc, <- EZ, <- J3 in BS.
  pose proof (blk_cur true N _ st1 _ T (curBit (sb st1)) BS) as BC.
  set (st1' := mkss _ _ _) in BC. assert (CT : curByte (sb st1') = T) by reflexivity. assert (CB : curBit (sb st1') = 0) by (rewrite <- C1; reflexivity).
  rewrite (sb_step _ _ _ _ _ tt st1') by (rewrite scur; reflexivity).
  clearbody st1'. rewrite <- CT in BC.
  destruct (blk_push true N st1' _ BC) as (st2 & EP & B2 & R2 & C2); [clear - CT T1 HB1; lia|].
  rewrite CB in C2. pose proof (blk_len _ _ _ _ _ BC) as (CN1' & _).
  assert (CM : curByte (sb st2) mod w = 0).
  { unfold push_if in EP. rewrite CT in EP. destruct (T =? count (sb st1')).
    - destruct (_ <? _) in EP; [discriminate|]. injection EP as <-. fld. apply Z.mod_0_l. clear - HW; lia.
    - injection EP as <-. rewrite CT. auto. }
  rewrite (sb_step _ _ _ _ _ _ _ EP). pose proof (blk_len _ _ _ _ _ B2) as (CN2 & _).
  rewrite (check_ok c N) by (auto; clear - C2; lia). exists st2. splits; auto.
  unfold sat, pos. rewrite C2, Z.add_0_r. splits; try apply R2; try exact B2; clear; lia.
Qed.
