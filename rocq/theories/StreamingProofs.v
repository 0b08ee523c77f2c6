(** Proofs about the streaming writers. *)
From Coq Require Import ZArith List Bool Lia.
From Coq Require Import ZifyBool ZifyNat.
From Verif Require Import Base Bits BitsProofs BitStream Ints Contracts BitStreamProofs BitStreamProofs2 IntsProofs Streaming StreamingSpec.
Import ListNotations.
Open Scope Z_scope.
Ltac Zify.zify_post_hook ::= Z.div_mod_to_equations.

Ltac sgo := unfold sbind, onb, sret, get, set_cur, tbl, lift, rd, wr, bind, ret, check_stream, massert, slift;
  cbn [sb sent src buf count curByte curBit].

Lemma blk_len : forall cl N k st pre, blk cl N k st pre -> count (sb st) = N /\ Z.of_nat (length (buf (sb st))) = N /\ 0 < N /\ 0 <= k <= 8 * N.
Proof.
  intros cl N k st pre (p & r & F & F2 & E & L & C & LB & P & _).
  apply (f_equal (@length bool)) in E. rewrite app_length, len_bits_of_bytes in E. splits; auto; lia.
Qed.

Lemma blk_push : forall cl N st pre, blk cl N (8 * curByte (sb st)) st pre -> 0 <= curByte (sb st) ->
  exists st', push_if cl st = Ok (tt, st') /\ blk cl N (8 * curByte (sb st')) st' pre /\
    0 <= curByte (sb st') < N /\ curBit (sb st') = curBit (sb st).
Proof.
  intros cl N st pre B H0. pose proof (blk_len _ _ _ _ _ B) as (C & LB & P & K).
  unfold push_if. destruct (curByte (sb st) =? count (sb st)) eqn:E.
  - replace (Z.of_nat (length (buf (sb st))) <? count (sb st)) with false by lia.
    eexists; split; [reflexivity|]. cbn [sb sent src buf count curByte curBit].
    split; [|lia].
    destruct B as (p & r & F & F2 & EB & L & _ & _ & _ & EP & Z).
    assert (r = []). { destruct r; auto. apply (f_equal (@length bool)) in EB. rewrite app_length, len_bits_of_bytes in EB. cbn [length] in EB. lia. }
    subst r. rewrite app_nil_r in EB.
    replace (Z.to_nat (count (sb st))) with (length (buf (sb st))) by lia.
    rewrite firstn_all, skipn_all, app_nil_r.
    exists [], (bits_of_bytes (if cl then repeat 0 (length (buf (sb st))) else buf (sb st))).
    cbn [sb sent src buf count curByte curBit app length].
    splits; auto.
    + destruct cl; auto. apply Forall_forall. intros x X. apply repeat_spec in X. subst. unfold is_byte; lia.
    + apply Forall_app. auto.
    + destruct cl; rewrite ?repeat_length; auto.
    + rewrite bits_of_bytes_app, EB, app_nil_r. auto.
    + intros ->. clear. induction (length (buf (sb st))); cbn [repeat bits_of_bytes]; auto.
      rewrite IHn at 1. rewrite app_length, zeros_app. reflexivity.
  - eexists; split; [reflexivity|]. split; auto. lia.
Qed.

Lemma blk_write : forall cl N k st pre i cb bs, blk cl N k st pre -> k = 8 * i + cb -> 0 <= cb ->
  cb + Z.of_nat (length bs) <= 8 -> (0 < length bs)%nat -> i < N -> 0 <= i ->
  exists b pb old tb, nthZ (buf (sb st)) i = Ok b /\ is_byte b /\ bits_of_byte b = pb ++ old ++ tb /\
    Z.of_nat (length pb) = cb /\ length old = length bs /\
    (cl = true -> old = zeros (length old) /\ tb = zeros (length tb)) /\
    forall b', is_byte b' -> bits_of_byte b' = pb ++ bs ++ tb ->
      exists m', updZ (buf (sb st)) i b' = Ok m' /\
        forall cB cb', blk cl N (k + Z.of_nat (length bs)) (mkss (mkbs m' (count (sb st)) cB cb') (sent st) (src st)) (pre ++ bs).
Proof.
  intros cl N k st pre i cb bs B K C0 C8 L0 IN I0. pose proof (blk_len _ _ _ _ _ B) as (C & LB & P & _).
  destruct B as (p & r & F & F2 & E & L & _ & _ & _ & EP & Z).
  assert (LR : (length bs <= length r)%nat).
  { pose proof (f_equal (@length bool) E) as X. rewrite app_length, len_bits_of_bytes in X. lia. }
  rewrite <- (firstn_skipn (length bs) r) in E.
  destruct (mem_write (buf (sb st)) p (firstn (length bs) r) (skipn (length bs) r) bs i cb) as
    (b & pb & tb & HN & HB & EB & LP & (_ & r' & ER) & HW); auto; try lia.
  { rewrite firstn_length. lia. }
  exists b, pb, (firstn (length bs) r), tb. splits; auto.
  { rewrite firstn_length. lia. }
  { intros T. specialize (Z T). split.
    - rewrite <- (firstn_skipn (length bs) r) in Z. symmetry in Z. apply zeros_split in Z. apply Z.
    - rewrite <- (firstn_skipn (length bs) r) in Z. symmetry in Z. apply zeros_split in Z. destruct Z as [_ Z].
      rewrite ER in Z. symmetry in Z. apply zeros_split in Z. apply Z. }
  intros b' B' EB'. destruct (HW b' B' EB') as (m' & HU & FM & EM & LM).
  exists m'. split; auto. intros. exists (p ++ bs), (skipn (length bs) r). cbn [sb sent src buf count].
  splits; auto.
  - rewrite EM, <- app_assoc. auto.
  - rewrite app_length. lia.
  - lia.
  - rewrite EP, <- app_assoc. auto.
  - intros T. specialize (Z T). rewrite <- (firstn_skipn (length bs) r) in Z. symmetry in Z. apply zeros_split in Z. apply Z.
Qed.

(** ** Composition *)
Lemma swrites_ret : forall A cl N (a : A), swrites cl N (sret a) a [].
Proof. intros A cl N a st pre S1. exists st. rewrite app_nil_r. split; auto. Qed.
Lemma swrites_bind : forall A B cl N (f : SM A) (g : A -> SM B) a b bs1 bs2,
  swrites cl N f a bs1 -> swrites cl N (g a) b bs2 -> swrites cl N (sbind f g) b (bs1 ++ bs2).
Proof.
  intros A B cl N f g a b bs1 bs2 H1 H2 st pre S1. destruct (H1 _ _ S1) as (st1 & E1 & S2).
  destruct (H2 _ _ S2) as (st2 & E2 & S3). exists st2. unfold sbind. rewrite E1, E2, app_assoc. auto.
Qed.
Lemma swrites_eq : forall A cl N (f : SM A) a bs bs', swrites cl N f a bs -> bs = bs' -> swrites cl N f a bs'.
Proof. intros. subst. auto. Qed.
Lemma swrites_pure_l : forall A B cl N (f : SM A) (g : A -> SM B) a b bs,
  (forall st, f st = Ok (a, st)) -> swrites cl N (g a) b bs -> swrites cl N (sbind f g) b bs.
Proof.
  intros A B cl N f g a b bs H1 H2 st pre S1. destruct (H2 _ _ S1) as (st2 & E2 & S3).
  exists st2. unfold sbind. rewrite H1. auto.
Qed.
Lemma onb_pure : forall A (f : M A) a, (forall s, f s = Ok (a, s)) -> forall st, onb f st = Ok (a, st).
Proof. intros A f a H st. unfold onb. rewrite H. destruct st; reflexivity. Qed.

(** ** Running a step *)
Lemma sb_step : forall A B (m : SM A) (k : A -> SM B) st a st1, m st = Ok (a, st1) -> sbind m k st = k a st1.
Proof. intros. unfold sbind. rewrite H. auto. Qed.
Lemma sget : forall st, onb get st = Ok (sb st, st).
Proof. destruct st; reflexivity. Qed.
Lemma stbl : forall l i x st, nthZ l i = Ok x -> onb (tbl l i) st = Ok (x, st).
Proof. intros. unfold onb, tbl, lift. rewrite H. destruct st; reflexivity. Qed.
Lemma srd : forall i x st, nthZ (buf (sb st)) i = Ok x -> onb (rd i) st = Ok (x, st).
Proof. intros. unfold onb, rd. rewrite H. destruct st; reflexivity. Qed.
Lemma swr : forall i x st m, updZ (buf (sb st)) i x = Ok m ->
  onb (wr i x) st = Ok (tt, mkss (mkbs m (count (sb st)) (curByte (sb st)) (curBit (sb st))) (sent st) (src st)).
Proof. intros. unfold onb, wr. rewrite H. reflexivity. Qed.
Lemma scur : forall B b st, onb (set_cur B b) st =
  Ok (tt, mkss (mkbs (buf (sb st)) (count (sb st)) B b) (sent st) (src st)).
Proof. reflexivity. Qed.
Lemma check_ok : forall c N st, 0 <= curByte (sb st) < N -> 0 <= curBit (sb st) < 8 -> count (sb st) = N ->
  onb (check_stream c) st = Ok (tt, st).
Proof.
  intros. unfold onb, check_stream, bind, get, massert, in_stream, ret.
  replace (curByte (sb st) * 8 + curBit (sb st) <=? count (sb st) * 8) with true by lia.
  cbn [orb]. destruct st; reflexivity.
Qed.
Ltac fld := cbn [sb sent src buf count curByte curBit].
Ltac fldin H := cbn [sb sent src buf count curByte curBit] in H.

(** ** Single bits *)
Lemma sAppendBit_ : forall c cl N (v : bool) st pre, sat cl N st pre ->
  exists b b' m, nthZ masks (curBit (sb st)) = Ok m /\ nthZ (buf (sb st)) (curByte (sb st)) = Ok b /\
   b' = (if v then Z.lor b m else Z.land b (bnot m)) /\
   exists st', (onb (wr (curByte (sb st)) b') ;>> sstep_bit cl ;>> onb (check_stream c)) st = Ok (tt, st') /\
     sat cl N st' (pre ++ [v]).
Proof.
  intros c cl N v st pre (HB & Hb & B). unfold pos in B.
  destruct (blk_write _ _ _ _ _ (curByte (sb st)) (curBit (sb st)) [v] B) as
    (b & pb & old & tb & HN & BB & EB & LP & LO & _ & HW); cbn [length]; try lia.
  destruct old as [|o [|]]; cbn in LO; try lia.
  destruct (byte_setbit b (curBit (sb st)) pb o tb v) as [B' EB']; auto.
  destruct (HW _ B' EB') as (m' & HU & HB').
  assert (CN : count (sb st) = N) by apply (blk_len _ _ _ _ _ B).
  exists b. eexists. exists (2 ^ (7 - curBit (sb st))). splits; auto.
  { apply nthZ_masks; lia. }
  rewrite (sb_step _ _ _ _ _ _ _ (swr _ _ _ _ HU)). unfold sstep_bit.
  unfold sbind at 1. rewrite (sb_step _ _ _ _ _ _ _ (sget _)). fld.
  destruct (curBit (sb st) <? 7) eqn:E7.
  - rewrite scur. fld. rewrite (check_ok c N) by (fld; lia).
    eexists; split; [reflexivity|]. unfold sat, pos. fld. splits; try lia.
    replace (8 * curByte (sb st) + (curBit (sb st) + 1)) with (8 * curByte (sb st) + curBit (sb st) + Z.of_nat (length [v])) by (cbn [length]; lia).
    apply HB'.
  - rewrite (sb_step _ _ _ _ _ _ _ (scur _ _ _)). fld.
    edestruct (blk_push cl N) as (st2 & EP & B2 & R2 & C2).
    3: { rewrite EP. fldin C2. rewrite (check_ok c N); [|lia|lia|apply (blk_len _ _ _ _ _ B2)].
      eexists; split; [reflexivity|]. unfold sat, pos. rewrite C2, Z.add_0_r. splits; try lia. eassumption. }
    + fld. replace (8 * (curByte (sb st) + 1)) with (8 * curByte (sb st) + curBit (sb st) + Z.of_nat (length [v])) by (cbn [length]; lia). apply HB'.
    + fld. lia.
Qed.

Lemma swrites_AppendBit : forall c cl N v, swrites cl N (sAppendBit c cl v) tt [v].
Proof.
  intros c cl N v st pre S1. destruct (sAppendBit_ c cl N v st pre S1) as (b & b' & m & HM & HN & -> & st' & E & S2).
  exists st'. split; auto. unfold sAppendBit. rewrite (sb_step _ _ _ _ _ _ _ (sget _)).
  rewrite (sb_step _ _ _ _ _ _ _ (stbl _ _ _ _ HM)), (sb_step _ _ _ _ _ _ _ (srd _ _ _ HN)). auto.
Qed.
Lemma swrites_AppendBitOne : forall c cl N, swrites cl N (sAppendBitOne c cl) tt [true].
Proof.
  intros c cl N st pre S1. destruct (sAppendBit_ c cl N true st pre S1) as (b & b' & m & HM & HN & -> & st' & E & S2).
  exists st'. split; auto. unfold sAppendBitOne. rewrite (sb_step _ _ _ _ _ _ _ (sget _)).
  rewrite (sb_step _ _ _ _ _ _ _ (stbl _ _ _ _ HM)), (sb_step _ _ _ _ _ _ _ (srd _ _ _ HN)). auto.
Qed.
Lemma swrites_AppendBitZero : forall c cl N, swrites cl N (sAppendBitZero c cl) tt [false].
Proof.
  intros c cl N st pre S1. destruct (sAppendBit_ c cl N false st pre S1) as (b & b' & m & HM & HN & -> & st' & E & S2).
  exists st'. split; auto. unfold sAppendBitZero. rewrite (sb_step _ _ _ _ _ _ _ (sget _)).
  rewrite (sb_step _ _ _ _ _ _ _ (stbl _ _ _ _ HM)), (sb_step _ _ _ _ _ _ _ (srd _ _ _ HN)). auto.
Qed.

(** ** Bytes *)
(** First half: the high bits go to the current byte, then the block is pushed
    if it is full. *)
Lemma hi_half : forall cl N st pre w, sat cl N st pre -> is_byte w ->
  let cb := curBit (sb st) in
  exists b m1, nthZ (buf (sb st)) (curByte (sb st)) = Ok b /\
    updZ (buf (sb st)) (curByte (sb st)) (put_hi b w cb) = Ok m1 /\
    exists st', push_if cl (mkss (mkbs m1 (count (sb st)) (curByte (sb st) + 1) cb) (sent st) (src st)) = Ok (tt, st') /\
      curBit (sb st') = cb /\ 0 <= curByte (sb st') < N /\ count (sb st') = N /\
      blk cl N (8 * curByte (sb st')) st' (pre ++ Zbits (Z.to_nat (8 - cb)) (Z.shiftr w cb)).
Proof.
  intros cl N st pre w (HB & Hb & B) W cb. unfold pos in B.
  destruct (blk_write _ _ _ _ _ (curByte (sb st)) (curBit (sb st)) (Zbits (Z.to_nat (8 - cb)) (Z.shiftr w cb)) B) as
    (b & pb & old & tb & HN & BB & EB & LP & LO & _ & HW); rewrite ?len_Zbits in *; try lia.
  assert (tb = []).
  { apply (f_equal (@length bool)) in EB. rewrite !app_length, len_bits_of_byte in EB. destruct tb; auto. cbn [length] in EB. lia. }
  subst tb. destruct (byte_hi b w cb pb old) as [B' EB']; auto.
  destruct (HW _ B' EB') as (m1 & HU & HB').
  exists b, m1. splits; auto.
  edestruct (blk_push cl N) as (st2 & EP & B2 & R2 & C2).
  3: { exists st2. split; [exact EP|]. splits; try lia. { auto. } { apply (blk_len _ _ _ _ _ B2). } { eassumption. } }
  - fld. replace (8 * (curByte (sb st) + 1)) with (8 * curByte (sb st) + curBit (sb st) + Z.of_nat (Z.to_nat (8 - cb))) by lia. apply HB'.
  - fld. lia.
Qed.

(** Second half: the low bits go to the start of the next byte. *)
Lemma lo_half : forall cl N st pre w cb, blk cl N (8 * curByte (sb st)) st pre -> 0 <= curByte (sb st) < N ->
  0 < cb < 8 -> is_byte w ->
  exists b m1, nthZ (buf (sb st)) (curByte (sb st)) = Ok b /\ is_byte b /\ (cl = true -> b = 0) /\
    updZ (buf (sb st)) (curByte (sb st)) (put_lo b w cb) = Ok m1 /\
    forall cB cbit, blk cl N (8 * curByte (sb st) + cb) (mkss (mkbs m1 (count (sb st)) cB cbit) (sent st) (src st))
          (pre ++ Zbits (Z.to_nat cb) w).
Proof.
  intros cl N st pre w cb B HB Hcb W.
  destruct (blk_write _ _ _ _ _ (curByte (sb st)) 0 (Zbits (Z.to_nat cb) w) B) as
    (b & pb & old & tb & HN & BB & EB & LP & LO & HZ & HW); rewrite ?len_Zbits in *; try lia.
  destruct pb; cbn in LP; try lia.
  destruct (byte_lo b w cb old tb) as [B' EB']; auto; try lia.
  destruct (HW _ B' EB') as (m1 & HU & HB').
  exists b, m1. splits; auto.
  - intros T. destruct (HZ T) as [Z1 Z2]. apply (bits0_byte b (length old + length tb)); auto. rewrite EB. cbn [app]. rewrite Z1, Z2, zeros_app, !len_zeros. auto.
  - intros. replace (8 * curByte (sb st) + cb) with (8 * curByte (sb st) + Z.of_nat (Z.to_nat cb)) by lia. apply HB'.
Qed.

Lemma swrites_AppendByte : forall c cl N v neg, is_byte v ->
  swrites cl N (sAppendByte c cl v neg) tt (Zbits 8 (if neg then Z.lnot v else v)).
Proof.
  intros c cl N v neg V st pre SA. set (w := if neg then bnot v else v).
  assert (W : is_byte w) by (subst w; destruct neg; auto using is_byte_bnot).
  replace (Zbits 8 (if neg then Z.lnot v else v)) with (Zbits 8 w)
    by (subst w; destruct neg; auto; apply Zbits_bnot; lia).
  pose proof SA as (HB & Hb & B0).
  destruct (hi_half cl N st pre w SA W) as (b & m1 & HN & HU & st1 & EP & CB & R1 & CN & B1).
  unfold sAppendByte. rewrite (sb_step _ _ _ _ _ _ _ (sget _)). fold w. cbv zeta.
  rewrite (sb_step _ _ _ _ _ _ _ (stbl _ _ _ _ (nthZ_masksb (8 - curBit (sb st)) ltac:(lia)))).
  rewrite (sb_step _ _ _ _ _ _ _ (srd _ _ _ HN)). rewrite bnot_mask by lia.
  fold (put_hi b w (curBit (sb st))).
  rewrite (sb_step _ _ _ _ _ _ _ (swr _ _ _ _ HU)), (sb_step _ _ _ _ _ _ _ (scur _ _ _)). fld.
  rewrite (sb_step _ _ _ _ _ _ _ EP), (sb_step _ _ _ _ _ _ _ (check_ok c N st1 ltac:(lia) ltac:(lia) ltac:(lia))).
  rewrite (Zbits8_split w (curBit (sb st))) by lia. rewrite app_assoc.
  destruct (curBit (sb st) =? 0) eqn:E0.
  - exists st1. split; [reflexivity|]. replace (Z.to_nat (curBit (sb st))) with O by lia. cbn [Zbits]. rewrite app_nil_r.
    unfold sat, pos. rewrite CB. splits; try lia. replace (curBit (sb st)) with 0 in * by lia. rewrite Z.add_0_r. auto.
  - destruct (lo_half cl N st1 _ w (curBit (sb st)) B1) as (b2 & m2 & HN2 & _ & _ & HU2 & HB2); auto; try lia.
    rewrite (sb_step _ _ _ _ _ _ _ (sget _)), (sb_step _ _ _ _ _ _ _ (srd _ _ _ HN2)).
    rewrite bnot_mask2 by lia. fold (put_lo b2 w (curBit (sb st))). rewrite (swr _ _ _ _ HU2).
    eexists; split; [reflexivity|]. unfold sat, pos. fld. rewrite CB. splits; try lia. apply HB2.
Qed.

Lemma swrites_AppendByte0 : forall cl N v, is_byte v -> swrites cl N (sAppendByte0 cl v) true (Zbits 8 v).
Proof.
  intros cl N w W st pre SA.
  pose proof SA as (HB & Hb & B0).
  destruct (hi_half cl N st pre w SA W) as (b & m1 & HN & HU & st1 & EP & CB & R1 & CN & B1).
  unfold sAppendByte0. rewrite (sb_step _ _ _ _ _ _ _ (sget _)). cbv zeta.
  rewrite (sb_step _ _ _ _ _ _ _ (stbl _ _ _ _ (nthZ_masksb (8 - curBit (sb st)) ltac:(lia)))).
  rewrite (sb_step _ _ _ _ _ _ _ (srd _ _ _ HN)). rewrite bnot_mask by lia.
  fold (put_hi b w (curBit (sb st))).
  rewrite (sb_step _ _ _ _ _ _ _ (swr _ _ _ _ HU)), (sb_step _ _ _ _ _ _ _ (scur _ _ _)). fld.
  rewrite (sb_step _ _ _ _ _ _ _ EP).
  rewrite (Zbits8_split w (curBit (sb st))) by lia. rewrite app_assoc.
  destruct (curBit (sb st) =? 0) eqn:E0.
  - exists st1. split; [reflexivity|]. replace (Z.to_nat (curBit (sb st))) with O by lia. cbn [Zbits]. rewrite app_nil_r.
    unfold sat, pos. rewrite CB. splits; try lia. replace (curBit (sb st)) with 0 in * by lia. rewrite Z.add_0_r. auto.
  - destruct (lo_half cl N st1 _ w (curBit (sb st)) B1) as (b2 & m2 & HN2 & _ & _ & HU2 & HB2); auto; try lia.
    rewrite (sb_step _ _ _ _ _ _ _ (sget _)).
    replace (count (sb st1) <=? curByte (sb st1)) with false by lia.
    rewrite (sb_step _ _ _ _ _ _ _ (srd _ _ _ HN2)).
    rewrite bnot_mask2 by lia. fold (put_lo b2 w (curBit (sb st))). rewrite (sb_step _ _ _ _ _ _ _ (swr _ _ _ _ HU2)).
    eexists; split; [reflexivity|]. unfold sat, pos. fld. rewrite CB. splits; try lia. apply HB2.
Qed.

Lemma swrites_FFs : forall c cl N k, swrites cl N (sappend_FFs c cl k) tt (ones (8 * k)).
Proof.
  induction k; [apply swrites_ret|].
  replace (8 * S k)%nat with (8 + 8 * k)%nat by lia. rewrite ones_app. cbn [sappend_FFs].
  eapply swrites_bind; [|apply IHk]. eapply swrites_eq; [apply swrites_AppendByte; unfold is_byte; lia|reflexivity].
Qed.
Lemma swrites_ones : forall c cl N k, swrites cl N (sappend_ones c cl k) tt (ones k).
Proof.
  induction k; [apply swrites_ret|]. cbn [sappend_ones].
  change (ones (S k)) with ([true] ++ ones k). eapply swrites_bind; [apply swrites_AppendBitOne|apply IHk].
Qed.
Lemma swrites_AppendNBitOne : forall c cl N k, 0 <= k -> swrites cl N (sAppendNBitOne c cl k) tt (ones (Z.to_nat k)).
Proof.
  intros. unfold sAppendNBitOne. destruct (8 <=? k) eqn:E; [|apply swrites_ones].
  eapply swrites_eq; [eapply swrites_bind; [apply swrites_FFs|apply swrites_ones]|].
  rewrite <- ones_app. f_equal. lia.
Qed.

(** ** With a pushData that clears the buffer *)
Lemma blk_skip : forall N k st pre j, blk true N k st pre -> 0 <= j -> k + j <= 8 * N ->
  blk true N (k + j) st (pre ++ zeros (Z.to_nat j)).
Proof.
  intros N k st pre j (p & r & F & F2 & E & L & C & LB & P & EP & Z) J KJ.
  specialize (Z eq_refl). pose proof (f_equal (@length bool) E) as X. rewrite app_length, len_bits_of_bytes in X.
  exists (p ++ zeros (Z.to_nat j)), (zeros (length r - Z.to_nat j)). splits; auto.
  - rewrite E, Z, len_zeros, <- app_assoc, <- zeros_app. do 2 f_equal. lia.
  - rewrite app_length, len_zeros. lia.
  - rewrite EP, <- app_assoc. auto.
  - intros _. rewrite len_zeros. auto.
Qed.
Lemma blk_cur : forall cl N k st pre B b, blk cl N k st pre ->
  blk cl N k (mkss (mkbs (buf (sb st)) (count (sb st)) B b) (sent st) (src st)) pre.
Proof. intros. exact H. Qed.

Lemma swrites_AppendNBitZero : forall N k, 0 <= k -> (k + 7) / 8 <= N ->
  swrites true N (sAppendNBitZero true k) tt (zeros (Z.to_nat k)).
Proof.
  intros N k K KN st pre (HB & Hb & B). unfold pos in B.
  pose proof (blk_len _ _ _ _ _ B) as (CN & LB & P & _).
  unfold sAppendNBitZero. rewrite (sb_step _ _ _ _ _ _ _ (sget _)). cbv zeta.
  assert (QE : Z.quot (curBit (sb st) + k) 8 = (curBit (sb st) + k) / 8) by (apply Z.quot_div_nonneg; lia).
  assert (RE : Z.rem (curBit (sb st) + k) 8 = (curBit (sb st) + k) mod 8) by (apply Z.rem_mod_nonneg; lia).
  rewrite QE, RE. set (q := (curBit (sb st) + k) / 8). set (m := (curBit (sb st) + k) mod 8).
  assert (QM : curBit (sb st) + k = 8 * q + m) by (subst q m; lia).
  assert (M8 : 0 <= m < 8) by (subst m; lia). assert (Q0 : 0 <= q <= N) by (subst q; lia). clearbody q m.
  destruct (curByte (sb st) + q <=? count (sb st)) eqn:E.
  - rewrite (sb_step _ _ _ _ _ _ _ (scur _ _ _)).
    destruct (Z.eq_dec q 0) as [Eq|Nq].
    + unfold push_if. fld. replace (curByte (sb st) + q =? count (sb st)) with false by lia.
      eexists; split; [reflexivity|]. unfold sat, pos. fld. splits; try lia.
      apply (blk_cur true N _ st). replace (8 * (curByte (sb st) + q) + m) with (8 * curByte (sb st) + curBit (sb st) + k) by lia.
      apply blk_skip; auto; lia.
    + destruct (blk_push true N (mkss (mkbs (buf (sb st)) (count (sb st)) (curByte (sb st) + q) m) (sent st) (src st))
        (pre ++ zeros (Z.to_nat (k - m)))) as (st2 & EP & B2 & R2 & C2).
      { fld. apply (blk_cur true N _ st). replace (8 * (curByte (sb st) + q)) with (8 * curByte (sb st) + curBit (sb st) + (k - m)) by lia.
        apply blk_skip; auto; lia. }
      { fld. lia. }
      rewrite EP. fldin C2. exists st2. split; auto. unfold sat, pos. rewrite C2. splits; try lia.
      replace (zeros (Z.to_nat k)) with (zeros (Z.to_nat (k - m)) ++ zeros (Z.to_nat m)) by (rewrite <- zeros_app; f_equal; lia).
      rewrite app_assoc. apply blk_skip; auto; lia.
  - rewrite (sb_step _ _ _ _ _ _ _ (scur _ _ _)).
    set (j := 8 * N - (8 * curByte (sb st) + curBit (sb st))).
    destruct (blk_push true N (mkss (mkbs (buf (sb st)) (count (sb st)) (count (sb st)) m) (sent st) (src st))
        (pre ++ zeros (Z.to_nat j))) as (st2 & EP & B2 & R2 & C2).
    { fld. apply (blk_cur true N _ st). replace (8 * count (sb st)) with (8 * curByte (sb st) + curBit (sb st) + j) by lia.
      apply blk_skip; auto; lia. }
    { fld. lia. }
    assert (Z2 : curByte (sb st2) = 0).
    { unfold push_if in EP. fldin EP. rewrite Z.eqb_refl in EP.
      destruct (Z.of_nat (length (buf (sb st))) <? count (sb st)); [discriminate|]. injection EP as EP. subst st2. reflexivity. }
    rewrite (sb_step _ _ _ _ _ _ _ EP), scur. eexists; split; [reflexivity|].
    unfold sat, pos. fld. splits; try lia. apply (blk_cur true N _ st2).
    replace (zeros (Z.to_nat k)) with (zeros (Z.to_nat j) ++ zeros (Z.to_nat (k - j))) by (rewrite <- zeros_app; f_equal; lia).
    rewrite app_assoc.
    replace (8 * (curByte (sb st) + q - count (sb st)) + m) with (8 * curByte (sb st2) + (k - j)) by lia.
    apply blk_skip; auto; lia.
Qed.

Lemma swrites_AppendPartialByte : forall c N v n neg, 1 <= n <= 8 -> (neg = false -> 0 <= v < 2 ^ n) ->
  swrites true N (sAppendPartialByte c true v n neg) tt (Zbits (Z.to_nat n) (if neg then Z.lnot v else v)).
Proof.
  intros c N v n neg N8 V st pre SA. pose proof SA as (HB & Hb & B).
  rewrite <- pneg_bits by lia. set (w := pneg neg v n).
  assert (W : 0 <= w < 2 ^ n) by (apply pneg_range; auto; lia).
  assert (EN : (if neg then do mn <- onb (tbl masksb n) in sret (Z.land mn (bnot v)) else sret v) st = Ok (w, st)).
  { unfold w, pneg. destruct neg; [|reflexivity].
    rewrite (sb_step _ _ _ _ _ _ _ (stbl _ _ _ _ (nthZ_masksb n ltac:(lia)))). reflexivity. }
  unfold sAppendPartialByte. rewrite (sb_step _ _ _ _ _ _ _ (sget _)). cbv zeta.
  rewrite (sb_step _ _ _ _ _ _ _ EN).
  rewrite (sb_step _ _ _ _ _ _ _ (stbl _ _ _ _ (nthZ_masksb (8 - curBit (sb st)) ltac:(lia)))). rewrite bnot_mask by lia.
  assert (CN : count (sb st) = N) by apply (blk_len _ _ _ _ _ B).
  destruct (curBit (sb st) + n <=? 8) eqn:T.
  - unfold sbind at 1.
    rewrite (sb_step _ _ _ _ _ _ _ (stbl _ _ _ _ (nthZ_masksb (8 - (curBit (sb st) + n)) ltac:(lia)))).
    unfold pos in B.
    destruct (blk_write _ _ _ _ _ (curByte (sb st)) (curBit (sb st)) (Zbits (Z.to_nat n) w) B) as
      (b & pb & old & tb & HN & BB & EB & LP & LO & _ & HW); rewrite ?len_Zbits in *; try lia.
    destruct (byte_part b w n (curBit (sb st)) pb old tb) as [B' EB']; auto; try lia.
    destruct (HW _ B' EB') as (m1 & HU & HB').
    rewrite (sb_step _ _ _ _ _ _ _ (srd _ _ _ HN)), (sb_step _ _ _ _ _ _ _ (swr _ _ _ _ HU)).
    destruct (curBit (sb st) + n =? 8) eqn:E8.
    + rewrite (sb_step _ _ _ _ _ _ _ (scur _ _ _)). fld.
      edestruct (blk_push true N) as (st2 & EP & B2 & R2 & C2).
      3: { rewrite EP. fldin C2. rewrite (check_ok c N); [|lia|lia|apply (blk_len _ _ _ _ _ B2)].
        eexists; split; [reflexivity|]. unfold sat, pos. rewrite C2, Z.add_0_r. splits; try lia. eassumption. }
      * fld. replace (8 * (curByte (sb st) + 1)) with (8 * curByte (sb st) + curBit (sb st) + Z.of_nat (Z.to_nat n)) by lia. apply HB'.
      * fld. lia.
    + rewrite scur. fld. rewrite (check_ok c N) by (fld; lia).
      eexists; split; [reflexivity|]. unfold sat, pos. fld. splits; try lia.
      replace (8 * curByte (sb st) + (curBit (sb st) + n)) with (8 * curByte (sb st) + curBit (sb st) + Z.of_nat (Z.to_nat n)) by lia.
      apply HB'.
  - unfold sbind at 1.
    set (w8 := Z.shiftl w (8 - n)). assert (W8 : is_byte w8) by (apply shl_byte; lia).
    destruct (hi_half true N st pre w8 SA W8) as (b & m1 & HN & HU & st1 & EP & CB & R1 & CN1 & B1).
    destruct (lo_half true N st1 _ w8 (curBit (sb st)) B1) as (b2 & m2 & HN2 & _ & Z2 & HU2 & HB2); auto; try lia.
    rewrite (Z2 eq_refl) in *.
    rewrite (sb_step _ _ _ _ _ _ _ (srd _ _ _ HN)).
    assert (SH : byte_of (Z.shiftr w (curBit (sb st) + n - 8)) = byte_of (Z.shiftr w8 (curBit (sb st)))).
    { f_equal. unfold w8. rewrite Z.shiftr_shiftl_r by lia. f_equal. lia. }
    rewrite SH. fold (put_hi b w8 (curBit (sb st))).
    rewrite (sb_step _ _ _ _ _ _ _ (swr _ _ _ _ HU)), (sb_step _ _ _ _ _ _ _ (scur _ _ _)). fld.
    rewrite (sb_step _ _ _ _ _ _ _ EP).
    rewrite (sb_step _ _ _ _ _ _ _ (stbl _ _ _ _ (nthZ_masksb (8 - (curBit (sb st) + n - 8)) ltac:(lia)))).
    rewrite (sb_step _ _ _ _ _ _ _ (sget _)), (sb_step _ _ _ _ _ _ _ (srd _ _ _ HN2)).
    assert (SL : Z.lor (Z.land 0 (bnot (2 ^ (8 - (curBit (sb st) + n - 8)) - 1))) (byte_of (Z.shiftl w (8 - (curBit (sb st) + n - 8)))) = put_lo 0 w8 (curBit (sb st))).
    { unfold put_lo. rewrite !Z.land_0_l, !Z.lor_0_l. unfold w8. rewrite Z.shiftl_shiftl by lia. do 2 f_equal. lia. }
    rewrite SL, (sb_step _ _ _ _ _ _ _ (swr _ _ _ _ HU2)), scur. fld.
    rewrite (check_ok c N) by (fld; lia).
    eexists; split; [reflexivity|]. unfold sat, pos. fld. splits; try lia.
    assert (EW : Zbits (Z.to_nat (8 - curBit (sb st))) (Z.shiftr w8 (curBit (sb st))) ++ Zbits (Z.to_nat (curBit (sb st))) w8 =
                 Zbits (Z.to_nat n) w ++ zeros (Z.to_nat (8 - n))).
    { rewrite <- Zbits8_split by lia. apply shl_byte_bits. lia. }
    destruct (HB2 (curByte (sb st1)) (curBit (sb st) + n - 8)) as (p & r & F & F2 & E & L & C & LB & P & EPP & Z).
    specialize (Z eq_refl). rewrite <- app_assoc, EW, app_assoc in EPP.
    assert (EX : exists p', p = p' ++ zeros (Z.to_nat (8 - n))).
    { exists (firstn (length p - Z.to_nat (8 - n)) p).
      rewrite <- (firstn_skipn (length p - Z.to_nat (8 - n)) p) at 1. f_equal.
      rewrite <- (firstn_skipn (length p - Z.to_nat (8 - n)) p), app_assoc in EPP.
      apply app_split_tail in EPP. { symmetry; apply EPP. } { rewrite len_zeros, skipn_length. lia. } }
    destruct EX as (p' & ->).
    exists p', (zeros (Z.to_nat (8 - n)) ++ r). fldin E. fld. splits; auto.
    { rewrite E, <- app_assoc. auto. }
    { rewrite app_length, len_zeros in L. lia. }
    { rewrite app_assoc in EPP. apply app_split_tail in EPP; auto. apply EPP. }
    { intros _. rewrite Z at 1. rewrite app_length, len_zeros, zeros_app. auto. }
Qed.
