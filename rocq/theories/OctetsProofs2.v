(** Proofs about Octets.v: safety, prefix parsing, bit patterns. *)
From Verif Require Import Base Bits StrSpec BitStream Ints Contracts Octets Parse.
From Verif Require Import BitsProofs BitStreamProofs BitStreamProofs2 BitStreamProofs3 IntsProofs SafeProofs HistoryProofs TameProofs ParseProofs OctetsProofs.
From Coq Require Import ZifyBool ZifyNat.
Ltac Zify.zify_post_hook ::= Z.div_mod_to_equations.

(** ** Safety *)
Lemma upd_length : forall {A} (l : list A) i v, length (upd l i v) = length l.
Proof. induction l; intros [|i] v; cbn; auto. Qed.

Lemma safe_read_bytes : forall k arr i, 0 <= i -> i + Z.of_nat k <= Z.of_nat (length arr) ->
  safe (read_bytes k arr i) (fun a => length a = length arr).
Proof.
  induction k; intros arr i Hi HL; cbn [read_bytes]; [apply safe_ret_some; auto|].
  eapply safe_bindo; [apply safe_ReadByte|]. intros b Hb.
  apply safe_pure_l with (a := upd arr (Z.to_nat i) b).
  { intros s. unfold lift, updZ. destruct ((i <? 0) || _) eqn:E; [lia|reflexivity]. }
  eapply safe_weaken; [|apply IHk; rewrite ?upd_length; lia]. cbv beta. intros a Ha. now rewrite upd_length in Ha.
Qed.

Lemma blit_length : forall m p d, (p + length d <= length m)%nat -> length (blit m p d) = length m.
Proof. intros. unfold blit. rewrite !app_length, firstn_length, skipn_length. lia. Qed.

Lemma store_ok : forall arr o d, 0 <= o -> o + Z.of_nat (length d) <= Z.of_nat (length arr) ->
  exists a, store arr o d = Ok a /\ length a = length arr.
Proof.
  intros. unfold store. destruct ((o <? 0) || _) eqn:E; [lia|].
  eexists; split; [reflexivity|]. apply blit_length. lia.
Qed.

Lemma safe_read_bits_at : forall arr o len, 0 <= o -> 0 <= len -> o mod 8 = 0 ->
  o + len <= 8 * Z.of_nat (length arr) -> safe (read_bits_at arr o len) (fun a => length a = length arr).
Proof.
  intros arr o len Ho Hl Hm HL. unfold read_bits_at.
  eapply safe_bindo; [apply safe_ReadBits; auto|]. intros d [D1 D2].
  rewrite Z.quot_div_nonneg by lia.
  destruct (store_ok arr (o / 8) d) as (a & A1 & A2); try lia.
  apply safe_pure_l with (a := a); [|apply safe_ret_some; auto].
  intros s. unfold lift. now rewrite A1.
Qed.

Lemma safe_DecodeOctetString_fragmentation : forall c arr max, 0 <= max <= Z.of_nat (length arr) ->
  safe (BitStream_DecodeOctetString_fragmentation c arr max)
    (fun p => 1 <= fst p <= max /\ length (snd p) = length arr).
Proof.
  intros c arr max Hm. unfold BitStream_DecodeOctetString_fragmentation.
  eapply safe_bindo; [apply safe_len255|]. intros h Hh. cbv beta in Hh.
  apply (safe_dec_frag c _ (fun a => length a = length arr)); auto; try lia.
  - intros a o len Ha Ho Hl Hol Hom. rewrite <- Ha. apply safe_read_bytes; lia.
  - unfold frag_fuel. rewrite Z.sub_0_r. lia.
Qed.

Lemma DecodeOctets_none : forall n s s', 0 <= n ->
  BitStream_DecodeOctetString_no_length n s = Ok (None, s') -> s' = s.
Proof.
  intros n s s' Hn. unfold BitStream_DecodeOctetString_no_length, BitStream_ReadByteArray, rd_many. run.
  destruct (curBit s =? 0) eqn:E0.
  - destruct (curByte s + n <=? count s) eqn:E1; run.
    + destruct ((curByte s <? 0) || _ || _); run; discriminate.
    + intro E; inv_ok E; auto.
  - destruct (count s * 8 <? (curByte s + n) * 8 + curBit s) eqn:E1; run.
    + intro E; inv_ok E; auto.
    + destruct (read_loop (curByte s) (curBit s) (8 - curBit s) (Z.to_nat n) s) as [[l s1]| | |] eqn:ER; run; discriminate.
Qed.

Lemma safe_DecodeOctetString : forall c arr min max, 0 <= min <= max -> max <= Z.of_nat (length arr) ->
  safe (BitStream_DecodeOctetString c arr min max)
    (fun p => 0 <= fst p <= max /\ (min <= fst p \/ 65536 <= max) /\ length (snd p) = length arr).
Proof.
  intros c arr min max Hm HL. unfold BitStream_DecodeOctetString. destruct (max <? 65536) eqn:E.
  - eapply safe_bindo with (P := fun n => min <= n <= max).
    + destruct (min <? max) eqn:E2; [|apply safe_ret_some; lia].
      apply safe_DecodeConstraint; unfold is_s64, two63; try lia. left. unfold is_s64, two63. lia.
    + intros n Hn. replace ((min <=? n) && (n <=? max)) with true by lia.
      intros s HW. destruct (safe_DecodeOctets n ltac:(lia) s HW) as (r & s1 & E1 & X1 & X2 & X3 & X4 & X5).
      unfold bind. rewrite E1. destruct r as [d|].
      * destruct X5 as (Y1 & Y2 & Y3). destruct (store_ok arr 0 d) as (a & A1 & A2); try lia.
        unfold lift. rewrite A1. exists (Some (n, a)), s1. unfold ret. cbn [fst snd].
        splits; auto; try lia.
      * apply DecodeOctets_none in E1; [|lia]. subst s1. exists (Some (n, arr)), s. unfold ret. cbn [fst snd].
        destruct HW as (W1 & W2 & W3 & W4 & W5). splits; auto; lia.
  - eapply safe_weaken; [|apply safe_DecodeOctetString_fragmentation; lia]. cbv beta. intros p [P1 P2]. splits; auto; lia.
Qed.

Lemma safe_DecodeBitString : forall c arr min max, 0 <= min <= max -> max <= 8 * Z.of_nat (length arr) ->
  safe (BitStream_DecodeBitString c arr min max)
    (fun p => 0 <= fst p <= max /\ (min <= fst p \/ 65536 <= max) /\ length (snd p) = length arr).
Proof.
  intros c arr min max Hm HL. unfold BitStream_DecodeBitString. destruct (max <? 65536) eqn:E.
  - eapply safe_bindo with (P := fun n => min <= n <= max).
    + destruct (negb (min =? max)) eqn:E2; [|apply safe_ret_some; lia].
      apply safe_DecodeConstraint; unfold is_s64, two63; try lia. left. unfold is_s64, two63. lia.
    + intros n Hn. eapply safe_bindo; [apply safe_read_bits_at; try reflexivity; lia|].
      intros a Ha. apply safe_ret_some. cbn [fst snd]. splits; auto; lia.
  - eapply safe_bindo; [apply safe_len255|]. intros h Hh. cbv beta in Hh.
    eapply safe_weaken; [|apply (safe_dec_frag c _ (fun a => length a = length arr)); auto; try lia].
    + cbv beta. intros p [P1 P2]. splits; auto; lia.
    + intros a o len Ha Ho Hl Hol Hom. rewrite <- Ha. apply safe_read_bits_at; lia.
    + unfold frag_fuel. rewrite Z.sub_0_r. lia.
Qed.

(** ** C07 *)
Lemma tamed_read_bytes : forall k arr i, tamed (read_bytes k arr i) (fun _ => True).
Proof.
  induction k; intros arr i; cbn [read_bytes]; [apply tamed_some; auto|].
  eapply tamed_bindo; [apply tamed_tame, tame_ReadByte|]. intros b _. apply tamed_lift. intros a _. apply IHk.
Qed.
Lemma tamed_read_bits_at : forall arr o len, 0 <= len -> tamed (read_bits_at arr o len) (fun _ => True).
Proof.
  intros arr o len Hl. unfold read_bits_at. eapply tamed_bindo; [apply tamed_tame, tame_ReadBits; auto|].
  intros d _. apply tamed_lift. intros a _. apply tamed_some; auto.
Qed.
Lemma tamed_DecodeOctetString_fragmentation : forall c arr max,
  tamed (BitStream_DecodeOctetString_fragmentation c arr max) (fun _ => True).
Proof.
  intros. unfold BitStream_DecodeOctetString_fragmentation. eapply tamed_bindo; [apply tamed_u8|].
  intros h Hh. cbv beta in Hh. apply tamed_dec_frag; [|lia]. intros. apply tamed_read_bytes.
Qed.
Lemma tamed_range : forall c min max, is_s64 min -> is_s64 max ->
  tamed (BitStream_DecodeConstraintWholeNumber c min max) (fun v => min <= v <= max).
Proof. intros. apply tamed_of; [apply tame_DecodeConstraint|apply RangeProofs.yields_DecodeConstraint; auto]. Qed.

Lemma tamed_DecodeBitString : forall c arr min max, 0 <= min -> is_s64 min -> is_s64 max ->
  tamed (BitStream_DecodeBitString c arr min max) (fun _ => True).
Proof.
  intros c arr min max H0 H1 H2. unfold BitStream_DecodeBitString. destruct (max <? 65536) eqn:E.
  - eapply tamed_bindo with (P := fun n => 0 <= n).
    + destruct (negb (min =? max)); [|apply tamed_some; auto].
      eapply tamed_weaken; [|apply tamed_range; auto]. cbv beta. intros; lia.
    + intros n Hn. eapply tamed_bindo; [apply tamed_read_bits_at; auto|]. intros a _. apply tamed_some; auto.
  - eapply tamed_bindo; [apply tamed_u8|]. intros h Hh. cbv beta in Hh.
    apply tamed_dec_frag; [|lia]. intros. apply tamed_read_bits_at; auto.
Qed.
Lemma tamed_DecodeOctetString : forall c arr min max, 0 <= min -> is_s64 min -> is_s64 max ->
  tamed (BitStream_DecodeOctetString c arr min max) (fun _ => True).
Proof.
  intros c arr min max H0 H1 H2. unfold BitStream_DecodeOctetString. destruct (max <? 65536) eqn:E;
    [|apply tamed_DecodeOctetString_fragmentation].
  eapply tamed_bindo with (P := fun n => 0 <= n).
  - destruct (min <? max); [|apply tamed_some; auto].
    eapply tamed_weaken; [|apply tamed_range; auto]. cbv beta. intros; lia.
  - intros n Hn. destruct ((min <=? n) && (n <=? max)); [|apply tamed_none].
    intros s r s' HB HI. unfold bind.
    destruct (BitStream_DecodeOctetString_no_length n s) as [[[d|] s1]| | |] eqn:E1; try discriminate.
    + destruct (tame_DecodeOctets n Hn s (Some d) s1 HI E1) as (X1 & X2 & X3 & X4 & X5).
      unfold lift, ret. destruct (store arr 0 d); intro F; try discriminate. inv_ok F.
      splits; auto; try lia. apply X5. discriminate.
    + apply DecodeOctets_none in E1; [|auto]. subst s1. unfold ret. intro F; inv_ok F.
      destruct HI as (I1 & I2 & I3). splits; auto; lia.
Qed.

(** ** Prefix parsing, C11 *)
Lemma parses_read_bytes : forall k arr i, parses (read_bytes k arr i) (fun _ bs => length bs = (8 * k)%nat).
Proof.
  induction k; intros arr i; cbn [read_bytes]; [apply parses_ret; auto|].
  eapply parses_bindo; [apply parses_ReadByte|]. intros b b1 [_ B1]. apply parses_lift. intros a _.
  eapply parses_weaken; [|apply IHk]. cbv beta. intros a' bs H. subst b1. rewrite app_length, len_Zbits. lia.
Qed.
Lemma parses_DecodeOctetString_fragmentation : forall c arr max,
  parses (BitStream_DecodeOctetString_fragmentation c arr max)
    (fun p bs => 1 <= fst p <= max /\ 8 * fst p <= Z.of_nat (length bs)).
Proof.
  intros. unfold BitStream_DecodeOctetString_fragmentation.
  eapply parses_bindo; [apply parses_u8|]. intros h b1 [H1 H2].
  eapply parses_weaken; [|apply (parses_dec_frag c _ 1 max _ 8); [|lia]].
  - cbv beta. intros p bs [P1 P2]. rewrite app_length. split; lia.
  - intros a o len Hl. eapply parses_weaken; [|apply parses_read_bytes]. cbv beta. intros; lia.
Qed.
Lemma parses_read_bits_at : forall arr o len, 0 <= len ->
  parses (read_bits_at arr o len) (fun _ bs => Z.of_nat (length bs) = len).
Proof.
  intros arr o len Hl. unfold read_bits_at. eapply parses_bindo; [apply parses_ReadBits; auto|].
  intros d b1 [B1 B2]. apply parses_lift. intros a _. apply parses_ret. rewrite app_nil_r. auto.
Qed.
Lemma parses_DecodeBitString : forall c arr min max, 0 <= min <= max -> is_s64 min -> is_s64 max ->
  parses (BitStream_DecodeBitString c arr min max) (fun p bs => 0 <= fst p <= Z.of_nat (length bs)).
Proof.
  intros c arr min max H0 H1 H2. unfold BitStream_DecodeBitString. destruct (max <? 65536) eqn:E.
  - eapply parses_bindo with (P := fun n _ => 0 <= n).
    + destruct (negb (min =? max)) eqn:E2; [|apply parses_ret; lia].
      eapply parses_weaken; [|apply parses_DecodeConstraint; auto; left; unfold is_s64, two63 in *; lia].
      cbv beta. intros; lia.
    + intros n b1 Hn. eapply parses_bindo; [apply parses_read_bits_at; auto|]. intros a b2 H. cbv beta in H. apply parses_ret.
      cbn [fst]. rewrite !app_length. lia.
  - eapply parses_bindo; [apply parses_u8|]. intros h b1 [Hh _].
    eapply parses_weaken; [|apply (parses_dec_frag c _ 1 max _ 1); [|lia]].
    + cbv beta. intros p bs [P1 P2]. rewrite app_length. lia.
    + intros a o len Hl. eapply parses_weaken; [|apply parses_read_bits_at; auto]. cbv beta. intros; lia.
Qed.

(** ** Bit patterns *)
Lemma at_avail : forall s pre rest, wfp s -> at_ s pre rest ->
  Z.of_nat (length pre) = pos s /\ Z.of_nat (length rest) = 8 * Z.of_nat (length (buf s)) - pos s.
Proof.
  intros s pre rest HW (A1 & A2 & A3 & A4). split; auto.
  assert (length (bits_of_bytes (buf s)) = length (pre ++ rest)) by congruence.
  rewrite len_bits_of_bytes, app_length in H. lia.
Qed.

Lemma pack_cons8 : forall bs t, length bs = 8%nat -> pack (bs ++ t) = bval bs :: pack t.
Proof.
  intros bs t H. do 8 (destruct bs as [|? bs]; [discriminate H|]). destruct bs; [|discriminate H]. reflexivity.
Qed.
Lemma pack_short : forall bs, (0 < length bs < 8)%nat -> pack bs = [bval bs * 2 ^ (8 - Z.of_nat (length bs))].
Proof.
  intros bs H.
  assert (E : pack bs = [bval (bs ++ zeros (8 - length bs))]).
  { destruct bs as [|? [|? [|? [|? [|? [|? [|? [|? ?]]]]]]]]; cbn [length] in H; try lia; reflexivity. }
  rewrite E, bval_app, bval_zeros, len_zeros. rewrite Z.add_0_r. do 2 f_equal. f_equal. lia.
Qed.

Lemma nthZ_skipn : forall l i x t, 0 <= i -> skipn (Z.to_nat i) l = x :: t -> nthZ l i = Ok x.
Proof.
  intros l i x t Hi E. unfold nthZ. destruct (i <? 0) eqn:E1; [lia|].
  rewrite <- (firstn_skipn (Z.to_nat i) l), E.
  assert (HL : (Z.to_nat i <= length l)%nat).
  { destruct (Nat.le_gt_cases (Z.to_nat i) (length l)); auto. rewrite skipn_all2 in E by lia. discriminate. }
  rewrite nth_error_app2 by (rewrite firstn_length; lia). rewrite firstn_length.
  replace (Z.to_nat i - Nat.min (Z.to_nat i) (length l))%nat with 0%nat by lia. reflexivity.
Qed.

Lemma bval_eq_iff : forall a b, length a = length b -> (bval a = bval b <-> a = b).
Proof. intros; split; [apply bval_inj; auto|congruence]. Qed.

(** The comparison loop. *)
Lemma check_pattern_ok : forall k p pat extra i n s pre bs rest,
  n = Z.of_nat (length p) -> k = Z.to_nat (n / 8) -> 0 <= i ->
  skipn (Z.to_nat i) pat = pack p ++ extra ->
  at_ s pre (bs ++ rest) -> length bs = length p -> Z.of_nat (length pre + length bs) <= 8 * count s ->
  exists r s', check_pattern k pat i n s = Ok (r, s') /\ buf s' = buf s /\ count s' = count s /\
    (bs = p -> r = 2 /\ at_ s' (pre ++ bs) rest) /\ (bs <> p -> r = 1).
Proof.
  induction k; intros p pat extra i n s pre bs rest Hn Hk Hi Hp HA HL HC; cbn [check_pattern].
  - destruct (0 <? n) eqn:E0.
    + assert (HP : (0 < length p < 8)%nat) by lia.
      rewrite pack_short in Hp by auto. cbn [app] in Hp.
      pose proof (bval_bounds bs) as BB. rewrite HL in BB.
      pose proof (bval_bounds p) as BP. rewrite <- Hn in BB, BP.
      assert (HR : reads (BitStream_ReadPartialByte n) (Some (bval bs)) bs).
      { eapply reads_eq; [apply reads_ReadPartialByte; lia|]. apply Zbits_bval_n. lia. }
      destruct (HR s pre rest HA HC) as (s1 & E1 & A1 & C1 & B1).
      unfold bind. rewrite E1. unfold lift. rewrite (nthZ_skipn _ _ _ _ Hi Hp). unfold ret.
      exists (if bval p * 2 ^ (8 - Z.of_nat (length p)) =? byte_of (Z.shiftl (bval bs) (8 - n)) then 2 else 1), s1.
      assert (EV : byte_of (Z.shiftl (bval bs) (8 - n)) = bval bs * 2 ^ (8 - n)).
      { rewrite Z.shiftl_mul_pow2 by lia. unfold byte_of. apply Z.mod_small.
        assert (256 = 2 ^ n * 2 ^ (8 - n)) as ->.
        { rewrite <- Z.pow_add_r by lia. replace (n + (8 - n)) with 8 by lia. reflexivity. }
        assert (0 < 2 ^ (8 - n)) by (apply Z.pow_pos_nonneg; lia). nia. }
      rewrite EV, <- Hn. splits; auto.
      * intros ->. rewrite Z.eqb_refl. auto.
      * intros NE. destruct (_ =? _) eqn:EE; auto. exfalso. apply NE. apply bval_inj; auto.
        apply Z.eqb_eq in EE. assert (0 < 2 ^ (8 - n)) by (apply Z.pow_pos_nonneg; lia). nia.
    + assert (p = []) by (destruct p; auto; cbn [length] in *; lia). subst p.
      destruct bs; [|discriminate HL]. exists 2, s. unfold ret. splits; auto.
      * intros _. rewrite app_nil_r. auto.
      * congruence.
  - assert (HP : (8 <= length p)%nat) by lia.
    rewrite <- (firstn_skipn 8 p) in Hp. rewrite pack_cons8 in Hp by (rewrite firstn_length; lia).
    cbn [app] in Hp.
    set (p1 := firstn 8 p) in *. set (p2 := skipn 8 p) in *.
    set (b1 := firstn 8 bs). set (b2 := skipn 8 bs).
    assert (L1 : length p1 = 8%nat) by (unfold p1; rewrite firstn_length; lia).
    assert (L2 : length b1 = 8%nat) by (unfold b1; rewrite firstn_length; lia).
    assert (EB : bs = b1 ++ b2) by (symmetry; apply firstn_skipn).
    assert (EP : p = p1 ++ p2) by (symmetry; apply firstn_skipn).
    assert (HR : reads BitStream_ReadByte (Some (bval b1)) b1).
    { pose proof (bval_bounds b1) as BB. rewrite L2 in BB.
      eapply reads_eq; [apply reads_ReadByte; exact BB|]. apply Zbits_bval_n. auto. }
    rewrite EB in HA. rewrite <- app_assoc in HA.
    assert (HC1 : Z.of_nat (length pre + length b1) <= 8 * count s) by (rewrite EB, app_length in HC; lia).
    destruct (HR s pre (b2 ++ rest) HA HC1) as (s1 & E1 & A1 & C1 & B1).
    unfold bind. rewrite E1. unfold lift. rewrite (nthZ_skipn _ _ _ _ Hi Hp). 
    destruct (bval p1 =? bval b1) eqn:EE.
    + apply Z.eqb_eq in EE. apply bval_inj in EE; [|congruence].
      destruct (IHk p2 pat extra (i + 1) (n - 8) s1 (pre ++ b1) b2 rest) as (r & s' & F1 & F2 & F3 & F4 & F5); auto;
        rewrite ?C1; try lia.
      * unfold p2. rewrite skipn_length. lia.
      * assert (HS : skipn 1 (skipn (Z.to_nat i) pat) = pack p2 ++ extra) by (rewrite Hp; reflexivity).
        rewrite skipn_skipn' in HS. replace (Z.to_nat (i + 1)) with (Z.to_nat i + 1)%nat by lia. exact HS.
      * unfold b2, p2. rewrite !skipn_length. lia.
      * rewrite EB in HC. rewrite !app_length in *. lia.
      * exists r, s'. splits; auto; try congruence.
        -- intros H. destruct F4 as [F4 F6]; [rewrite EB, EP, EE in H; apply app_inv_head in H; auto|].
           split; auto. rewrite EB, app_assoc. exact F6.
        -- intros H. apply F5. intro. apply H. rewrite EB, EP. congruence.
    + exists 1, s1. unfold ret. splits; auto.
      intros H. exfalso. apply Z.eqb_neq in EE. apply EE. f_equal. unfold p1, b1. congruence.
Qed.

Lemma checkBitPattern_ok : forall p pat extra s pre rest, wfp s ->
  pat = pack p ++ extra -> at_ s pre rest ->
  exists r s', BitStream_checkBitPatternPresent pat (Z.of_nat (length p)) s = Ok (r, s') /\
    (8 * count s < pos s + Z.of_nat (length p) -> r = 0 /\ s' = s) /\
    (pos s + Z.of_nat (length p) <= 8 * count s ->
       (firstn (length p) rest = p -> r = 2 /\ at_ s' (pre ++ p) (skipn (length p) rest) /\
           buf s' = buf s /\ count s' = count s) /\
       (firstn (length p) rest <> p -> r = 1 /\ s' = s)).
Proof.
  intros p pat extra s pre rest HW Hp HA. unfold BitStream_checkBitPatternPresent. unfold bind at 1. unfold get.
  destruct (count s * 8 <? curByte s * 8 + curBit s + Z.of_nat (length p)) eqn:E.
  { exists 0, s. unfold ret, pos. splits; auto; intros; lia. }
  destruct (at_avail _ _ _ HW HA) as [L1 L2]. destruct HW as (W1 & (W2 & W3 & W4) & W5).
  assert (LE : pos s + Z.of_nat (length p) <= 8 * count s) by (unfold pos; lia).
  pose proof HA as HA'. rewrite <- (firstn_skipn (length p) rest) in HA.
  assert (LB : length (firstn (length p) rest) = length p) by (rewrite firstn_length; lia).
  destruct (check_pattern_ok (Z.to_nat (Z.of_nat (length p) / 8)) p pat extra 0 (Z.of_nat (length p)) s pre
    (firstn (length p) rest) (skipn (length p) rest)) as (r & s' & F1 & F2 & F3 & F4 & F5); auto; try lia.
  unfold bind. rewrite F1. 
  destruct (list_eq_dec bool_dec (firstn (length p) rest) p) as [EQ|NE].
  - destruct (F4 EQ) as [-> F6]. change (2 =? 1) with false. cbn match. exists 2, s'. unfold ret. rewrite EQ in F6.
    splits; auto; try lia; try congruence. intros _. splits; auto. congruence.
  - rewrite (F5 NE). change (1 =? 1) with true. cbn match.
    exists 1, (mkbs (buf s') (count s') (curByte s) (curBit s)). unfold set_cur, ret. splits; auto; try lia.
    intros _. split; [congruence|]. intros _. split; auto. rewrite F2, F3. destruct s; reflexivity.
Qed.

(** Declared bits not yet read. *)
Definition remaining (s : bstream) (rest : list bool) : list bool :=
  firstn (Z.to_nat (8 * count s - pos s)) rest.

Lemma occurs_cons : forall p v d j, occurs_at p (v :: d) (S j) <-> occurs_at p d j.
Proof. intros. unfold occurs_at. reflexivity. Qed.

Lemma occurs_enough : forall p d j, occurs_at p d j -> (j + length p <= length d \/ p = [])%nat.
Proof.
  intros p d j H. unfold occurs_at in H. destruct p as [|x p]; [auto|left].
  assert (L : length (firstn (length (x :: p)) (skipn j d)) = length (x :: p)) by congruence.
  rewrite firstn_length, skipn_length in L. cbn [length] in *. lia.
Qed.

Lemma remaining_firstn : forall s rest k, (k <= Z.to_nat (8 * count s - pos s))%nat ->
  firstn k (remaining s rest) = firstn k rest.
Proof. intros. unfold remaining. rewrite firstn_firstn. f_equal. lia. Qed.

Lemma readbits_loop_ok : forall c p pat extra k chk read t tp m tl s pre rest, wfp s ->
  pat = pack p ++ extra -> at_ s pre rest ->
  at_ t tp (zeros m ++ tl) -> Z.of_nat (length tp + m) = 8 * count t -> (k <= m)%nat ->
  exists j r t' s',
    readbits_loop c k pat (Z.of_nat (length p)) chk read t s = Ok ((true, r, read + Z.of_nat j, t'), s') /\
    (j <= k)%nat /\ (j <= length (remaining s rest))%nat /\
    (forall i, (i < j)%nat -> ~ occurs_at p (remaining s rest) i) /\
    at_ t' (tp ++ firstn j rest) (zeros (m - j) ++ tl) /\ count t' = count t /\
    buf s' = buf s /\ count s' = count s /\
    ( ((j < k)%nat /\ occurs_at p (remaining s rest) j /\ r = 2 /\
          at_ s' (pre ++ firstn j rest ++ p) (skipn (j + length p) rest))
      \/ ((j < k)%nat /\ (length (remaining s rest) < j + length p)%nat /\ r = 0 /\ at_ s' (pre ++ firstn j rest) (skipn j rest))
      \/ (j = k /\ r = (match k with O => chk | _ => 1 end) /\ at_ s' (pre ++ firstn j rest) (skipn j rest)) ).
Proof.
  intros c p pat extra k. induction k; intros chk read t tp m tl s pre rest HW Hp HA HT HTL Hk.
  - exists 0%nat, chk, t, s. cbn [readbits_loop]. unfold ret.
    replace (read + Z.of_nat 0) with read by lia. replace (m - 0)%nat with m by lia.
    cbn [firstn skipn]. rewrite !app_nil_r. splits; auto; try lia.
  - cbn [readbits_loop]. unfold bind at 1.
    destruct (checkBitPattern_ok p pat extra s pre rest HW Hp HA) as (r & s1 & E1 & F0 & F12). rewrite E1.
    destruct (at_avail _ _ _ HW HA) as [L1 L2].
    pose proof HW as (W1 & (W2 & W3 & W4) & W5).
    assert (LR : length (remaining s rest) = Z.to_nat (8 * count s - pos s)).
    { unfold remaining. rewrite firstn_length. lia. }
    destruct (Z_lt_dec (8 * count s) (pos s + Z.of_nat (length p))) as [LT|GE].
    { destruct (F0 LT) as [-> ->]. change (0 =? 1) with false. cbn match. unfold ret.
      exists 0%nat, 0, t, s. replace (read + Z.of_nat 0) with read by lia. replace (m - 0)%nat with m by lia.
      cbn [firstn skipn]. rewrite !app_nil_r. splits; auto; try lia. right. left. splits; auto; lia. }
    destruct (F12 ltac:(lia)) as [FM FN]. clear F0 F12.
    destruct (list_eq_dec bool_dec (firstn (length p) rest) p) as [EQ|NE].
    + destruct (FM EQ) as (-> & G1 & G2 & G3). change (2 =? 1) with false. cbn match. unfold ret.
      exists 0%nat, 2, t, s1. replace (read + Z.of_nat 0) with read by lia. replace (m - 0)%nat with m by lia.
      cbn [firstn skipn app Nat.add]. rewrite !app_nil_r. splits; auto; try lia. left. splits; auto; try lia.
      unfold occurs_at. cbn [skipn]. rewrite remaining_firstn by lia. auto.
    + destruct (FN NE) as [-> ->]. change (1 =? 1) with true. cbn match.
      assert (HP : (0 < length p)%nat). { destruct p; [exfalso; apply NE; reflexivity|cbn; lia]. }
      destruct rest as [|v rest']; [cbn [length] in L2; lia|].
      change (v :: rest') with ([v] ++ rest') in HA.
      destruct (reads_ReadBit v s pre rest' HA) as (s2 & E2 & A2 & C2 & B2); [cbn [length]; lia|].
      unfold bind at 1. rewrite E2. cbn [fst snd].
      (* append to the destination *)
      destruct m as [|m]; [lia|].
      destruct (overwrites_writes _ _ _ _ (overwrites_AppendBit c v) t tp (S m) tl HT HTL) as (t2 & ET & AT & CT); [cbn [length]; lia|].
      unfold bind. unfold on at 1. rewrite ET. unfold lift at 1.
      cbn [length] in AT. replace (S m - 1)%nat with m in AT by lia.
      assert (HW2 : wfp s2).
      { destruct A2 as (Y1 & Y2 & Y3 & Y4). rewrite app_length in Y3. cbn [length] in Y3. unfold wfp, inside.
        rewrite B2, C2. unfold pos in *. splits; auto; lia. }
      assert (PP : pos s2 = pos s + 1). { destruct A2 as (_ & _ & Y3 & _). rewrite app_length in Y3. cbn [length] in Y3. lia. }
      assert (ER : remaining s (v :: rest') = v :: remaining s2 rest').
      { unfold remaining. rewrite C2, PP. replace (Z.to_nat (8 * count s - pos s)) with (S (Z.to_nat (8 * count s - (pos s + 1)))) by lia. reflexivity. }
      destruct (IHk 1 (read + 1) t2 (tp ++ [v]) m tl s2 (pre ++ [v]) rest' HW2 Hp A2 AT) as
        (j & r & t' & s' & G1 & G2 & G3 & G4 & G5 & G6 & G7 & G8 & G9); try (rewrite ?app_length, ?CT; cbn [length]; lia).
      exists (S j), r, t', s'. rewrite G1.
      replace (read + 1 + Z.of_nat j) with (read + Z.of_nat (S j)) by lia.
      rewrite ER. cbn [firstn skipn length Nat.add]. rewrite <- !app_assoc in *. cbn [app] in *.
      replace (S m - S j)%nat with (m - j)%nat by lia.
      splits; auto; try lia; try congruence.
      * intros [|i] Hi.
        -- intro OC. apply NE. unfold occurs_at in OC. cbn [skipn] in OC. rewrite <- ER in OC.
           rewrite remaining_firstn in OC by lia. auto.
        -- rewrite occurs_cons. apply G4. lia.
      * destruct G9 as [(X1 & X2 & X3 & X4)|[(X1 & X2 & X3 & X4)|(X1 & X2 & X3)]].
        -- left. splits; auto; try lia.
        -- right. left. splits; auto; lia.
        -- right. right. splits; auto; try lia. rewrite X2. destruct k; auto.
Qed.

Lemma Init_at : forall dst q, Forall is_byte dst -> 0 <= q <= Z.of_nat (length dst) ->
  exists t, BitStream_Init dst q = Ok t /\
    at_ t [] (zeros (Z.to_nat (8 * q)) ++ bits_of_bytes (skipn (Z.to_nat q) dst)) /\ count t = q.
Proof.
  intros dst q HB Hq. unfold BitStream_Init. destruct ((q <? 0) || _) eqn:E; [lia|].
  eexists. split; [reflexivity|]. split; [|reflexivity]. unfold at_. cbn [buf curByte curBit]. unfold pos. cbn [curByte curBit].
  splits; try reflexivity; try lia.
  - apply Forall_app. split; [|apply Forall_skipn; auto]. apply Forall_forall. intros x Hx. apply repeat_spec in Hx. subst.
    unfold is_byte. lia.
  - rewrite bits_of_bytes_app, bits_of_bytes_zeros. cbn [app]. do 2 f_equal. lia.
Qed.

Lemma pack_of_bits : forall l, Forall is_byte l -> pack (bits_of_bytes l) = l.
Proof. intros l H. pose proof (pack_bytes l [] H) as X. rewrite !app_nil_r in X. exact X. Qed.

Lemma ReadBits_nullterminated_ok : forall c p extra dst nMax s pre rest, wfp s ->
  at_ s pre rest -> Forall is_byte dst -> 1 <= nMax -> (nMax + 7) / 8 <= Z.of_nat (length dst) ->
  let q := Z.to_nat ((nMax + 7) / 8) in
  exists r s', BitStream_ReadBits_nullterminated c (pack p ++ extra) (Z.of_nat (length p)) dst nMax s = Ok (r, s') /\
    buf s' = buf s /\ count s' = count s /\ pos s <= pos s' /\
    (forall j, first_at p (remaining s rest) j -> Z.of_nat j <= nMax ->
       r = Some (Z.of_nat j, pack (firstn j rest ++ zeros (8 * q - j)) ++ skipn q dst) /\
       at_ s' (pre ++ firstn j rest ++ p) (skipn (j + length p) rest) /\ pos s' <= 8 * count s') /\
    ((forall j, Z.of_nat j <= nMax -> ~ occurs_at p (remaining s rest) j) -> r = None).
Proof.
  intros c p extra dst nMax s pre rest HW HA HD HN HL q.
  unfold BitStream_ReadBits_nullterminated.
  replace (if Z.rem nMax 8 =? 0 then Z.quot nMax 8 else Z.quot nMax 8 + 1) with ((nMax + 7) / 8).
  2:{ rewrite Z.rem_mod_nonneg, Z.quot_div_nonneg by lia. destruct (nMax mod 8 =? 0) eqn:E; lia. }
  destruct (Init_at dst ((nMax + 7) / 8) HD ltac:(lia)) as (t & T1 & T2 & T3).
  unfold bind at 1. unfold lift. rewrite T1.
  destruct (readbits_loop_ok c p _ extra (Z.to_nat nMax) 0 0 t [] _ _ s pre rest HW eq_refl HA T2) as
    (j & r & t' & s1 & G1 & G2 & G3 & G4 & G5 & G6 & G7 & G8 & G9).
  { cbn [length]. lia. } { lia. }
  unfold bind at 1. rewrite G1.
  destruct (at_avail _ _ _ HW HA) as [L1 L2]. pose proof HW as (W1 & (W2 & W3 & W4) & W5).
  assert (LR : length (remaining s rest) = Z.to_nat (8 * count s - pos s)) by (unfold remaining; rewrite firstn_length; lia).
  (* shape of the destination *)
  assert (BT : buf t' = pack (firstn j rest ++ zeros (8 * q - j)) ++ skipn q dst).
  { destruct G5 as (Y1 & Y2 & Y3 & Y4). cbn [app] in Y2.
    rewrite <- (pack_of_bits (buf t')) by auto. rewrite Y2. rewrite app_assoc.
    replace (Z.to_nat (8 * ((nMax + 7) / 8)) - j)%nat with (8 * q - j)%nat by lia.
    rewrite pack_app8 with (k := q).
    - f_equal. fold q. apply pack_of_bits. apply Forall_skipn; auto.
    - rewrite app_length, len_zeros, firstn_length. lia. }
  cbn [andb].
  destruct G9 as [(X1 & X2 & X3 & X4)|[(X1 & X2 & X3 & X4)|(X1 & X2 & X3)]].
  - (* found in the loop *)
    subst r. change (2 =? 1) with false. rewrite andb_false_r. unfold bind, ret. change (2 =? 2) with true. cbn match.
    exists (Some (0 + Z.of_nat j, buf t')), s1. rewrite BT, Z.add_0_l.
    assert (PS : pos s1 = pos s + Z.of_nat j + Z.of_nat (length p)).
    { destruct X4 as (_ & _ & Y & _). rewrite !app_length, firstn_length in Y. apply occurs_enough in X2. destruct X2; subst; cbn [length] in *; lia. }
    splits; auto; try lia.
    + intros j' [J1 J2] J3. destruct (Nat.lt_trichotomy j j') as [Hlt|[->|Hlt]].
      * exfalso. apply (J2 j Hlt X2).
      * splits; auto. apply occurs_enough in X2. destruct X2; subst; cbn [length] in *; lia.
      * exfalso. apply (G4 j' Hlt J1).
    + intros H. exfalso. apply (H j); [lia|auto].
  - (* not enough data *)
    subst r. change (0 =? 1) with false. rewrite andb_false_r. unfold bind, ret. change (0 =? 2) with false. cbn match.
    exists None, s1.
    assert (PS : pos s1 = pos s + Z.of_nat j).
    { destruct X4 as (_ & _ & Y & _). rewrite !app_length, firstn_length in Y. lia. }
    splits; auto; try lia.
    intros j' [J1 J2] J3. exfalso. destruct (Nat.lt_trichotomy j j') as [Hlt|[->|Hlt]].
    + apply occurs_enough in J1. destruct J1 as [J1| ->]; [lia|]. cbn [length] in *. lia.
    + apply occurs_enough in J1. destruct J1 as [J1| ->]; [lia|]. cbn [length] in *. lia.
    + apply (G4 j' Hlt J1).
  - (* limit reached *)
    subst j. destruct (Z.to_nat nMax) as [|k0] eqn:EK; [lia|]. rewrite <- EK in *. clear k0 EK. subst r.
    change (1 =? 1) with true. replace (0 + Z.of_nat (Z.to_nat nMax) =? nMax) with true by lia. cbn [andb].
    assert (PS : pos s1 = pos s + nMax).
    { destruct X3 as (_ & _ & Y & _). rewrite !app_length, firstn_length in Y. lia. }
    assert (HW1 : wfp s1).
    { destruct X3 as (Y1 & Y2 & Y3 & Y4). unfold wfp, inside. rewrite G7, G8. unfold pos in *. splits; auto; lia. }
    destruct (checkBitPattern_ok p (pack p ++ extra) extra s1 _ _ HW1 eq_refl X3) as (r & s2 & E1 & F0 & F12).
    unfold bind. rewrite E1. unfold ret.
    set (J := Z.to_nat nMax) in *.
    destruct (Z_lt_dec (8 * count s1) (pos s1 + Z.of_nat (length p))) as [LT|GE].
    + destruct (F0 LT) as [-> ->]. change (0 =? 2) with false. exists None, s1. splits; auto; try lia.
      intros j' [J1 J2] J3. exfalso.
      destruct (Nat.lt_ge_cases j' J) as [Hlt|Hge]; [apply (G4 j' Hlt J1)|].
      apply occurs_enough in J1. destruct J1 as [J1| ->]; [|cbn [length] in *]; lia.
    + destruct (F12 ltac:(lia)) as [FM FN]. clear F0 F12.
      assert (OC : occurs_at p (remaining s rest) J <-> firstn (length p) (skipn J rest) = p).
      { unfold occurs_at, remaining. rewrite skipn_firstn_comm, firstn_firstn.
        replace (Nat.min (length p) (Z.to_nat (8 * count s - pos s) - J)) with (length p) by lia. reflexivity. }
      destruct (list_eq_dec bool_dec (firstn (length p) (skipn J rest)) p) as [EQ|NE].
      * destruct (FM EQ) as (-> & H1 & H2 & H3). change (2 =? 2) with true. cbn match.
        exists (Some (0 + Z.of_nat J, buf t')), s2. rewrite BT, Z.add_0_l.
        rewrite <- app_assoc, skipn_skipn' in H1.
        assert (PS2 : pos s2 = pos s1 + Z.of_nat (length p)).
        { destruct H1 as (_ & _ & Y & _). rewrite !app_length, firstn_length in Y. lia. }
        splits; auto; try congruence; try lia.
        -- intros j' [J1 J2] J3. destruct (Nat.lt_trichotomy J j') as [Hlt|[<-|Hlt]].
           ++ lia.
           ++ splits; auto. lia.
           ++ exfalso. apply (G4 j' Hlt J1).
        -- intros H. exfalso. apply (H J); [lia|]. apply OC. auto.
      * destruct (FN NE) as [-> ->]. change (1 =? 2) with false. exists None, s1. splits; auto; try lia.
        intros j' [J1 J2] J3. exfalso.
        destruct (Nat.lt_trichotomy J j') as [Hlt|[<-|Hlt]]; [lia| |].
        -- apply NE, OC, J1.
        -- apply (G4 j' Hlt J1).
Qed.
