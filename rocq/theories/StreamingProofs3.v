(** Proofs about the streaming readers. *)
From Coq Require Import ZArith List Bool Lia.
From Coq Require Import ZifyBool ZifyNat.
From Verif Require Import Base Bits BitsProofs BitStream Ints Contracts BitStreamProofs BitStreamProofs2 IntsProofs Streaming StreamingSpec StreamingProofs.
Import ListNotations.
Open Scope Z_scope.
Ltac Zify.zify_post_hook ::= Z.div_mod_to_equations.

Lemma eqz_refl : forall a, eqz a a.
Proof. intros a i. auto. Qed.
Lemma eqz_trans : forall a b c, eqz a b -> eqz b c -> eqz a c.
Proof. intros a b c H1 H2 i. rewrite H1; auto. Qed.
Lemma eqz_app_inv : forall a b x y, length a = length b -> eqz (a ++ x) (b ++ y) -> a = b /\ eqz x y.
Proof.
  induction a; destruct b; cbn [length app]; intros x y L H; try lia; auto.
  pose proof (H O) as H0. cbn in H0. subst b.
  destruct (IHa b0 x y) as [-> Q]; [lia|intros i; apply (H (S i))|]. auto.
Qed.
Lemma eqz_app : forall a x y, eqz x y -> eqz (a ++ x) (a ++ y).
Proof. induction a; cbn [app]; auto. intros x y H [|i]; cbn; auto. apply IHa. auto. Qed.
Lemma nth_zeros : forall n i, nth i (zeros n) false = false.
Proof. induction n; destruct i; cbn; auto. Qed.
Lemma eqz_zeros : forall n, eqz (zeros n) [].
Proof. intros n i. rewrite nth_zeros. destruct i; auto. Qed.
Lemma eqz_app_zeros : forall a n, eqz (a ++ zeros n) a.
Proof.
  intros a n i. destruct (Nat.lt_ge_cases i (length a)).
  - rewrite app_nth1; auto.
  - rewrite app_nth2, nth_zeros, nth_overflow; auto.
Qed.

Lemma bits_repeat0 : forall n, bits_of_bytes (repeat 0 n) = zeros (8 * n).
Proof.
  induction n; auto. cbn [repeat bits_of_bytes]. rewrite IHn. replace (8 * S n)%nat with (8 + 8 * n)%nat by lia.
  rewrite zeros_app. reflexivity.
Qed.
Lemma bytes_repeat0 : forall n, Forall is_byte (repeat 0 n).
Proof. intros. apply Forall_forall. intros x X. apply repeat_spec in X. subst. unfold is_byte; lia. Qed.

Lemma Forall_firstn_ : forall A (P : A -> Prop) n l, Forall P l -> Forall P (firstn n l).
Proof. intros A P n l H. rewrite <- (firstn_skipn n l) in H. apply Forall_app in H. apply H. Qed.
Lemma Forall_skipn_ : forall A (P : A -> Prop) n l, Forall P l -> Forall P (skipn n l).
Proof. intros A P n l H. rewrite <- (firstn_skipn n l) in H. apply Forall_app in H. apply H. Qed.

Lemma skipn_skipn_ : forall A a b (l : list A), skipn a (skipn b l) = skipn (a + b) l.
Proof.
  intros A a b. revert a. induction b; intros a l; [rewrite Nat.add_0_r; auto|].
  rewrite Nat.add_succ_r. destruct l; cbn [skipn]; auto. apply skipn_nil.
Qed.

Lemma rblk_fetch : forall N st l, rblk N (8 * curByte (sb st)) st l -> 0 <= curByte (sb st) ->
  exists st', fetch_if st = Ok (tt, st') /\ rblk N (8 * curByte (sb st')) st' l /\
    0 <= curByte (sb st') < N /\ curBit (sb st') = curBit (sb st).
Proof.
  intros N st l (F & F2 & C & L & P & K & E) H0. unfold fetch_if.
  destruct (curByte (sb st) =? count (sb st)) eqn:EC.
  - replace (Z.of_nat (length (buf (sb st))) <? count (sb st)) with false by lia.
    eexists; split; [reflexivity|]. fld. split; [|lia].
    replace (Z.to_nat (count (sb st))) with (length (buf (sb st))) by lia.
    rewrite skipn_all, app_nil_r. unfold rblk. fld.
    set (n := length (buf (sb st))) in *. pose proof (firstn_length n (src st)) as LF.
    splits; auto; try lia.
    + apply Forall_app; split; [apply Forall_firstn_; auto|apply bytes_repeat0].
    + apply Forall_skipn_; auto.
    + rewrite app_length, repeat_length. lia.
    + replace (Z.to_nat (8 * 0)) with O by lia. cbn [skipn]. eapply eqz_trans; [|exact E].
      rewrite (skipn_all2 (bits_of_bytes (buf (sb st)))) by (rewrite len_bits_of_bytes; lia). cbn [app].
      rewrite bits_of_bytes_app, bits_repeat0.
      destruct (Nat.le_gt_cases n (length (src st))).
      * replace (n - length (firstn n (src st)))%nat with O by lia. cbn [Nat.mul zeros repeat]. rewrite app_nil_r, <- bits_of_bytes_app, firstn_skipn. apply eqz_refl.
      * rewrite skipn_all2, firstn_all2 by lia. cbn [bits_of_bytes]. rewrite app_nil_r. apply eqz_app_zeros.
  - eexists; split; [reflexivity|]. splits; auto; try lia.
    unfold rblk. splits; auto; lia.
Qed.

Lemma rblk_eqz : forall N k st l l', rblk N k st l -> eqz l l' -> rblk N k st l'.
Proof. intros N k st l l' (F & F2 & C & L & P & K & E) H. unfold rblk. splits; auto; try lia. eapply eqz_trans; eauto. Qed.
Lemma rblk_cur : forall N k st l B b, rblk N k st l -> rblk N k (mkss (mkbs (buf (sb st)) (count (sb st)) B b) (sent st) (src st)) l.
Proof. intros. exact H. Qed.

(** The unread bits start with the rest of the current byte; what comes after
    it is [v]. *)
Lemma rblk_hd : forall N k st l i cb, rblk N k st l -> k = 8 * i + cb -> 0 <= cb < 8 -> 0 <= i < N ->
  exists b pb t v, nthZ (buf (sb st)) i = Ok b /\ is_byte b /\ bits_of_byte b = pb ++ t /\ Z.of_nat (length pb) = cb /\
    eqz (t ++ v) l /\ rblk N (8 * (i + 1)) st v /\
    forall l1 t2, t = l1 ++ t2 -> rblk N (k + Z.of_nat (length l1)) st (t2 ++ v).
Proof.
  intros N k st l i cb (F & F2 & C & L & P & K & E) EK CB IN.
  pose proof (len_bits_of_bytes (buf (sb st))) as LB.
  destruct (mem_split (buf (sb st)) (firstn (Z.to_nat k) (bits_of_bytes (buf (sb st)))) (skipn (Z.to_nat k) (bits_of_bytes (buf (sb st)))) i cb) as
    (m1 & b & m2 & pb & rb & EM & LM & F1 & BB & FM2 & EB & LP & EP & ER); auto.
  { rewrite firstn_skipn. auto. }
  { rewrite firstn_length. lia. }
  { rewrite skipn_length. lia. }
  exists b, pb, rb, (bits_of_bytes m2 ++ bits_of_bytes (src st)).
  assert (LRB : (length pb + length rb = 8)%nat).
  { apply (f_equal (@length bool)) in EB. rewrite app_length, len_bits_of_byte in EB. lia. }
  assert (SK : forall l1 t2, rb = l1 ++ t2 -> skipn (length l1 + Z.to_nat k) (bits_of_bytes (buf (sb st))) = t2 ++ bits_of_bytes m2).
  { intros l1 t2 ->. rewrite <- skipn_skipn_, ER, <- app_assoc, skipn_app, skipn_all, Nat.sub_diag. reflexivity. }
  split. { rewrite EM. apply nthZ_app. auto. }
  split; [auto|]. split; [auto|]. split; [auto|]. split.
  { rewrite ER, <- app_assoc in E. auto. }
  split.
  - unfold rblk. splits; auto; try lia.
    replace (Z.to_nat (8 * (i + 1))) with (length rb + Z.to_nat k)%nat by lia.
    rewrite (SK rb []) by (rewrite app_nil_r; auto). apply eqz_refl.
  - intros l1 t2 ET. unfold rblk. pose proof (f_equal (@length bool) ET) as X. rewrite app_length in X. splits; auto; try lia.
    replace (Z.to_nat (k + Z.of_nat (length l1))) with (length l1 + Z.to_nat k)%nat by lia.
    rewrite (SK l1 t2) by auto. rewrite <- app_assoc. apply eqz_refl.
Qed.

(** ** Single bits *)
Lemma sreads_ReadBit : forall N v, sreads N sReadBit (true, v) [v].
Proof.
  intros N v st rest (HB & Hb & R). unfold pos in R.
  assert (CN : count (sb st) = N) by apply R.
  destruct (rblk_hd _ _ _ _ (curByte (sb st)) (curBit (sb st)) R) as (b & pb & t & u & HN & BB & EB & LP & EZ & R8 & RK); auto.
  destruct t as [|o t].
  { apply (f_equal (@length bool)) in EB. rewrite app_length, len_bits_of_byte in EB. cbn [length] in EB. lia. }
  destruct (eqz_app_inv [o] [v] (t ++ u) rest) as [EO EZ2]; auto. injection EO as EO. subst o.
  destruct (bits_of_byte_nth _ _ _ _ _ EB LP) as [_ T].
  unfold sReadBit. rewrite (sb_step _ _ _ _ _ _ _ (sget _)).
  rewrite (sb_step _ _ _ _ _ _ _ (stbl _ _ _ _ (nthZ_masks (curBit (sb st)) Hb))), (sb_step _ _ _ _ _ _ _ (srd _ _ _ HN)).
  rewrite land_pow2_testbit, T by lia.
  destruct (curBit (sb st) <? 7) eqn:E7.
  - rewrite (sb_step _ _ _ _ _ _ _ (scur _ _ _)), (sb_step _ _ _ _ _ _ _ (sget _)). unfold in_stream. fld.
    replace (curByte (sb st) * 8 + (curBit (sb st) + 1) <=? count (sb st) * 8) with true by lia.
    eexists; split; [reflexivity|]. unfold unread, pos. fld. splits; try lia.
    apply rblk_cur. eapply rblk_eqz; [|exact EZ2].
    replace (8 * curByte (sb st) + (curBit (sb st) + 1)) with (8 * curByte (sb st) + curBit (sb st) + Z.of_nat (length [v])) by (cbn [length]; lia).
    apply RK. reflexivity.
  - destruct t. 2:{ apply (f_equal (@length bool)) in EB. rewrite app_length, len_bits_of_byte in EB. cbn [length] in EB. lia. }
    destruct (rblk_fetch N (mkss (mkbs (buf (sb st)) (count (sb st)) (curByte (sb st) + 1) 0) (sent st) (src st)) u) as (st2 & EF & R2 & I2 & C2).
    { fld. apply rblk_cur. auto. } { fld. lia. }
    fldin C2.
    rewrite (sb_step _ _ _ _ _ tt st2) by (rewrite (sb_step _ _ _ _ _ _ _ (scur _ _ _)); auto).
    rewrite (sb_step _ _ _ _ _ _ _ (sget _)). unfold in_stream.
    assert (C3 : count (sb st2) = N) by apply R2.
    replace (curByte (sb st2) * 8 + curBit (sb st2) <=? count (sb st2) * 8) with true by lia.
    exists st2. split; auto. unfold unread, pos. rewrite C2, Z.add_0_r. splits; try lia.
    eapply rblk_eqz; eauto.
Qed.

(** ** Partial bytes *)
Lemma cross_bits : forall b b2 cb n v pb t x y, is_byte b -> is_byte b2 -> 0 < cb < 8 -> 1 <= n <= 8 -> 8 < cb + n -> 0 <= v < 2 ^ n ->
  bits_of_byte b = pb ++ t -> Z.of_nat (length pb) = cb -> bits_of_byte b2 = x ++ y ->
  Zbits (Z.to_nat n) v = t ++ x ->
  Z.land (Z.lor (byte_of (Z.shiftl b (cb + n - 8))) (byte_of (Z.shiftr b2 (8 - (cb + n - 8))))) (2 ^ n - 1) = v.
Proof.
  intros b b2 cb n v pb t x y B B2 CB N8 T V EB LP EB2 EV.
  pose proof (f_equal (@length bool) EB) as L1. rewrite app_length, len_bits_of_byte in L1.
  pose proof (f_equal (@length bool) EB2) as L2. rewrite app_length, len_bits_of_byte in L2.
  pose proof (f_equal (@length bool) EV) as L3. rewrite app_length, len_Zbits in L3.
  set (q := Z.to_nat (8 - n)). set (w := bval (t ++ x ++ firstn q y)).
  assert (LW : length (t ++ x ++ firstn q y) = 8%nat) by (rewrite !app_length, firstn_length; lia).
  assert (W8 : is_byte w). { unfold is_byte, w. pose proof (bval_bounds (t ++ x ++ firstn q y)) as X. rewrite LW in X. exact X. }
  assert (EW : Zbits 8 w = t ++ x ++ firstn q y) by (apply Zbits_bval_n; auto).
  assert (G : Z.lor (byte_of (Z.shiftl b cb)) (byte_of (Z.shiftr b2 (8 - cb))) = w).
  { rewrite (Zbits8_split w cb) in EW by lia. rewrite app_assoc in EW.
    assert (E1 := EW). rewrite <- app_assoc in E1. apply app_split in E1; [|rewrite len_Zbits; lia]. destruct E1 as [E1 E2].
    apply (byte_get b b2 w cb pb (skipn q y)); auto.
    - rewrite app_nil_r, E1. auto.
    - cbn [app]. rewrite E2, EB2, <- app_assoc, firstn_skipn. auto. }
  assert (EVW : v = Z.shiftr w (8 - n)).
  { replace 8%nat with (Z.to_nat n + q)%nat in EW by lia. rewrite Zbits_app, app_assoc in EW.
    apply app_split in EW; [|rewrite app_length, len_Zbits; lia]. destruct EW as [EW _]. rewrite <- EV in EW.
    symmetry. replace (8 - n) with (Z.of_nat q) by lia. apply (Zbits_inj (Z.to_nat n)); auto.
    - rewrite Z2Nat.id by lia. replace n with (8 - Z.of_nat q) at 1 by lia. apply shiftr_lt; [lia|]. exact W8.
    - rewrite Z2Nat.id by lia. auto. }
  rewrite EVW.
  replace (2 ^ n - 1) with (Z.ones n) by (rewrite Z.ones_equiv; lia).
  apply Z.bits_inj'. intros i Hi. rewrite Z.land_spec, Z.shiftr_spec by lia.
  destruct (Z_lt_dec i n).
  - rewrite Z.ones_spec_low by lia. rewrite andb_true_r, Z.lor_spec, !byte_of_testbit by lia.
    rewrite <- G. rewrite Z.lor_spec, !byte_of_testbit by lia.
    rewrite !Z.shiftl_spec, !Z.shiftr_spec by lia. f_equal; f_equal; lia.
  - rewrite Z.ones_spec_high by lia. rewrite andb_false_r. symmetry. apply byte_testbit_high; auto. lia.
Qed.

Lemma sreads_ReadPartialByte : forall N v n, 1 <= n <= 8 -> 0 <= v < 2 ^ n ->
  sreads N (sReadPartialByte n) (Some v) (Zbits (Z.to_nat n) v).
Proof.
  intros N v n N8 V st rest (HB & Hb & R). unfold pos in R.
  assert (CN : count (sb st) = N) by apply R.
  destruct (rblk_hd _ _ _ _ (curByte (sb st)) (curBit (sb st)) R) as (b & pb & t & u & HN & BB & EB & LP & EZ & R8 & RK); auto.
  pose proof (f_equal (@length bool) EB) as LB. rewrite app_length, len_bits_of_byte in LB.
  unfold sReadPartialByte. rewrite (sb_step _ _ _ _ _ _ _ (sget _)). cbv zeta.
  rewrite (sb_step _ _ _ _ _ _ _ (stbl _ _ _ _ (nthZ_masksb n ltac:(lia)))).
  destruct (curBit (sb st) + n <=? 8) eqn:T.
  - rewrite <- (firstn_skipn (Z.to_nat n) t), <- app_assoc in EZ.
    apply eqz_app_inv in EZ. 2:{ rewrite len_Zbits, firstn_length. lia. } destruct EZ as [E1 E2].
    assert (EB' : bits_of_byte b = pb ++ Zbits (Z.to_nat n) v ++ skipn (Z.to_nat n) t) by (rewrite <- E1, firstn_skipn; auto).
    pose proof (byte_getpart b v n (curBit (sb st)) pb (skipn (Z.to_nat n) t) BB V ltac:(lia) N8 ltac:(lia) EB' LP) as GV.
    specialize (RK (Zbits (Z.to_nat n) v) (skipn (Z.to_nat n) t)). rewrite len_Zbits in RK.
    assert (RK2 : rblk N (8 * curByte (sb st) + curBit (sb st) + n) st rest).
    { replace n with (Z.of_nat (Z.to_nat n)) at 1 by lia. eapply rblk_eqz; [apply RK|exact E2]. rewrite <- E1, firstn_skipn. auto. }
    destruct (curBit (sb st) + n =? 8) eqn:E8.
    + destruct (rblk_fetch N (mkss (mkbs (buf (sb st)) (count (sb st)) (curByte (sb st) + 1) 0) (sent st) (src st)) rest) as (st2 & EF & R2 & I2 & C2).
      { fld. apply rblk_cur. replace (8 * (curByte (sb st) + 1)) with (8 * curByte (sb st) + curBit (sb st) + n) by lia. auto. } { fld. lia. }
      fldin C2.
      rewrite (sb_step _ _ _ _ _ v st2).
      2:{ rewrite (sb_step _ _ _ _ _ _ _ (srd _ _ _ HN)).
          rewrite (sb_step _ _ _ _ _ tt st2) by (rewrite (sb_step _ _ _ _ _ _ _ (scur _ _ _)); auto).
          rewrite GV. reflexivity. }
      rewrite (sb_step _ _ _ _ _ _ _ (sget _)). unfold in_stream.
      assert (C3 : count (sb st2) = N) by apply R2.
      replace (curByte (sb st2) * 8 + curBit (sb st2) <=? count (sb st2) * 8) with true by lia.
      exists st2. split; auto. unfold unread, pos. rewrite C2, Z.add_0_r. splits; try lia. auto.
    + set (st2 := mkss (mkbs (buf (sb st)) (count (sb st)) (curByte (sb st)) (curBit (sb st) + n)) (sent st) (src st)).
      rewrite (sb_step _ _ _ _ _ v st2).
      2:{ rewrite (sb_step _ _ _ _ _ _ _ (srd _ _ _ HN)).
          rewrite (sb_step _ _ _ _ _ _ _ (scur _ _ _)). rewrite GV. reflexivity. }
      rewrite (sb_step _ _ _ _ _ _ _ (sget _)). unfold in_stream. subst st2. fld.
      replace (curByte (sb st) * 8 + (curBit (sb st) + n) <=? count (sb st) * 8) with true by lia.
      eexists; split; [reflexivity|]. unfold unread, pos. fld. splits; try lia. apply rblk_cur. rewrite Z.add_assoc. auto.
  - destruct (rblk_fetch N (mkss (mkbs (buf (sb st)) (count (sb st)) (curByte (sb st) + 1) (curBit (sb st))) (sent st) (src st)) u) as (st2 & EF & R2 & I2 & C2).
    { fld. apply rblk_cur. auto. } { fld. lia. }
    fldin C2. assert (C3 : count (sb st2) = N) by apply R2.
    destruct (rblk_hd _ _ _ _ (curByte (sb st2)) 0 R2) as (b2 & pb2 & t2 & u2 & HN2 & BB2 & EB2 & LP2 & EZ2 & _ & RK2); auto; try lia.
    destruct pb2; cbn in LP2; try lia. cbn [app] in EB2.
    pose proof (f_equal (@length bool) EB2) as LB2. rewrite len_bits_of_byte in LB2.
    set (q := Z.to_nat (curBit (sb st) + n - 8)).
    assert (EZ3 : eqz ((t ++ firstn q t2) ++ (skipn q t2 ++ u2)) (Zbits (Z.to_nat n) v ++ rest)).
    { eapply eqz_trans; [|exact EZ]. rewrite <- app_assoc. rewrite (app_assoc (firstn q t2)), firstn_skipn.
      apply eqz_app; auto. }
    apply eqz_app_inv in EZ3. 2:{ rewrite app_length, len_Zbits, firstn_length. lia. }
    destruct EZ3 as [EV EZ4].
    pose proof (cross_bits b b2 (curBit (sb st)) n v pb t (firstn q t2) (skipn q t2) BB BB2 ltac:(lia) N8 ltac:(lia) V EB LP
      ltac:(rewrite firstn_skipn; auto) ltac:(auto)) as GV.
    set (st3 := mkss (mkbs (buf (sb st2)) (count (sb st2)) (curByte (sb st2)) (curBit (sb st) + n - 8)) (sent st2) (src st2)).
    rewrite (sb_step _ _ _ _ _ v st3).
    2:{ rewrite (sb_step _ _ _ _ _ _ _ (srd _ _ _ HN)), (sb_step _ _ _ _ _ _ _ (scur _ _ _)).
        rewrite (sb_step _ _ _ _ _ _ _ EF), (sb_step _ _ _ _ _ _ _ (sget _)), (sb_step _ _ _ _ _ _ _ (srd _ _ _ HN2)).
        rewrite (sb_step _ _ _ _ _ _ _ (scur _ _ _)). rewrite GV. reflexivity. }
    rewrite (sb_step _ _ _ _ _ _ _ (sget _)). unfold in_stream. subst st3. fld.
    replace (curByte (sb st2) * 8 + (curBit (sb st) + n - 8) <=? count (sb st2) * 8) with true by lia.
    eexists; split; [reflexivity|]. unfold unread, pos. fld. splits; try lia. apply rblk_cur.
    eapply rblk_eqz; [|exact EZ4].
    replace (8 * curByte (sb st2) + (curBit (sb st) + n - 8)) with (8 * curByte (sb st2) + Z.of_nat (length (firstn q t2))) by (rewrite firstn_length; lia).
    apply RK2. rewrite firstn_skipn. auto.
Qed.

(** ** Whole bytes *)
Lemma sReadByte_ok : forall N v st rest, is_byte v -> unread N st (Zbits 8 v ++ rest) ->
  curBit (sb st) = 0 \/ curByte (sb st) + 1 < N ->
  exists st', sReadByte st = Ok (Some v, st') /\ unread N st' rest.
Proof.
  intros N v st rest V (HB & Hb & R) OK. unfold pos in R.
  assert (CN : count (sb st) = N) by apply R.
  destruct (rblk_hd _ _ _ _ (curByte (sb st)) (curBit (sb st)) R) as (b & pb & t & u & HN & BB & EB & LP & EZ & R8 & RK); auto.
  pose proof (f_equal (@length bool) EB) as LB. rewrite app_length, len_bits_of_byte in LB.
  unfold sReadByte. rewrite (sb_step _ _ _ _ _ _ _ (sget _)). cbv zeta.
  replace (count (sb st) - curByte (sb st) <? (if 0 <? curBit (sb st) then 2 else 1)) with false
    by (destruct (0 <? curBit (sb st)) eqn:?; lia).
  rewrite (sb_step _ _ _ _ _ _ _ (srd _ _ _ HN)), (sb_step _ _ _ _ _ _ _ (scur _ _ _)).
  destruct (rblk_fetch N (mkss (mkbs (buf (sb st)) (count (sb st)) (curByte (sb st) + 1) (curBit (sb st))) (sent st) (src st)) u) as (st2 & EF & R2 & I2 & C2).
  { fld. apply rblk_cur. auto. } { fld. lia. }
  fldin C2. assert (C3 : count (sb st2) = N) by apply R2.
  rewrite (sb_step _ _ _ _ _ _ _ EF).
  destruct (0 <? curBit (sb st)) eqn:E0.
  - destruct (rblk_hd _ _ _ _ (curByte (sb st2)) 0 R2) as (b2 & pb2 & t2 & u2 & HN2 & BB2 & EB2 & LP2 & EZ2 & _ & RK2); auto; try lia.
    destruct pb2; cbn in LP2; try lia. cbn [app] in EB2.
    pose proof (f_equal (@length bool) EB2) as LB2. rewrite len_bits_of_byte in LB2.
    set (q := Z.to_nat (curBit (sb st))).
    assert (EZ3 : eqz ((t ++ firstn q t2) ++ (skipn q t2 ++ u2)) (Zbits 8 v ++ rest)).
    { eapply eqz_trans; [|exact EZ]. rewrite <- app_assoc. rewrite (app_assoc (firstn q t2)), firstn_skipn.
      apply eqz_app; auto. }
    apply eqz_app_inv in EZ3. 2:{ rewrite app_length, len_Zbits, firstn_length. lia. }
    destruct EZ3 as [EV EZ4].
    rewrite (Zbits8_split v (curBit (sb st))) in EV by lia. apply app_split in EV; [|rewrite len_Zbits; lia]. destruct EV as [EV1 EV2].
    assert (GV : Z.lor (byte_of (Z.shiftl b (curBit (sb st)))) (byte_of (Z.shiftr b2 (8 - curBit (sb st)))) = v).
    { apply (byte_get b b2 v (curBit (sb st)) pb (skipn q t2)); auto; try lia.
      - rewrite app_nil_r, <- EV1. auto.
      - cbn [app]. fold q in EV2. fold q. rewrite <- EV2, firstn_skipn. auto. }
    rewrite (sb_step _ _ _ _ _ _ _ (sget _)), (sb_step _ _ _ _ _ _ _ (srd _ _ _ HN2)). rewrite GV.
    exists st2. split; auto. unfold unread, pos. rewrite C2. splits; try lia.
    eapply rblk_eqz; [|exact EZ4].
    replace (curBit (sb st)) with (Z.of_nat (length (firstn q t2))) by (rewrite firstn_length; lia).
    apply RK2. rewrite firstn_skipn. auto.
  - apply eqz_app_inv in EZ; [|rewrite len_Zbits; lia]. destruct EZ as [ET EZ2].
    destruct pb; cbn in LP, LB; try lia. cbn [app] in EB.
    assert (b = v). { apply bits_of_byte_inj; auto. rewrite (Zbits8 v). congruence. } subst b.
    replace (curBit (sb st)) with 0 in * by lia. rewrite byte_of_shiftl0 by auto.
    exists st2. split; auto. unfold unread, pos. rewrite C2, Z.add_0_r. splits; try lia.
    eapply rblk_eqz; eauto.
Qed.

Lemma sReadByte_last : forall N st l, unread N st l -> curBit (sb st) <> 0 -> curByte (sb st) + 1 = N ->
  sReadByte st = Ok (None, st).
Proof.
  intros N st l (HB & Hb & R) H0 HL. assert (CN : count (sb st) = N) by apply R.
  unfold sReadByte. rewrite (sb_step _ _ _ _ _ _ _ (sget _)). cbv zeta.
  replace (0 <? curBit (sb st)) with true by lia.
  replace (count (sb st) - curByte (sb st) <? 2) with true by lia. reflexivity.
Qed.

(** ** Composition *)
Lemma sreads_ret : forall A N (a : A), sreads N (sret a) a [].
Proof. intros A N a st rest U. exists st. auto. Qed.
Lemma sreads_bind : forall A B N (f : SM A) (g : A -> SM B) a b bs1 bs2,
  sreads N f a bs1 -> sreads N (g a) b bs2 -> sreads N (sbind f g) b (bs1 ++ bs2).
Proof.
  intros A B N f g a b bs1 bs2 H1 H2 st rest U. rewrite <- app_assoc in U. destruct (H1 _ _ U) as (st1 & E1 & U1).
  destruct (H2 _ _ U1) as (st2 & E2 & U2). exists st2. unfold sbind. rewrite E1, E2. auto.
Qed.
Lemma sreads_bindo : forall A B N (f : SM (option A)) (g : A -> SM (option B)) a b bs1 bs2,
  sreads N f (Some a) bs1 -> sreads N (g a) b bs2 -> sreads N (sbindo f g) b (bs1 ++ bs2).
Proof. intros. unfold sbindo. eapply sreads_bind; eauto. Qed.
Lemma sreads_eq : forall A N (f : SM A) a bs bs', sreads N f a bs -> bs = bs' -> sreads N f a bs'.
Proof. intros. subst. auto. Qed.
Lemma sreads_pure_l : forall A B N (f : SM A) (g : A -> SM B) a b bs,
  (forall st, f st = Ok (a, st)) -> sreads N (g a) b bs -> sreads N (sbind f g) b bs.
Proof.
  intros A B N f g a b bs H1 H2 st rest U. destruct (H2 _ _ U) as (st2 & E2 & U2).
  exists st2. unfold sbind. rewrite H1. auto.
Qed.
