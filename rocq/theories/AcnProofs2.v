(** ACN two's complement decoders and length-prefixed integers. *)
From Verif Require Import Base Bits BitStream Ints Contracts Misc AcnSpec Acn.
From Verif Require Import BitsProofs BitStreamProofs BitStreamProofs2 BitStreamProofs3 IntsProofs SafeProofs MiscProofs AcnProofs1.
From Coq Require Import ZifyBool ZifyNat.
Ltac Zify.zify_post_hook ::= Z.div_mod_to_equations.

Lemma reads_peek : forall {A} (g : bool -> M A) a b bs, reads (g b) a (b :: bs) ->
  reads (let* x := BitStream_PeekBit in g x) a (b :: bs).
Proof.
  intros A g a b bs R s pre rest Hat Hc. unfold bind.
  rewrite (PeekBit_spec s pre b (bs ++ rest)) by exact Hat. exact (R s pre rest Hat Hc).
Qed.

Lemma Zbits_top : forall n v, 1 <= n -> - 2 ^ (n - 1) <= v < 2 ^ (n - 1) ->
  exists t, Zbits (Z.to_nat n) v = (v <? 0) :: t.
Proof.
  intros n v Hn Hv. replace (Z.to_nat n) with (S (Z.to_nat (n - 1))) by lia. cbn [Zbits].
  rewrite Z2Nat.id by lia.
  assert (E : Z.testbit v (n - 1) = (v <? 0)).
  { destruct (Z.ltb_spec v 0).
    - replace v with (Z.lnot (- v - 1)) by (unfold Z.lnot; lia). rewrite Z.lnot_spec by lia.
      rewrite (testbit_high0 (- v - 1) (n - 1)) by lia. reflexivity.
    - apply (testbit_high0 v (n - 1)); lia. }
  rewrite E. eauto.
Qed.

Lemma reads_Twos : forall c v n, 1 <= n <= 64 -> - 2 ^ (n - 1) <= v < 2 ^ (n - 1) ->
  shl_wrap c = true \/ 0 <= v ->
  reads (Acn_Dec_Int_TwosComplement_ConstSize c n) (Some v) (Zbits (Z.to_nat n) v).
Proof.
  intros c v n Hn Hv Hc. unfold Acn_Dec_Int_TwosComplement_ConstSize.
  destruct (Zbits_top n v ltac:(lia) Hv) as [t Et]. rewrite Et.
  apply reads_peek. rewrite <- Et. clear t Et.
  rewrite Z.quot_div_nonneg, Z.rem_mod_nonneg by lia.
  set (k := n / 8). set (r := n mod 8).
  assert (Hn8 : n = 8 * k + r) by (unfold k, r; lia).
  assert (Hr : 0 <= r < 8) by (unfold r; lia). assert (Hk : 0 <= k <= 8) by (unfold k; lia).
  clearbody k r.
  replace (Z.to_nat n) with (8 * Z.to_nat k + Z.to_nat r)%nat by lia.
  rewrite Zbits_app. rewrite Z2Nat.id by lia.
  assert (P63 : 2 ^ (n - 1) <= 2 ^ 63) by (apply Z.pow_le_mono_r; lia).
  assert (Pr : 0 < 2 ^ r) by (apply Z.pow_pos_nonneg; lia).
  rewrite Z.shiftr_div_pow2 by lia.
  set (w := v / 2 ^ r). set (b := v mod 2 ^ r).
  assert (Ev : v = w * 2 ^ r + b) by (unfold w, b; rewrite Z.mul_comm; apply Z.div_mod; lia).
  assert (Hb : 0 <= b < 2 ^ r) by (unfold b; apply Z.mod_pos_bound; lia).
  assert (Hsgn : (w <? 0) = (v <? 0)) by (clearbody w b; nia).
  assert (Hw63 : - 2 ^ 63 <= w < 2 ^ 63) by (clearbody w b; nia).
  eapply reads_bindo with (a := w).
  - (* whole bytes *)
    assert (Hw : v < 0 -> - 2 ^ (8 * k) <= w).
    { intros. destruct (Z.eq_dec k 0) as [->|].
      - change (2 ^ (8 * 0)) with 1. replace (8 * 0 + r) with r in Hn8 by lia. subst n.
        assert (2 ^ (r - 1) <= 2 ^ r) by (apply Z.pow_le_mono_r; lia). clearbody w b. nia.
      - assert (2 ^ (n - 1) <= 2 ^ (8 * k) * 2 ^ r).
        { rewrite <- Z.pow_add_r by lia. apply Z.pow_le_mono_r; lia. }
        clearbody w b. nia. }
    assert (Hwp : 0 <= v -> w < 2 ^ (8 * k)).
    { intros. assert (2 ^ (n - 1) <= 2 ^ (8 * k) * 2 ^ r).
      { rewrite <- Z.pow_add_r by lia. apply Z.pow_le_mono_r; lia. }
      clearbody w b. nia. }
    assert (Pk : 0 < 2 ^ (8 * k)) by (apply Z.pow_pos_nonneg; lia).
    rewrite <- (Zbits_mod (8 * Z.to_nat k) w).
    replace (Z.of_nat (8 * Z.to_nat k)) with (8 * k) by lia.
    assert (Hx : 0 <= w mod 2 ^ (8 * k) < 2 ^ (8 * Z.of_nat (Z.to_nat k))).
    { replace (8 * Z.of_nat (Z.to_nat k)) with (8 * k) by lia. apply Z.mod_pos_bound; lia. }
    destruct (Z.ltb_spec v 0).
    + destruct Hc as [Hc|]; [|lia].
      pose proof (reads_dec_sbytes c (Z.to_nat k) (-1) _ Hc Hx) as R.
      replace (8 * Z.of_nat (Z.to_nat k)) with (8 * k) in R by lia.
      replace (-1 * 2 ^ (8 * k) + w mod 2 ^ (8 * k)) with w in R.
      * rewrite s64_id in R by (unfold is_s64, two63; lia). apply R. unfold is_s64, two63. lia.
      * assert (w mod 2 ^ (8 * k) = w + 2 ^ (8 * k)); [|lia].
        symmetry. apply Z.mod_unique with (q := -1); lia.
    + pose proof (reads_dec_sbytes_nn c (Z.to_nat k) 0 (w mod 2 ^ (8 * k)) ltac:(lia)) as R.
      replace (8 * Z.of_nat (Z.to_nat k)) with (8 * k) in * by lia.
      replace (0 * 2 ^ (8 * k) + w mod 2 ^ (8 * k)) with (w mod 2 ^ (8 * k)) in R by lia.
      replace (Some w) with (Some (w mod 2 ^ (8 * k))) by (rewrite Z.mod_small by lia; reflexivity).
      apply R; [right|]; rewrite ?(Z.mod_small w) by lia; lia.
  - destruct (Z.ltb_spec 0 r).
    + rewrite <- (app_nil_r (Zbits _ v)).
      eapply reads_bindo with (a := b).
      * eapply reads_eq; [apply reads_ReadPartialByte; lia|].
        unfold b. pose proof (Zbits_mod (Z.to_nat r) v) as E. rewrite Z2Nat.id in E by lia. exact E.
      * eapply reads_pure_l with (a := w * 2 ^ r).
        { intro s. unfold lift, sshl.
          assert (is_s64 (w * 2 ^ r)).
          { assert (E63 : 2 ^ 63 = 2 ^ (63 - r) * 2 ^ r) by (rewrite <- Z.pow_add_r by lia; f_equal; lia).
            assert (- 2 ^ (63 - r) <= w).
            { unfold w. apply Z.div_le_lower_bound; lia. }
            unfold is_s64, two63. clearbody w b. nia. }
          replace (in_s64 (w * 2 ^ r)) with true by (symmetry; now apply in_s64_iff).
          rewrite s64_id by assumption. rewrite andb_true_r.
          destruct (Z.leb_spec 0 w); [reflexivity|].
          destruct Hc as [->|]; [reflexivity|]. destruct (Z.ltb_spec w 0); lia. }
        rewrite lor_add by lia. rewrite <- Ev. apply reads_ret.
    + replace r with 0 in * by lia. change (Z.to_nat 0) with 0%nat. cbn [Zbits].
      change (2 ^ 0) with 1 in *. replace v with w by lia. apply reads_ret.
Qed.

(** ** Length-prefixed integers *)
Lemma overwrites_msb_bytes : forall k w, is_u64 w -> (k <= 8)%nat ->
  overwrites (msb_bytes w k) tt (Zbits (8 * k) (Z.shiftr w (64 - 8 * Z.of_nat k))).
Proof.
  induction k; intros w Hw Hk; cbn [msb_bytes].
  - apply overwrites_ret.
  - replace (8 * S k)%nat with (8 + 8 * k)%nat by lia. rewrite Zbits_app.
    assert (E1 : byte_of (Z.shiftr (Z.land w 0xFF00000000000000) 56) = byte_of (Z.shiftr w 56)).
    { change 0xFF00000000000000 with (255 * 2 ^ 56). apply land_byte_mask. lia. }
    rewrite E1. eapply overwrites_bind.
    + eapply overwrites_eq; [apply overwrites_byte0|].
      rewrite Z.shiftr_shiftr by lia. f_equal. f_equal. lia.
    + eapply overwrites_eq; [apply IHk; [apply u64_range|lia]|].
      apply Zbits_ext. intros i Hi. rewrite !Z.shiftr_spec by lia.
      unfold u64, two64. rewrite Z.mod_pow2_bits_low by lia. rewrite Z.shiftl_spec by lia. f_equal. lia.
Qed.

Lemma overwrites_EncodeU : forall c v n, 1 <= n <= 8 -> is_u64 v ->
  overwrites (Encode_UnsignedInteger c v n) tt (Zbits (Z.to_nat (8 * n)) v).
Proof.
  intros c v n Hn Hv. unfold Encode_UnsignedInteger.
  eapply overwrites_pure_l; [intro; apply massert_true; lia|]. cbv beta zeta.
  assert (E : u32 (64 - n * 8) = 64 - 8 * n) by (unfold u32, two32; lia). rewrite E.
  destruct (Z.leb_spec 64 (64 - 8 * n)); [lia|].
  eapply overwrites_eq; [apply overwrites_msb_bytes; [apply u64_range|lia]|].
  replace (8 * Z.to_nat n)%nat with (Z.to_nat (8 * n)) by lia.
  apply Zbits_ext. intros i Hi. rewrite Z.shiftr_spec by lia.
  unfold u64, two64. rewrite Z.mod_pow2_bits_low by lia. rewrite Z.shiftl_spec by lia. f_equal. lia.
Qed.

Lemma overwrites_VarU : forall c v, is_u64 v ->
  overwrites (Acn_Enc_Int_PositiveInteger_VarSize_LengthEmbedded c v) tt (semi_bits v).
Proof.
  intros c v Hv. unfold Acn_Enc_Int_PositiveInteger_VarSize_LengthEmbedded, semi_bits.
  rewrite GetLengthUInt_ok by assumption. pose proof (nbytes_u_range v Hv).
  rewrite byte_of_id by (red; lia).
  eapply overwrites_bind; [apply overwrites_AppendByte0; red; lia|].
  eapply overwrites_checked. apply overwrites_EncodeU; [lia|assumption].
Qed.
Lemma reads_VarU : forall v, is_u64 v ->
  reads Acn_Dec_Int_PositiveInteger_VarSize_LengthEmbedded (Some v) (semi_bits v).
Proof.
  intros v Hv. unfold Acn_Dec_Int_PositiveInteger_VarSize_LengthEmbedded, semi_bits.
  pose proof (nbytes_u_range v Hv). pose proof (nbytes_u_bits v).
  eapply reads_bindo with (a := nbytes_u v); [apply reads_ReadByte; red; lia|].
  destruct (Z.ltb_spec 8 (nbytes_u v)); [lia|].
  assert (v < 2 ^ (8 * nbytes_u v)) by (apply nbits_pow; lia).
  unfold is_u64 in Hv. apply (reads_BE (nbytes_u v) v); lia.
Qed.

Lemma overwrites_VarS : forall c v, is_s64 v -> sfits c (- v) ->
  overwrites (Acn_Enc_Int_TwosComplement_VarSize_LengthEmbedded c v) tt (unc_bits v).
Proof.
  intros c v Hv Hc. unfold Acn_Enc_Int_TwosComplement_VarSize_LengthEmbedded, unc_bits.
  eapply overwrites_pure_l.
  { intro s. unfold lift. rewrite GetLengthSInt_ok by assumption. reflexivity. }
  pose proof (nbytes_s_range v Hv). cbv beta zeta.
  rewrite byte_of_id by (red; lia).
  eapply overwrites_bind; [apply overwrites_AppendByte0; red; lia|].
  eapply overwrites_pure_l.
  { intro s. unfold lift, To_UInt. rewrite int2uint_ok by assumption. reflexivity. }
  eapply overwrites_checked.
  eapply overwrites_eq; [apply overwrites_EncodeU; [lia|]|apply Zbits_mod64; lia].
  unfold is_u64. apply Z.mod_pos_bound. reflexivity.
Qed.

Lemma u64_lor_byte : forall v b, 0 <= b < 256 -> Z.lor (u64 (Z.shiftl v 8)) b = u64 (v * 256 + b).
Proof.
  intros v b Hb. rewrite Z.shiftl_mul_pow2 by lia. change (2 ^ 8) with 256.
  unfold u64, two64. change (2 ^ 64) with (256 * 2 ^ 56).
  rewrite (Z.mul_comm v 256), Z.mul_mod_distr_l by lia.
  rewrite (Z.mul_comm 256 (v mod _)).
  pose proof (lor_add (v mod 2 ^ 56) b 8 ltac:(lia) Hb) as E. change (2 ^ 8) with 256 in E. rewrite E.
  pose proof (Z.mod_pos_bound v (2 ^ 56) ltac:(lia)).
  apply Z.mod_unique with (q := v / 2 ^ 56); [lia|].
  pose proof (Z.div_mod v (2 ^ 56) ltac:(lia)). lia.
Qed.

Lemma reads_dec_vtwos : forall k v neg x, 0 <= x < 2 ^ (8 * Z.of_nat k) -> is_u64 v ->
  reads (dec_vtwos false v neg k) (Some (u64 (v * 2 ^ (8 * Z.of_nat k) + x), neg)) (Zbits (8 * k) x).
Proof.
  induction k; intros v neg x Hx Hv; cbn [dec_vtwos].
  - change (2 ^ (8 * Z.of_nat 0)) with 1 in *. replace x with 0 by lia.
    rewrite Z.mul_1_r, Z.add_0_r, u64_id by assumption. apply reads_ret.
  - rewrite Zbits_byte_app by assumption.
    set (p := 2 ^ (8 * Z.of_nat k)).
    assert (Hp : 0 < p) by (apply Z.pow_pos_nonneg; lia).
    assert (E2 : 2 ^ (8 * Z.of_nat (S k)) = 256 * p).
    { unfold p. replace (8 * Z.of_nat (S k)) with (8 + 8 * Z.of_nat k) by lia. rewrite Z.pow_add_r by lia. reflexivity. }
    rewrite E2 in Hx.
    assert (Hb : 0 <= x / p < 256) by (split; [apply Z.div_pos; lia|apply Z.div_lt_upper_bound; lia]).
    eapply reads_bindo with (a := x / p); [apply reads_ReadByte; exact Hb|].
    cbn [andb]. rewrite orb_false_r, u64_lor_byte by exact Hb.
    replace (u64 (v * 2 ^ (8 * Z.of_nat (S k)) + x)) with (u64 (u64 (v * 256 + x / p) * p + x mod p)).
    + apply IHk; [apply Z.mod_pos_bound; lia|apply u64_range].
    + rewrite E2. destruct (u64_cong (v * 256 + x / p)) as [q ->].
      replace ((v * 256 + x / p + q * two64) * p + x mod p) with (v * (256 * p) + (p * (x / p) + x mod p) + (q * p) * two64) by lia.
      rewrite u64_add_k. f_equal. f_equal. symmetry. apply Z.div_mod. lia.
Qed.

Lemma reads_VarS_gen : forall c v n, is_s64 v -> 1 <= n <= 8 -> - 2 ^ (8 * n - 1) <= v < 2 ^ (8 * n - 1) ->
  reads (Acn_Dec_Int_TwosComplement_VarSize_LengthEmbedded c) (Some v) (Zbits 8 n ++ Zbits (Z.to_nat (8 * n)) v).
Proof.
  intros c v n Hv Hn Hr. unfold Acn_Dec_Int_TwosComplement_VarSize_LengthEmbedded.
  eapply reads_bindo with (a := n); [apply reads_ReadByte; red; lia|].
  destruct (Z.ltb_spec 8 n); [lia|].
  assert (E8 : 2 ^ (8 * n) = 2 * 2 ^ (8 * n - 1)).
  { replace (8 * n) with (1 + (8 * n - 1)) at 1 by lia. rewrite Z.pow_add_r by lia. reflexivity. }
  set (x := v mod 2 ^ (8 * n)).
  assert (Hx : 0 <= x < 2 ^ (8 * n)) by (apply Z.mod_pos_bound; lia).
  assert (Ex : x = if v <? 0 then v + 2 ^ (8 * n) else v).
  { unfold x. destruct (Z.ltb_spec v 0); symmetry;
      [apply Z.mod_unique with (q := -1)|apply Z.mod_unique with (q := 0)]; lia. }
  rewrite <- (app_nil_r (Zbits _ v)).
  assert (EZ : Zbits (Z.to_nat (8 * n)) v = Zbits (8 * Z.to_nat n) x).
  { replace (8 * Z.to_nat n)%nat with (Z.to_nat (8 * n)) by lia. unfold x.
    pose proof (Zbits_mod (Z.to_nat (8 * n)) v) as E. rewrite Z2Nat.id in E by lia. now rewrite E. }
  rewrite EZ.
  eapply reads_bindo with (a := (u64 v, v <? 0)).
  - destruct (Z.to_nat n) as [|k] eqn:Ek; [lia|]. cbn [dec_vtwos].
    rewrite Zbits_byte_app by (replace (8 * Z.of_nat (S k)) with (8 * n) by lia; exact Hx).
    set (p := 2 ^ (8 * Z.of_nat k)).
    assert (Hp : 0 < p) by (apply Z.pow_pos_nonneg; lia).
    assert (E2 : 2 ^ (8 * n - 1) = 128 * p).
    { unfold p. replace (8 * n - 1) with (7 + 8 * Z.of_nat k) by lia. rewrite Z.pow_add_r by lia. reflexivity. }
    assert (Hb : 0 <= x / p < 256) by (split; [apply Z.div_pos; lia|apply Z.div_lt_upper_bound; lia]).
    pose proof (Z.div_mod x p ltac:(lia)) as Dx. pose proof (Z.mod_pos_bound x p Hp) as Mx.
    eapply reads_bindo with (a := x / p); [apply reads_ReadByte; exact Hb|].
    cbn [andb orb].
    assert (Es : (0 <? Z.land (x / p) 128) = (v <? 0)).
    { assert (T : Z.testbit (x / p) 7 = (v <? 0)).
      { destruct (Z.ltb_spec v 0).
        - assert (128 <= x / p) by nia.
          replace (x / p) with (Z.lor (1 * 2 ^ 7) (x / p - 128)) by (rewrite lor_add by lia; lia).
          rewrite Z.lor_spec. reflexivity.
        - apply (testbit_high0 _ 7); [|lia|lia]. nia. }
      rewrite <- T. change 128 with (2 ^ 7). rewrite <- (land_pow2_testbit (x / p) 7) by lia.
      assert (0 <= Z.land (x / p) (2 ^ 7)) by (apply Z.land_nonneg; lia).
      destruct (Z.ltb_spec 0 (Z.land (x / p) (2 ^ 7))), (Z.eqb_spec (Z.land (x / p) (2 ^ 7)) 0);
        cbn [negb]; lia || reflexivity. }
    rewrite Es, u64_lor_byte by exact Hb.
    replace (u64 v) with (u64 (u64 ((if v <? 0 then 18446744073709551615 else 0) * 256 + x / p) * p + x mod p)).
    + apply reads_dec_vtwos; [exact Mx|apply u64_range].
    + destruct (u64_cong ((if v <? 0 then 18446744073709551615 else 0) * 256 + x / p)) as [q ->].
      destruct (Z.ltb_spec v 0).
      * transitivity (u64 (v + (256 * p + q * p) * two64)); [|apply u64_add_k].
        f_equal. change two64 with 18446744073709551616. lia.
      * transitivity (u64 (v + (q * p) * two64)); [|apply u64_add_k].
        f_equal. change two64 with 18446744073709551616. lia.
  - cbv beta iota. destruct (Z.ltb_spec v 0).
    + assert (E1 : s64 (u64 (Z.lnot (u64 v))) = - v - 1).
      { rewrite s64_u64. destruct (u64_cong v) as [q ->]. unfold Z.lnot.
        replace (Z.pred (- (v + q * two64))) with (- v - 1 + (- q) * two64) by lia.
        rewrite s64_add_k. apply s64_id. unfold is_s64 in *. lia. }
      rewrite E1.
      assert (is_s64 (v + 1)) by (unfold is_s64, two63 in *; lia).
      replace (- (- v - 1)) with (v + 1) by lia.
      eapply reads_pure_l. { intro s. unfold lift. rewrite sres_ok by assumption. reflexivity. }
      replace (v + 1 - 1) with v by lia.
      eapply reads_pure_l. { intro s. unfold lift. rewrite sres_ok by assumption. reflexivity. }
      apply reads_ret.
    + rewrite s64_u64, s64_id by assumption. apply reads_ret.
Qed.

Lemma reads_VarS : forall c v, is_s64 v ->
  reads (Acn_Dec_Int_TwosComplement_VarSize_LengthEmbedded c) (Some v) (unc_bits v).
Proof.
  intros c v Hv. pose proof (nbytes_s_range v Hv). pose proof (nbytes_s_bits v) as Hbits.
  apply reads_VarS_gen; [assumption|lia|]. set (n := nbytes_s v) in *.
  destruct (Z.ltb_spec v 0).
  - assert (- v - 1 < 2 ^ (8 * n - 1)) by (apply nbits_pow; lia). lia.
  - assert (v < 2 ^ (8 * n - 1)) by (apply nbits_pow; lia). lia.
Qed.
