(** Contracts of the REAL codec. *)
From Verif Require Import Base Bits BitStream Contracts BitsProofs BitStreamProofs BitStreamProofs2 BitStreamProofs3 Ints IntsProofs SafeProofs RangeProofs Properties2Proofs RealSpec RealC FloatProofs.
From Coq Require Import ZifyBool ZifyNat.
Ltac Zify.zify_post_hook ::= Z.div_mod_to_equations.

(** ** The representation of a double *)
Lemma normal_parts : forall m e, 2 ^ 52 <= Zpos m < 2 ^ 53 -> is_double (S754_finite false m e) -> -1074 <= e <= 971.
Proof.
  intros m e Hm Hd. unfold is_double, valid_binary, bounded, canonical_mantissa in Hd.
  apply andb_prop in Hd. destruct Hd as [H1 H2].
  apply Zeq_bool_eq in H1. apply Zle_bool_imp_le in H2. rewrite fx_eq in H1. lia.
Qed.

Lemma Calculate_ok : forall m e, 2 ^ 52 <= Zpos m < 2 ^ 53 -> -1074 <= e <= 971 ->
  CalculateMantissaAndExponent (S754_finite false m e) = (e, Zpos m).
Proof.
  intros m e Hm He. unfold CalculateMantissaAndExponent, double_bits.
  destruct (Z.ltb_spec (Zpos m) (2 ^ 52)); [lia|].
  set (f := Zpos m - 2 ^ 52). set (x := e + 1075).
  replace (0 + (x * 2 ^ 52 + f)) with (x * 2 ^ 52 + f) by lia.
  assert (Hf : 0 <= f < 2 ^ 52) by lia.
  assert (E1 : Z.shiftr (Z.land (x * 2 ^ 52 + f) 9218868437227405312) 52 = x).
  { rewrite Z.shiftr_land. change (Z.shiftr 9218868437227405312 52) with (Z.ones 11).
    rewrite Z.land_ones by lia. rewrite Z.shiftr_div_pow2 by lia.
    rewrite Z.div_add_l by lia. rewrite (Z.div_small f) by lia. rewrite Z.add_0_r.
    apply Z.mod_small. cbn. lia. }
  rewrite E1.
  assert (E2 : s32 (u64 (x - 1023 - 52)) = e).
  { replace (x - 1023 - 52) with e by (unfold x; lia).
    unfold s32, u64, two64, two32. cbn zeta.
    destruct (Z_le_gt_dec 0 e).
    - rewrite (Z.mod_small e) by lia. rewrite Z.mod_small by lia. destruct (Z.ltb_spec e (2 ^ 31)); lia.
    - assert (A : (e mod 2 ^ 64) = e + 2 ^ 64) by lia. rewrite A.
      assert (B : (e + 2 ^ 64) mod 2 ^ 32 = e + 2 ^ 32).
      { replace (e + 2 ^ 64) with (e + 2 ^ 32 + (2 ^ 32 - 1) * 2 ^ 32) by lia.
        rewrite Z.mod_add by lia. apply Z.mod_small. lia. }
      rewrite B. destruct (Z.ltb_spec (e + 2 ^ 32) (2 ^ 31)); lia. }
  rewrite E2. f_equal.
  change 4503599627370495 with (Z.ones 52). rewrite Z.land_ones by lia.
  rewrite Z.add_comm, Z.mod_add by lia. rewrite Z.mod_small by lia.
  rewrite Z.lor_comm. change 4503599627370496 with (1 * 2 ^ 52). rewrite lor_add by lia. lia.
Qed.

(** ** Encoder *)
Lemma be_octets_ok : forall n v, 0 <= n ->
  bits_of_bytes (be_octets n v) = Zbits (Z.to_nat (8 * n)) v /\
  Forall is_byte (be_octets n v) /\ Z.of_nat (length (be_octets n v)) = n.
Proof.
  intros n v Hn. unfold be_octets. set (l := Zbits (Z.to_nat (8 * n)) v).
  assert (L : length l = Z.to_nat (8 * n)) by apply len_Zbits.
  destruct (pack_spec l) as (F & LP & _ & _). rewrite L in LP.
  destruct (bits_of_pack (length l) l ltac:(lia)) as [E _].
  split; [|split; [exact F|lia]].
  rewrite E. replace (8 * length (pack l) - length l)%nat with 0%nat by lia. apply app_nil_r.
Qed.

Lemma len_header : forall a b, 1 <= a <= 3 -> 1 <= b <= 8 -> 0 <= 1 + a + b <= 255.
Proof. lia. Qed.

Lemma nbytes_s_exp : forall e, -1074 <= e <= 971 -> 1 <= nbytes_s e <= 2.
Proof.
  intros e He. unfold nbytes_s.
  assert (nbits (if e <? 0 then - e - 1 else e) <= 11).
  { apply nbits_min; [lia|]. destruct (e <? 0) eqn:E; lia. }
  pose proof (nbits_nonneg (if e <? 0 then - e - 1 else e)). lia.
Qed.

Lemma writes_exponent : forall c e n, is_s64 e -> n = nbytes_s e ->
  writes (if 0 <=? e then
         let* nb := lift (GetNumberOfBitsForNonNegativeInteger (u64 e)) in
         BitStream_AppendNBitZero (n * 8 - nb) ;;;
         BitStream_EncodeNonNegativeInteger c (u64 e)
       else
         let* nb := lift (GetNumberOfBitsForNonNegativeInteger (u64 (- e - 1))) in
         BitStream_AppendNBitOne c (n * 8 - nb) ;;;
         BitStream_EncodeNonNegativeIntegerNeg c (u64 (- e - 1)) true) tt
    (Zbits (Z.to_nat (8 * n)) e).
Proof.
  intros c v n Hv ->. pose proof (nbytes_s_range v Hv). pose proof (nbytes_s_bits v) as NB.
  destruct (0 <=? v) eqn:E.
  - replace (v <? 0) with false in NB by lia.
    assert (HU : is_u64 v) by (unfold is_u64, is_s64, two63, two64 in *; lia).
    rewrite u64_id by auto.
    eapply writes_pure_l with (a := nbits v). { intros. unfold lift. rewrite GetNumberOfBits_ok; auto. }
    replace (8 * nbytes_s v) with (nbytes_s v * 8) in * by lia. apply writes_padded; auto. lia.
  - replace (v <? 0) with true in NB by lia.
    assert (HU : is_u64 (- v - 1)) by (unfold is_u64, is_s64, two63, two64 in *; lia).
    rewrite u64_id by auto.
    eapply writes_pure_l with (a := nbits (- v - 1)). { intros. unfold lift. rewrite GetNumberOfBits_ok; auto. }
    pose proof (nbits_nonneg (- v - 1)). pose proof (nbits_bound (- v - 1)).
    eapply writes_eq.
    + eapply writes_bind; [apply overwrites_writes; apply overwrites_AppendNBitOne; lia|].
      apply writes_EncodeNonNegNeg; auto.
    + cbv iota. replace (Z.lnot (- v - 1)) with v by (unfold Z.lnot; lia).
      rewrite (Zbits_ones_pad (Z.to_nat (nbits (- v - 1))) (Z.to_nat (8 * nbytes_s v)) v).
      * f_equal. f_equal. lia.
      * rewrite Z2Nat.id by lia. unfold is_s64 in *; lia.
      * lia.
Qed.

Lemma writes_finite : forall c s m e v,
  2 ^ 52 <= Zpos m < 2 ^ 53 -> -1075 <= e <= 971 ->
  CalculateMantissaAndExponent (match v with S754_finite true a b => SFopp v | _ => v end) = (e, Zpos m) ->
  (exists m' e', v = S754_finite s m' e') ->
  writes (BitStream_EncodeReal c v) tt (real_bits (S754_finite s m e)).
Proof.
  intros c s m e v Hm He HC (m' & e' & ->).
  assert (Le : 1 <= nbytes_s e <= 2).
  { unfold nbytes_s.
    assert (nbits (if e <? 0 then - e - 1 else e) <= 11).
    { apply nbits_min; [lia|]. destruct (e <? 0) eqn:E; lia. }
    pose proof (nbits_nonneg (if e <? 0 then - e - 1 else e)). lia. }
  assert (Se : is_s64 e) by (unfold is_s64, two63; lia).
  assert (Um : is_u64 (Zpos m)) by (unfold is_u64, two64; lia).
  pose proof (nbytes_u_range _ Um) as Lm.
  destruct (be_octets_ok (nbytes_s e) e ltac:(lia)) as (B1 & F1 & L1).
  destruct (be_octets_ok (nbytes_u (Zpos m)) (Zpos m) ltac:(lia)) as (B2 & F2 & L2).
  unfold real_bits, real_octets. cbn [bits_of_bytes length].
  rewrite bits_of_bytes_app, B1, B2, !(Zbits8). rewrite (Zbits8 (128 + _ + _)). rewrite app_length, Nat2Z.inj_succ, Nat2Z.inj_add, L1, L2.
  unfold BitStream_EncodeReal. cbv zeta.
  match goal with |- context [CalculateMantissaAndExponent ?x] =>
    replace (CalculateMantissaAndExponent x) with (e, Zpos m) by (rewrite <- HC; destruct s; reflexivity) end.
  cbv beta iota.
  eapply writes_pure_l with (a := nbytes_s e).
  { intros. unfold lift. rewrite GetLengthSInt_ok; [reflexivity|exact Se|]. left. unfold is_s64, two63 in *; lia. }
  rewrite GetLengthUInt_ok by exact Um.
  eapply writes_pure_l with (a := tt).
  { intros. apply massert_true. lia. }
  cbv beta.
  replace (1 + nbytes_s e + nbytes_u (Zpos m)) with (Z.succ (nbytes_s e + nbytes_u (Zpos m))) by lia.
  eapply writes_bind; [apply writes_len255; lia|].
  assert (Eh : (if nbytes_s e =? 2 then Z.lor (if s then Z.lor 128 64 else 128) 1
     else if nbytes_s e =? 3 then Z.lor (if s then Z.lor 128 64 else 128) 2 else if s then Z.lor 128 64 else 128)
     = 128 + (if s then 64 else 0) + (nbytes_s e - 1)).
  { assert (nbytes_s e = 1 \/ nbytes_s e = 2) as [->| ->] by lia; destruct s; reflexivity. }
  rewrite Eh. eapply writes_bind; [apply writes_len255; destruct s; lia|].
  eapply writes_bind; [apply writes_exponent; auto|].
  eapply writes_pure_l with (a := nbits (Zpos m)). { intros. unfold lift. rewrite GetNumberOfBits_ok; auto. }
  replace (8 * nbytes_u (Zpos m)) with (nbytes_u (Zpos m) * 8) by lia.
  apply writes_padded; auto. pose proof (nbytes_u_bits (Zpos m)). lia.
Qed.

Lemma Calculate_sub : forall m e, Zpos m < 2 ^ 52 ->
  CalculateMantissaAndExponent (S754_finite false m e) = (-1075, Zpos m + 2 ^ 52).
Proof.
  intros m e Hm. unfold CalculateMantissaAndExponent, double_bits.
  destruct (Z.ltb_spec (Zpos m) (2 ^ 52)); [|lia]. rewrite Z.add_0_l.
  assert (E1 : Z.shiftr (Z.land (Zpos m) 9218868437227405312) 52 = 0).
  { rewrite Z.shiftr_land. change (Z.shiftr 9218868437227405312 52) with (Z.ones 11).
    rewrite Z.land_ones by lia. rewrite Z.shiftr_div_pow2 by lia.
    rewrite (Z.div_small (Zpos m)) by lia. reflexivity. }
  rewrite E1. f_equal.
  change 4503599627370495 with (Z.ones 52). rewrite Z.land_ones by lia.
  rewrite Z.mod_small by lia.
  rewrite Z.lor_comm. change 4503599627370496 with (1 * 2 ^ 52). rewrite lor_add by lia. lia.
Qed.

Lemma writes_EncodeReal_any : forall c x, is_double x ->
  writes (BitStream_EncodeReal c x) tt (real_bits (sent x)).
Proof.
  intros c x Hx. destruct x as [s|s| |s m e]; cbn [sent].
  - unfold real_bits, real_octets. cbn [length bits_of_bytes]. rewrite Zbits8, app_nil_r. apply writes_len255. lia.
  - unfold real_bits, real_octets. destruct s; cbn [length bits_of_bytes]; rewrite !Zbits8, app_nil_r;
      (eapply writes_bind; apply writes_len255; lia).
  - unfold real_bits, real_octets. cbn [length bits_of_bytes]. rewrite !Zbits8, app_nil_r.
      (eapply writes_bind; apply writes_len255; lia).
  - unfold is_double in Hx. pose proof Hx as Hb. cbn [valid_binary] in Hb.
    unfold bounded, canonical_mantissa in Hb. apply andb_prop in Hb. destruct Hb as [H1 H2].
    apply Zeq_bool_eq in H1. apply Zle_bool_imp_le in H2. rewrite fx_eq, digits_nbits in H1.
    assert (Hm : Zpos m < 2 ^ 53) by (apply nbits_lt; lia).
    destruct (Z.ltb_spec (Zpos m) (2 ^ 52)).
    + apply writes_finite.
      * rewrite Z2Pos.id by lia. lia.
      * lia.
      * rewrite Z2Pos.id by lia. destruct s; cbn [SFopp negb]; apply Calculate_sub; auto.
      * eauto.
    + assert (-1074 <= e <= 971) by lia.
      apply writes_finite; try lia; [|eauto].
      destruct s; cbn [SFopp negb]; apply Calculate_ok; lia.
Qed.
Lemma sent_normal : forall x, normal x -> sent x = x.
Proof. intros [s|s| |s m e] H; cbn [sent normal] in *; try reflexivity. destruct (Z.ltb_spec (Zpos m) (2 ^ 52)); [lia|reflexivity]. Qed.

(** ** Decoder *)
Lemma s32_range : forall x, - 2 ^ 31 <= s32 x < 2 ^ 31.
Proof. intros. unfold s32, two32. cbn zeta. destruct (Z.ltb_spec (x mod 2 ^ 32) (2 ^ 31)); lia. Qed.
Lemma s32_id : forall x, - 2 ^ 31 <= x < 2 ^ 31 -> s32 x = x.
Proof. intros. unfold s32, two32. cbn zeta. destruct (Z.ltb_spec (x mod 2 ^ 32) (2 ^ 31)); lia. Qed.
Lemma s32_cong : forall x, exists k, s32 x = x + k * 2 ^ 32.
Proof.
  intros. unfold s32, two32. cbn zeta. destruct (Z.ltb_spec (x mod 2 ^ 32) (2 ^ 31)).
  - exists (- (x / 2 ^ 32)). lia.
  - exists (- (x / 2 ^ 32) - 1). lia.
Qed.
Lemma s32_add_k : forall x k, s32 (x + k * 2 ^ 32) = s32 x.
Proof. intros. unfold s32, two32. rewrite Z.mod_add by lia. reflexivity. Qed.
Lemma s32_lor_byte : forall a b, 0 <= b < 256 -> Z.lor (s32 (a * 256)) b = s32 (a * 256 + b).
Proof.
  intros. destruct (s32_cong (a * 256)) as [k Hk].
  assert (E : s32 (a * 256) = (a + k * 2 ^ 24) * 2 ^ 8) by (rewrite Hk; lia).
  rewrite E. rewrite lor_add by (cbn; lia).
  replace (a * 256 + b) with ((a + k * 2 ^ 24) * 2 ^ 8 + b + (- k) * 2 ^ 32) by lia.
  rewrite s32_add_k. symmetry. apply s32_id.
  pose proof (s32_range (a * 256)) as R. rewrite E in R. change (2 ^ 8) with 256 in *. lia.
Qed.
Lemma in_s32_iff : forall x, in_s32 x = true <-> - 2 ^ 31 <= x < 2 ^ 31.
Proof. intros. unfold in_s32. lia. Qed.

Lemma pow256 : forall n, 0 <= n -> 256 ^ n = 2 ^ (8 * n).
Proof. intros. change 256 with (2 ^ 8). rewrite <- Z.pow_mul_r by lia. reflexivity. Qed.
Lemma unsigned_octets_range : forall l, Forall is_byte l -> 0 <= unsigned_octets l < 2 ^ (8 * Z.of_nat (length l)).
Proof.
  induction l as [|b l IH]; intros F; [cbn; lia|].
  pose proof (Forall_inv F) as B. specialize (IH (Forall_inv_tail F)).
  cbn [unsigned_octets length]. rewrite Nat2Z.inj_succ.
  replace (8 * Z.succ (Z.of_nat (length l))) with (8 + 8 * Z.of_nat (length l)) by lia.
  rewrite Z.pow_add_r by lia. rewrite pow256 by lia.
  unfold is_byte in B. change (2 ^ 8) with 256. nia.
Qed.
Lemma unsigned_octets_bits : forall l, Forall is_byte l ->
  Zbits (8 * length l) (unsigned_octets l) = bits_of_bytes l.
Proof.
  induction l as [|b l IH]; intros F; [reflexivity|].
  pose proof (Forall_inv F) as B. pose proof (unsigned_octets_range l (Forall_inv_tail F)) as R.
  pose proof (unsigned_octets_range (b :: l) F) as R'.
  cbn [length] in *. rewrite Zbits_byte_app by exact R'.
  assert (P : 256 ^ Z.of_nat (length l) = 2 ^ (8 * Z.of_nat (length l))).
  { change 256 with (2 ^ 8). rewrite <- Z.pow_mul_r by lia. reflexivity. }
  cbn [unsigned_octets bits_of_bytes]. rewrite P.
  set (q := 2 ^ (8 * Z.of_nat (length l))) in *.
  rewrite Z.div_add_l by lia. rewrite (Z.div_small (unsigned_octets l)) by lia. rewrite Z.add_0_r.
  rewrite Z.add_comm, Z.mod_add by lia. rewrite Z.mod_small by lia.
  rewrite (Zbits8 b). f_equal. apply IH. exact (Forall_inv_tail F).
Qed.

Lemma reads_dec_ubytes_wrap : forall l v, Forall is_byte l -> is_u64 v ->
  reads (dec_ubytes (length l) v) (Some (u64 (v * 2 ^ (8 * Z.of_nat (length l)) + unsigned_octets l))) (bits_of_bytes l).
Proof.
  induction l as [|b l IH]; intros v F Hv.
  - cbn [length dec_ubytes unsigned_octets bits_of_bytes]. change (2 ^ (8 * Z.of_nat 0)) with 1.
    rewrite Z.mul_1_r, Z.add_0_r, u64_id by auto. apply reads_ret.
  - pose proof (Forall_inv F) as B. cbn [length dec_ubytes bits_of_bytes]. rewrite (Zbits8 b).
    eapply reads_bindo; [apply reads_ReadByte; auto|].
    assert (E : Z.lor (u64 (Z.shiftl v 8)) b = u64 (v * 256 + b)).
    { rewrite Z.shiftl_mul_pow2 by lia. unfold u64, two64, is_byte in *.
      replace ((v * 2 ^ 8) mod 2 ^ 64) with ((v mod 2 ^ 56) * 2 ^ 8) by lia.
      rewrite lor_add by lia. symmetry. change (2 ^ 8) with 256. lia. }
    rewrite E.
    assert (G : u64 (v * 2 ^ (8 * Z.of_nat (S (length l))) + unsigned_octets (b :: l)) =
      u64 (u64 (v * 256 + b) * 2 ^ (8 * Z.of_nat (length l)) + unsigned_octets l)).
    { destruct (u64_cong (v * 256 + b)) as [k Hk]. rewrite Hk. cbn [unsigned_octets].
      rewrite Nat2Z.inj_succ. replace (8 * Z.succ (Z.of_nat (length l))) with (8 + 8 * Z.of_nat (length l)) by lia.
      rewrite Z.pow_add_r by lia. 
      assert (P : 256 ^ Z.of_nat (length l) = 2 ^ (8 * Z.of_nat (length l))).
      { change 256 with (2 ^ 8). rewrite <- Z.pow_mul_r by lia. reflexivity. }
      rewrite P. set (q := 2 ^ (8 * Z.of_nat (length l))). change (2 ^ 8) with 256.
      replace ((v * 256 + b + k * two64) * q + unsigned_octets l)
        with (v * (256 * q) + (b * q + unsigned_octets l) + (k * q) * two64) by ring.
      symmetry. apply u64_add_k. }
    rewrite G. apply IH; [exact (Forall_inv_tail F)|apply u64_range].
Qed.

Lemma reads_dec_ibytes : forall c l v, shl_wrap c = true -> Forall is_byte l -> - 2 ^ 31 <= v < 2 ^ 31 ->
  reads (dec_ibytes c (length l) v) (Some (s32 (v * 2 ^ (8 * Z.of_nat (length l)) + unsigned_octets l))) (bits_of_bytes l).
Proof.
  intros c l. induction l as [|b l IH]; intros v HC F Hv.
  - cbn [length dec_ibytes unsigned_octets bits_of_bytes]. change (2 ^ (8 * Z.of_nat 0)) with 1.
    rewrite Z.mul_1_r, Z.add_0_r, s32_id by auto. apply reads_ret.
  - pose proof (Forall_inv F) as B. cbn [length dec_ibytes bits_of_bytes]. rewrite (Zbits8 b).
    eapply reads_bindo; [apply reads_ReadByte; auto|].
    eapply reads_pure_l with (a := s32 (v * 256)).
    { intros. unfold lift, ishl. change (2 ^ 8) with 256. rewrite HC.
      destruct ((0 <=? v) && in_s32 (v * 256)) eqn:E; [|reflexivity].
      apply andb_prop in E. destruct E as [_ E]. apply in_s32_iff in E. rewrite s32_id; auto. }
    rewrite s32_lor_byte by exact B.
    assert (G : s32 (v * 2 ^ (8 * Z.of_nat (S (length l))) + unsigned_octets (b :: l)) =
      s32 (s32 (v * 256 + b) * 2 ^ (8 * Z.of_nat (length l)) + unsigned_octets l)).
    { destruct (s32_cong (v * 256 + b)) as [k Hk]. rewrite Hk. cbn [unsigned_octets].
      rewrite Nat2Z.inj_succ. replace (8 * Z.succ (Z.of_nat (length l))) with (8 + 8 * Z.of_nat (length l)) by lia.
      rewrite Z.pow_add_r by lia. 
      assert (P : 256 ^ Z.of_nat (length l) = 2 ^ (8 * Z.of_nat (length l))).
      { change 256 with (2 ^ 8). rewrite <- Z.pow_mul_r by lia. reflexivity. }
      rewrite P. set (q := 2 ^ (8 * Z.of_nat (length l))). change (2 ^ 8) with 256.
      replace ((v * 256 + b + k * 2 ^ 32) * q + unsigned_octets l)
        with (v * (256 * q) + (b * q + unsigned_octets l) + (k * q) * 2 ^ 32) by ring.
      symmetry. apply s32_add_k. }
    rewrite G. apply IH; auto; [exact (Forall_inv_tail F)|apply s32_range].
Qed.
Lemma reads_dec_ibytes_nn : forall c l v, Forall is_byte l -> 0 <= v ->
  v * 2 ^ (8 * Z.of_nat (length l)) + unsigned_octets l < 2 ^ 31 ->
  reads (dec_ibytes c (length l) v) (Some (v * 2 ^ (8 * Z.of_nat (length l)) + unsigned_octets l)) (bits_of_bytes l).
Proof.
  intros c l. induction l as [|b l IH]; intros v F Hv Hs.
  - cbn [length dec_ibytes unsigned_octets bits_of_bytes]. change (2 ^ (8 * Z.of_nat 0)) with 1.
    rewrite Z.mul_1_r, Z.add_0_r. apply reads_ret.
  - pose proof (Forall_inv F) as B. cbn [length dec_ibytes bits_of_bytes]. rewrite (Zbits8 b).
    pose proof (unsigned_octets_range l (Forall_inv_tail F)) as R.
    cbn [unsigned_octets length] in *.
    rewrite Nat2Z.inj_succ in *. replace (8 * Z.succ (Z.of_nat (length l))) with (8 + 8 * Z.of_nat (length l)) in * by lia.
    rewrite Z.pow_add_r in * by lia.
    assert (P : 256 ^ Z.of_nat (length l) = 2 ^ (8 * Z.of_nat (length l))).
    { change 256 with (2 ^ 8). rewrite <- Z.pow_mul_r by lia. reflexivity. }
    rewrite P in *. set (q := 2 ^ (8 * Z.of_nat (length l))) in *. change (2 ^ 8) with 256 in *.
    unfold is_byte in B.
    eapply reads_bindo; [apply reads_ReadByte; auto|].
    eapply reads_pure_l with (a := v * 256).
    { intros. unfold lift, ishl. change (2 ^ 8) with 256.
      replace (in_s32 (v * 256)) with true by (symmetry; apply in_s32_iff; nia).
      replace (0 <=? v) with true by lia. reflexivity. }
    change (v * 256) with (v * 2 ^ 8). rewrite lor_add by (cbn; lia). change (2 ^ 8) with 256.
    replace (v * (256 * q) + (b * q + unsigned_octets l)) with ((v * 256 + b) * q + unsigned_octets l) in * by ring.
    apply IH; [exact (Forall_inv_tail F)|lia|exact Hs].
Qed.

Definition all_bytes : list Z := map Z.of_nat (seq 0 256).
Lemma bytes_all : forall (f : Z -> bool) b, is_byte b -> forallb f all_bytes = true -> f b = true.
Proof.
  intros f b Hb H. rewrite forallb_forall in H. apply H. unfold all_bytes.
  apply in_map_iff. exists (Z.to_nat b). unfold is_byte in Hb. split; [lia|]. apply in_seq. lia.
Qed.
Lemma header_facts : forall h, is_byte h ->
  Z.land h 3 = h mod 4 /\ Z.shiftr (Z.land h 12) 2 = (h / 4) mod 4 /\
  negb (Z.land h 64 =? 0) = Z.testbit h 6 /\
  (forall k, base_log h = Some k ->
   (if negb (Z.land h 16 =? 0) then 3 else if negb (Z.land h 32 =? 0) then 4 else 1) = k).
Proof.
  intros h Hh.
  assert (X : ((Z.land h 3 =? h mod 4) && (Z.shiftr (Z.land h 12) 2 =? (h / 4) mod 4) &&
    (Bool.eqb (negb (Z.land h 64 =? 0)) (Z.testbit h 6)) &&
    match base_log h with Some k => (if negb (Z.land h 16 =? 0) then 3 else if negb (Z.land h 32 =? 0) then 4 else 1) =? k | None => true end) = true).
  { apply (bytes_all (fun h => ((Z.land h 3 =? h mod 4) && (Z.shiftr (Z.land h 12) 2 =? (h / 4) mod 4) &&
    (Bool.eqb (negb (Z.land h 64 =? 0)) (Z.testbit h 6)) &&
    match base_log h with Some k => (if negb (Z.land h 16 =? 0) then 3 else if negb (Z.land h 32 =? 0) then 4 else 1) =? k | None => true end))); auto. }
  apply andb_prop in X. destruct X as [X X4]. apply andb_prop in X. destruct X as [X X3].
  apply andb_prop in X. destruct X as [X1 X2].
  split; [apply Z.eqb_eq; auto|]. split; [apply Z.eqb_eq; auto|]. split; [apply eqb_prop; auto|].
  intros k Hk. rewrite Hk in X4. apply Z.eqb_eq. auto.
Qed.

Lemma base_log_cases : forall h k, base_log h = Some k -> k = 1 \/ k = 3 \/ k = 4.
Proof. intros h k. unfold base_log. destruct ((h / 16) mod 4) as [|[[]|[]|]|]; intros E; inversion E; auto. Qed.

(** Value of a binary encoding with an exponent on 1, 2 or 3 octets. *)
Lemma reads_DecodeReal_binary : forall c h ex man k,
  is_byte h -> 128 <= h -> base_log h = Some k ->
  Forall is_byte ex -> Forall is_byte man ->
  Z.of_nat (length ex) = h mod 4 + 1 -> Z.of_nat (length ex) <= 3 ->
  Z.of_nat (1 + length ex + length man) <= 255 ->
  (shl_wrap c = true \/ 0 <= signed_octets ex) ->
  unsigned_octets man * 2 ^ ((h / 4) mod 4) < two64 ->
  reads (BitStream_DecodeReal c)
    (Some (flushed (RNum (Z.testbit h 6) (unsigned_octets man * 2 ^ ((h / 4) mod 4)) (k * signed_octets ex))))
    (bits_of_bytes (Z.of_nat (1 + length ex + length man) :: h :: ex ++ man)).
Proof.
  intros c h ex man k Hh H128 Hk Fe Fm Le Le3 Ll HS HM.
  destruct (header_facts h Hh) as (X1 & X2 & X3 & X4). specialize (X4 k Hk).
  cbn [bits_of_bytes]. rewrite !Zbits8, (Zbits8 h). unfold BitStream_DecodeReal.
  eapply reads_bindo; [apply reads_ReadByte; unfold is_byte; lia|].
  replace (Z.of_nat (1 + length ex + length man) =? 0) with false by lia.
  eapply reads_bindo; [apply reads_ReadByte; auto|].
  replace (h =? 64) with false by lia. replace (h =? 65) with false by lia.
  replace (h =? 66) with false by lia. replace (h =? 67) with false by lia.
  unfold DecodeRealAsBinaryEncoding. cbv zeta. rewrite X1, X2, X3, X4.
  replace (Z.of_nat (1 + length ex + length man) - 1 <? h mod 4 + 1) with false by lia.
  rewrite <- Le, Nat2Z.id.
  replace (Z.to_nat (Z.of_nat (1 + length ex + length man) - 1 - Z.of_nat (length ex))) with (length man) by lia.
  pose proof (unsigned_octets_range ex Fe) as Re. pose proof (unsigned_octets_range man Fm) as Rm.
  set (neg := 128 <=? hd 0 ex).
  assert (P256 : 256 ^ Z.of_nat (length ex) = 2 ^ (8 * Z.of_nat (length ex))).
  { change 256 with (2 ^ 8). rewrite <- Z.pow_mul_r by lia. reflexivity. }
  assert (B24 : 2 ^ (8 * Z.of_nat (length ex)) <= 2 ^ 24) by (apply Z.pow_le_mono_r; lia).
  assert (RE : reads (dec_ibytes c (length ex) (if neg then -1 else 0)) (Some (signed_octets ex)) (bits_of_bytes ex)).
  { unfold signed_octets in *. fold neg in HS |- *. destruct neg eqn:EN.
    - destruct HS as [HS|HS]; [|rewrite P256 in HS; lia].
      replace (unsigned_octets ex - 256 ^ Z.of_nat (length ex))
        with (s32 ((-1) * 2 ^ (8 * Z.of_nat (length ex)) + unsigned_octets ex)).
      + apply reads_dec_ibytes; auto. lia.
      + rewrite P256, s32_id by lia. lia.
    - replace (unsigned_octets ex) with (0 * 2 ^ (8 * Z.of_nat (length ex)) + unsigned_octets ex) at 1 by lia.
      apply reads_dec_ibytes_nn; auto; lia. }
  assert (SE : - 2 ^ 24 <= signed_octets ex < 2 ^ 24).
  { unfold signed_octets. rewrite P256. destruct (128 <=? hd 0 ex); lia. }
  set (F := (h / 4) mod 4) in *. assert (HF : 0 <= F < 4) by (unfold F; lia).
  set (N := unsigned_octets man) in *.
  assert (HN : 0 <= N * 2 ^ F) by (assert (0 < 2 ^ F) by (apply Z.pow_pos_nonneg; lia); nia).
  assert (NU : u64 N = N).
  { apply u64_id. unfold is_u64. assert (1 <= 2 ^ F) by (assert (0 < 2 ^ F) by (apply Z.pow_pos_nonneg; lia); lia). nia. }
  pose proof (base_log_cases h k Hk) as KC.
  rewrite bits_of_bytes_app.
  assert (R : reads (let? exponent := dec_ibytes c (length ex) (if neg then -1 else 0) in
    (let? N := dec_ubytes (length man) 0 in
    (let* e := lift (ires c (k * exponent)) in
    (let* v := lift (GetDoubleByMantissaAndExp c (u64 (N * Z.shiftl 1 F)) e) in
    ret (Some (if Z.testbit h 6 then SFopp v else v))))))
    (Some (flushed (RNum (Z.testbit h 6) (N * 2 ^ F) (k * signed_octets ex)))) (bits_of_bytes ex ++ bits_of_bytes man)).
  { eapply reads_bindo; [exact RE|].
    rewrite <- (app_nil_r (bits_of_bytes man)).
    eapply reads_bindo with (a := N).
    { pose proof (reads_dec_ubytes_wrap man 0 Fm ltac:(unfold is_u64, two64; lia)) as RR.
      rewrite Z.mul_0_l, Z.add_0_l in RR. fold N in RR. rewrite NU in RR. exact RR. }
    eapply reads_pure_l with (a := k * signed_octets ex).
    { intros. unfold lift, ires. replace (in_s32 (k * signed_octets ex)) with true; [reflexivity|].
      symmetry. apply in_s32_iff. lia. }
    rewrite Z.shiftl_mul_pow2 by lia. rewrite Z.mul_1_l. rewrite u64_id by (unfold is_u64; lia).
    destruct (Z.eq_dec (N * 2 ^ F) 0) as [E0|E0].
    - eapply reads_pure_l with (a := S754_zero false).
      { intros. unfold lift, GetDoubleByMantissaAndExp. rewrite E0. reflexivity. }
      cbn [flushed nearest]. rewrite E0. replace (if Z.testbit h 6 then -0 else 0) with 0 by (destruct (Z.testbit h 6); reflexivity).
      cbn [binary_normalize]. destruct (k * signed_octets ex <? -1023); destruct (Z.testbit h 6); cbn [SFopp negb]; apply reads_ret.
    - cbn [flushed]. destruct (Z.ltb_spec (k * signed_octets ex) (-1023)) as [HE|HE].
      { eapply reads_pure_l with (a := S754_zero false).
        { intros. unfold lift. rewrite GetDouble_low; [reflexivity|lia|lia]. }
        destruct (Z.testbit h 6); cbn [SFopp negb]; apply reads_ret. }
      eapply reads_pure_l with (a := binary_normalize 53 1024 (N * 2 ^ F) (k * signed_octets ex) false).
      { intros. unfold lift. rewrite GetDouble_ok; [reflexivity|lia|lia]. }
      cbn [nearest]. destruct (N * 2 ^ F) as [|p|p] eqn:EP; try lia.
      destruct (Z.testbit h 6); [|apply reads_ret].
      replace (SFopp (binary_normalize 53 1024 (Z.pos p) (k * signed_octets ex) false))
        with (binary_normalize 53 1024 (- Z.pos p) (k * signed_octets ex) true); [apply reads_ret|].
      cbn [Z.opp binary_normalize]. unfold binary_round.
      destruct (shl_align p (k * signed_octets ex) (fx (Z.pos (digits2_pos p) + k * signed_octets ex))) as [a b].
      unfold binary_round_aux. destruct (shr_fexp 53 1024 (Z.pos a) b loc_Exact) as [r1 e1].
      destruct (shr_fexp 53 1024 (round_nearest_even (shr_m r1) (loc_of_shr_record r1)) e1 loc_Exact) as [r2 e2].
      destruct (shr_m r2); try reflexivity. destruct (Zle_bool e2 (1024 - 53)); reflexivity. }
  intros s pre rest HA HL.
  destruct ex as [|b ex']; [cbn in Le; lia|].
  assert (HP : BitStream_PeekBit s = Ok (neg, s)).
  { apply PeekBit_spec with (pre := pre) (rest := tl (bits_of_byte b) ++ bits_of_bytes ex' ++ bits_of_bytes man ++ rest).
    cbn [bits_of_bytes] in HA. rewrite <- !app_assoc in HA.
    assert (EB : bits_of_byte b = neg :: tl (bits_of_byte b)).
    { unfold neg, bits_of_byte. cbn [hd tl]. f_equal.
      pose proof (Forall_inv Fe) as Bb.
      pose proof (bytes_all (fun b => Bool.eqb (Z.testbit b 7) (128 <=? b)) b Bb ltac:(vm_compute; reflexivity)) as Q.
      apply eqb_prop in Q. exact Q. }
    rewrite EB in HA. exact HA. }
  unfold bind at 1. rewrite HP. apply R; auto.
Qed.

(** ** Round trip *)
Lemma unsigned_be : forall n v, 0 <= n -> 0 <= v < 2 ^ (8 * n) -> unsigned_octets (be_octets n v) = v.
Proof.
  intros n v Hn Hv. destruct (be_octets_ok n v Hn) as (B & F & L).
  pose proof (unsigned_octets_bits _ F) as U. pose proof (unsigned_octets_range _ F) as R.
  rewrite B in U. replace (8 * length (be_octets n v))%nat with (Z.to_nat (8 * n)) in U by lia.
  rewrite L in R. apply Zbits_inj in U; auto; rewrite Z2Nat.id by lia; auto.
Qed.
Lemma signed_be : forall n v, 1 <= n -> - 2 ^ (8 * n - 1) <= v < 2 ^ (8 * n - 1) ->
  signed_octets (be_octets n v) = v.
Proof.
  intros n v Hn Hv. destruct (be_octets_ok n v ltac:(lia)) as (B & F & L).
  pose proof (unsigned_octets_bits _ F) as U. pose proof (unsigned_octets_range _ F) as R.
  assert (P2 : 2 ^ (8 * n) = 2 * 2 ^ (8 * n - 1)).
  { replace (8 * n) with (1 + (8 * n - 1)) at 1 by lia. rewrite Z.pow_add_r by lia. reflexivity. }
  assert (0 < 2 ^ (8 * n - 1)) by (apply Z.pow_pos_nonneg; lia).
  rewrite B in U. replace (8 * length (be_octets n v))%nat with (Z.to_nat (8 * n)) in U by lia.
  rewrite L in R.
  assert (E : unsigned_octets (be_octets n v) = v mod 2 ^ (8 * n)).
  { rewrite <- (Zbits_mod (Z.to_nat (8 * n)) v) in U.
    rewrite Z2Nat.id in U by lia.
    apply Zbits_inj in U; auto; rewrite Z2Nat.id by lia; auto. apply Z.mod_pos_bound. lia. }
  unfold signed_octets. rewrite E, L, pow256 by lia.
  assert (T : (128 <=? hd 0 (be_octets n v)) = (v <? 0)).
  { destruct (be_octets n v) as [|b l] eqn:EL; [cbn in L; lia|]. cbn [hd].
    cbn [unsigned_octets] in E. cbn [length] in L.
    pose proof (unsigned_octets_range l (Forall_inv_tail F)) as RL. pose proof (Forall_inv F) as Hb.
    rewrite pow256 in E by lia.
    replace (8 * n - 1) with (7 + 8 * Z.of_nat (length l)) in * by lia.
    replace (8 * n) with (8 + 8 * Z.of_nat (length l)) in * by lia.
    rewrite Z.pow_add_r in * by lia.
    set (q := 2 ^ (8 * Z.of_nat (length l))) in *. change (2 ^ 7) with 128 in *. change (2 ^ 8) with 256 in *.
    unfold is_byte in Hb.
    destruct (Z.ltb_spec v 0).
    - assert (v mod (256 * q) = v + 256 * q) by (symmetry; apply Z.mod_unique with (q := -1); lia).
      destruct (Z.leb_spec 128 b); [reflexivity|nia].
    - rewrite Z.mod_small in E by lia. destruct (Z.leb_spec 128 b); [nia|reflexivity]. }
  rewrite T. destruct (Z.ltb_spec v 0).
  - assert (v mod 2 ^ (8 * n) = v + 2 ^ (8 * n)) by (symmetry; apply Z.mod_unique with (q := -1); lia). lia.
  - apply Z.mod_small. lia.
Qed.

Lemma nearest_normal : forall s m e, nbits (Zpos m) = 53 -> -1074 <= e <= 971 ->
  nearest (RNum s (Zpos m) e) = S754_finite s m e.
Proof.
  intros s m e Hm He. cbn [nearest].
  assert (B : forall t, binary_round 53 1024 t m e = S754_finite t m e).
  { intros t. unfold binary_round. rewrite digits_nbits, Hm, fx_eq. unfold shl_align.
    replace (Z.max (53 + e - 53) (-1074) - e) with 0 by lia. rewrite bra_id; [|lia|rewrite fx_eq; lia].
    destruct (Z.leb_spec e 971); [reflexivity|lia]. }
  destruct s; cbn [Z.opp binary_normalize]; apply B.
Qed.

Lemma header_value : forall s n, 1 <= n <= 3 -> let h := 128 + (if s : bool then 64 else 0) + (n - 1) in
  is_byte h /\ 128 <= h /\ base_log h = Some 1 /\ h mod 4 = n - 1 /\ (h / 4) mod 4 = 0 /\ Z.testbit h 6 = s.
Proof.
  intros s n Hn h. unfold h. assert (n = 1 \/ n = 2 \/ n = 3) as [->|[->| ->]] by lia;
    destruct s; cbn; unfold is_byte; repeat split; lia.
Qed.

Lemma flushed_finite : forall c s m e, 2 ^ 52 <= Zpos m < 2 ^ 53 -> -1075 <= e <= 971 ->
  shl_wrap c = true \/ 0 <= e ->
  reads (BitStream_DecodeReal c) (Some (flushed (RNum s (Zpos m) e))) (real_bits (S754_finite s m e)).
Proof.
  intros c s m e Hm He HS.
  assert (Um : is_u64 (Zpos m)) by (unfold is_u64, two64; lia).
  pose proof (nbytes_u_range _ Um) as Lm.
  assert (NBe : nbits (if e <? 0 then - e - 1 else e) <= 11).
  { apply nbits_min; [lia|]. destruct (e <? 0) eqn:E; lia. }
  pose proof (nbits_nonneg (if e <? 0 then - e - 1 else e)) as NB0.
  assert (Le : 1 <= nbytes_s e <= 2) by (unfold nbytes_s; lia).
  destruct (be_octets_ok (nbytes_s e) e ltac:(lia)) as (B1 & F1 & L1).
  destruct (be_octets_ok (nbytes_u (Zpos m)) (Zpos m) ltac:(lia)) as (B2 & F2 & L2).
  destruct (header_value s (nbytes_s e) ltac:(lia)) as (H1 & H2 & H3 & H4 & H5 & H6).
  assert (SB : signed_octets (be_octets (nbytes_s e) e) = e).
  { apply signed_be; [lia|]. pose proof (nbytes_s_bits e) as NS.
    destruct (e <? 0) eqn:E.
    - assert (- e - 1 < 2 ^ (8 * nbytes_s e - 1)); [|lia]. apply nbits_lt; lia.
    - assert (e < 2 ^ (8 * nbytes_s e - 1)); [|lia]. apply nbits_lt; lia. }
  assert (UB : unsigned_octets (be_octets (nbytes_u (Zpos m)) (Zpos m)) = Zpos m).
  { apply unsigned_be; [lia|]. split; [lia|]. apply nbits_lt; [lia|]. pose proof (nbytes_u_bits (Zpos m)). lia. }
  set (h := 128 + (if s then 64 else 0) + (nbytes_s e - 1)) in *.
  pose proof (reads_DecodeReal_binary c h (be_octets (nbytes_s e) e) (be_octets (nbytes_u (Zpos m)) (Zpos m)) 1
    H1 H2 H3 F1 F2 ltac:(lia) ltac:(lia) ltac:(lia)) as R.
  rewrite SB, UB, H5, H6 in R. rewrite Z.mul_1_l, Z.pow_0_r, Z.mul_1_r in R.
  specialize (R HS ltac:(unfold two64; lia)).
  unfold real_bits. cbn [real_octets].
  eapply reads_eq; [exact R|].
  f_equal. fold h. f_equal. cbn [length]. rewrite app_length. lia.
Qed.

Lemma reads_DecodeReal_any : forall c x, is_double x ->
  (shl_wrap c = true \/ match sent x with S754_finite _ _ e => 0 <= e | _ => True end) ->
  reads (BitStream_DecodeReal c) (Some (returned x)) (real_bits (sent x)).
Proof.
  intros c x Hx HC. destruct x as [s|s| |s m e].
  - unfold real_bits. cbn [sent real_octets returned length bits_of_bytes]. unfold BitStream_DecodeReal.
    rewrite Zbits8. eapply reads_bindo; [apply reads_ReadByte; unfold is_byte; lia|]. cbn [Z.of_nat Z.eqb]. apply reads_ret.
  - unfold real_bits. destruct s; cbn [sent real_octets returned length bits_of_bytes]; unfold BitStream_DecodeReal;
    rewrite !Zbits8; (eapply reads_bindo; [apply reads_ReadByte; unfold is_byte; lia|]);
    cbn [Z.of_nat Pos.of_succ_nat Z.eqb Pos.eqb];
    (eapply reads_bindo; [apply reads_ReadByte; unfold is_byte; lia|]); apply reads_ret.
  - unfold real_bits. cbn [sent real_octets returned length bits_of_bytes]; unfold BitStream_DecodeReal;
    rewrite !Zbits8; (eapply reads_bindo; [apply reads_ReadByte; unfold is_byte; lia|]);
    cbn [Z.of_nat Pos.of_succ_nat Z.eqb Pos.eqb];
    (eapply reads_bindo; [apply reads_ReadByte; unfold is_byte; lia|]); apply reads_ret.
  - unfold is_double in Hx. pose proof Hx as Hb. cbn [valid_binary] in Hb.
    unfold bounded, canonical_mantissa in Hb. apply andb_prop in Hb. destruct Hb as [H1 H2].
    apply Zeq_bool_eq in H1. apply Zle_bool_imp_le in H2. rewrite fx_eq, digits_nbits in H1.
    assert (Hm : Zpos m < 2 ^ 53) by (apply nbits_lt; lia).
    cbn [sent returned] in *. destruct (Z.ltb_spec (Zpos m) (2 ^ 52)) as [Hs|Hs]; cbn [orb].
    + pose proof (flushed_finite c s (Z.to_pos (Zpos m + 2 ^ 52)) (-1075)) as R.
      rewrite Z2Pos.id in R by lia. specialize (R ltac:(lia) ltac:(lia) HC). exact R.
    + pose proof (flushed_finite c s m e ltac:(lia) ltac:(lia) HC) as R.
      cbn [flushed] in R. destruct (Z.ltb_spec e (-1023)); [exact R|].
      rewrite nearest_normal in R; [exact R| |lia].
      apply nbits_unique; lia.
Qed.
Lemma returned_kept : forall x, kept x -> returned x = x.
Proof.
  intros [s|s| |s m e] H; cbn [kept returned] in *; try reflexivity; [rewrite H; reflexivity|].
  destruct (Z.ltb_spec (Zpos m) (2 ^ 52)); [lia|]. destruct (Z.ltb_spec e (-1023)); [lia|]. reflexivity.
Qed.
Lemma sent_kept : forall x, kept x -> sent x = x.
Proof.
  intros [s|s| |s m e] H; cbn [kept sent] in *; try reflexivity.
  destruct (Z.ltb_spec (Zpos m) (2 ^ 52)); [lia|reflexivity].
Qed.

(** ** Safety *)
Lemma doublings_cases : forall n, doublings n = S754_infinity false \/ exists k, doublings n = pow2 k /\ 0 <= k <= 1023.
Proof.
  intros n. destruct (Z_le_gt_dec n 0).
  - right. exists 0. destruct n; try lia; split; try lia; reflexivity.
  - destruct (Z_le_gt_dec n 1023).
    + right. exists n. rewrite doublings_small by lia. auto with zarith.
    + left. apply doublings_big. lia.
Qed.
Lemma GetDouble_safe : forall c N e, ovf_wrap c = true -> 0 <= N < two64 -> - 2 ^ 31 <= e < 2 ^ 31 ->
  exists v, GetDoubleByMantissaAndExp c N e = Ok v /\ is_double v.
Proof.
  intros c N e HC HN He. destruct (Z.eq_dec N 0) as [->|N0]; [exists (S754_zero false); split; reflexivity|].
  destruct (Z_le_gt_dec (-1023) e).
  - rewrite GetDouble_ok by lia. eexists; split; [reflexivity|]. apply round_valid; lia.
  - destruct (Z.eq_dec e (- 2 ^ 31)) as [->|].
    + exists (S754_zero false). split; [|reflexivity]. unfold GetDoubleByMantissaAndExp.
      destruct (Z.eqb_spec N 0); [lia|]. change (0 <=? - 2 ^ 31) with false. cbn iota.
      unfold ires. change (in_s32 (- - 2 ^ 31)) with false. rewrite HC. cbn [obind]. f_equal.
      change (u32 (s32 (- - 2 ^ 31))) with (2 ^ 31). rewrite doublings_big by lia.
      destruct (round_scale N ltac:(lia)) as (m & k & Hm & Hk & HB).
      assert (Hn : 1 <= nbits N <= 64).
      { split.
        - unfold nbits; destruct (Z.leb_spec N 0); [lia|]; pose proof (Z.log2_nonneg N); lia.
        - apply nbits_min; [lia|]. unfold two64 in HN. lia. }
      rewrite HB by lia. rewrite Z.add_0_l. destruct (Z.leb_spec k 971); [reflexivity|lia].
    + rewrite GetDouble_low by lia. eexists; split; reflexivity.
Qed.

Lemma safe_dec_ibytes : forall c k v, shl_wrap c = true -> - 2 ^ 31 <= v < 2 ^ 31 ->
  safe (dec_ibytes c k v) (fun r => - 2 ^ 31 <= r < 2 ^ 31).
Proof.
  intros c k. induction k; intros v HC Hv; cbn [dec_ibytes].
  - apply safe_ret_some. exact Hv.
  - eapply safe_bindo; [apply safe_ReadByte|]. intros b Hb.
    eapply safe_pure_l with (a := s32 (v * 256)).
    { intros. unfold lift, ishl. change (2 ^ 8) with 256. rewrite HC.
      destruct ((0 <=? v) && in_s32 (v * 256)) eqn:E; [|reflexivity].
      apply andb_prop in E. destruct E as [_ E]. apply in_s32_iff in E. rewrite s32_id; auto. }
    cbv beta. rewrite s32_lor_byte by exact Hb. apply IHk; auto. apply s32_range.
Qed.

Lemma is_double_opp : forall x, is_double x -> is_double (SFopp x).
Proof. intros [s|s| |s m e] H; exact H || reflexivity. Qed.

Lemma safe_DecodeReal : forall c, ovf_wrap c = true -> shl_wrap c = true ->
  safe (BitStream_DecodeReal c) is_double.
Proof.
  intros c HO HS. unfold BitStream_DecodeReal.
  eapply safe_bindo; [apply safe_ReadByte|]. intros len Hlen.
  destruct (Z.eqb_spec len 0); [apply safe_ret_some; reflexivity|].
  eapply safe_bindo; [apply safe_ReadByte|]. intros h Hh.
  destruct (h =? 64); [apply safe_ret_some; reflexivity|].
  destruct (h =? 65); [apply safe_ret_some; reflexivity|].
  destruct (h =? 66); [apply safe_ret_some; reflexivity|].
  destruct (h =? 67); [apply safe_ret_some; reflexivity|].
  unfold DecodeRealAsBinaryEncoding. cbv zeta.
  destruct (len - 1 <? Z.land h 3 + 1); [apply safe_ret_none|].
  apply safe_PeekBit. intros b.
  eapply safe_bindo; [apply (safe_dec_ibytes c); [exact HS|destruct b; lia]|]. intros e He. cbv beta in He.
  eapply safe_bindo; [apply safe_dec_ubytes; unfold is_u64, two64; lia|]. intros N HN.
  set (k := if negb (Z.land h 16 =? 0) then 3 else if negb (Z.land h 32 =? 0) then 4 else 1).
  assert (HE : exists e', ires c (k * e) = Ok e' /\ - 2 ^ 31 <= e' < 2 ^ 31).
  { unfold ires. destruct (in_s32 (k * e)) eqn:E; [exists (k * e); split; auto; apply in_s32_iff; auto|].
    rewrite HO. eexists; split; [reflexivity|apply s32_range]. }
  destruct HE as (e' & E' & He').
  eapply safe_pure_l with (a := e'). { intros. unfold lift. rewrite E'. reflexivity. }
  destruct (GetDouble_safe c (u64 (N * Z.shiftl 1 (Z.shiftr (Z.land h 12) 2))) e' HO ltac:(apply u64_range) He') as (v & Ev & Hv).
  eapply safe_pure_l with (a := v). { intros. unfold lift. rewrite Ev. reflexivity. }
  apply safe_ret_some. destruct (negb (Z.land h 64 =? 0)); [apply is_double_opp|]; exact Hv.
Qed.

(** ** Single precision *)
Lemma nbits_pos1 : forall p, 1 <= nbits (Zpos p).
Proof. intros. unfold nbits; destruct (Z.leb_spec (Zpos p) 0); [lia|]; pose proof (Z.log2_nonneg (Zpos p)); lia. Qed.

Lemma float_parts : forall s m e, is_float (S754_finite s m e) ->
  nbits (Zpos m) <= 24 /\ -149 <= e <= 104 /\ fexp 24 128 (nbits (Zpos m) + e) = e.
Proof.
  intros s m e H. unfold is_float in H. cbn [valid_binary] in H.
  unfold bounded, canonical_mantissa in H. apply andb_prop in H. destruct H as [H1 H2].
  apply Zeq_bool_eq in H1. apply Zle_bool_imp_le in H2. rewrite digits_nbits in H1.
  pose proof H1 as H3. unfold fexp, emin in H3. split; [lia|]. split; [lia|exact H1].
Qed.

Lemma float_widened : forall s m e, is_float (S754_finite s m e) ->
  exists m', float_to_double (S754_finite s m e) = S754_finite s m' (e - (53 - nbits (Zpos m))) /\
    Zpos m' = Zpos m * 2 ^ (53 - nbits (Zpos m)).
Proof.
  intros s m e H. destruct (float_parts s m e H) as (Hn & He & _). pose proof (nbits_pos1 m).
  set (j := 53 - nbits (Zpos m)). assert (0 < 2 ^ j) by (apply Z.pow_pos_nonneg; lia).
  exists (Z.to_pos (Zpos m * 2 ^ j)). rewrite Z2Pos.id by nia. split; [|reflexivity].
  assert (B : forall t, binary_round 53 1024 t m e = S754_finite t (Z.to_pos (Zpos m * 2 ^ j)) (e - j)).
  { intros t. unfold binary_round. rewrite digits_nbits, fx_eq. unfold shl_align.
    replace (Z.max (nbits (Zpos m) + e - 53) (-1074) - e) with (- j) by lia.
    destruct j as [|jp|jp] eqn:Ej; try lia. cbn [Z.opp].
    replace (Zpos (shift_pos jp m)) with (Zpos m * 2 ^ Zpos jp)
      by (rewrite shift_pos_correct; change (Z.pow_pos 2 jp) with (2 ^ Zpos jp); lia).
    rewrite bra_id; [|lia|rewrite nbits_mul, fx_eq by lia; lia].
    replace (Z.max (nbits (Zpos m) + e - 53) (-1074)) with (e - Zpos jp) by lia.
    destruct (Z.leb_spec (e - Zpos jp) 971); [reflexivity|lia]. }
  unfold float_to_double. destruct s; cbn [Z.opp binary_normalize]; apply B.
Qed.

Lemma float_is_double : forall x, is_float x -> is_double (float_to_double x).
Proof.
  intros [s|s| |s m e] H; try exact H. destruct (float_widened s m e H) as (m' & -> & Em).
  destruct (float_parts s m e H) as (Hn & He & _). pose proof (nbits_pos1 m).
  unfold is_double, valid_binary, bounded, canonical_mantissa. rewrite digits_nbits, Em, nbits_mul, fx_eq by lia.
  apply andb_true_intro. split; [apply Zeq_is_eq_bool; lia|apply Zle_imp_le_bool; lia].
Qed.
Lemma float_kept : forall x, is_float x -> x <> S754_zero true -> kept (float_to_double x).
Proof.
  intros [s|s| |s m e] H Hz; cbn [float_to_double kept]; auto.
  - destruct s; [congruence|reflexivity].
  - destruct (float_widened s m e H) as (m' & E & Em). cbn [float_to_double] in E. rewrite E.
    destruct (float_parts s m e H) as (Hn & He & _). pose proof (nbits_pos1 m). cbn [kept].
    split; [|lia]. rewrite Em.
    assert (G : nbits (Zpos m * 2 ^ (53 - nbits (Zpos m))) = 53) by (rewrite nbits_mul; lia).
    apply (nbits_ge _ 53); lia.
Qed.
Lemma to_float_inv : forall x, is_float x -> to_float (float_to_double x) = x.
Proof.
  intros [s|s| |s m e] H; try reflexivity. destruct (float_widened s m e H) as (m' & -> & Em).
  destruct (float_parts s m e H) as (Hn & He & HF). pose proof (nbits_pos1 m).
  set (j := 53 - nbits (Zpos m)) in *.
  assert (B : forall t, binary_round 24 128 t m' (e - j) = S754_finite t m e).
  { intros t. unfold binary_round. rewrite digits_nbits, Em, nbits_mul by lia. unfold shl_align.
    replace (nbits (Zpos m) + j + (e - j)) with (nbits (Zpos m) + e) by lia. rewrite HF.
    replace (e - (e - j)) with j by lia. destruct j as [|jp|jp] eqn:Ej; try lia. rewrite Em.
    rewrite bra_shift_g; [|lia|lia|].
    - replace (e - Zpos jp + Zpos jp) with e by lia. rewrite bra_id_g by (exact HF || lia).
      destruct (Z.leb_spec e (128 - 24)); [reflexivity|lia].
    - replace (nbits (Zpos m) + (e - Zpos jp) + Zpos jp) with (nbits (Zpos m) + e) by lia. rewrite HF. lia. }
  unfold to_float. destruct s; cbn [Z.opp binary_normalize]; apply B.
Qed.

Lemma reads_DecodeReal_fp32 : forall c x, is_float x -> x <> S754_zero true ->
  (shl_wrap c = true \/ match float_to_double x with S754_finite _ _ e => 0 <= e | _ => True end) ->
  reads (BitStream_DecodeReal_fp32 c) (Some x) (real_bits (float_to_double x)).
Proof.
  intros c x Hx Hz HC. pose proof (float_kept x Hx Hz) as K.
  pose proof (reads_DecodeReal_any c (float_to_double x) (float_is_double x Hx)) as R.
  rewrite returned_kept, sent_kept in R by exact K. specialize (R HC).
  unfold BitStream_DecodeReal_fp32. rewrite <- (app_nil_r (real_bits (float_to_double x))).
  eapply reads_bindo; [exact R|]. rewrite to_float_inv by exact Hx. apply reads_ret.
Qed.

(** ** Whatever the input, a decoded value is a double *)
Lemma GetDouble_valid : forall c N e v, 0 <= N < two64 -> - 2 ^ 31 <= e < 2 ^ 31 ->
  GetDoubleByMantissaAndExp c N e = Ok v -> is_double v.
Proof.
  intros c N e v HN He E. destruct (Z.eq_dec N 0) as [->|N0]; [injection E as <-; reflexivity|].
  destruct (Z_le_gt_dec (-1023) e).
  - rewrite GetDouble_ok in E by lia. injection E as <-. apply round_valid; lia.
  - destruct (Z.eq_dec e (- 2 ^ 31)) as [->|].
    + destruct (ovf_wrap c) eqn:HC.
      * destruct (GetDouble_safe c N (- 2 ^ 31) HC HN ltac:(lia)) as (w & Ew & Hw). congruence.
      * unfold GetDoubleByMantissaAndExp in E. destruct (Z.eqb_spec N 0); [lia|].
        change (0 <=? - 2 ^ 31) with false in E. cbv zeta in E. cbn iota in E.
        unfold ires in E. change (in_s32 (- - 2 ^ 31)) with false in E. rewrite HC in E. discriminate.
    + rewrite GetDouble_low in E by lia. injection E as <-. reflexivity.
Qed.
Lemma yields_lift : forall {A B} (o : outcome A) (g : A -> M (option B)) P,
  (forall a, o = Ok a -> yields (g a) P) -> yields (let* x := lift o in g x) P.
Proof.
  intros A B o g P H s r s' HB E. unfold bind, lift in E. destruct o as [a| | |]; try discriminate.
  exact (H a eq_refl s r s' HB E).
Qed.
Lemma yields_peek : forall {B} (g : bool -> M (option B)) P,
  (forall b, yields (g b) P) -> yields (let* x := BitStream_PeekBit in g x) P.
Proof.
  intros B g P H s r s' HB E. unfold bind in E. destruct (BitStream_PeekBit s) as [[b s1]| | |] eqn:Ep; try discriminate.
  assert (s1 = s).
  { unfold BitStream_PeekBit in Ep. revert Ep. unfold bind, get, tbl, rd, lift, ret, bind, get.
    destruct (nthZ masks (curBit s)); try discriminate. destruct (nthZ (buf s) (curByte s)); try discriminate.
    intros Ep. injection Ep as _ <-. reflexivity. }
  subst. exact (H b s r s' HB E).
Qed.
Lemma yields_dec_ibytes : forall c k v, - 2 ^ 31 <= v < 2 ^ 31 ->
  yields (dec_ibytes c k v) (fun r => - 2 ^ 31 <= r < 2 ^ 31).
Proof.
  intros c k. induction k; intros v Hv; cbn [dec_ibytes].
  - apply yields_ret. exact Hv.
  - eapply yields_bindo; [apply yields_ReadByte|]. intros b Hb. cbv beta.
    apply yields_lift. intros w E.
    assert (w = s32 (v * 256)).
    { unfold ishl in E. change (2 ^ 8) with 256 in E. cbv zeta in E.
      destruct ((0 <=? v) && in_s32 (v * 256)) eqn:G.
      - injection E as <-. apply andb_prop in G. destruct G as [_ G]. apply in_s32_iff in G. rewrite s32_id; auto.
      - destruct (shl_wrap c); [injection E as <-; reflexivity|discriminate]. }
    subst. rewrite s32_lor_byte by exact Hb. apply IHk. apply s32_range.
Qed.
Lemma yields_dec_u : forall k v, yields (dec_ubytes k v) (fun _ => True).
Proof.
  induction k; intros v; cbn [dec_ubytes]; [apply yields_ret; exact I|].
  eapply yields_bindo; [apply yields_ReadByte|]. intros b Hb. cbv beta. apply IHk.
Qed.
Lemma yields_DecodeReal : forall c, yields (BitStream_DecodeReal c) is_double.
Proof.
  intros c. unfold BitStream_DecodeReal.
  eapply yields_bindo; [apply yields_ReadByte|]. intros len Hlen. cbv beta in Hlen |- *.
  destruct (Z.eqb_spec len 0); [apply yields_ret; reflexivity|].
  eapply yields_bindo; [apply yields_ReadByte|]. intros h Hh. cbv beta in Hh |- *.
  destruct (h =? 64); [apply yields_ret; reflexivity|].
  destruct (h =? 65); [apply yields_ret; reflexivity|].
  destruct (h =? 66); [apply yields_ret; reflexivity|].
  destruct (h =? 67); [apply yields_ret; reflexivity|].
  unfold DecodeRealAsBinaryEncoding. cbv zeta.
  destruct (len - 1 <? Z.land h 3 + 1); [apply yields_none|].
  apply yields_peek. intros b.
  eapply yields_bindo; [apply (yields_dec_ibytes c); destruct b; lia|]. intros e He. cbv beta in He |- *.
  eapply yields_bindo; [apply yields_dec_u|]. intros N HN. cbv beta.
  apply yields_lift. intros e' E'. apply yields_lift. intros v Ev. apply yields_ret.
  assert (He' : - 2 ^ 31 <= e' < 2 ^ 31).
  { unfold ires in E'.
    match type of E' with (if in_s32 ?x then _ else _) = _ => destruct (in_s32 x) eqn:G end.
    - injection E' as <-. apply in_s32_iff; auto.
    - destruct (ovf_wrap c); [injection E' as <-; apply s32_range|discriminate]. }
  apply GetDouble_valid in Ev; [|apply u64_range|exact He'].
  destruct (negb (Z.land h 64 =? 0)); [apply is_double_opp|]; exact Ev.
Qed.
Lemma yields_DecodeReal_fp32 : forall c, yields (BitStream_DecodeReal_fp32 c) is_float.
Proof.
  intros c. unfold BitStream_DecodeReal_fp32. eapply yields_bindo; [apply yields_DecodeReal|].
  intros a _. cbv beta. apply yields_ret. apply to_float_valid.
Qed.

(** ** Lengths *)
Lemma real_len : forall x, is_double x -> kept x -> 8 <= Z.of_nat (length (real_bits x)) <= 88.
Proof.
  intros x Hd Hk. unfold real_bits. rewrite len_bits_of_bytes.
  assert (H : Z.of_nat (length (real_octets x)) <= 10); [|cbn [length]; lia].
  destruct x as [s|[]| |s m e]; cbn [real_octets length]; try lia.
  cbn [kept] in Hk.
  unfold is_double, valid_binary, bounded, canonical_mantissa in Hd.
  apply andb_prop in Hd. destruct Hd as [H1 H2]. apply Zeq_bool_eq in H1. apply Zle_bool_imp_le in H2.
  rewrite fx_eq, digits_nbits in H1.
  assert (nbits (Zpos m) <= 53) by lia.
  pose proof (nbytes_s_exp e ltac:(lia)).
  destruct (be_octets_ok (nbytes_s e) e ltac:(lia)) as (_ & _ & L1).
  assert (1 <= nbytes_u (Zpos m) <= 7) by (unfold nbytes_u; pose proof (nbits_pos1 m); lia).
  destruct (be_octets_ok (nbytes_u (Zpos m)) (Zpos m) ltac:(lia)) as (_ & _ & L2).
  rewrite app_length. lia.
Qed.
