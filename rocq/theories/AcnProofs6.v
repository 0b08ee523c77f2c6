(** ACN decoders on any input: memory and size are left alone and the cursor
    stays inside the declared data ([tame]); with one guard byte they always
    return ([safe]). *)
From Verif Require Import Base Bits BitStream Ints Contracts Misc Octets RealSpec RealC AcnSpec Acn AcnStr AcnReal Parse.
From Verif Require Import BitsProofs BitStreamProofs BitStreamProofs2 BitStreamProofs3 IntsProofs SafeProofs MiscProofs.
From Verif Require Import RangeProofs TameProofs ParseProofs OctetsProofs OctetsProofs2 AcnProofs1 AcnProofs2 AcnProofs3 AcnProofs4 AcnProofs5.
From Coq Require Import ZifyBool ZifyNat.
Ltac Zify.zify_post_hook ::= Z.div_mod_to_equations.

(** ** Any memory *)
Ltac tm1 :=
  lazymatch goal with
  | H : tame ?f |- tame ?f => exact H
  | |- tame (ret _) => apply tame_ret
  | |- tame ub => apply tame_ub
  | |- tame diverge => apply tame_diverge
  | |- tame (bindo _ _) => apply tame_bindo; [|intro]
  | |- tame (bind (lift _) _) => apply tame_lift; intros ? _
  | |- tame (bind (massert _ _) _) => apply tame_massert
  | |- tame (bind BitStream_PeekBit _) => apply tame_peek; intro
  | |- tame (bind get _) => apply tame_get; intro
  | |- tame (if ?b then _ else _) => destruct b
  | |- tame (let (_, _) := ?p in _) => destruct p
  | |- tame (assert_or_false _ _ _) => unfold assert_or_false
  | |- tame BitStream_ReadByte => apply tame_ReadByte
  | |- tame (BitStream_ReadPartialByte _) => apply tame_ReadPartialByte
  | |- tame (BitStream_DecodeNonNegativeInteger _) => apply tame_DecodeNonNeg
  | |- tame (BitStream_DecodeConstraintWholeNumber _ _ _) => apply tame_DecodeConstraint
  | |- tame (dec_sbytes _ _ _) => apply tame_dec_sbytes
  | |- tame (dec_ubytes _ _) => apply tame_dec_ubytes
  | H : forall _, _ |- _ => apply H
  end.
Ltac tm := repeat tm1.

Lemma tame_dec_le : forall k i r, tame (dec_le i r k).
Proof. induction k; intros; cbn [dec_le]; tm. Qed.
Lemma tame_dec_vtwos : forall k first v neg, tame (dec_vtwos first v neg k).
Proof. induction k; intros; cbn [dec_vtwos]; tm. Qed.
Lemma tame_dec_bcd : forall k r, tame (dec_bcd r k).
Proof. induction k; intros; cbn [dec_bcd]; tm. Qed.
Lemma tame_dec_bcd_null : forall fuel r, tame (dec_bcd_null fuel r).
Proof. induction fuel; intros; cbn [dec_bcd_null]; tm. Qed.
Lemma tame_dec_ascii : forall c k r, tame (dec_ascii c r k).
Proof. induction k; intros; cbn [dec_ascii]; tm. Qed.
Lemma tame_read_window : forall k, tame (read_window k).
Proof. induction k; intros; cbn [read_window]; tm. Qed.
Lemma tame_dec_ascii_null : forall fuel p w r, tame (dec_ascii_null fuel p w r).
Proof. induction fuel; intros; cbn [dec_ascii_null]; tm. Qed.
Lemma tame_pat_loop : forall k pat i ok, tame (pat_loop pat i ok k).
Proof. induction k; intros; cbn [pat_loop]; tm. Qed.
Lemma tame_skip_bytes : forall k, tame (skip_bytes k).
Proof. induction k; intros; cbn [skip_bytes]; tm. Qed.
Lemma tame_tf_loop : forall k p q i t f, tame (tf_loop p q i t f k).
Proof. induction k; intros; cbn [tf_loop]; tm. Qed.
Lemma tame_dec_str : forall get1, tame get1 -> forall k dst i, tame (dec_str get1 dst k i).
Proof. intros get1 H. induction k; intros; cbn [dec_str]; tm. Qed.
Lemma tame_get_index : forall c set size, tame (get_index c set size).
Proof. intros. unfold get_index. tm. Qed.
Lemma tame_dec_null : forall k null dst i, tame (dec_null null dst k i).
Proof. induction k; intros; cbn [dec_null]; tm. Qed.
Lemma tame_dec_null_mult : forall k p w dst i, tame (dec_null_mult p w dst k i).
Proof. induction k; intros; cbn [dec_null_mult]; tm. Qed.
Lemma tame_get_up : forall k b i, tame (get_up b i k).
Proof. induction k; intros; cbn [get_up]; tm. Qed.
Lemma tame_get_down : forall k b, tame (get_down b k).
Proof. induction k; intros; cbn [get_down]; tm. Qed.

Ltac tmx := repeat first [ progress tm | lazymatch goal with
  | |- tame (dec_le _ _ _) => apply tame_dec_le
  | |- tame (dec_vtwos _ _ _ _) => apply tame_dec_vtwos
  | |- tame (dec_bcd _ _) => apply tame_dec_bcd
  | |- tame (dec_bcd_null _ _) => apply tame_dec_bcd_null
  | |- tame (dec_ascii _ _ _) => apply tame_dec_ascii
  | |- tame (read_window _) => apply tame_read_window
  | |- tame (dec_ascii_null _ _ _ _) => apply tame_dec_ascii_null
  | |- tame (pat_loop _ _ _ _) => apply tame_pat_loop
  | |- tame (skip_bytes _) => apply tame_skip_bytes
  | |- tame (tf_loop _ _ _ _ _ _) => apply tame_tf_loop
  | |- tame (dec_str _ _ _ _) => apply tame_dec_str
  | |- tame (get_index _ _ _) => apply tame_get_index
  | |- tame (dec_null _ _ _ _) => apply tame_dec_null
  | |- tame (dec_null_mult _ _ _ _ _) => apply tame_dec_null_mult
  | |- tame (get_up _ _ _) => apply tame_get_up
  | |- tame (get_down _ _) => apply tame_get_down
  end ].

Lemma tame_ConstSize : forall n, tame (Acn_Dec_Int_PositiveInteger_ConstSize n).
Proof. intros. unfold Acn_Dec_Int_PositiveInteger_ConstSize. tmx. Qed.
Lemma tame_U8 : tame Acn_Dec_Int_PositiveInteger_ConstSize_8.
Proof. unfold Acn_Dec_Int_PositiveInteger_ConstSize_8. tmx. Qed.
Lemma tame_BE : forall n, tame (Acn_Dec_Int_PositiveInteger_ConstSize_big_endian n).
Proof. intros. unfold Acn_Dec_Int_PositiveInteger_ConstSize_big_endian. tmx. Qed.
Lemma tame_LE : forall n, tame (Acn_Dec_Int_PositiveInteger_ConstSize_little_endian n).
Proof. intros. unfold Acn_Dec_Int_PositiveInteger_ConstSize_little_endian. tmx. Qed.
Lemma tame_VarU : tame Acn_Dec_Int_PositiveInteger_VarSize_LengthEmbedded.
Proof. intros. unfold Acn_Dec_Int_PositiveInteger_VarSize_LengthEmbedded. tmx. Qed.
Lemma tame_Twos : forall c n, tame (Acn_Dec_Int_TwosComplement_ConstSize c n).
Proof. intros. unfold Acn_Dec_Int_TwosComplement_ConstSize. tmx. Qed.
Lemma tame_I8 : forall c, tame (Acn_Dec_Int_TwosComplement_ConstSize_8 c).
Proof. intros. unfold Acn_Dec_Int_TwosComplement_ConstSize_8, Acn_Dec_Int_PositiveInteger_ConstSize_8. tmx. Qed.
Lemma tame_IN_BE : forall c n, tame (Acn_Dec_Int_TwosComplement_ConstSize_big_endian c n).
Proof. intros. unfold Acn_Dec_Int_TwosComplement_ConstSize_big_endian, Acn_Dec_Int_PositiveInteger_ConstSize_big_endian. tmx. Qed.
Lemma tame_IN_LE : forall c n, tame (Acn_Dec_Int_TwosComplement_ConstSize_little_endian c n).
Proof. intros. unfold Acn_Dec_Int_TwosComplement_ConstSize_little_endian, Acn_Dec_Int_PositiveInteger_ConstSize_little_endian. tmx. Qed.
Lemma tame_VarS : forall c, tame (Acn_Dec_Int_TwosComplement_VarSize_LengthEmbedded c).
Proof. intros. unfold Acn_Dec_Int_TwosComplement_VarSize_LengthEmbedded. tmx. Qed.
Lemma tame_BCD : forall n, tame (Acn_Dec_Int_BCD_ConstSize n).
Proof. intros. unfold Acn_Dec_Int_BCD_ConstSize. tmx. Qed.
Lemma tame_BCD_Var : tame Acn_Dec_Int_BCD_VarSize_LengthEmbedded.
Proof. intros. unfold Acn_Dec_Int_BCD_VarSize_LengthEmbedded, Acn_Dec_Int_BCD_ConstSize. tmx. Qed.
Lemma tame_BCD_Null : tame Acn_Dec_Int_BCD_VarSize_NullTerminated.
Proof. intros. unfold Acn_Dec_Int_BCD_VarSize_NullTerminated. tmx. Qed.
Lemma tame_ASCII_U : forall c n, tame (Acn_Dec_UInt_ASCII_ConstSize c n).
Proof. intros. unfold Acn_Dec_UInt_ASCII_ConstSize. tmx. Qed.
Lemma tame_ASCII_S : forall c n, tame (Acn_Dec_SInt_ASCII_ConstSize c n).
Proof. intros. unfold Acn_Dec_SInt_ASCII_ConstSize, Acn_Dec_UInt_ASCII_ConstSize. cbv zeta. tmx. Qed.
Lemma tame_ASCII_VarU : forall c, tame (Acn_Dec_UInt_ASCII_VarSize_LengthEmbedded c).
Proof. intros. unfold Acn_Dec_UInt_ASCII_VarSize_LengthEmbedded, Acn_Dec_UInt_ASCII_ConstSize. tmx. Qed.
Lemma tame_ASCII_VarS : forall c, tame (Acn_Dec_SInt_ASCII_VarSize_LengthEmbedded c).
Proof. intros. unfold Acn_Dec_SInt_ASCII_VarSize_LengthEmbedded. apply tame_bindo; [tm|]. intro. apply tame_ASCII_S. Qed.
Lemma tame_ASCII_NullU : forall p n, tame (Acn_Dec_UInt_ASCII_VarSize_NullTerminated p n).
Proof. intros. unfold Acn_Dec_UInt_ASCII_VarSize_NullTerminated. cbv zeta. tmx. Qed.
Lemma tame_ASCII_NullS : forall c p n, tame (Acn_Dec_SInt_ASCII_VarSize_NullTerminated c p n).
Proof.
  intros. unfold Acn_Dec_SInt_ASCII_VarSize_NullTerminated. pose proof (tame_ASCII_NullU p n). tmx.
Qed.
Lemma tame_ReadBitPattern : forall p n, tame (BitStream_ReadBitPattern p n).
Proof. intros. unfold BitStream_ReadBitPattern. cbv zeta. tmx. Qed.
Lemma tame_ReadBitPattern_ignore : forall n, tame (BitStream_ReadBitPattern_ignore_value n).
Proof. intros. unfold BitStream_ReadBitPattern_ignore_value. tmx. Qed.
Lemma tame_TrueFalse : forall p q n, tame (BitStream_DecodeTrueFalseBoolean p q n).
Proof. intros. unfold BitStream_DecodeTrueFalseBoolean. cbv zeta. tmx. Qed.
Lemma tame_narrow_u : forall w f, tame f -> tame (narrow_u w f).
Proof. intros. unfold narrow_u. tm. Qed.
Lemma tame_narrow_s : forall w f, tame f -> tame (narrow_s w f).
Proof. intros. unfold narrow_s. tm. Qed.
Lemma tame_Ascii_private : forall max n dst, tame (Acn_Dec_String_Ascii_private max n dst).
Proof. intros. unfold Acn_Dec_String_Ascii_private. tmx. Qed.
Lemma tame_CharIndex_private : forall c max n set size dst, tame (Acn_Dec_String_CharIndex_private c max n set size dst).
Proof. intros. unfold Acn_Dec_String_CharIndex_private. tmx. Qed.
Lemma tame_Null : forall max null dst, tame (Acn_Dec_String_Ascii_Null_Terminated max null dst).
Proof. intros. unfold Acn_Dec_String_Ascii_Null_Terminated. tmx. Qed.
Lemma tame_Null_mult : forall max p n dst, tame (Acn_Dec_String_Ascii_Null_Terminated_mult max p n dst).
Proof. intros. unfold Acn_Dec_String_Ascii_Null_Terminated_mult. cbv zeta. tmx. Qed.
Lemma tame_Ascii_Internal : forall c max min dst, tame (Acn_Dec_String_Ascii_Internal_Field_Determinant c max min dst).
Proof. intros. unfold Acn_Dec_String_Ascii_Internal_Field_Determinant. apply tame_bindo; [tm|]. intro. apply tame_Ascii_private. Qed.
Lemma tame_CharIndex_Internal : forall c max set size min dst, tame (Acn_Dec_String_CharIndex_Internal_Field_Determinant c max set size min dst).
Proof. intros. unfold Acn_Dec_String_CharIndex_Internal_Field_Determinant. apply tame_bindo; [tm|]. intro. apply tame_CharIndex_private. Qed.
Lemma tame_real_be : forall le k, tame (Acn_dec_real_big_endian le k).
Proof. intros. unfold Acn_dec_real_big_endian. cbv zeta. tmx. Qed.
Lemma tame_real_le : forall le k, tame (Acn_dec_real_little_endian le k).
Proof. intros. unfold Acn_dec_real_little_endian. cbv zeta. tmx. Qed.

(** ** With a guard byte *)
Lemma wfs_wfp : forall s, wfs s -> wfp s.
Proof. intros s (H1 & H2 & H3 & H4 & H5). unfold wfp, inside. splits; auto; lia. Qed.
(** A successful step of a reader of exactly [k] bits. *)
Lemma safe_step : forall {A} (f : M (option A)) P k s, safe f P -> parses f (fun _ bs => Z.of_nat (length bs) = k) -> wfs s ->
  exists r s', f s = Ok (r, s') /\ buf s' = buf s /\ count s' = count s /\ pos s <= pos s' /\ 0 <= curBit s' < 8 /\
    match r with Some a => P a /\ wfs s' /\ pos s' = pos s + k | None => True end.
Proof.
  intros A f P k s HS HP W. destruct (HS s W) as (r & s' & E & E1 & E2 & E3 & E4 & E5).
  exists r, s'. do 5 (split; [assumption|]). destruct r as [a|]; [|exact I].
  destruct E5 as [E5 HA]. split; [assumption|]. split; [exact (wfs_step s s' W E1 E2 E3 E4 E5)|].
  destruct (HP s a s' (wfs_wfp s W) E) as (pre & bs & rest & _ & _ & _ & <- & E6). exact E6.
Qed.

Lemma safe_lift : forall {A B} (o : outcome A) a (g : A -> M (option B)) P, o = Ok a -> safe (g a) P ->
  safe (let* x := lift o in g x) P.
Proof. intros A B o a g P -> H. eapply safe_pure_l; [|exact H]. intro s. reflexivity. Qed.
Lemma safe_get : forall {B} (g : bstream -> M (option B)) P,
  (forall s, wfs s -> exists r s', g s s = Ok (r, s') /\ buf s' = buf s /\ count s' = count s /\
      pos s <= pos s' /\ 0 <= curBit s' < 8 /\
      match r with Some a => pos s' <= 8 * count s' /\ P a | None => True end) ->
  safe (let* x := get in g x) P.
Proof. intros B g P H s W. unfold bind, get. apply H. assumption. Qed.

Lemma safe_ubytes_range : forall k v j, 0 <= j -> j + Z.of_nat k <= 8 -> 0 <= v < 2 ^ (8 * j) ->
  safe (dec_ubytes k v) (fun r => 0 <= r < 2 ^ (8 * (j + Z.of_nat k))).
Proof.
  induction k; intros v j Hj Hk Hv.
  - cbn [dec_ubytes]. apply safe_ret_some. now rewrite Z.add_0_r.
  - cbn [dec_ubytes]. eapply safe_bindo; [apply safe_ReadByte|]. intros b Hb. cbv beta in *. unfold is_byte in Hb.
    assert (Hn : Z.lor (u64 (Z.shiftl v 8)) b = v * 256 + b).
    { rewrite u64_lor_byte by lia. apply u64_id. unfold is_u64, two64.
      assert (2 ^ (8 * j) * 256 <= 2 ^ 64). { change 256 with (2 ^ 8). rewrite <- Z.pow_add_r by lia. apply Z.pow_le_mono_r; lia. }
      lia. }
    rewrite Hn. eapply safe_weaken; [|apply (IHk (v * 256 + b) (j + 1)); [lia|lia|]].
    + intros a Ha. cbv beta in *. replace (j + Z.of_nat (S k)) with (j + 1 + Z.of_nat k) by lia. exact Ha.
    + replace (8 * (j + 1)) with (8 * j + 8) by lia. rewrite Z.pow_add_r by lia. lia.
Qed.
Lemma safe_BE : forall size, 0 <= size <= 8 ->
  safe (Acn_Dec_Int_PositiveInteger_ConstSize_big_endian size) (fun v => 0 <= v < 2 ^ (8 * size)).
Proof.
  intros size H. unfold Acn_Dec_Int_PositiveInteger_ConstSize_big_endian.
  eapply safe_weaken; [|apply (safe_ubytes_range (Z.to_nat size) 0 0); [lia|lia|cbn; lia]].
  intros a Ha. cbv beta in *. replace (0 + Z.of_nat (Z.to_nat size)) with size in Ha by lia. exact Ha.
Qed.
Lemma safe_dec_le : forall k i r, 0 <= i -> i + Z.of_nat k <= 8 -> 0 <= r < 2 ^ (8 * i) ->
  safe (dec_le i r k) (fun v => 0 <= v < 2 ^ (8 * (i + Z.of_nat k))).
Proof.
  induction k; intros i r Hi Hk Hr; cbn [dec_le].
  - apply safe_ret_some. now rewrite Z.add_0_r.
  - eapply safe_bindo; [apply safe_ReadByte|]. intros b Hb. cbv beta in *. unfold is_byte in Hb.
    assert (P : 2 ^ (8 * (i + 1)) = 2 ^ (8 * i) * 256).
    { replace (8 * (i + 1)) with (8 * i + 8) by lia. now rewrite Z.pow_add_r by lia. }
    assert (2 ^ (8 * (i + 1)) <= 2 ^ 64) by (apply Z.pow_le_mono_r; lia).
    assert (Hs : Z.shiftl b (i * 8) = b * 2 ^ (8 * i)) by (rewrite Z.shiftl_mul_pow2 by lia; f_equal; f_equal; lia).
    rewrite Hs. rewrite u64_id by (unfold is_u64, two64; nia).
    assert (Hn : Z.lor r (b * 2 ^ (8 * i)) = r + b * 2 ^ (8 * i)).
    { rewrite Z.lor_comm, lor_add by lia. lia. }
    rewrite Hn. eapply safe_weaken; [|apply (IHk (i + 1)); [lia|lia|nia]].
    intros a Ha. cbv beta in *. replace (i + Z.of_nat (S k)) with (i + 1 + Z.of_nat k) by lia. exact Ha.
Qed.
Lemma safe_LE : forall size, 0 <= size <= 8 ->
  safe (Acn_Dec_Int_PositiveInteger_ConstSize_little_endian size) (fun v => 0 <= v < 2 ^ (8 * size)).
Proof.
  intros size H. unfold Acn_Dec_Int_PositiveInteger_ConstSize_little_endian.
  eapply safe_weaken; [|apply (safe_dec_le (Z.to_nat size) 0 0); [lia|lia|cbn; lia]].
  intros a Ha. cbv beta in *. replace (0 + Z.of_nat (Z.to_nat size)) with size in Ha by lia. exact Ha.
Qed.

Lemma safe_U8 : safe Acn_Dec_Int_PositiveInteger_ConstSize_8 is_byte.
Proof. exact safe_ReadByte. Qed.
Lemma safe_VarU : safe Acn_Dec_Int_PositiveInteger_VarSize_LengthEmbedded is_u64.
Proof.
  unfold Acn_Dec_Int_PositiveInteger_VarSize_LengthEmbedded. eapply safe_bindo; [apply safe_ReadByte|]. intros n Hn.
  destruct (8 <? n); [apply safe_ret_none|]. apply safe_dec_ubytes. unfold is_u64, two64. lia.
Qed.
Lemma s64_lor : forall v k b, 0 <= k <= 8 -> 0 <= b < 2 ^ k -> is_s64 (Z.lor (s64 (v * 2 ^ k)) b).
Proof.
  intros v k b Hk Hb. pose proof (s64_range (v * 2 ^ k)) as R.
  assert (exists q, s64 (v * 2 ^ k) = q * 2 ^ k) as [q E].
  { unfold s64, two63, two64. cbv zeta. set (d := (v * 2 ^ k) / 2 ^ 64).
    assert (D : (v * 2 ^ k) mod 2 ^ 64 = v * 2 ^ k - 2 ^ 64 * d) by (apply Z.mod_eq; lia).
    assert (2 ^ 64 = 2 ^ (64 - k) * 2 ^ k) as P by (rewrite <- Z.pow_add_r by lia; f_equal; lia).
    destruct (_ <? _); [exists (v - 2 ^ (64 - k) * d)|exists (v - 2 ^ (64 - k) * d - 2 ^ (64 - k))]; rewrite D, P; ring. }
  rewrite E in *. rewrite lor_add by lia. unfold is_s64, two63 in *.
  assert (2 ^ 63 = 2 ^ (63 - k) * 2 ^ k) as P by (rewrite <- Z.pow_add_r by lia; f_equal; lia).
  set (X := 2 ^ (63 - k)) in *. set (p := 2 ^ k) in *. assert (q < X).
  { apply Z.mul_lt_mono_pos_r with p; lia. }
  assert ((q + 1) * p <= X * p) by (apply Z.mul_le_mono_nonneg_r; lia). lia.
Qed.
Lemma safe_Twos : forall c n, shl_wrap c = true -> 0 <= n -> safe (Acn_Dec_Int_TwosComplement_ConstSize c n) is_s64.
Proof.
  intros c n Hc Hn. unfold Acn_Dec_Int_TwosComplement_ConstSize. apply safe_PeekBit. intro neg. cbv zeta.
  eapply safe_bindo.
  { apply safe_dec_sbytes; [assumption|]. destruct neg; unfold is_s64, two63; lia. }
  intros v Hv. cbv beta in Hv.
  rewrite Z.rem_mod_nonneg by lia.
  destruct (0 <? n mod 8) eqn:E; [|apply safe_ret_some; assumption].
  eapply safe_bindo; [apply (safe_ReadPartialByte (n mod 8)); lia|]. intros b Hb. cbv beta in Hb.
  eapply safe_lift with (a := s64 (v * 2 ^ (n mod 8))).
  { unfold sshl. rewrite Hc. destruct ((0 <=? v) && in_s64 (v * 2 ^ (n mod 8))) eqn:F; [|reflexivity].
    apply andb_true_iff in F. destruct F as [_ F]. apply in_s64_iff in F. now rewrite s64_id. }
  apply safe_ret_some. apply s64_lor; lia.
Qed.
Lemma safe_of_uint : forall c f size, 1 <= size <= 8 -> safe f (fun v => 0 <= v < 2 ^ (8 * size)) ->
  safe (let? u := f in let* v := lift (uint2int c u size) in ret (Some v))
    (fun v => - 2 ^ (8 * size - 1) <= v < 2 ^ (8 * size - 1)).
Proof.
  intros c f size Hs Hf. eapply safe_bindo; [exact Hf|]. intros u Hu. cbv beta in Hu.
  eapply safe_lift; [apply uint2int_ok; assumption|]. apply safe_ret_some.
  assert (P : 2 ^ (8 * size) = 2 * 2 ^ (8 * size - 1)) by (rewrite <- Z.pow_succ_r by lia; f_equal; lia).
  destruct (u <? 2 ^ (8 * size - 1)) eqn:E; lia.
Qed.
Lemma safe_I8 : forall c, safe (Acn_Dec_Int_TwosComplement_ConstSize_8 c) (fun v => -128 <= v < 128).
Proof.
  intro c. apply (safe_of_uint c Acn_Dec_Int_PositiveInteger_ConstSize_8 1); [lia|exact safe_U8].
Qed.
Lemma safe_IN_BE : forall c size, 1 <= size <= 8 -> safe (Acn_Dec_Int_TwosComplement_ConstSize_big_endian c size)
  (fun v => - 2 ^ (8 * size - 1) <= v < 2 ^ (8 * size - 1)).
Proof. intros. apply safe_of_uint; [assumption|]. apply safe_BE. lia. Qed.
Lemma safe_IN_LE : forall c size, 1 <= size <= 8 -> safe (Acn_Dec_Int_TwosComplement_ConstSize_little_endian c size)
  (fun v => - 2 ^ (8 * size - 1) <= v < 2 ^ (8 * size - 1)).
Proof. intros. apply safe_of_uint; [assumption|]. apply safe_LE. lia. Qed.

Lemma safe_dec_vtwos : forall k v neg j, 1 <= j -> j + Z.of_nat k <= 8 -> is_u64 v ->
  (neg = true -> 2 ^ 64 - 2 ^ (8 * j - 1) <= v) ->
  safe (dec_vtwos false v neg k) (fun p => is_u64 (fst p) /\ (snd p = true -> 2 ^ 63 <= fst p)).
Proof.
  induction k; intros v neg j Hj Hk Hv Hn; cbn [dec_vtwos].
  - apply safe_ret_some. split; [assumption|]. intro E. cbn [fst snd] in *. specialize (Hn E).
    assert (2 ^ (8 * j - 1) <= 2 ^ 63) by (apply Z.pow_le_mono_r; lia). lia.
  - eapply safe_bindo; [apply safe_ReadByte|]. intros b Hb. unfold is_byte in Hb. cbn [andb].
    rewrite orb_false_r. rewrite u64_lor_byte by lia.
    apply (IHk _ neg (j + 1)); [lia|lia|apply u64_range|].
    intro E. specialize (Hn E). unfold is_u64 in Hv.
    assert (P : 2 ^ (8 * (j + 1) - 1) = 2 ^ (8 * j - 1) * 256).
    { replace (8 * (j + 1) - 1) with (8 * j - 1 + 8) by lia. now rewrite Z.pow_add_r by lia. }
    assert (2 ^ (8 * (j + 1) - 1) <= 2 ^ 63) by (apply Z.pow_le_mono_r; lia).
    unfold u64, two64 in *.
    replace ((v * 256 + b) mod 2 ^ 64) with (v * 256 + b - 255 * 2 ^ 64); [lia|].
    apply Z.mod_unique with (q := 255); lia.
Qed.
Lemma safe_VarS : forall c, safe (Acn_Dec_Int_TwosComplement_VarSize_LengthEmbedded c) is_s64.
Proof.
  intro c. unfold Acn_Dec_Int_TwosComplement_VarSize_LengthEmbedded.
  eapply safe_bindo; [apply safe_ReadByte|]. intros n Hn. unfold is_byte in Hn.
  destruct (8 <? n) eqn:E; [apply safe_ret_none|].
  eapply safe_bindo with (P := fun p => is_u64 (fst p) /\ (snd p = true -> 2 ^ 63 <= fst p)).
  - destruct (Z.to_nat n) as [|k] eqn:Ek; cbn [dec_vtwos].
    + apply safe_ret_some. split; [unfold is_u64, two64; cbn; lia|discriminate].
    + eapply safe_bindo; [apply safe_ReadByte|]. intros b Hb. unfold is_byte in Hb. cbn [andb orb].
      apply (safe_dec_vtwos k _ _ 1); [lia|lia| |].
      * rewrite u64_lor_byte by lia. apply u64_range.
      * intro N. rewrite N. rewrite u64_lor_byte by lia.
        assert (128 <= b).
        { destruct (Z.ltb_spec b 128) as [L|]; [|lia]. change 0x80 with (2 ^ 7) in N. exfalso.
          replace (Z.land b (2 ^ 7)) with 0 in N; [discriminate|].
          symmetry. apply Z.bits_inj'. intros i Hi. rewrite Z.land_spec, Z.bits_0, Z.pow2_bits_eqb by lia.
          destruct (Z.eqb_spec 7 i) as [<-|]; [|now rewrite andb_false_r].
          rewrite Z.testbit_eqb by lia. change (2 ^ 7) with 128. rewrite Z.div_small by lia. reflexivity. }
        unfold u64, two64. change (8 * 1 - 1) with 7. change (2 ^ 7) with 128.
        replace ((0xFFFFFFFFFFFFFFFF * 256 + b) mod 2 ^ 64) with (2 ^ 64 - 256 + b); [lia|].
        apply Z.mod_unique with (q := 255); lia.
  - intros [v neg] [Hv Hg]. cbn [fst snd] in *. destruct neg; [|apply safe_ret_some; apply s64_range].
    specialize (Hg eq_refl). unfold is_u64, two64 in Hv.
    assert (EL : u64 (Z.lnot v) = 2 ^ 64 - 1 - v).
    { unfold u64, two64, Z.lnot. symmetry. apply Z.mod_unique with (q := -1); lia. }
    rewrite EL. rewrite s64_id by (unfold is_s64, two63; lia).
    eapply safe_lift; [apply sres_ok; unfold is_s64, two63; lia|].
    eapply safe_lift; [apply sres_ok; unfold is_s64, two63; lia|].
    apply safe_ret_some. unfold is_s64, two63. lia.
Qed.

(** *** Decimal *)
Lemma safe_dec_bcd : forall k r, is_u64 r -> safe (dec_bcd r k) is_u64.
Proof.
  induction k; intros r Hr; cbn [dec_bcd]; [apply safe_ret_some; assumption|].
  eapply safe_bindo; [apply safe_ReadPartialByte; lia|]. intros d Hd. cbv beta. apply IHk. apply u64_range.
Qed.
Lemma is_u64_0 : is_u64 0.
Proof. unfold is_u64, two64. lia. Qed.
Lemma safe_BCD : forall n, safe (Acn_Dec_Int_BCD_ConstSize n) is_u64.
Proof. intro n. apply safe_dec_bcd. exact is_u64_0. Qed.
Lemma safe_BCD_Var : safe Acn_Dec_Int_BCD_VarSize_LengthEmbedded is_u64.
Proof.
  unfold Acn_Dec_Int_BCD_VarSize_LengthEmbedded. eapply safe_bindo; [apply safe_ReadByte|]. intros n Hn.
  destruct (_ <? n); [apply safe_ret_none|]. apply safe_BCD.
Qed.
Lemma parses_nibble : parses (BitStream_ReadPartialByte 4) (fun _ bs => Z.of_nat (length bs) = 4).
Proof.
  eapply parses_weaken; [|apply (parses_ReadPartialByte 4); lia]. intros a bs [_ ->]. now rewrite len_Zbits.
Qed.
Lemma parses_octet : parses BitStream_ReadByte (fun _ bs => Z.of_nat (length bs) = 8).
Proof. eapply parses_weaken; [|apply parses_ReadByte]. intros a bs [_ ->]. now rewrite len_Zbits. Qed.
Lemma safe_dec_bcd_null : forall fuel r s, is_u64 r -> wfs s -> 8 * count s - pos s < 4 * Z.of_nat fuel ->
  exists o s', dec_bcd_null fuel r s = Ok (o, s') /\ buf s' = buf s /\ count s' = count s /\
      pos s <= pos s' /\ 0 <= curBit s' < 8 /\
      match o with Some a => pos s' <= 8 * count s' /\ is_u64 a | None => True end.
Proof.
  induction fuel; intros r s Hr W Hf.
  - exfalso. destruct W as (_ & _ & _ & W & _). lia.
  - cbn [dec_bcd_null]. unfold bindo, bind.
    destruct (safe_step (BitStream_ReadPartialByte 4) _ 4 s (safe_ReadPartialByte 4 ltac:(lia)) parses_nibble W)
      as (o & s1 & E & E1 & E2 & E3 & E4 & E5).
    rewrite E. destruct o as [d|].
    2:{ exists None, s1. unfold ret. splits; auto; lia. }
    destruct E5 as (Hd & W1 & E6). destruct (9 <? d).
    + exists (Some r), s1. unfold ret. pose proof W1 as (_ & _ & _ & W2 & _). do 5 (split; [first [assumption|reflexivity]|]). auto.
    + destruct (IHfuel (u64 (u64 (r * 10) + d)) s1 (u64_range _) W1 ltac:(lia)) as (o & s2 & F & F1 & F2 & F3 & F4 & F5).
      exists o, s2. rewrite F. do 3 (split; [congruence|]). split; [lia|]. split; [assumption|]. exact F5.
Qed.
Lemma safe_BCD_Null : safe Acn_Dec_Int_BCD_VarSize_NullTerminated is_u64.
Proof.
  apply safe_get. intros s W. apply safe_dec_bcd_null; [exact is_u64_0|assumption|].
  destruct W as (_ & W1 & W2 & W3 & _). unfold pos in *. lia.
Qed.
Lemma safe_dec_ascii : forall c k r, ndebug c = true -> is_u64 r -> safe (dec_ascii c r k) is_u64.
Proof.
  induction k; intros r Hc Hr; cbn [dec_ascii]; [apply safe_ret_some; assumption|].
  eapply safe_bindo; [apply safe_ReadByte|]. intros d Hd. unfold assert_or_false.
  eapply safe_pure_l with (a := tt). { intro s. unfold massert. rewrite Hc. now rewrite orb_true_r. }
  destruct (_ && _); [|apply safe_ret_none]. apply IHk; [assumption|apply u64_range].
Qed.
Lemma safe_ASCII_U : forall c n, ndebug c = true -> safe (Acn_Dec_UInt_ASCII_ConstSize c n) is_u64.
Proof. intros c n Hc. apply safe_dec_ascii; [assumption|exact is_u64_0]. Qed.
Lemma safe_sres : forall c x, ovf_wrap c = true -> safe (let* v := lift (sres c x) in ret (Some v)) is_s64.
Proof.
  intros c x Hc. eapply safe_lift with (a := s64 x).
  { unfold sres. rewrite Hc. destruct (in_s64 x) eqn:E; [|reflexivity]. apply in_s64_iff in E. now rewrite s64_id. }
  apply safe_ret_some. apply s64_range.
Qed.
Lemma safe_abort_free : forall {B} c (g : M (option B)) b P, ndebug c = true -> safe g P -> safe (assert_or_false c b g) P.
Proof.
  intros B c g b P Hc H. unfold assert_or_false.
  eapply safe_pure_l with (a := tt). { intro s. unfold massert. rewrite Hc. now rewrite orb_true_r. }
  destruct b; [assumption|apply safe_ret_none].
Qed.
Lemma safe_ASCII_S : forall c n, ndebug c = true -> ovf_wrap c = true -> safe (Acn_Dec_SInt_ASCII_ConstSize c n) is_s64.
Proof.
  intros c n Hc Hw. unfold Acn_Dec_SInt_ASCII_ConstSize. cbv zeta.
  eapply safe_bindo; [apply safe_ReadByte|]. intros d Hd.
  assert (K : forall sign, safe (let? r := Acn_Dec_UInt_ASCII_ConstSize c (n - 1) in
    let* v := lift (sres c (sign * s64 r)) in ret (Some v)) is_s64).
  { intro sign. eapply safe_bindo; [apply safe_ASCII_U; assumption|]. intros r Hr. apply safe_sres. assumption. }
  destruct (d =? 43); [apply K|]. destruct (d =? 45); [apply K|].
  apply safe_abort_free; [assumption|apply safe_ret_none].
Qed.
Lemma safe_ASCII_VarU : forall c, ndebug c = true -> safe (Acn_Dec_UInt_ASCII_VarSize_LengthEmbedded c) is_u64.
Proof.
  intros. unfold Acn_Dec_UInt_ASCII_VarSize_LengthEmbedded.
  eapply safe_bindo; [apply safe_ReadByte|]. intros n Hn. apply safe_ASCII_U. assumption.
Qed.
Lemma safe_ASCII_VarS : forall c, ndebug c = true -> ovf_wrap c = true -> safe (Acn_Dec_SInt_ASCII_VarSize_LengthEmbedded c) is_s64.
Proof.
  intros. unfold Acn_Dec_SInt_ASCII_VarSize_LengthEmbedded.
  eapply safe_bindo; [apply safe_ReadByte|]. intros n Hn. apply safe_ASCII_S; assumption.
Qed.
Lemma safe_read_window : forall k, safe (read_window k) (fun w => length w = k /\ Forall is_byte w).
Proof.
  induction k; cbn [read_window]; [apply safe_ret_some; auto|].
  eapply safe_bindo; [apply safe_ReadByte|]. intros b Hb. eapply safe_bindo; [exact IHk|]. intros t [Ht Ft].
  apply safe_ret_some. cbn [length]. auto.
Qed.
Lemma window_some : forall p w, (length w <= length p)%nat -> exists e, window_is p w = Ok e.
Proof. intros. unfold window_is. destruct (_ <? _) eqn:E; [lia|]. eauto. Qed.
Lemma window_nil : forall p, window_is p [] = Ok true.
Proof. intros. unfold window_is. cbn [length Z.of_nat]. destruct (_ <? _) eqn:E; [lia|]. reflexivity. Qed.
Lemma safe_dec_ascii_null : forall fuel p w r s, is_u64 r -> (length w <= length p)%nat -> wfs s ->
  8 * count s - pos s < 8 * Z.of_nat fuel ->
  exists o s', dec_ascii_null fuel p w r s = Ok (o, s') /\ buf s' = buf s /\ count s' = count s /\
      pos s <= pos s' /\ 0 <= curBit s' < 8 /\
      match o with Some a => pos s' <= 8 * count s' /\ is_u64 a | None => True end.
Proof.
  induction fuel; intros p w r s Hr Hw W Hf.
  - exfalso. destruct W as (_ & _ & _ & W & _). lia.
  - cbn [dec_ascii_null]. destruct (window_some p w Hw) as [e He]. rewrite He. unfold bind at 1. unfold lift. cbv beta iota.
    destruct e eqn:Ee.
    + exists (Some r), s. unfold ret. pose proof W as (_ & _ & W2 & W3 & _).
      do 3 (split; [reflexivity|]). split; [lia|]. auto.
    + destruct w as [|x w]; [rewrite window_nil in He; discriminate|]. unfold bindo, bind.
      destruct (safe_step BitStream_ReadByte _ 8 s safe_ReadByte parses_octet W)
        as (o & s1 & E & E1 & E2 & E3 & E4 & E5).
      rewrite E. destruct o as [d|].
      2:{ exists None, s1. unfold ret. splits; auto; lia. }
      destruct E5 as (Hd & W1 & E6).
      destruct (IHfuel p (tl (x :: w) ++ [d]) (u64 (u64 (r * 10) + byte_of (hd 0 (x :: w) - 48))) s1 (u64_range _)
        ltac:(cbn [tl] in *; rewrite app_length; cbn [length] in *; lia) W1 ltac:(lia)) as (o & s2 & F & F1 & F2 & F3 & F4 & F5).
      exists o, s2. rewrite F. do 3 (split; [congruence|]). split; [lia|]. split; [assumption|]. exact F5.
Qed.
Lemma safe_ASCII_NullU : forall p n, n <= Z.of_nat (length p) -> safe (Acn_Dec_UInt_ASCII_VarSize_NullTerminated p n) is_u64.
Proof.
  intros p n Hn. unfold Acn_Dec_UInt_ASCII_VarSize_NullTerminated. cbv zeta.
  apply safe_get. intros s W. unfold bindo, bind.
  destruct (safe_read_window (Z.to_nat (if n <? 10 then n else 10)) s W) as (o & s1 & E & E1 & E2 & E3 & E4 & E5).
  rewrite E. destruct o as [w|].
  2:{ exists None, s1. unfold ret. splits; auto; lia. }
  destruct E5 as (E5 & Hw & _). pose proof (wfs_step s s1 W E1 E2 E3 E4 E5) as W1.
  destruct (safe_dec_ascii_null (S (Z.to_nat (count s))) p w 0 s1 is_u64_0 ltac:(destruct (n <? 10) eqn:L; lia) W1) as (o & s2 & F & F1 & F2 & F3 & F4 & F5).
  { destruct W1 as (_ & W2 & W3 & W4 & _). unfold pos in *. lia. }
  exists o, s2. rewrite F. do 3 (split; [congruence|]). split; [lia|]. split; [assumption|]. exact F5.
Qed.
Lemma safe_ASCII_NullS : forall c p n, ndebug c = true -> ovf_wrap c = true -> n <= Z.of_nat (length p) ->
  safe (Acn_Dec_SInt_ASCII_VarSize_NullTerminated c p n) is_s64.
Proof.
  intros c p n Hc Hw Hn. unfold Acn_Dec_SInt_ASCII_VarSize_NullTerminated.
  eapply safe_bindo; [apply safe_ReadByte|]. intros d Hd. apply safe_abort_free; [assumption|].
  eapply safe_bindo; [apply safe_ASCII_NullU; assumption|]. intros r Hr.
  destruct (d =? 45); [apply safe_sres; assumption|]. apply safe_ret_some. apply s64_range.
Qed.

(** *** Patterns *)
Lemma nthZ_some : forall (l : list Z) i, 0 <= i < Z.of_nat (length l) -> exists x, nthZ l i = Ok x.
Proof. intros. rewrite nthZ_spec by assumption. eauto. Qed.
Lemma safe_pat_loop : forall k p i ok, 0 <= i -> i + Z.of_nat k <= Z.of_nat (length p) ->
  safe (pat_loop p i ok k) (fun _ => True).
Proof.
  induction k; intros p i ok Hi Hk; cbn [pat_loop]; [apply safe_ret_some; exact I|].
  eapply safe_bindo; [apply safe_ReadByte|]. intros b Hb.
  destruct (nthZ_some p i ltac:(lia)) as [x Hx]. rewrite Hx.
  eapply safe_lift with (a := ok && (b =? x)). { destruct ok; reflexivity. }
  apply IHk; lia.
Qed.
Lemma safe_ReadBitPattern : forall p n, 0 <= n <= 8 * Z.of_nat (length p) -> safe (BitStream_ReadBitPattern p n) (fun _ => True).
Proof.
  intros p n Hn. unfold BitStream_ReadBitPattern. cbv zeta. rewrite Z.rem_mod_nonneg, Z.quot_div_nonneg by lia.
  eapply safe_bindo; [apply safe_pat_loop; lia|]. intros ok _.
  destruct (0 <? n mod 8) eqn:E; [|apply safe_ret_some; exact I].
  eapply safe_bindo; [apply safe_ReadPartialByte; lia|]. intros b Hb.
  destruct (nthZ_some p (n / 8) ltac:(lia)) as [x Hx]. rewrite Hx.
  eapply safe_lift with (a := ok && (b =? Z.shiftr x (8 - n mod 8))). { destruct ok; reflexivity. }
  apply safe_ret_some. exact I.
Qed.
Lemma safe_skip_bytes : forall k, safe (skip_bytes k) (fun _ => True).
Proof.
  induction k; cbn [skip_bytes]; [apply safe_ret_some; exact I|].
  eapply safe_bindo; [apply safe_ReadByte|]. intros _ _. exact IHk.
Qed.
Lemma safe_ReadBitPattern_ignore : forall n, 0 <= n -> safe (BitStream_ReadBitPattern_ignore_value n) (fun _ => True).
Proof.
  intros n Hn. unfold BitStream_ReadBitPattern_ignore_value. rewrite Z.rem_mod_nonneg by lia.
  eapply safe_bindo; [apply safe_skip_bytes|]. intros _ _.
  destruct (0 <? n mod 8) eqn:E; [|apply safe_ret_some; exact I].
  eapply safe_bindo; [apply safe_ReadPartialByte; lia|]. intros b Hb. apply safe_ret_some. exact I.
Qed.
Lemma safe_tf_loop : forall k p q i t f, 0 <= i -> i + Z.of_nat k <= Z.of_nat (length p) -> i + Z.of_nat k <= Z.of_nat (length q) ->
  safe (tf_loop p q i t f k) (fun _ => True).
Proof.
  induction k; intros p q i t f Hi Hp Hq; cbn [tf_loop]; [apply safe_ret_some; exact I|].
  eapply safe_bindo; [apply safe_ReadByte|]. intros b Hb.
  destruct (nthZ_some p i ltac:(lia)) as [x Hx]. rewrite Hx.
  destruct (nthZ_some q i ltac:(lia)) as [y Hy]. rewrite Hy.
  eapply safe_lift with (a := t && (b =? x)). { destruct t; reflexivity. }
  eapply safe_lift with (a := f && (b =? y)). { destruct f; reflexivity. }
  apply IHk; lia.
Qed.
Lemma safe_TrueFalse : forall p q n, 0 <= n <= 8 * Z.of_nat (length p) -> n <= 8 * Z.of_nat (length q) ->
  safe (BitStream_DecodeTrueFalseBoolean p q n) (fun _ => True).
Proof.
  intros p q n Hp Hq. unfold BitStream_DecodeTrueFalseBoolean. cbv zeta. rewrite Z.rem_mod_nonneg, Z.quot_div_nonneg by lia.
  eapply safe_bindo; [apply safe_tf_loop; lia|]. intros [t f] _.
  eapply safe_bindo with (P := fun _ => True).
  - destruct (0 <? n mod 8) eqn:E; [|apply safe_ret_some; exact I].
    eapply safe_bindo; [apply safe_ReadPartialByte; lia|]. intros b Hb.
    destruct (nthZ_some p (n / 8) ltac:(lia)) as [x Hx]. rewrite Hx.
    destruct (nthZ_some q (n / 8) ltac:(lia)) as [y Hy]. rewrite Hy.
    eapply safe_lift with (a := t && (b =? Z.shiftr x (8 - n mod 8))). { destruct t; reflexivity. }
    eapply safe_lift with (a := f && (b =? Z.shiftr y (8 - n mod 8))). { destruct f; reflexivity. }
    apply safe_ret_some. exact I.
  - intros [t' f'] _. destruct t'; [apply safe_ret_some; exact I|]. destruct f'; [apply safe_ret_some; exact I|].
    apply safe_ret_none.
Qed.

(** *** Strings *)
Lemma safe_dec_str : forall get1 (Q : Z -> Prop), safe get1 Q -> forall k d2 d1, (k <= length d2)%nat ->
  safe (dec_str get1 (d1 ++ d2) k (Z.of_nat (length d1)))
    (fun d => exists l, length l = k /\ Forall Q l /\ d = d1 ++ l ++ skipn k d2).
Proof.
  intros get1 Q HQ. induction k; intros d2 d1 Hk; cbn [dec_str].
  - apply safe_ret_some. exists []. auto.
  - destruct d2 as [|x d2]; [cbn in Hk; lia|]. eapply safe_bindo; [exact HQ|]. intros ch Hch.
    eapply safe_lift; [apply store1_mid|].
    replace (d1 ++ ch :: d2) with ((d1 ++ [ch]) ++ d2) by (rewrite <- app_assoc; reflexivity).
    replace (Z.of_nat (length d1) + 1) with (Z.of_nat (length (d1 ++ [ch]))) by (rewrite app_length; cbn; lia).
    eapply safe_weaken; [|apply IHk; cbn in Hk; lia].
    intros d (l & L1 & L2 & ->). exists (ch :: l). cbn [length skipn]. split; [lia|]. split; [auto|].
    rewrite <- app_assoc. reflexivity.
Qed.
Lemma safe_cleared : forall get1 (Q : Z -> Prop) n (max : nat) dst, safe get1 Q -> n <= Z.of_nat max -> (max < length dst)%nat ->
  safe (let* d := lift (clear dst (Z.of_nat max)) in dec_str get1 d (Z.to_nat n) 0)
    (fun d => exists l, length l = Z.to_nat n /\ Forall Q l /\ d = stored l max dst).
Proof.
  intros get1 Q n max dst HQ Hn Hd. eapply safe_lift; [apply clear_ok; assumption|].
  eapply safe_weaken; [|apply (safe_dec_str get1 Q HQ (Z.to_nat n) (repeat 0 (S max) ++ skipn (S max) dst) [])].
  - intros d (l & L1 & L2 & ->). exists l. split; [assumption|]. split; [assumption|].
    cbn [app]. unfold stored. rewrite skipn_app, skipn_repeat0, repeat_length. rewrite L1.
    replace (Z.to_nat n - S max)%nat with 0%nat by lia. reflexivity.
  - rewrite app_length, repeat_length. lia.
Qed.
Lemma safe_Ascii_private : forall n (max : nat) dst, n <= Z.of_nat max -> (max < length dst)%nat ->
  safe (Acn_Dec_String_Ascii_private (Z.of_nat max) n dst)
    (fun d => exists l, length l = Z.to_nat n /\ Forall is_byte l /\ d = stored l max dst).
Proof. intros. apply safe_cleared; [apply safe_ReadByte|assumption|assumption]. Qed.
Lemma safe_get_index : forall c set, (0 < length set)%nat -> Z.of_nat (length set) < 2 ^ 62 ->
  safe (get_index c set (Z.of_nat (length set))) (fun ch => In ch set).
Proof.
  intros c set H0 H. unfold get_index.
  eapply safe_bindo; [apply (safe_DecodeConstraint c 0 (Z.of_nat (length set) - 1))|].
  - unfold is_s64, two63; lia.
  - unfold is_s64, two63; lia.
  - lia.
  - left. unfold is_s64, two63; lia.
  - intros i Hi. cbv beta in Hi. destruct ((i <? 0) || _) eqn:E; [lia|].
    eapply safe_lift; [apply nthZ_spec; lia|]. apply safe_ret_some. apply nth_In. lia.
Qed.
Lemma safe_CharIndex_private : forall c set n (max : nat) dst, (0 < length set)%nat -> Z.of_nat (length set) < 2 ^ 62 ->
  n <= Z.of_nat max -> (max < length dst)%nat ->
  safe (Acn_Dec_String_CharIndex_private c (Z.of_nat max) n set (Z.of_nat (length set)) dst)
    (fun d => exists l, length l = Z.to_nat n /\ Forall (fun ch => In ch set) l /\ d = stored l max dst).
Proof. intros. apply safe_cleared; [apply safe_get_index; assumption|assumption|assumption]. Qed.
Lemma min_cases : forall a b, (if a <=? b then a else b) <= b.
Proof. intros. destruct (a <=? b) eqn:E; lia. Qed.
Lemma safe_Ascii_External : forall ext (max : nat) dst, (max < length dst)%nat ->
  safe (Acn_Dec_String_Ascii_External_Field_Determinant (Z.of_nat max) ext dst)
    (fun d => exists l, (length l <= max)%nat /\ Forall is_byte l /\ d = stored l max dst).
Proof.
  intros. unfold Acn_Dec_String_Ascii_External_Field_Determinant.
  eapply safe_weaken; [|apply safe_Ascii_private; [apply min_cases|assumption]].
  intros d (l & L1 & L2 & ->). exists l. pose proof (min_cases ext (Z.of_nat max)). split; [lia|]. auto.
Qed.
Lemma safe_CharIndex_External : forall c set ext (max : nat) dst, (0 < length set)%nat -> Z.of_nat (length set) < 2 ^ 62 ->
  (max < length dst)%nat ->
  safe (Acn_Dec_String_CharIndex_External_Field_Determinant c (Z.of_nat max) set (Z.of_nat (length set)) ext dst)
    (fun d => exists l, (length l <= max)%nat /\ Forall (fun ch => In ch set) l /\ d = stored l max dst).
Proof.
  intros. unfold Acn_Dec_String_CharIndex_External_Field_Determinant.
  eapply safe_weaken; [|apply safe_CharIndex_private; [assumption|assumption|apply min_cases|assumption]].
  intros d (l & L1 & L2 & ->). exists l. pose proof (min_cases ext (Z.of_nat max)). split; [lia|]. auto.
Qed.
Lemma safe_strlen : forall c min max, 0 <= min <= max -> max < 2 ^ 31 ->
  safe (BitStream_DecodeConstraintWholeNumber c min max) (fun n => min <= n <= max).
Proof. intros. apply safe_DecodeConstraint; [| |lia|left]; unfold is_s64, two63; lia. Qed.
Lemma safe_Ascii_Internal : forall c min (max : nat) dst, 0 <= min <= Z.of_nat max -> Z.of_nat max < 2 ^ 31 -> (max < length dst)%nat ->
  safe (Acn_Dec_String_Ascii_Internal_Field_Determinant c (Z.of_nat max) min dst)
    (fun d => exists l, min <= Z.of_nat (length l) <= Z.of_nat max /\ Forall is_byte l /\ d = stored l max dst).
Proof.
  intros. unfold Acn_Dec_String_Ascii_Internal_Field_Determinant.
  eapply safe_bindo; [apply safe_strlen; assumption|]. intros n Hn. cbv beta in Hn.
  rewrite min_le by lia. eapply safe_weaken; [|apply safe_Ascii_private; [lia|assumption]].
  intros d (l & L1 & L2 & ->). exists l. split; [lia|]. auto.
Qed.
Lemma safe_CharIndex_Internal : forall c set min (max : nat) dst, (0 < length set)%nat -> Z.of_nat (length set) < 2 ^ 62 ->
  0 <= min <= Z.of_nat max -> Z.of_nat max < 2 ^ 31 -> (max < length dst)%nat ->
  safe (Acn_Dec_String_CharIndex_Internal_Field_Determinant c (Z.of_nat max) set (Z.of_nat (length set)) min dst)
    (fun d => exists l, min <= Z.of_nat (length l) <= Z.of_nat max /\ Forall (fun ch => In ch set) l /\ d = stored l max dst).
Proof.
  intros. unfold Acn_Dec_String_CharIndex_Internal_Field_Determinant.
  eapply safe_bindo; [apply safe_strlen; assumption|]. intros n Hn. cbv beta in Hn.
  rewrite min_le by lia. eapply safe_weaken; [|apply safe_CharIndex_private; [assumption|assumption|lia|assumption]].
  intros d (l & L1 & L2 & ->). exists l. split; [lia|]. auto.
Qed.
Lemma safe_dec_null : forall null k d2 d1, (k <= length d2)%nat ->
  safe (dec_null null (d1 ++ d2) k (Z.of_nat (length d1)))
    (fun d => exists l, (length l < k)%nat /\ Forall is_byte l /\ ~ In null l /\ d = d1 ++ l ++ 0 :: skipn (S (length l)) d2).
Proof.
  intro null. induction k; intros d2 d1 Hk; cbn [dec_null]; [apply safe_ret_none|].
  destruct d2 as [|x d2]; [cbn in Hk; lia|]. eapply safe_bindo; [apply safe_ReadByte|]. intros ch Hch.
  destruct (Z.eqb_spec ch null) as [->|N]; cbn [negb].
  - eapply safe_lift; [apply store1_mid|]. apply safe_ret_some. exists []. cbn [length skipn app In]. split; [lia|]. auto.
  - eapply safe_lift; [apply store1_mid|].
    replace (d1 ++ ch :: d2) with ((d1 ++ [ch]) ++ d2) by (rewrite <- app_assoc; reflexivity).
    replace (Z.of_nat (length d1) + 1) with (Z.of_nat (length (d1 ++ [ch]))) by (rewrite app_length; cbn; lia).
    eapply safe_weaken; [|apply IHk; cbn in Hk; lia].
    intros d (l & L1 & L2 & L3 & ->). exists (ch :: l). cbn [length].
    change (skipn (S (S (length l))) (x :: d2)) with (skipn (S (length l)) d2).
    split; [lia|]. split; [auto|]. split; [cbn [In]; tauto|]. rewrite <- app_assoc. reflexivity.
Qed.
Lemma safe_Null : forall null (max : nat) dst, (max < length dst)%nat ->
  safe (Acn_Dec_String_Ascii_Null_Terminated (Z.of_nat max) null dst)
    (fun d => exists l, (length l <= max)%nat /\ Forall is_byte l /\ ~ In null l /\ d = stored l max dst).
Proof.
  intros null max dst Hd. unfold Acn_Dec_String_Ascii_Null_Terminated.
  eapply safe_lift; [apply clear_ok; assumption|].
  eapply safe_weaken; [|apply (safe_dec_null null (Z.to_nat (Z.of_nat max + 1)) (repeat 0 (S max) ++ skipn (S max) dst) [])].
  - intros d (l & L1 & L2 & L3 & ->). exists l. split; [lia|]. split; [assumption|]. split; [assumption|].
    cbn [app]. apply stored_null. lia.
  - rewrite app_length, repeat_length. lia.
Qed.
(** Needs one byte more than the other string decoders. *)
Lemma safe_dec_null_mult : forall p k d2 d1 w, (length w <= length p)%nat -> Forall is_byte w -> (k < length d2)%nat ->
  safe (dec_null_mult p w (d1 ++ d2) k (Z.of_nat (length d1)))
    (fun d => exists l, (length l <= k)%nat /\ Forall is_byte l /\ d = d1 ++ l ++ 0 :: skipn (S (length l)) d2).
Proof.
  intros p. induction k; intros d2 d1 w Hw Fw Hk; cbn [dec_null_mult]; destruct (window_some p w Hw) as [e He]; rewrite He;
    (destruct d2 as [|x d2]; [cbn in Hk; lia|]).
  - eapply safe_lift; [apply store1_mid|]. eapply safe_lift; [reflexivity|].
    destruct e; [|apply safe_ret_none]. apply safe_ret_some. exists []. cbn. auto.
  - eapply safe_lift; [reflexivity|]. destruct e.
    + eapply safe_lift; [apply store1_mid|]. eapply safe_lift; [reflexivity|].
      apply safe_ret_some. exists []. cbn [length app skipn]. split; [lia|]. auto.
    + destruct w as [|y w]; [rewrite window_nil in He; discriminate|].
      eapply safe_lift; [apply store1_mid|]. eapply safe_bindo; [apply safe_ReadByte|]. intros b Hb. cbn [hd tl].
      replace (d1 ++ y :: d2) with ((d1 ++ [y]) ++ d2) by (rewrite <- app_assoc; reflexivity).
      replace (Z.of_nat (length d1) + 1) with (Z.of_nat (length (d1 ++ [y]))) by (rewrite app_length; cbn; lia).
      eapply safe_weaken; [|apply IHk].
      * intros d (l & L1 & L2 & ->). exists (y :: l). cbn [length].
        change (skipn (S (S (length l))) (x :: d2)) with (skipn (S (length l)) d2).
        split; [lia|]. split; [constructor; [exact (Forall_inv Fw)|assumption]|]. rewrite <- app_assoc. reflexivity.
      * rewrite app_length. cbn [length] in *. lia.
      * apply Forall_app. split; [exact (Forall_inv_tail Fw)|]. auto.
      * cbn in Hk. lia.
Qed.
Lemma safe_Null_mult : forall p n (max : nat) dst, n <= Z.of_nat (length p) -> (S max < length dst)%nat ->
  safe (Acn_Dec_String_Ascii_Null_Terminated_mult (Z.of_nat max) p n dst)
    (fun d => exists l, (length l <= S max)%nat /\ Forall is_byte l /\
       d = l ++ 0 :: skipn (S (length l)) (repeat 0 (S max) ++ skipn (S max) dst)).
Proof.
  intros p n max dst Hn Hd. unfold Acn_Dec_String_Ascii_Null_Terminated_mult. cbv zeta.
  eapply safe_lift; [apply clear_ok; lia|].
  eapply safe_bindo; [apply safe_read_window|]. intros w [Hw Fw].
  eapply safe_weaken; [|apply (safe_dec_null_mult p (Z.to_nat (Z.of_nat max + 1)) (repeat 0 (S max) ++ skipn (S max) dst) [] w)].
  - intros d (l & L1 & L2 & ->). exists l. split; [lia|]. auto.
  - destruct (n <? 10) eqn:L; lia.
  - assumption.
  - rewrite app_length, repeat_length, skipn_length. lia.
Qed.
