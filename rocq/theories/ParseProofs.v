(** Every primitive and integer decoder is a prefix parser. *)
From Verif Require Import Base Bits BitStream Ints Contracts Parse.
From Verif Require Import BitsProofs BitStreamProofs BitStreamProofs2 BitStreamProofs3 IntsProofs SafeProofs HistoryProofs RangeProofs TameProofs.
From Coq Require Import ZifyBool ZifyNat.
Ltac Zify.zify_post_hook ::= Z.div_mod_to_equations.

Lemma parses_none : forall {A} (P : A -> list bool -> Prop), parses (ret None) P.
Proof. intros A P s a s' H E. discriminate. Qed.
Lemma parses_ub : forall {A} (P : A -> list bool -> Prop), parses ub P.
Proof. intros A P s a s' H E. discriminate. Qed.
Lemma parses_diverge : forall {A} (P : A -> list bool -> Prop), parses diverge P.
Proof. intros A P s a s' H E. discriminate. Qed.

Lemma wfp_at : forall s, wfp s -> exists pre rest, at_ s pre rest /\ Z.of_nat (length pre) = pos s /\
  Z.of_nat (length rest) = 8 * Z.of_nat (length (buf s)) - pos s.
Proof.
  intros s (HB & (H1 & H2 & H3) & HC). 
  exists (firstn (Z.to_nat (pos s)) (bits_of_bytes (buf s))), (skipn (Z.to_nat (pos s)) (bits_of_bytes (buf s))).
  pose proof (len_bits_of_bytes (buf s)) as HL.
  assert (0 <= pos s) by (unfold pos; lia).
  assert (Z.of_nat (length (firstn (Z.to_nat (pos s)) (bits_of_bytes (buf s)))) = pos s) by (rewrite firstn_length; lia).
  unfold at_. splits; auto; try tauto.
  - now rewrite firstn_skipn.
  - rewrite skipn_length. lia.
Qed.

Lemma parses_ret : forall {A} (a : A) (P : A -> list bool -> Prop), P a [] -> parses (ret (Some a)) P.
Proof.
  intros A a P HP s a' s' HW E. inv_ok E. destruct (wfp_at _ HW) as (pre & rest & HA & HL & HR).
  exists pre, [], rest. destruct HW as (HB & (H1 & H2 & H3) & HC).
  cbn [app length]. splits; auto; try lia. apply reads_ret.
Qed.

Lemma parses_ext : forall {A} (f g : M (option A)) P, (forall s, f s = g s) -> parses f P -> parses g P.
Proof.
  intros A f g P H HP s a s' HW E. rewrite <- H in E. destruct (HP s a s' HW E) as (pre & bs & rest & X1 & X2 & X3 & X4 & X5).
  exists pre, bs, rest. splits; auto. eapply reads_ext; eauto.
Qed.

Lemma parses_weaken : forall {A} (f : M (option A)) (P Q : A -> list bool -> Prop),
  (forall a bs, P a bs -> Q a bs) -> parses f P -> parses f Q.
Proof.
  intros A f P Q H HP s a s' HW E. destruct (HP s a s' HW E) as (pre & bs & rest & X1 & X2 & X3 & X4 & X5).
  exists pre, bs, rest. splits; auto.
Qed.

(** State after a successful parse. *)
Lemma parses_state : forall {A} (f : M (option A)) s a s' pre bs rest, wfp s -> f s = Ok (Some a, s') ->
  at_ s pre (bs ++ rest) -> Z.of_nat (length pre + length bs) <= 8 * count s -> reads f (Some a) bs ->
  at_ s' (pre ++ bs) rest /\ wfp s' /\ buf s' = buf s /\ count s' = count s.
Proof.
  intros A f s a s' pre bs rest HW E HA HL HR.
  destruct (HR s pre rest HA HL) as (s1 & E1 & HA1 & HC1 & HB1). rewrite E in E1.
  assert (s' = s1) by congruence. subst s1. clear E1.
  destruct HW as (HB & HI & HC). split; [exact HA1|]. split; [|auto].
  destruct HA1 as (Y1 & Y2 & Y3 & Y4). rewrite app_length in Y3. unfold wfp, inside, pos in *.
  rewrite HB1. splits; auto; lia.
Qed.

Lemma at_uniq : forall s p1 r1 p2 r2, at_ s p1 r1 -> at_ s p2 r2 -> p1 = p2 /\ r1 = r2.
Proof.
  intros s p1 r1 p2 r2 (A1 & A2 & A3 & A4) (B1 & B2 & B3 & B4).
  assert (length p1 = length p2) by lia. rewrite A2 in B2. apply app_split; auto.
Qed.

Lemma parses_bindo : forall {A B} (f : M (option A)) (g : A -> M (option B)) P Q,
  parses f P -> (forall a bs1, P a bs1 -> parses (g a) (fun b bs2 => Q b (bs1 ++ bs2))) ->
  parses (let? x := f in g x) Q.
Proof.
  intros A B f g P Q HF HG s b s' HW E.
  unfold bindo, bind in E. destruct (f s) as [[[a|] s1]| | |] eqn:EF; try discriminate.
  destruct (HF s a s1 HW EF) as (pre & bs & rest & X1 & X2 & X3 & X4 & X5).
  destruct (parses_state f s a s1 pre bs rest HW EF X1 X2 X3) as (Y1 & Y2 & Y3 & Y4).
  destruct (HG a bs X4 s1 b s' Y2 E) as (pre' & bs' & rest' & Z1 & Z2 & Z3 & Z4 & Z5).
  destruct (at_uniq _ _ _ _ _ Y1 Z1) as [Ep Er]. subst pre' rest.
  exists pre, (bs ++ bs'), rest'. rewrite <- app_assoc. splits; auto; rewrite ?app_length in *; try lia.
  eapply reads_bindo; eauto.
Qed.

Lemma parses_lift : forall {A B} (o : outcome A) (g : A -> M (option B)) Q,
  (forall a, o = Ok a -> parses (g a) Q) -> parses (let* x := lift o in g x) Q.
Proof.
  intros A B o g Q HG s b s' HW E. unfold bind, lift in E. destruct o as [a| | |] eqn:EO; try discriminate.
  destruct (HG a eq_refl s b s' HW E) as (pre & bs & rest & X1 & X2 & X3 & X4 & X5).
  exists pre, bs, rest. splits; auto.
Qed.
Lemma parses_massert : forall {B} c b (g : M (option B)) Q, (b || ndebug c = true -> parses g Q) -> parses (massert c b ;;; g) Q.
Proof.
  intros B c b g Q HG s r s' HW E. unfold bind, massert in E. destruct (b || ndebug c) eqn:EB; try discriminate.
  destruct (HG eq_refl s r s' HW E) as (pre & bs & rest & X1 & X2 & X3 & X4 & X5).
  exists pre, bs, rest. splits; auto.
  apply reads_pure_l with (a := tt); [|exact X3]. intro s0. unfold massert. now rewrite EB.
Qed.

(** Fixed width: any k bits give a result, fewer never succeed. *)
Lemma parses_fixed : forall {A} (f : M (option A)) k (P : A -> list bool -> Prop),
  (forall bs, length bs = k -> exists r, reads f r bs /\ (forall a, r = Some a -> P a bs)) ->
  (forall s a s', wfp s -> 8 * count s < pos s + Z.of_nat k -> f s <> Ok (Some a, s')) ->
  parses f P.
Proof.
  intros A f k P HF HS s a s' HW E.
  destruct (Z_lt_dec (8 * count s) (pos s + Z.of_nat k)) as [L|L]; [exfalso; eapply HS; eauto|].
  destruct (wfp_at _ HW) as (pre & rest & HA & HL & HR).
  destruct HW as (HB & (H1 & H2 & H3) & HC).
  rewrite <- (firstn_skipn k rest) in HA.
  assert (HK : length (firstn k rest) = k) by (rewrite firstn_length; lia).
  destruct (HF (firstn k rest) HK) as (r & HRr & HP).
  destruct (HRr s pre (skipn k rest) HA ltac:(lia)) as (s1 & E1 & HA1 & HC1 & HB1).
  rewrite E in E1. inv_ok E1. exists pre, (firstn k rest), (skipn k rest).
  splits; auto; try lia.
  destruct HA1 as (_ & _ & Y & _). rewrite app_length in Y. lia.
Qed.

Lemma parses_ReadByte : parses BitStream_ReadByte (fun v bs => is_byte v /\ bs = Zbits 8 v).
Proof.
  apply parses_fixed with (k := 8%nat).
  - intros bs Hbs. exists (Some (bval bs)).
    assert (is_byte (bval bs)). { unfold is_byte. pose proof (bval_bounds bs). rewrite Hbs in H. exact H. }
    split.
    + eapply reads_eq; [apply reads_ReadByte; auto|]. rewrite <- Hbs. apply Zbits_bval.
    + intros a E. inv_ok E. split; auto. rewrite <- Hbs. symmetry. apply Zbits_bval.
  - intros s a s' (HB & (H1 & H2 & H3) & HC) HL E. revert E. unfold BitStream_ReadByte, pos in *. run.
    destruct (0 <? curBit s) eqn:E0;
      match goal with |- context [if ?t then _ else _] => destruct t eqn:EC end; try discriminate; lia.
Qed.

Lemma parses_ReadPartialByte : forall n, 1 <= n <= 8 ->
  parses (BitStream_ReadPartialByte n) (fun v bs => 0 <= v < 2 ^ n /\ bs = Zbits (Z.to_nat n) v).
Proof.
  intros n Hn. apply parses_fixed with (k := Z.to_nat n).
  - intros bs Hbs. exists (Some (bval bs)).
    assert (0 <= bval bs < 2 ^ n). { pose proof (bval_bounds bs). rewrite Hbs in H. rewrite Z2Nat.id in H by lia. exact H. }
    split.
    + eapply reads_eq; [apply reads_ReadPartialByte; auto|]. rewrite <- Hbs. apply Zbits_bval.
    + intros a E. inv_ok E. split; auto. rewrite <- Hbs. symmetry. apply Zbits_bval.
  - intros s a s' (HB & (H1 & H2 & H3) & HC) HL E. revert E. unfold BitStream_ReadPartialByte. run.
    destruct (nthZ masksb n) as [m| | |] eqn:EM; run; try discriminate.
    unfold in_stream, pos in *.
    destruct (curBit s + n <=? 8) eqn:E8; run.
    + dn. destruct (curBit s + n =? 8) eqn:E9; run; intro E; cbn [buf count curByte curBit] in E;
      match type of E with context [if ?t then _ else _] => destruct t eqn:? end; try discriminate; lia.
    + dn. dn. cbn [buf count curByte curBit]. 
      match goal with |- context [if ?t then _ else _] => destruct t eqn:? end; try discriminate; lia.
Qed.

(** BitStream_ReadBit as a decoder returning an option. *)
Lemma parses_read_bit : parses read_bit (fun v bs => bs = [v]).
Proof.
  apply parses_fixed with (k := 1%nat).
  - intros [|v [|]] Hbs; cbn in Hbs; try lia. exists (Some v). split; [|intros a E; inv_ok E; auto].
    unfold read_bit. change [v] with ([v] ++ []). eapply reads_bind; [apply reads_ReadBit|]. apply reads_ret.
  - intros s a s' (HB & (H1 & H2 & H3) & HC) HL E. revert E. unfold read_bit, BitStream_ReadBit. run.
    dn. dn. unfold in_stream, pos in *.
    destruct (curBit s <? 7) eqn:E7; run; cbn [fst snd buf count curByte curBit];
      match goal with |- context [if ?t then _ else _] => destruct t eqn:? end; try discriminate; lia.
Qed.

Lemma parses_DecodeOctets : forall n, 0 <= n ->
  parses (BitStream_DecodeOctetString_no_length n)
    (fun d bs => Z.of_nat (length d) = n /\ Forall is_byte d /\ bs = bits_of_bytes d).
Proof.
  intros n Hn. apply parses_fixed with (k := Z.to_nat (8 * n)).
  - intros bs Hbs. destruct (bytes_of_bits_exist (Z.to_nat n) bs) as (d & D1 & D2 & D3); [lia|].
    exists (Some d). split.
    + subst bs. replace n with (Z.of_nat (length d)) by lia. apply reads_DecodeOctets; auto.
    + intros a E. inv_ok E. splits; auto. lia.
  - intros s a s' (HB & (H1 & H2 & H3) & HC) HL E. rewrite DecodeOctets_short in E by lia. discriminate.
Qed.

Lemma parses_ReadBits : forall n, 0 <= n ->
  parses (BitStream_ReadBits n) (fun d bs => Z.of_nat (length bs) = n /\ d = pack bs).
Proof.
  intros n Hn. unfold BitStream_ReadBits. cbv zeta.
  eapply parses_bindo; [apply parses_DecodeOctets; apply Z.quot_pos; lia|].
  intros d bs1 (D1 & D2 & D3). pose proof (Z.quot_rem n 8 ltac:(lia)) as QR.
  pose proof (Z.rem_bound_pos n 8 ltac:(lia) ltac:(lia)) as RB.
  assert (HL : Z.of_nat (length bs1) = 8 * (n ÷ 8)) by (subst bs1; rewrite len_bits_of_bytes; lia).
  destruct (0 <? Z.rem n 8) eqn:E.
  - eapply parses_bindo; [apply parses_ReadPartialByte; lia|]. intros b bs2 [B1 B2].
    apply parses_ret. rewrite app_nil_r. split.
    + rewrite app_length. subst bs2. rewrite len_Zbits. lia.
    + subst bs1. rewrite pack_bytes by auto. f_equal.
      subst bs2. set (r := Z.rem n 8) in *. clearbody r. clear - B1 RB E.
      assert (r = 1 \/ r = 2 \/ r = 3 \/ r = 4 \/ r = 5 \/ r = 6 \/ r = 7) as HR by lia.
      assert (HP : pack (Zbits (Z.to_nat r) b) = [bval (Zbits (Z.to_nat r) b ++ zeros (8 - Z.to_nat r))]).
      { destruct HR as [->|[->|[->|[->|[->|[->| ->]]]]]]; reflexivity. }
      rewrite HP. f_equal. rewrite bval_app, bval_zeros, len_zeros.
      rewrite bval_Zbits_small by (rewrite Z2Nat.id by lia; lia).
      rewrite Z.shiftl_mul_pow2 by lia. unfold byte_of.
      replace (Z.of_nat (8 - Z.to_nat r)) with (8 - r) by lia.
      rewrite Z.mod_small; [lia|]. split; [nia|].
      assert (256 = 2 ^ r * 2 ^ (8 - r)) as ->.
      { rewrite <- Z.pow_add_r by lia. replace (r + (8 - r)) with 8 by lia. reflexivity. }
      nia.
  - apply parses_ret. rewrite app_nil_r. split; [lia|]. subst bs1.
    pose proof (pack_bytes d [] D2) as X. rewrite !app_nil_r in X. symmetry. exact X.
Qed.

(** If the length is known and every value in range is readable, the value is
    determined by the bits. *)
Lemma parses_value : forall (f : M (option Z)) n, 0 <= n ->
  parses f (fun _ bs => Z.of_nat (length bs) = n) ->
  (forall v, 0 <= v < 2 ^ n -> reads f (Some v) (Zbits (Z.to_nat n) v)) ->
  parses f (fun v bs => 0 <= v < 2 ^ n /\ bs = Zbits (Z.to_nat n) v).
Proof.
  intros f n Hn HP HR s a s' HW E. destruct (HP s a s' HW E) as (pre & bs & rest & X1 & X2 & X3 & X4 & X5).
  exists pre, bs, rest. splits; auto; try lia.
  all: assert (HV : 0 <= bval bs < 2 ^ n) by (pose proof (bval_bounds bs) as B; rewrite X4 in B; exact B).
  all: pose proof (HR _ HV) as HR1.
  all: assert (EB : Zbits (Z.to_nat n) (bval bs) = bs) by (apply Zbits_bval_n; lia).
  all: rewrite EB in HR1; destruct (HR1 s pre rest X1 X2) as (s1 & E1 & _).
  all: rewrite E in E1; injection E1; intros; subst; auto; lia.
Qed.

Lemma parses_dec32_bytes : forall k v,
  parses (dec32_bytes k v) (fun _ bs => length bs = (8 * k)%nat).
Proof.
  induction k; intros v; cbn [dec32_bytes]; [apply parses_ret; reflexivity|].
  eapply parses_bindo; [apply parses_ReadByte|]. intros b bs1 [B1 B2].
  eapply parses_weaken; [|apply IHk]. cbv beta. intros a bs H. subst bs1. rewrite app_length, len_Zbits. lia.
Qed.
Lemma parses_Decode32 : forall n, 0 <= n <= 32 ->
  parses (BitStream_DecodeNonNegativeInteger32Neg n) (fun v bs => 0 <= v < 2 ^ n /\ bs = Zbits (Z.to_nat n) v).
Proof.
  intros n Hn. apply parses_value; [lia| |intros; apply reads_Decode32; lia].
  unfold BitStream_DecodeNonNegativeInteger32Neg. destruct (n <? 0); [apply parses_ub|].
  eapply parses_bindo; [apply parses_dec32_bytes|]. cbv beta zeta. intros v bs1 H1.
  destruct (n mod 8 =? 0) eqn:E; [apply parses_ret; rewrite app_nil_r; lia|].
  eapply parses_bindo; [apply parses_ReadPartialByte; lia|]. intros b bs2 [B1 B2]. apply parses_ret.
  subst bs2. rewrite app_nil_r, app_length, len_Zbits. lia.
Qed.
Lemma parses_DecodeNonNeg : forall n, 0 <= n <= 64 ->
  parses (BitStream_DecodeNonNegativeInteger n) (fun v bs => 0 <= v < 2 ^ n /\ bs = Zbits (Z.to_nat n) v).
Proof.
  intros n Hn. apply parses_value; [lia| |intros; apply reads_DecodeNonNeg; lia].
  unfold BitStream_DecodeNonNegativeInteger. destruct (n <=? 32) eqn:E.
  - eapply parses_weaken; [|apply parses_Decode32; lia]. cbv beta. intros a bs [_ H]. subst. rewrite len_Zbits. lia.
  - eapply parses_bindo; [apply parses_Decode32; lia|]. intros hi b1 [_ H1].
    eapply parses_bindo; [apply parses_Decode32; lia|]. intros lo b2 [_ H2].
    destruct (96 <=? n); [apply parses_ub|]. apply parses_ret. subst. rewrite app_nil_r, app_length, !len_Zbits. lia.
Qed.

Lemma parses_DecodeConstraint : forall c min max, is_s64 min -> is_s64 max ->
  sfits c (max - min) ->
  parses (BitStream_DecodeConstraintWholeNumber c min max)
    (fun v bs => min <= v <= max /\ bs = Zbits (crange min max) (v - min)).
Proof.
  intros c min max H1 H2 HF. unfold BitStream_DecodeConstraintWholeNumber.
  apply parses_lift. intros d Ed. rewrite sres_s64 in Ed by auto. inv_ok Ed. cbv zeta. unfold assert_or_false.
  apply parses_massert. intros _. destruct (min <=? max) eqn:EM; [|apply parses_none].
  rewrite u64_sub by (auto; lia).
  destruct (max - min =? 0) eqn:E0.
  { apply parses_ret. split; [lia|]. unfold crange. replace (max - min) with 0 by lia. reflexivity. }
  assert (HU : is_u64 (max - min)) by (unfold is_s64, is_u64, two63, two64 in *; lia).
  rewrite GetNumberOfBits_ok by auto. apply parses_lift. intros n En. inv_ok En.
  eapply parses_bindo; [apply parses_DecodeNonNeg; apply nbits_u64; auto|]. intros uv bs [V1 V2].
  destruct (max - min <? uv) eqn:E; [apply parses_none|].
  apply parses_lift. intros v Ev. 
  assert (v = uv + min).
  { unfold sres in Ev. destruct (s64_cong uv) as [k Hk].
    assert (HK : s64 (s64 uv + min) = uv + min).
    { rewrite Hk. replace (uv + k * two64 + min) with (uv + min + k * two64) by lia. rewrite s64_add_k. apply s64_id.
      unfold is_s64 in *. lia. }
    destruct (in_s64 (s64 uv + min)) eqn:EI.
    - inv_ok Ev. apply in_s64_iff in EI. rewrite s64_id in HK by auto. auto.
    - destruct (ovf_wrap c); try discriminate. inv_ok Ev. auto. }
  subst v. apply parses_ret. rewrite app_nil_r. split; [lia|]. unfold crange.
  replace (uv + min - min) with uv by lia. auto.
Qed.

Lemma parses_DecodeConstraintPos : forall c min max, 0 <= min -> max < two64 ->
  parses (BitStream_DecodeConstraintPosWholeNumber c min max)
    (fun v bs => min <= v <= max /\ bs = Zbits (crange min max) (v - min)).
Proof.
  intros c min max H1 H2. unfold BitStream_DecodeConstraintPosWholeNumber.
  cbv zeta. unfold assert_or_false.
  apply parses_massert. intros _. destruct (min <=? max) eqn:EM; [|apply parses_none].
  assert (HU : is_u64 (max - min)) by (unfold is_u64, two64 in *; lia).
  rewrite (u64_id (max - min)) by auto.
  destruct (max - min =? 0) eqn:E0.
  { apply parses_ret. split; [lia|]. unfold crange. replace (max - min) with 0 by lia. reflexivity. }
  rewrite GetNumberOfBits_ok by auto. apply parses_lift. intros n En. inv_ok En.
  eapply parses_bindo; [apply parses_DecodeNonNeg; apply nbits_u64; auto|]. intros uv bs [V1 V2].
  destruct (max - min <? uv) eqn:E; [apply parses_none|].
  rewrite u64_id by (unfold is_u64, two64 in *; lia).
  apply parses_ret. rewrite app_nil_r. split; [lia|]. unfold crange.
  replace (uv + min - min) with uv by lia. auto.
Qed.

Lemma parses_u8 : forall c, parses (BitStream_DecodeConstraintWholeNumber c 0 0xFF)
  (fun v bs => 0 <= v <= 255 /\ bs = Zbits 8 v).
Proof.
  intros c. eapply parses_weaken; [|apply parses_DecodeConstraint; unfold sfits, is_s64, two63; try lia; left; unfold is_s64, two63; lia].
  cbv beta. intros v bs [V1 V2]. split; auto. rewrite Z.sub_0_r in V2. exact V2.
Qed.

(** Semi-constrained: the length octet says how many octets follow. *)
Lemma parses_dec_ubytes : forall k v, parses (dec_ubytes k v) (fun _ bs => length bs = (8 * k)%nat).
Proof.
  induction k; intros v; cbn [dec_ubytes]; [apply parses_ret; reflexivity|].
  eapply parses_bindo; [apply parses_ReadByte|]. intros b bs1 [B1 B2].
  eapply parses_weaken; [|apply IHk]. cbv beta. intros a bs H. subst bs1. rewrite app_length, len_Zbits. lia.
Qed.
Lemma parses_dec_sbytes : forall c k v, parses (dec_sbytes c k v) (fun _ bs => length bs = (8 * k)%nat).
Proof.
  induction k; intros v; cbn [dec_sbytes]; [apply parses_ret; reflexivity|].
  eapply parses_bindo; [apply parses_ReadByte|]. intros b bs1 [B1 B2].
  apply parses_lift. intros w _.
  eapply parses_weaken; [|apply IHk]. cbv beta. intros a bs H. subst bs1. rewrite app_length, len_Zbits. lia.
Qed.
Lemma parses_DecodeSemi : forall c min,
  parses (BitStream_DecodeSemiConstraintWholeNumber c min)
    (fun _ bs => exists n, 0 <= n <= 8 /\ firstn 8 bs = Zbits 8 n /\ Z.of_nat (length bs) = 8 + 8 * n).
Proof.
  intros c min. unfold BitStream_DecodeSemiConstraintWholeNumber.
  eapply parses_bindo; [apply parses_u8|]. intros n b1 [N1 N2].
  destruct (8 <? n) eqn:E; [apply parses_none|].
  eapply parses_bindo; [apply parses_dec_sbytes|]. intros v b2 V. cbv beta in V. apply parses_lift. intros r _. apply parses_ret.
  exists n. rewrite app_nil_r. subst b1. splits; try lia.
  - rewrite firstn_app, len_Zbits, firstn_all2 by (rewrite len_Zbits; lia).
    replace (8 - 8)%nat with 0%nat by lia. now rewrite firstn_O, app_nil_r.
  - rewrite app_length, len_Zbits. lia.
Qed.
Lemma parses_DecodeSemiPos : forall c min,
  parses (BitStream_DecodeSemiConstraintPosWholeNumber c min)
    (fun _ bs => exists n, 0 <= n <= 8 /\ firstn 8 bs = Zbits 8 n /\ Z.of_nat (length bs) = 8 + 8 * n).
Proof.
  intros c min. unfold BitStream_DecodeSemiConstraintPosWholeNumber.
  eapply parses_bindo; [apply parses_u8|]. intros n b1 [N1 N2].
  destruct (8 <? n) eqn:E; [apply parses_none|].
  eapply parses_bindo; [apply parses_dec_ubytes|]. intros v b2 V. cbv beta in V. apply parses_ret.
  exists n. rewrite app_nil_r. subst b1. splits; try lia.
  - rewrite firstn_app, len_Zbits, firstn_all2 by (rewrite len_Zbits; lia).
    replace (8 - 8)%nat with 0%nat by lia. now rewrite firstn_O, app_nil_r.
  - rewrite app_length, len_Zbits. lia.
Qed.

(** ** Consequences *)
(** A truncated encoding never decodes: if [f] reads [bs] as [a], then with only
    a proper prefix of [bs] declared, [f] does not succeed. *)
Lemma parses_truncated : forall {A} (f : M (option A)) P a bs s pre rest, parses f P -> reads f (Some a) bs ->
  at_ s pre (bs ++ rest) -> wfp s -> 8 * count s < Z.of_nat (length pre + length bs) ->
  forall b s', f s <> Ok (Some b, s').
Proof.
  intros A f P a bs s pre rest HP HR HA HW HL b s' E.
  destruct (HP s b s' HW E) as (pre1 & bs1 & rest1 & X1 & X2 & X3 & X4 & X5).
  destruct (at_uniq _ _ _ _ _ HA X1) as [E1 E2]. subst pre1.
  (* the same memory with a larger declared size *)
  set (big := mkbs (buf s) (Z.of_nat (length pre + length bs)) (curByte s) (curBit s)).
  assert (HAb : forall p r, at_ s p r -> at_ big p r) by (intros p r H; exact H).
  destruct (HR big pre rest (HAb _ _ HA)) as (s1 & F1 & G1 & _); [unfold big; cbn [count]; lia|].
  destruct (X3 big pre rest1 (HAb _ _ X1)) as (s2 & F2 & G2 & _); [unfold big; cbn [count]; lia|].
  rewrite F1 in F2. assert (s1 = s2) by congruence. subst s2.
  destruct G1 as (_ & _ & L1 & _). destruct G2 as (_ & _ & L2 & _). rewrite !app_length in *. lia.
Qed.

(** ** [tamed] *)
Lemma tamed_of : forall {A} (f : M (option A)) P, tame f -> yields f P -> tamed f P.
Proof.
  intros A f P HT HY s r s' HB HI E. destruct (HT s r s' HI E) as (X1 & X2 & X3 & X4 & X5).
  destruct (HY s r s' HB E) as [_ Y]. splits; auto; try lia. destruct r; auto. split; auto. apply X5. discriminate.
Qed.
Lemma tamed_tame : forall {A} (f : M (option A)), tame f -> tamed f (fun _ => True).
Proof.
  intros A f HT s r s' HB HI E. destruct (HT s r s' HI E) as (X1 & X2 & X3 & X4 & X5).
  splits; auto; try lia. destruct r; auto. split; auto. apply X5. discriminate.
Qed.
Lemma tamed_bindo : forall {A B} (f : M (option A)) (g : A -> M (option B)) P Q,
  tamed f P -> (forall a, P a -> tamed (g a) Q) -> tamed (let? x := f in g x) Q.
Proof.
  intros A B f g P Q HF HG s r s' HB HI E. unfold bindo, bind in E.
  destruct (f s) as [[[a|] s1]| | |] eqn:EF; try discriminate.
  - destruct (HF s (Some a) s1 HB HI EF) as (X1 & X2 & X3 & X4 & X5 & X6).
    assert (HI1 : inside s1). { unfold inside, pos in *. splits; try tauto; lia. }
    assert (HB1 : Forall is_byte (buf s1)) by (rewrite X1; auto).
    destruct (HG a X6 s1 r s' HB1 HI1 E) as (Y1 & Y2 & Y3 & Y4 & Y5).
    splits; auto; try congruence; lia.
  - destruct (HF s None s1 HB HI EF) as (X1 & X2 & X3 & X4 & _). unfold ret in E. inv_ok E. splits; auto; try lia.
Qed.
Lemma tamed_some : forall {A} (a : A) (P : A -> Prop), P a -> tamed (ret (Some a)) P.
Proof. intros A a P HP s r s' HB (H1 & H2 & H3) E. inv_ok E. splits; auto; lia. Qed.
Lemma tamed_none : forall {A} (P : A -> Prop), tamed (ret None) P.
Proof. intros A P s r s' HB (H1 & H2 & H3) E. inv_ok E. splits; auto; lia. Qed.
Lemma tamed_diverge : forall {A} (P : A -> Prop), tamed diverge P.
Proof. intros A P s r s' HB HI E. discriminate. Qed.
Lemma tamed_ub : forall {A} (P : A -> Prop), tamed ub P.
Proof. intros A P s r s' HB HI E. discriminate. Qed.
Lemma tamed_lift : forall {A B} (o : outcome A) (g : A -> M (option B)) Q,
  (forall a, o = Ok a -> tamed (g a) Q) -> tamed (let* x := lift o in g x) Q.
Proof. intros A B o g Q HG s r s' HB HI E. unfold bind, lift in E. destruct o; try discriminate. eapply HG; eauto. Qed.
Lemma tamed_massert : forall {B} c b (g : M (option B)) Q, tamed g Q -> tamed (massert c b ;;; g) Q.
Proof. intros B c b g Q HG s r s' HB HI E. unfold bind, massert in E. destruct (b || ndebug c); try discriminate. eapply HG; eauto. Qed.
Lemma tamed_weaken : forall {A} (f : M (option A)) (P Q : A -> Prop), (forall a, P a -> Q a) -> tamed f P -> tamed f Q.
Proof.
  intros A f P Q H HT s r s' HB HI E. destruct (HT s r s' HB HI E) as (X1 & X2 & X3 & X4 & X5).
  splits; auto; try lia. destruct r; auto. destruct X5; auto.
Qed.
Lemma tamed_ext : forall {A} (f g : M (option A)) P, (forall s, f s = g s) -> tamed f P -> tamed g P.
Proof. intros A f g P H HT s r s' HB HI E. rewrite <- H in E. eapply HT; eauto. Qed.
Lemma tamed_u8 : forall c, tamed (BitStream_DecodeConstraintWholeNumber c 0 0xFF) (fun v => 0 <= v <= 255).
Proof.
  intros c. apply tamed_of; [apply tame_DecodeConstraint|apply yields_DecodeConstraint; unfold is_s64, two63; lia].
Qed.
