(** Safety contracts of the bit stream readers and integer decoders. *)
From Verif Require Import Base Bits BitStream Ints Contracts BitsProofs BitStreamProofs BitStreamProofs2 BitStreamProofs3 IntsProofs.
From Coq Require Import ZifyBool ZifyNat.
Ltac Zify.zify_post_hook ::= Z.div_mod_to_equations.

Lemma safe_ret_some : forall {A} (a : A) (P : A -> Prop), P a -> safe (ret (Some a)) P.
Proof.
  intros A a P HP s (HB & H1 & H2 & H3 & H4). exists (Some a), s. unfold ret. splits; auto; lia.
Qed.
Lemma safe_ret_none : forall {A} (P : A -> Prop), safe (ret None) P.
Proof.
  intros A P s (HB & H1 & H2 & H3 & H4). exists None, s. unfold ret. splits; auto; lia.
Qed.

Lemma safe_weaken : forall {A} (f : M (option A)) (P Q : A -> Prop),
  (forall a, P a -> Q a) -> safe f P -> safe f Q.
Proof.
  intros A f P Q HPQ HS s HW. destruct (HS s HW) as (r & s' & E & E1 & E2 & E3 & E4 & E5).
  exists r, s'. splits; auto; try lia. destruct r; auto. destruct E5; split; auto.
Qed.

Lemma safe_ext : forall {A} (f g : M (option A)) P, (forall s, f s = g s) -> safe f P -> safe g P.
Proof.
  intros A f g P H HS s HW. destruct (HS s HW) as (r & s' & E & R). exists r, s'. rewrite <- H. auto.
Qed.

(** What the state satisfies after a successful step. *)
Lemma wfs_step : forall s s', wfs s -> buf s' = buf s -> count s' = count s ->
  pos s <= pos s' -> 0 <= curBit s' < 8 -> pos s' <= 8 * count s' -> wfs s'.
Proof.
  intros s s' (HB & H1 & H2 & H3 & H4) E1 E2 E3 E4 E5. unfold wfs.
  rewrite E1, E2 in *. unfold pos in *. splits; auto; lia.
Qed.

Lemma safe_bindo : forall {A B} (f : M (option A)) (g : A -> M (option B)) P Q,
  safe f P -> (forall a, P a -> safe (g a) Q) -> safe (let? x := f in g x) Q.
Proof.
  intros A B f g P Q HF HG s HW.
  destruct (HF s HW) as (r & s' & E & E1 & E2 & E3 & E4 & E5).
  unfold bindo, bind. rewrite E. destruct r as [a|].
  - destruct E5 as [E5 HP]. pose proof (wfs_step s s' HW E1 E2 E3 E4 E5) as HW'.
    destruct (HG a HP s' HW') as (r & s2 & F & F1 & F2 & F3 & F4 & F5).
    exists r, s2. splits; auto; try congruence; lia.
  - exists None, s'. unfold ret. splits; auto; lia.
Qed.

Lemma safe_pure_l : forall {A B} (f : M A) (g : A -> M (option B)) (a : A) P,
  (forall s, f s = Ok (a, s)) -> safe (g a) P -> safe (let* x := f in g x) P.
Proof.
  intros A B f g a P HF HG s HW. unfold bind. rewrite HF. apply HG; auto.
Qed.

Lemma in_stream_pos : forall s, in_stream s = (pos s <=? 8 * count s).
Proof. intros. unfold in_stream, pos. f_equal; lia. Qed.

Lemma nthZ_ok : forall l i, Forall is_byte l -> 0 <= i < Z.of_nat (length l) ->
  exists b, nthZ l i = Ok b /\ is_byte b.
Proof.
  intros l i HB Hi. unfold nthZ. replace (i <? 0) with false by lia.
  destruct (nth_error l (Z.to_nat i)) as [b|] eqn:E.
  - exists b. split; auto. apply nth_error_In in E. rewrite Forall_forall in HB. auto.
  - apply nth_error_None in E. lia.
Qed.

(** *** ReadBit, as a decoder *)
Definition read_bit : M (option bool) :=
  let* r := BitStream_ReadBit in ret (if fst r then Some (snd r) else None).

Lemma ReadBit_run : forall s, wfs s -> exists b,
  BitStream_ReadBit s = Ok ((pos s + 1 <=? 8 * count s, b),
    mkbs (buf s) (count s) ((pos s + 1) / 8) ((pos s + 1) mod 8)).
Proof.
  intros s (HB & H1 & H2 & H3 & H4). unfold BitStream_ReadBit.
  destruct (nthZ_ok (buf s) (curByte s)) as (b & E & Hb); auto. { unfold pos in *; lia. }
  exists (negb (Z.land b (2 ^ (7 - curBit s)) =? 0)).
  run. rewrite nthZ_masks by lia. run. rewrite E. run.
  destruct (curBit s <? 7) eqn:EC; cbn [buf count curByte curBit]; rewrite in_stream_pos; unfold pos;
    cbn [buf count curByte curBit].
  - replace ((8 * curByte s + curBit s + 1) / 8) with (curByte s) by lia.
    replace ((8 * curByte s + curBit s + 1) mod 8) with (curBit s + 1) by lia.
    rewrite Z.add_assoc. reflexivity.
  - replace ((8 * curByte s + curBit s + 1) / 8) with (curByte s + 1) by lia.
    replace ((8 * curByte s + curBit s + 1) mod 8) with 0 by lia.
    replace (8 * (curByte s + 1) + 0) with (8 * curByte s + curBit s + 1) by lia. reflexivity.
Qed.

Lemma pos_mk : forall m c p, pos (mkbs m c (p / 8) (p mod 8)) = p.
Proof. intros. unfold pos. cbn [curByte curBit]. lia. Qed.

Lemma safe_read_bit : safe read_bit (fun _ => True).
Proof.
  intros s HW. destruct (ReadBit_run s HW) as (b & E).
  unfold read_bit, bind, ret. rewrite E. cbn [fst snd].
  eexists _, _. splits; try reflexivity; rewrite ?pos_mk; cbn [curBit count]; try lia.
  destruct (pos s + 1 <=? 8 * count s) eqn:EE; [|auto]. split; auto; lia.
Qed.

Lemma PeekBit_run : forall s, wfs s -> exists b, BitStream_PeekBit s = Ok (b, s).
Proof.
  intros s (HB & H1 & H2 & H3 & H4). unfold BitStream_PeekBit.
  destruct (nthZ_ok (buf s) (curByte s)) as (b & E & Hb); auto. { unfold pos in *; lia. }
  eexists. run. rewrite nthZ_masks by lia. run. rewrite E. run. reflexivity.
Qed.

Lemma safe_PeekBit : forall {B} (g : bool -> M (option B)) P,
  (forall b, safe (g b) P) -> safe (let* x := BitStream_PeekBit in g x) P.
Proof.
  intros B g P HG s HW. destruct (PeekBit_run s HW) as (b & E). unfold bind. rewrite E. apply HG; auto.
Qed.

Lemma safe_ReadByte : safe BitStream_ReadByte is_byte.
Proof.
  intros s (HB & H1 & H2 & H3 & H4). unfold BitStream_ReadByte. run.
  destruct (count s - curByte s <? (if 0 <? curBit s then 2 else 1)) eqn:E.
  { exists None, s. splits; auto; lia. }
  destruct (nthZ_ok (buf s) (curByte s)) as (b & EB & Hb); auto. { unfold pos in *. destruct (0 <? curBit s); lia. }
  rewrite EB. run. destruct (0 <? curBit s) eqn:EC.
  - destruct (nthZ_ok (buf s) (curByte s + 1)) as (b2 & EB2 & Hb2); auto. { unfold pos in *; lia. }
    run. rewrite EB2. run. eexists _, _. splits; try reflexivity; unfold pos in *; cbn [curByte curBit count]; try lia.
    split; [lia|isbyte].
  - eexists _, _. splits; try reflexivity; unfold pos in *; cbn [curByte curBit count]; try lia.
    split; [lia|isbyte].
Qed.

Lemma byte_of_nn : forall x, 0 <= byte_of x < 256.
Proof. intros. apply is_byte_byte_of. Qed.

Lemma land_mask_range : forall x n, 0 <= n -> 0 <= Z.land x (2 ^ n - 1) < 2 ^ n.
Proof.
  intros. replace (2 ^ n - 1) with (Z.ones n) by (rewrite Z.ones_equiv; lia).
  rewrite Z.land_ones by lia. apply Z.mod_pos_bound. apply Z.pow_pos_nonneg; lia.
Qed.

Lemma safe_ReadPartialByte : forall n, 1 <= n <= 8 ->
  safe (BitStream_ReadPartialByte n) (fun v => 0 <= v < 2 ^ n).
Proof.
  intros n Hn s (HB & H1 & H2 & H3 & H4). unfold BitStream_ReadPartialByte. run.
  rewrite nthZ_masksb by lia. run.
  destruct (nthZ_ok (buf s) (curByte s)) as (b & EB & Hb); auto. { unfold pos in *; lia. }
  assert (R : forall x, 0 <= byte_of (Z.land x (2 ^ n - 1)) < 2 ^ n).
  { intros. pose proof (land_mask_range x n ltac:(lia)).
    assert (2 ^ n <= 2 ^ 8) by (apply Z.pow_le_mono_r; lia).
    unfold byte_of. rewrite Z.mod_small by lia. auto. }
  destruct (curBit s + n <=? 8) eqn:E1.
  - rewrite EB. run. destruct (curBit s + n =? 8) eqn:E2; cbn [buf count curByte curBit]; rewrite in_stream_pos;
      eexists _, _; splits; try reflexivity; unfold pos in *; cbn [curByte curBit count]; try lia.
    all: match goal with |- match (if ?t then _ else _) with _ => _ end => destruct t eqn:E3 end; auto.
    all: cbn [curByte curBit count]; split; [lia|apply R].
  - rewrite EB. run. destruct (curByte s + 1 <? Z.of_nat (length (buf s))) eqn:E3.
    + destruct (nthZ_ok (buf s) (curByte s + 1)) as (b2 & EB2 & Hb2); auto. { lia. }
      run. rewrite EB2. run. cbn [buf count curByte curBit]; rewrite in_stream_pos;
      eexists _, _; splits; try reflexivity; unfold pos in *; cbn [curByte curBit count]; try lia.
      match goal with |- match (if ?t then _ else _) with _ => _ end => destruct t eqn:E4 end; auto.
      cbn [curByte curBit count]; split; [lia|apply land_mask_range; lia].
    + (* only with pos = 8*count and curBit > 0: impossible *)
      exfalso. unfold pos in *. lia.
Qed.

(** *** Byte arrays *)
Lemma read_loop_run : forall k i cb s, Forall is_byte (buf s) -> 0 <= i ->
  i + Z.of_nat k < Z.of_nat (length (buf s)) ->
  exists ws, read_loop i cb (8 - cb) k s = Ok (ws, s) /\ length ws = k /\ Forall is_byte ws.
Proof.
  induction k; intros i cb s HB Hi HL.
  - exists []. cbn. auto.
  - destruct (nthZ_ok (buf s) i) as (b & E & Hb); auto; [lia|].
    destruct (nthZ_ok (buf s) (i + 1)) as (b2 & E2 & Hb2); auto; [lia|].
    destruct (IHk (i + 1) cb s) as (ws & EW & LW & FW); auto; try lia.
    cbn [read_loop]. run. rewrite E. run. rewrite E2. run. rewrite EW. run.
    eexists. split; [reflexivity|]. cbn [length]. split; [lia|]. constructor; auto. isbyte.
Qed.

Lemma safe_DecodeOctets : forall n, 0 <= n ->
  safe (BitStream_DecodeOctetString_no_length n) (fun d => Z.of_nat (length d) = n /\ Forall is_byte d).
Proof.
  intros n Hn s (HB & H1 & H2 & H3 & H4). unfold BitStream_DecodeOctetString_no_length, BitStream_ReadByteArray.
  unfold pos in *. run.
  destruct (curBit s =? 0) eqn:EC.
  - destruct (curByte s + n <=? count s) eqn:E.
    + unfold rd_many. destruct ((curByte s <? 0) || (n <? 0) || (Z.of_nat (length (buf s)) <? curByte s + n)) eqn:EO; [lia|].
      run. eexists _, _. splits; try reflexivity; unfold pos; cbn [curByte curBit count]; try lia.
      split; [lia|]. split.
      * rewrite firstn_length, skipn_length. lia.
      * apply Forall_firstn. apply Forall_skipn. auto.
    + exists None, s. splits; auto; lia.
  - destruct (count s * 8 <? (curByte s + n) * 8 + curBit s) eqn:E.
    + exists None, s. splits; auto; lia.
    + destruct (read_loop_run (Z.to_nat n) (curByte s) (curBit s) s) as (ws & EW & LW & FW); auto; [lia|].
      rewrite EW. run. eexists _, _. splits; try reflexivity; unfold pos; cbn [curByte curBit count]; try lia.
      split; [lia|]. split; auto. lia.
Qed.

(** When not enough data is left the byte decoder says so (C11). *)
Lemma DecodeOctets_short : forall n s, 0 <= curBit s < 8 -> 8 * count s < pos s + 8 * n ->
  BitStream_DecodeOctetString_no_length n s = Ok (None, s).
Proof.
  intros n s H2 HS. unfold BitStream_DecodeOctetString_no_length, BitStream_ReadByteArray, pos in *. run.
  destruct (curBit s =? 0) eqn:EC.
  - replace (curByte s + n <=? count s) with false by lia. reflexivity.
  - replace (count s * 8 <? (curByte s + n) * 8 + curBit s) with true by lia. reflexivity.
Qed.

Lemma safe_ReadBits : forall n, 0 <= n ->
  safe (BitStream_ReadBits n) (fun d => Z.of_nat (length d) = (n + 7) / 8 /\ Forall is_byte d).
Proof.
  intros n Hn. unfold BitStream_ReadBits. cbv zeta.
  rewrite Z.quot_div_nonneg, Z.rem_mod_nonneg by lia.
  eapply safe_bindo; [apply safe_DecodeOctets; lia|]. intros d [LD FD]. cbv beta.
  destruct (0 <? n mod 8) eqn:E.
  - eapply safe_bindo; [apply safe_ReadPartialByte; lia|]. intros b Hb. apply safe_ret_some.
    rewrite app_length. cbn [length]. split; [lia|]. apply Forall_app. split; auto. constructor; auto. isbyte.
  - apply safe_ret_some. split; auto. lia.
Qed.

(** *** Integers *)
Lemma safe_dec32_bytes : forall k v, 0 <= v -> v * 2 ^ (8 * Z.of_nat k) + 2 ^ (8 * Z.of_nat k) <= 2 ^ 32 ->
  safe (dec32_bytes k v) (fun r => v * 2 ^ (8 * Z.of_nat k) <= r < (v + 1) * 2 ^ (8 * Z.of_nat k)).
Proof.
  induction k; intros v HV HB.
  - apply safe_ret_some. cbn. lia.
  - assert (P : 2 ^ (8 * Z.of_nat (S k)) = 256 * 2 ^ (8 * Z.of_nat k)).
    { change 256 with (2 ^ 8). rewrite <- Z.pow_add_r by lia. f_equal. lia. }
    rewrite P in *. assert (Q : 0 < 2 ^ (8 * Z.of_nat k)) by (apply Z.pow_pos_nonneg; lia).
    set (q := 2 ^ (8 * Z.of_nat k)) in *.
    cbn [dec32_bytes]. eapply safe_bindo; [apply safe_ReadByte|]. intros b Hb. unfold is_byte in Hb. cbv beta.
    assert (E : Z.lor (u32 (Z.shiftl v 8)) b = v * 2 ^ 8 + b).
    { unfold u32, two32. apply shl_lor_u; change (2 ^ 8) with 256; try lia; nia. }
    rewrite E. change (2 ^ 8) with 256. eapply safe_weaken; [|apply IHk; fold q; nia].
    fold q. cbv beta. intros. nia.
Qed.

Lemma safe_Decode32 : forall n, 0 <= n <= 32 ->
  safe (BitStream_DecodeNonNegativeInteger32Neg n) (fun v => 0 <= v < 2 ^ n).
Proof.
  intros n Hn. unfold BitStream_DecodeNonNegativeInteger32Neg. replace (n <? 0) with false by lia.
  set (k := Z.to_nat (n / 8)).
  assert (PN : 2 ^ n = 2 ^ (8 * Z.of_nat k) * 2 ^ (n mod 8)).
  { rewrite <- Z.pow_add_r by lia. f_equal. lia. }
  assert (PK : 2 ^ (8 * Z.of_nat k) <= 2 ^ 32) by (apply Z.pow_le_mono_r; lia).
  assert (PT : 2 ^ n <= 2 ^ 32) by (apply Z.pow_le_mono_r; lia).
  assert (Q0 : 0 < 2 ^ (n mod 8)) by (apply Z.pow_pos_nonneg; lia).
  eapply safe_bindo; [apply safe_dec32_bytes; lia|]. cbv beta. intros v Hv.
  destruct (n mod 8 =? 0) eqn:E.
  - apply safe_ret_some. replace (n mod 8) with 0 in * by lia. rewrite PN. change (2 ^ 0) with 1. lia.
  - eapply safe_bindo; [apply safe_ReadPartialByte; lia|]. cbv beta. intros b Hb. apply safe_ret_some.
    assert (EL : Z.lor (u32 (Z.shiftl v (n mod 8))) b = v * 2 ^ (n mod 8) + b).
    { unfold u32, two32. apply shl_lor_u; try lia; nia. }
    rewrite EL, PN. nia.
Qed.

Lemma safe_DecodeNonNeg : forall n, 0 <= n <= 64 ->
  safe (BitStream_DecodeNonNegativeInteger n) (fun v => 0 <= v < 2 ^ n).
Proof.
  intros n Hn. unfold BitStream_DecodeNonNegativeInteger. destruct (n <=? 32) eqn:E.
  { apply safe_Decode32; lia. }
  eapply safe_bindo; [apply safe_Decode32; lia|]. cbv beta. intros hi Hhi.
  eapply safe_bindo; [apply safe_Decode32; lia|]. cbv beta. intros lo Hlo.
  replace (96 <=? n) with false by lia. apply safe_ret_some.
  assert (P : 2 ^ n = 2 ^ 32 * 2 ^ (n - 32)) by (rewrite <- Z.pow_add_r by lia; f_equal; lia).
  assert (P64 : 2 ^ n <= 2 ^ 64) by (apply Z.pow_le_mono_r; lia).
  assert (Q0 : 0 < 2 ^ (n - 32)) by (apply Z.pow_pos_nonneg; lia).
  assert (EL : Z.lor (u64 (Z.shiftl hi (n - 32))) lo = hi * 2 ^ (n - 32) + lo).
  { unfold u64, two64. apply shl_lor_u; try lia; nia. }
  rewrite EL, P. nia.
Qed.

Lemma safe_DecodeConstraint : forall c min max, is_s64 min -> is_s64 max -> min <= max ->
  sfits c (max - min) ->
  safe (BitStream_DecodeConstraintWholeNumber c min max) (fun v => min <= v <= max).
Proof.
  intros c min max Hmin Hmax Hle HF. unfold BitStream_DecodeConstraintWholeNumber.
  eapply safe_pure_l with (a := s64 (max - min)). { intros. unfold lift. rewrite sres_s64; auto. }
  cbv zeta. rewrite u64_sub by (auto; lia). unfold assert_or_false. replace (min <=? max) with true by lia.
  eapply safe_pure_l with (a := tt). { intros. apply massert_true. lia. }
  assert (HR : is_u64 (max - min)) by (unfold is_s64, is_u64, two63, two64 in *; lia).
  destruct (max - min =? 0) eqn:E. { apply safe_ret_some. lia. }
  eapply safe_pure_l with (a := nbits (max - min)). { intros. unfold lift. rewrite GetNumberOfBits_ok; auto. }
  pose proof (nbits_u64 _ HR). pose proof (nbits_bound (max - min)).
  eapply safe_bindo; [apply safe_DecodeNonNeg; lia|]. cbv beta. intros uv Huv.
  destruct (max - min <? uv) eqn:EU; [apply safe_ret_none|].
  assert (Hv : is_s64 (uv + min)) by (unfold is_s64 in *; lia).
  eapply safe_pure_l with (a := uv + min).
  - intros. unfold lift. destruct (s64_cong uv) as [k Hk]. rewrite sres_s64.
    + rewrite Hk. replace (uv + k * two64 + min) with (uv + min + k * two64) by lia.
      rewrite s64_add_k, s64_id; auto.
    + destruct HF as [HF|HF]; [left|right; auto].
      rewrite s64_id; auto. unfold is_s64, two63 in *; lia.
  - apply safe_ret_some. lia.
Qed.

Lemma safe_DecodeConstraintPos : forall c min max, 0 <= min -> max < two64 -> min <= max ->
  safe (BitStream_DecodeConstraintPosWholeNumber c min max) (fun v => min <= v <= max).
Proof.
  intros c min max Hmin Hmax Hle. unfold BitStream_DecodeConstraintPosWholeNumber.
  assert (HR : is_u64 (max - min)) by (unfold is_u64 in *; lia).
  cbv zeta. rewrite !u64_id by auto. unfold assert_or_false. replace (min <=? max) with true by lia.
  eapply safe_pure_l with (a := tt). { intros. apply massert_true. lia. }
  destruct (max - min =? 0) eqn:E. { apply safe_ret_some. lia. }
  eapply safe_pure_l with (a := nbits (max - min)). { intros. unfold lift. rewrite GetNumberOfBits_ok; auto. }
  pose proof (nbits_u64 _ HR). pose proof (nbits_bound (max - min)).
  eapply safe_bindo; [apply safe_DecodeNonNeg; lia|]. cbv beta. intros uv Huv.
  destruct (max - min <? uv) eqn:EU; [apply safe_ret_none|].
  apply safe_ret_some. rewrite u64_id; [lia|]. unfold is_u64; lia.
Qed.

Lemma safe_DecodeConstraintIntN : forall c w min max, w = 8 \/ w = 16 \/ w = 32 ->
  - 2 ^ (w - 1) <= min -> max < 2 ^ (w - 1) -> min <= max ->
  safe (BitStream_DecodeConstraintWholeNumberIntN c w min max) (fun v => min <= v <= max).
Proof.
  intros c w min max W Hmin Hmax Hv. unfold BitStream_DecodeConstraintWholeNumberIntN.
  assert (2 ^ (w - 1) <= 2 ^ 31) by (apply Z.pow_le_mono_r; lia).
  eapply safe_bindo.
  - apply safe_DecodeConstraint; auto; try (unfold is_s64, two63; lia). left. unfold is_s64, two63; lia.
  - cbv beta. intros v Hv'. apply safe_ret_some. rewrite sN_id; lia.
Qed.

Lemma safe_DecodeConstraintUIntN : forall c w min max, w = 8 \/ w = 16 \/ w = 32 ->
  0 <= min -> max < 2 ^ w -> min <= max ->
  safe (BitStream_DecodeConstraintPosWholeNumberUIntN c w min max) (fun v => min <= v <= max).
Proof.
  intros c w min max W Hmin Hmax Hv. unfold BitStream_DecodeConstraintPosWholeNumberUIntN.
  assert (2 ^ w <= 2 ^ 32) by (apply Z.pow_le_mono_r; lia).
  eapply safe_bindo.
  - apply safe_DecodeConstraintPos; auto. unfold two64; lia.
  - cbv beta. intros v Hv'. apply safe_ret_some. rewrite Z.mod_small; lia.
Qed.

Lemma safe_len255 : forall c, safe (BitStream_DecodeConstraintWholeNumber c 0 255) (fun n => 0 <= n <= 255).
Proof. intros. apply safe_DecodeConstraint; try (unfold is_s64, two63; lia). left. unfold is_s64, two63; lia. Qed.

(** Signed accumulation. *)
Lemma safe_dec_sbytes : forall c k v, shl_wrap c = true -> is_s64 v -> safe (dec_sbytes c k v) is_s64.
Proof.
  intros c k. induction k; intros v HC HV.
  - apply safe_ret_some. auto.
  - cbn [dec_sbytes]. eapply safe_bindo; [apply safe_ReadByte|]. intros b Hb. cbv beta.
    eapply safe_pure_l with (a := s64 (v * 256)).
    { intros. unfold lift, sshl. change (2 ^ 8) with 256. rewrite HC.
      destruct ((0 <=? v) && in_s64 (v * 256)) eqn:E; [|reflexivity].
      apply andb_true_iff in E. destruct E as [_ E]. apply in_s64_iff in E. rewrite s64_id; auto. }
    rewrite s64_lor_byte by (exact Hb). apply IHk; auto. apply s64_range.
Qed.

Lemma safe_dec_ubytes : forall k v, is_u64 v -> safe (dec_ubytes k v) is_u64.
Proof.
  intros k. induction k; intros v HV.
  - apply safe_ret_some. auto.
  - cbn [dec_ubytes]. eapply safe_bindo; [apply safe_ReadByte|]. intros b Hb. cbv beta. apply IHk.
    unfold is_u64, is_byte, u64, two64 in *.
    assert (E : Z.shiftl v 8 mod 2 ^ 64 = (v mod 2 ^ 56) * 2 ^ 8).
    { rewrite Z.shiftl_mul_pow2 by lia. change (2 ^ 64) with (2 ^ 56 * 2 ^ 8).
      rewrite Z.mul_mod_distr_r by lia. reflexivity. }
    rewrite E. rewrite lor_add by (change (2 ^ 8) with 256; lia).
    pose proof (Z.mod_pos_bound v (2 ^ 56)). change (2 ^ 64) with (2 ^ 56 * 2 ^ 8). change (2 ^ 8) with 256. nia.
Qed.

Lemma safe_DecodeSemi : forall c min, shl_wrap c = true -> ovf_wrap c = true -> is_s64 min ->
  safe (BitStream_DecodeSemiConstraintWholeNumber c min) is_s64.
Proof.
  intros c min HC HO Hm. unfold BitStream_DecodeSemiConstraintWholeNumber.
  eapply safe_bindo; [apply safe_len255|]. cbv beta. intros n Hn.
  destruct (8 <? n) eqn:E; [apply safe_ret_none|].
  eapply safe_bindo; [apply safe_dec_sbytes; auto; unfold is_s64, two63; lia|]. cbv beta. intros v Hv.
  eapply safe_pure_l with (a := s64 (v + min)).
  - intros. unfold lift. rewrite sres_s64; auto. right; auto.
  - apply safe_ret_some. apply s64_range.
Qed.

Lemma u64_range : forall x, is_u64 (u64 x).
Proof. intros. unfold is_u64, u64, two64. apply Z.mod_pos_bound. lia. Qed.

Lemma safe_DecodeSemiPos : forall c min,
  safe (BitStream_DecodeSemiConstraintPosWholeNumber c min) is_u64.
Proof.
  intros c min. unfold BitStream_DecodeSemiConstraintPosWholeNumber.
  eapply safe_bindo; [apply safe_len255|]. cbv beta. intros n Hn.
  destruct (8 <? n) eqn:E; [apply safe_ret_none|].
  eapply safe_bindo; [apply safe_dec_ubytes; unfold is_u64, two64; lia|]. cbv beta. intros v Hv.
  apply safe_ret_some. apply u64_range.
Qed.

Lemma safe_DecodeUnc : forall c, shl_wrap c = true ->
  safe (BitStream_DecodeUnConstraintWholeNumber c) is_s64.
Proof.
  intros c HC. unfold BitStream_DecodeUnConstraintWholeNumber.
  eapply safe_bindo; [apply safe_len255|]. cbv beta. intros n Hn.
  destruct (8 <? n) eqn:E; [apply safe_ret_none|].
  apply safe_PeekBit. intros b. apply safe_dec_sbytes; auto. unfold is_s64, two63. destruct b; lia.
Qed.
