(** Streaming: alignment and whole messages. *)
From Coq Require Import ZArith List Bool Lia.
From Coq Require Import ZifyBool ZifyNat.
From Verif Require Import Base Bits BitsProofs BitStream Ints Contracts BitStreamProofs BitStreamProofs2 BitStreamProofs3 IntsProofs
  Streaming StreamingSpec StreamingProofs StreamingProofs2 StreamingProofs3 StreamingProofs4.
Import ListNotations.
Open Scope Z_scope.
Ltac Zify.zify_post_hook ::= Z.div_mod_to_equations.

(** ** Alignment *)
Lemma land7 : forall x, 0 <= x < 8 -> Z.land (8 - x) 7 = (8 - x) mod 8.
Proof. intros. change 7 with (Z.ones 3). rewrite Z.land_ones by lia. reflexivity. Qed.

Lemma sAlignByte_pos : forall c N st pre, sat true N st pre ->
  exists st', sAlignToNextByte c (push_if true) st = Ok (tt, st') /\ curBit (sb st') = 0 /\
    curByte (sb st') = (if curBit (sb st) =? 0 then curByte (sb st) else if curByte (sb st) + 1 =? N then 0 else curByte (sb st) + 1) /\
    sat true N st' (pre ++ zeros (Z.to_nat ((- curBit (sb st)) mod 8))).
Proof.
  intros c N st pre (HB & Hb & B). unfold pos in B.
  pose proof (blk_len _ _ _ _ _ B) as (CN & LB & P & _).
  unfold sAlignToNextByte. rewrite (sb_step _ _ _ _ _ _ _ (sget _)).
  assert (EC : scheck_pre c (Z.land (8 - curBit (sb st)) 7) st = Ok (tt, st)).
  { unfold scheck_pre. rewrite (sb_step _ _ _ _ _ _ _ (sget _)). rewrite land7 by lia.
    unfold onb, massert, bind. replace (curByte (sb st) * 8 + curBit (sb st) + (8 - curBit (sb st)) mod 8 <=? count (sb st) * 8) with true by lia.
    cbn [orb]. destruct st; reflexivity. }
  rewrite (sb_step _ _ _ _ _ _ _ EC).
  destruct (curBit (sb st) =? 0) eqn:C0; cbn [negb].
  { exists st. splits; auto; try lia. replace ((- curBit (sb st)) mod 8) with 0 by lia. cbn. rewrite app_nil_r. split; [lia|]. split; auto. }
  rewrite (sb_step _ _ _ _ _ _ _ (scur _ _ _)).
  set (j := (- curBit (sb st)) mod 8). assert (J : j = 8 - curBit (sb st)) by (subst j; lia).
  destruct (blk_push true N (mkss (mkbs (buf (sb st)) (count (sb st)) (curByte (sb st) + 1) 0) (sent st) (src st))
      (pre ++ zeros (Z.to_nat j))) as (st2 & EP & B2 & R2 & C2).
  { fld. apply (blk_cur true N _ st). replace (8 * (curByte (sb st) + 1)) with (8 * curByte (sb st) + curBit (sb st) + j) by lia.
    apply blk_skip; auto; lia. }
  { fld. lia. }
  fldin C2. rewrite (sb_step _ _ _ _ _ _ _ EP).
  pose proof (blk_len _ _ _ _ _ B2) as (CN2 & _).
  rewrite (check_ok c N) by (auto; lia). exists st2. splits; auto.
  { unfold push_if in EP. fldin EP. rewrite CN in EP. destruct (curByte (sb st) + 1 =? N).
    - destruct (_ <? _) in EP; [discriminate|]. injection EP as <-. reflexivity.
    - injection EP as <-. reflexivity. }
  unfold sat, pos. rewrite C2, Z.add_0_r. splits; auto; lia.
Qed.

Lemma sAlignByte_ok : forall c N st pre, sat true N st pre ->
  exists st', sAlignToNextByte c (push_if true) st = Ok (tt, st') /\ curBit (sb st') = 0 /\
    sat true N st' (pre ++ zeros (Z.to_nat ((- curBit (sb st)) mod 8))).
Proof. intros c N st pre H. destruct (sAlignByte_pos c N st pre H) as (st' & A & B & _ & D). eauto. Qed.

(** Reading: the rest of the byte is skipped. *)
Lemma sAlignByte_read : forall c N st pad rest, unread N st (pad ++ rest) ->
  Z.of_nat (length pad) = (- curBit (sb st)) mod 8 ->
  exists st', sAlignToNextByte c fetch_if st = Ok (tt, st') /\ curBit (sb st') = 0 /\ unread N st' rest.
Proof.
  intros c N st pad rest (HB & Hb & R) LP. unfold pos in R.
  assert (CN : count (sb st) = N) by apply R.
  unfold sAlignToNextByte. rewrite (sb_step _ _ _ _ _ _ _ (sget _)).
  assert (EC : scheck_pre c (Z.land (8 - curBit (sb st)) 7) st = Ok (tt, st)).
  { unfold scheck_pre. rewrite (sb_step _ _ _ _ _ _ _ (sget _)). rewrite land7 by lia.
    unfold onb, massert, bind. replace (curByte (sb st) * 8 + curBit (sb st) + (8 - curBit (sb st)) mod 8 <=? count (sb st) * 8) with true by lia.
    cbn [orb]. destruct st; reflexivity. }
  rewrite (sb_step _ _ _ _ _ _ _ EC).
  destruct (curBit (sb st) =? 0) eqn:C0; cbn [negb].
  { exists st. splits; auto; try lia. destruct pad; [|cbn in LP; lia]. split; [lia|]. split; auto. }
  rewrite (sb_step _ _ _ _ _ _ _ (scur _ _ _)).
  destruct (rblk_fetch N (mkss (mkbs (buf (sb st)) (count (sb st)) (curByte (sb st) + 1) 0) (sent st) (src st)) rest)
    as (st2 & EF & R2 & I2 & C2).
  { fld. apply (rblk_cur N _ st).
    destruct (rblk_hd N _ st (pad ++ rest) (curByte (sb st)) (curBit (sb st)) R) as (b & pb & t & v & _ & _ & EB & LB & EQ & RV & _); auto; try lia.
    assert (LT : length t = length pad).
    { assert (LL := len_bits_of_byte b). rewrite EB, app_length in LL. lia. }
    apply eqz_app_inv in EQ; auto. eapply rblk_eqz; [exact RV|]. apply EQ. }
  { fld. lia. }
  fldin C2. rewrite (sb_step _ _ _ _ _ _ _ EF).
  rewrite (check_ok c N) by (auto; try lia; apply R2). exists st2. splits; auto.
  unfold unread, pos. rewrite C2, Z.add_0_r. splits; auto; lia.
Qed.

(** ** Messages *)
Lemma op_same : forall c o, op_ok c o -> exists bs, writes (one_shot c o) tt bs /\
  (forall N, 8 <= N -> swrites true N (streamed c true o) tt bs) /\
  (op_short o -> forall N, sreads N (read_op c o) (Some (op_value o)) bs).
Proof.
  intros c o H. destruct o; cbn [op_ok one_shot streamed op_short read_op op_value] in *.
  - exists [b]. splits; intros; auto using overwrites_writes, overwrites_AppendBit, swrites_AppendBit.
    eapply sreads_eq; [eapply sreads_bind; [apply (sreads_ReadBit _ b)|apply sreads_ret]|apply app_nil_r].
  - eexists. splits; intros; [apply overwrites_writes, overwrites_AppendByte; auto|apply swrites_AppendByte; auto|contradiction].
  - eexists. splits; intros; [apply overwrites_writes, overwrites_AppendNBitOne; auto|apply swrites_AppendNBitOne; auto|contradiction].
  - destruct H. eexists. splits; intros; [apply writes_AppendPartialByte; auto|apply swrites_AppendPartialByte; auto|].
    apply sreads_ReadPartialByte; auto.
  - destruct H as (A & B & C & D). eexists. splits; intros; [apply writes_EncodeConstraint; auto|apply swrites_EncodeConstraint; auto|].
    apply sreads_DecodeConstraint; auto.
  - destruct H as (A & B & C). eexists. splits; intros; [apply writes_EncodeConstraintPos; auto|apply swrites_EncodeConstraintPos; auto|contradiction].
  - destruct H as (A & B & C & D). eexists. splits; intros; [apply writes_EncodeSemi; auto|apply swrites_EncodeSemi; auto|contradiction].
  - destruct H as (A & B & C). eexists. splits; intros; [apply writes_EncodeSemiPos; auto|apply swrites_EncodeSemiPos; auto|contradiction].
  - destruct H as (A & B). eexists. splits; intros; [apply writes_EncodeUnc; auto|apply swrites_EncodeUnc; auto|contradiction].
Qed.

Lemma ops_same : forall c l, Forall (op_ok c) l -> exists bs, writes (one_shot_all c l) tt bs /\
  (forall N, 8 <= N -> swrites true N (streamed_all c true l) tt bs) /\
  (Forall op_short l -> forall N, sreads N (read_all c l) (Some (map op_value l)) bs).
Proof.
  induction 1 as [|o l HO HL IH]; cbn [one_shot_all streamed_all read_all map].
  - exists []. splits; intros; [apply writes_ret|apply swrites_ret|apply sreads_ret].
  - destruct IH as (b2 & W & SW & SR). destruct (op_same c o HO) as (b1 & W1 & SW1 & SR1).
    exists (b1 ++ b2). splits.
    + eapply writes_bind; eauto.
    + intros. eapply swrites_bind; auto.
    + intros F N. inversion F; subst. eapply sreads_bindo; [apply SR1; auto|].
      eapply sreads_eq; [eapply sreads_bindo; [apply SR; auto|apply sreads_ret]|apply app_nil_r].
Qed.

Lemma pad_unique : forall (a b p q : list bool), a ++ p = b ++ q -> length a = length b -> a = b /\ p = q.
Proof. intros. apply app_split; auto. Qed.

(** The one-shot result in bytes. *)
Lemma one_shot_bytes : forall (f : M unit) bs mem m, writes f tt bs -> Forall is_byte mem -> 0 <= m <= Z.of_nat (length mem) ->
  Z.of_nat (length bs) <= 8 * m ->
  exists s0 s, BitStream_Init mem m = Ok s0 /\ f s0 = Ok (tt, s) /\
    Forall is_byte (firstn (Z.to_nat (BitStream_GetLength s)) (buf s)) /\ pos s = Z.of_nat (length bs) /\
    exists k, (k < 8)%nat /\ bits_of_bytes (firstn (Z.to_nat (BitStream_GetLength s)) (buf s)) = bs ++ zeros k.
Proof.
  intros f bs mem m W F M L.
  unfold BitStream_Init. replace ((m <? 0) || (Z.of_nat (length mem) <? m)) with false by lia.
  set (s0 := mkbs _ _ _ _).
  destruct (W s0 [] (8 * Z.to_nat m)%nat (bits_of_bytes (skipn (Z.to_nat m) mem))) as (s & E & (FS & EB & LP & CB) & CN).
  { subst s0. unfold at_, pos. cbn [buf count curByte curBit app length]. splits; try lia.
    - apply Forall_app. split; [apply bytes_repeat0|apply Forall_skipn_; auto].
    - rewrite bits_of_bytes_app, bits_repeat0. auto. }
  { subst s0. cbn [count length]. lia. }
  { lia. }
  cbn [app] in *. exists s0, s. splits; auto.
  { apply Forall_firstn_; auto. }
  set (g := Z.to_nat (BitStream_GetLength s)). unfold pos in LP.
  assert (G8 : (length bs <= 8 * g < length bs + 8)%nat) by (subst g; unfold BitStream_GetLength; destruct (curBit s =? 0) eqn:?; lia).
  assert (GM : (g <= Z.to_nat m)%nat) by lia.
  exists (8 * g - length bs)%nat. split; [lia|].
  assert (LB : (g <= length (buf s))%nat).
  { assert (LL := len_bits_of_bytes (buf s)). rewrite EB, !app_length, len_zeros, len_bits_of_bytes in LL. lia. }
  rewrite <- (firstn_skipn g (buf s)), bits_of_bytes_app in EB.
  replace (zeros (8 * Z.to_nat m - length bs)) with (zeros (8 * g - length bs) ++ zeros (8 * Z.to_nat m - 8 * g)) in EB
    by (rewrite <- zeros_app; f_equal; lia).
  rewrite <- !app_assoc in EB. rewrite app_assoc in EB. apply app_split in EB; [apply EB|].
  rewrite len_bits_of_bytes, firstn_length, app_length, len_zeros. lia.
Qed.

Theorem streamed_one_shot : forall c l n, Forall (op_ok c) l -> (8 <= n)%nat ->
  exists st, streamed_all c true l (sinit n) = Ok (tt, st) /\
  forall mem m, Forall is_byte mem -> Z.of_nat (length (flushed st)) <= m <= Z.of_nat (length mem) ->
    exists s0 s, BitStream_Init mem m = Ok s0 /\ one_shot_all c l s0 = Ok (tt, s) /\
      firstn (Z.to_nat (BitStream_GetLength s)) (buf s) = flushed st.
Proof.
  intros c l n F H8. destruct (ops_same c l F) as (bs & W & SW & _).
  destruct (SW (Z.of_nat n) ltac:(lia) (sinit n) [] (sinit_sat true n ltac:(lia))) as (st & E & ST).
  cbn [app] in ST. exists st. split; auto. intros mem m FM HM.
  destruct (flushed_bits _ _ _ _ ST) as (FF & pad & EP & LP & ZP). specialize (ZP eq_refl).
  assert (LL := len_bits_of_bytes (flushed st)). rewrite EP, app_length in LL.
  destruct (one_shot_bytes _ bs mem m W FM) as (s0 & s & E0 & E1 & FB & PS & k & K & EB); try lia.
  exists s0, s. splits; auto. apply bits_of_bytes_inj; auto. rewrite EB, EP, ZP. do 2 f_equal.
  assert (LL2 := len_bits_of_bytes (firstn (Z.to_nat (BitStream_GetLength s)) (buf s))). rewrite EB, app_length, len_zeros in LL2. lia.
Qed.

Theorem round_trip : forall c l n1 n2, Forall (op_ok c) l -> Forall op_short l -> (8 <= n1)%nat -> (0 < n2)%nat ->
  exists st st', streamed_all c true l (sinit n1) = Ok (tt, st) /\
    read_all c l (sattach n2 (flushed st)) = Ok (Some (map op_value l), st').
Proof.
  intros c l n1 n2 F FS H1 H2. destruct (ops_same c l F) as (bs & _ & SW & SR).
  destruct (SW (Z.of_nat n1) ltac:(lia) (sinit n1) [] (sinit_sat true n1 ltac:(lia))) as (st & E & ST).
  cbn [app] in ST. destruct (flushed_bits _ _ _ _ ST) as (FF & pad & EP & _).
  destruct (SR FS (Z.of_nat n2) (sattach n2 (flushed st)) pad) as (st' & E' & _).
  { rewrite <- EP. apply sattach_unread; auto. }
  exists st, st'. auto.
Qed.

(** Without clearing: calls that set every bit they write. *)
Lemma op_same_noclear : forall c cl o, op_ok c o -> op_plain o -> exists bs, writes (one_shot c o) tt bs /\
  (forall N, swrites cl N (streamed c cl o) tt bs).
Proof.
  intros c cl o H P. destruct o; cbn [op_ok op_plain one_shot streamed] in *; try contradiction.
  - exists [b]. splits; intros; auto using overwrites_writes, overwrites_AppendBit, swrites_AppendBit.
  - eexists. splits; intros; [apply overwrites_writes, overwrites_AppendByte; auto|apply swrites_AppendByte; auto].
  - eexists. splits; intros; [apply overwrites_writes, overwrites_AppendNBitOne; auto|apply swrites_AppendNBitOne; auto].
Qed.
Lemma ops_same_noclear : forall c cl l, Forall (op_ok c) l -> Forall op_plain l -> exists bs, writes (one_shot_all c l) tt bs /\
  (forall N, swrites cl N (streamed_all c cl l) tt bs).
Proof.
  intros c cl l H. induction H as [|o l HO HL IH]; intros P; cbn [one_shot_all streamed_all].
  - exists []. splits; intros; [apply writes_ret|apply swrites_ret].
  - inversion P; subst. destruct IH as (b2 & W & SW); auto. destruct (op_same_noclear c cl o HO) as (b1 & W1 & SW1); auto.
    exists (b1 ++ b2). splits; [eapply writes_bind; eauto|intros; eapply swrites_bind; auto].
Qed.
Theorem streamed_plain : forall c cl l n, Forall (op_ok c) l -> Forall op_plain l -> (0 < n)%nat ->
  exists st, streamed_all c cl l (sinit n) = Ok (tt, st) /\
  forall mem m, Forall is_byte mem -> Z.of_nat (length (flushed st)) <= m <= Z.of_nat (length mem) ->
    exists s0 s, BitStream_Init mem m = Ok s0 /\ one_shot_all c l s0 = Ok (tt, s) /\
      firstn (Z.to_nat (pos s)) (bits_of_bytes (buf s)) = firstn (Z.to_nat (pos s)) (bits_of_bytes (flushed st)) /\
      8 * Z.of_nat (length (flushed st)) - 8 < pos s <= 8 * Z.of_nat (length (flushed st)).
Proof.
  intros c cl l n F FP H. destruct (ops_same_noclear c cl l F FP) as (bs & W & SW).
  destruct (SW (Z.of_nat n) (sinit n) [] (sinit_sat cl n ltac:(lia))) as (st & E & ST).
  cbn [app] in ST. exists st. split; auto. intros mem m FM HM.
  destruct (flushed_bits _ _ _ _ ST) as (FF & pad & EP & LP & ZP).
  assert (LL := len_bits_of_bytes (flushed st)). rewrite EP, app_length in LL.
  destruct (one_shot_bytes _ bs mem m W FM) as (s0 & s & E0 & E1 & FB & PS & k & K & EB); try lia.
  exists s0, s. rewrite PS, Nat2Z.id. splits; auto; try lia.
  rewrite EP, firstn_app, firstn_all, Nat.sub_diag. cbn [firstn]. rewrite app_nil_r.
  set (g := Z.to_nat (BitStream_GetLength s)) in *.
  rewrite <- (firstn_skipn g (buf s)), bits_of_bytes_app, EB, <- app_assoc, firstn_app, firstn_all, Nat.sub_diag.
  cbn [firstn]. apply app_nil_r.
Qed.

(** Nothing tells the end of the data: past it a decoder reads zeros. *)
Lemma read_past : forall N k, 0 < N -> forall st, unread N st [] ->
  exists st', Nat.iter k (fun m => do _ <- sReadBit in m) sReadBit st = Ok ((true, false), st') /\ unread N st' [].
Proof.
  intros N k P. induction k as [|k IH]; intros st U.
  - assert (U' : unread N st ([false] ++ [])).
    { eapply unread_eqz; [exact U|]. intros [|[|i]]; reflexivity. }
    apply (sreads_ReadBit N false) in U'. auto.
  - assert (U' : unread N st ([false] ++ [])).
    { eapply unread_eqz; [exact U|]. intros [|[|i]]; reflexivity. }
    apply (sreads_ReadBit N false) in U'. destruct U' as (st1 & E & U1).
    destruct (IH st1 U1) as (st2 & E2 & U2). exists st2. split; auto.
    cbn [Nat.iter nat_rect]. rewrite (sb_step _ _ _ _ _ _ _ E). auto.
Qed.
