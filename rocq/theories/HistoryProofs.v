(** Proofs for C01 and the generic end-to-end lemma. *)
From Verif Require Import Base Bits BitStream Contracts History BitsProofs BitStreamProofs BitStreamProofs2 BitStreamProofs3.
From Coq Require Import ZifyBool ZifyNat.
Ltac Zify.zify_post_hook ::= Z.div_mod_to_equations.

Lemma Zbits_lnot : forall n v, Zbits n (Z.lnot v) = map negb (Zbits n v).
Proof.
  induction n; intros; cbn [Zbits map]; [reflexivity|]. rewrite Z.lnot_spec by lia. rewrite IHn. reflexivity.
Qed.

Lemma writes_run_op : forall c o, op_ok o -> writes (run_op c o) tt (op_bits o).
Proof.
  intros c o H. destruct o; cbn [op_ok run_op op_bits] in *.
  - apply overwrites_writes, overwrites_AppendBitOne.
  - apply overwrites_writes, overwrites_AppendBitZero.
  - apply overwrites_writes, overwrites_AppendBit.
  - apply writes_AppendNBitZero; auto.
  - apply overwrites_writes, overwrites_AppendNBitOne; auto.
  - apply overwrites_writes. apply (overwrites_AppendByte c v false); auto.
  - rewrite <- Zbits_lnot. apply overwrites_writes. apply (overwrites_AppendByte c v true); auto.
  - rewrite <- (app_nil_r (Zbits 8 v)). eapply writes_bind; [apply overwrites_writes, overwrites_AppendByte0; auto|].
    apply writes_ret.
  - apply (writes_AppendPartialByte c v n false); tauto.
  - rewrite <- Zbits_lnot. apply (writes_AppendPartialByte c v n true); [tauto|discriminate].
  - rewrite <- (app_nil_r (bits_of_bytes l)). eapply writes_bind; [|apply writes_ret].
    eapply writes_eq; [apply writes_EncodeOctets; auto; lia|].
    rewrite Nat2Z.id, firstn_all. reflexivity.
  - apply writes_AppendBits; tauto.
Qed.

Lemma writes_run_ops : forall c os, Forall op_ok os -> writes (run_ops c os) tt (ops_bits os).
Proof.
  intros c os. induction os; intros H.
  - apply writes_ret.
  - inversion H; subst. unfold ops_bits. cbn [map concat run_ops].
    eapply writes_bind; [apply writes_run_op; auto|]. apply IHos; auto.
Qed.

Lemma reads_read_run : forall l, reads (read_run (length l)) (Some l) l.
Proof.
  induction l.
  - apply reads_ret.
  - cbn [length read_run]. change (a :: l) with ([a] ++ l).
    eapply reads_bind; [apply reads_ReadBit|]. cbn [fst snd].
    eapply reads_eq; [eapply reads_bindo; [apply IHl|apply reads_ret]|apply app_nil_r].
Qed.

Lemma reads_read_run_n : forall k l, length l = k -> reads (read_run k) (Some l) l.
Proof. intros. subst. apply reads_read_run. Qed.

(** pack *)
Lemma pack_bytes : forall l r, Forall is_byte l -> pack (bits_of_bytes l ++ r) = l ++ pack r.
Proof.
  induction l; intros r H; [reflexivity|]. inversion H; subst.
  cbn [bits_of_bytes]. rewrite <- app_assoc. unfold bits_of_byte. cbn [app pack].
  rewrite IHl by auto. f_equal.
  change (bval (bits_of_byte a) = a). rewrite Zbits8.
  apply (bval_Zbits_small 8); auto.
Qed.

Lemma bits_of_bytes_firstn : forall l k, bits_of_bytes (firstn k l) = firstn (8 * k) (bits_of_bytes l).
Proof.
  induction l; intros k.
  - rewrite !firstn_nil. reflexivity.
  - destruct k; [reflexivity|]. replace (8 * S k)%nat with (8 + 8 * k)%nat by lia.
    cbn [firstn bits_of_bytes]. rewrite IHl. rewrite Zbits8, firstn_app, len_Zbits.
    replace (8 + 8 * k - 8)%nat with (8 * k)%nat by lia.
    rewrite (firstn_all2 (n := 8 + 8 * k)) by (rewrite len_Zbits; lia). reflexivity.
Qed.
Lemma bits_of_bytes_skipn : forall l k, bits_of_bytes (skipn k l) = skipn (8 * k) (bits_of_bytes l).
Proof.
  induction l; intros k.
  - rewrite !skipn_nil. reflexivity.
  - destruct k; [reflexivity|]. replace (8 * S k)%nat with (8 + 8 * k)%nat by lia.
    cbn [skipn bits_of_bytes]. rewrite IHl. rewrite Zbits8, skipn_app, len_Zbits.
    replace (8 + 8 * k - 8)%nat with (8 * k)%nat by lia.
    rewrite (skipn_all2 (n := 8 + 8 * k)) by (rewrite len_Zbits; lia). reflexivity.
Qed.

Lemma shl_shr_pack : forall b r, is_byte b -> 1 <= r <= 7 ->
  pack (Zbits (Z.to_nat r) (Z.shiftr b (8 - r))) = [byte_of (Z.shiftl (Z.shiftr b (8 - r)) (8 - r))].
Proof.
  intros b r Hb Hr.
  assert (S : 0 <= Z.shiftr b (8 - r) < 2 ^ r).
  { apply shiftr_byte_range; auto; lia. }
  assert (E : pack (Zbits (Z.to_nat r) (Z.shiftr b (8 - r))) =
     [bval (Zbits (Z.to_nat r) (Z.shiftr b (8 - r)) ++ zeros (8 - Z.to_nat r))]).
  { pose proof (len_Zbits (Z.to_nat r) (Z.shiftr b (8 - r))) as L.
    set (l := Zbits (Z.to_nat r) (Z.shiftr b (8 - r))) in *.
    replace (8 - Z.to_nat r)%nat with (8 - length l)%nat by lia.
    assert (1 <= length l <= 7)%nat by lia. clearbody l. clear L.
    do 8 (destruct l as [|? l]; [cbn [length] in *; try lia; reflexivity|]).
    cbn [length] in *; lia. }
  rewrite E. f_equal. rewrite bval_app, bval_zeros, bval_Zbits_small by (rewrite Z2Nat.id by lia; auto).
  unfold zeros. rewrite repeat_length, Z.shiftl_mul_pow2 by lia.
  replace (Z.of_nat (8 - Z.to_nat r)) with (8 - r) by lia.
  rewrite Z.add_0_r. unfold byte_of. rewrite Z.mod_small; [reflexivity|].
  assert (2 ^ r * 2 ^ (8 - r) = 256) by (rewrite <- Z.pow_add_r by lia; replace (r + (8 - r)) with 8 by lia; reflexivity).
  assert (0 < 2 ^ (8 - r)) by (apply Z.pow_pos_nonneg; lia). nia.
Qed.

Lemma bytes_of_nbits_pack : forall l n, Forall is_byte l -> 0 <= n <= 8 * Z.of_nat (length l) ->
  bytes_of_nbits n l = pack (take_bits n l).
Proof.
  intros l n F N. rewrite take_bits_split by auto. rewrite pack_bytes by (apply Forall_firstn; auto).
  unfold bytes_of_nbits. f_equal. destruct (0 <? n mod 8) eqn:E.
  - rewrite shl_shr_pack; auto; [|lia].
    assert (L : (Z.to_nat (n / 8) < length l)%nat) by lia.
    rewrite Forall_forall in F. apply F. apply nth_In. auto.
  - replace (n mod 8) with 0 by lia. reflexivity.
Qed.

Lemma reads_read_op : forall o, op_ok o -> reads (read_op o) (Some (op_item o)) (op_bits o).
Proof.
  intros o H.
  assert (B : forall b, reads (let* r := BitStream_ReadBit in ret (if fst r then Some (IBit (snd r)) else None))
              (Some (IBit b)) [b]).
  { intros. rewrite <- (app_nil_r [b]). eapply reads_bind; [apply reads_ReadBit|apply reads_ret]. }
  assert (R : forall n b, 0 <= n -> reads (let? l := read_run (Z.to_nat n) in ret (Some (IRun l)))
              (Some (IRun (repeat b (Z.to_nat n)))) (repeat b (Z.to_nat n))).
  { intros. rewrite <- (app_nil_r (repeat b (Z.to_nat n))) at 2.
    eapply reads_bindo; [|apply reads_ret]. apply reads_read_run_n, repeat_length. }
  assert (Y : forall v, is_byte v -> reads (let? v := BitStream_ReadByte in ret (Some (IByte v)))
              (Some (IByte v)) (Zbits 8 v)).
  { intros. rewrite <- (app_nil_r (Zbits 8 v)). eapply reads_bindo; [apply reads_ReadByte; auto|apply reads_ret]. }
  assert (P : forall v n, 1 <= n <= 8 -> 0 <= v < 2 ^ n ->
              reads (let? v := BitStream_ReadPartialByte n in ret (Some (IByte v)))
              (Some (IByte v)) (Zbits (Z.to_nat n) v)).
  { intros. rewrite <- (app_nil_r (Zbits (Z.to_nat n) v)).
    eapply reads_bindo; [apply reads_ReadPartialByte; auto|apply reads_ret]. }
  destruct o; cbn [op_ok read_op op_item op_bits] in *; auto.
  - apply R; auto.
  - apply R; auto.
  - rewrite <- Zbits_lnot. rewrite <- (Zbits_mod 8). unfold is_byte in H.
    replace (Z.lnot v mod 2 ^ Z.of_nat 8) with (255 - v).
    + apply Y. unfold is_byte; lia.
    + unfold Z.lnot. change (2 ^ Z.of_nat 8) with 256. apply Z.mod_unique with (q := -1); lia.
  - apply P; tauto.
  - destruct H as [H1 H2]. rewrite <- Zbits_lnot. rewrite <- (Zbits_mod (Z.to_nat n)). rewrite Z2Nat.id by lia.
    assert (0 < 2 ^ n) by (apply Z.pow_pos_nonneg; lia).
    pose proof (Z.mod_pos_bound v (2 ^ n)). pose proof (Z.div_mod v (2 ^ n)).
    replace (Z.lnot v mod 2 ^ n) with (2 ^ n - 1 - v mod 2 ^ n).
    + apply P; lia.
    + unfold Z.lnot. apply Z.mod_unique with (q := -1 - v / 2 ^ n); nia.
  - rewrite <- (app_nil_r (bits_of_bytes l)). eapply reads_bindo; [apply reads_DecodeOctets; auto|apply reads_ret].
  - destruct H as [H1 H2]. rewrite <- (app_nil_r (take_bits n l)) at 2.
    rewrite <- bytes_of_nbits_pack by auto.
    eapply reads_bindo; [apply reads_ReadBits; auto|apply reads_ret].
Qed.

Lemma reads_read_ops : forall os, Forall op_ok os -> reads (read_ops os) (Some (map op_item os)) (ops_bits os).
Proof.
  induction os; intros H.
  - apply reads_ret.
  - inversion H; subst. unfold ops_bits. cbn [map concat read_ops].
    eapply reads_bindo; [apply reads_read_op; auto|].
    eapply reads_eq; [eapply reads_bindo; [apply IHos; auto|apply reads_ret]|apply app_nil_r].
Qed.

(** ** From contracts to whole runs *)
Lemma bits_of_bytes_zeros : forall k, bits_of_bytes (repeat 0 k) = zeros (8 * k).
Proof.
  induction k; [reflexivity|]. replace (8 * S k)%nat with (8 + 8 * k)%nat by lia.
  cbn [repeat bits_of_bytes]. rewrite IHk. unfold zeros. rewrite repeat_app. reflexivity.
Qed.

Lemma at_len_pos : forall s pre rest, at_ s pre rest -> Z.of_nat (length pre) = pos s.
Proof. intros s pre rest (_ & _ & H & _). auto. Qed.

Lemma GetLength_pos : forall s, 0 <= curBit s < 8 -> BitStream_GetLength s = (pos s + 7) / 8.
Proof. intros. unfold BitStream_GetLength, pos. destruct (curBit s =? 0) eqn:E; lia. Qed.

Lemma skipn_app_exact : forall {A} (a b : list A), skipn (length a) (a ++ b) = b.
Proof. intros. rewrite skipn_app, skipn_all, Nat.sub_diag. reflexivity. Qed.
Lemma firstn_app_exact : forall {A} (a b : list A), firstn (length a) (a ++ b) = a.
Proof. intros. rewrite firstn_app, firstn_all, Nat.sub_diag. cbn [firstn]. apply app_nil_r. Qed.

Lemma run_writes : forall {A} (enc : M A) a bs mem n, writes enc a bs ->
  Forall is_byte mem -> 0 <= n <= Z.of_nat (length mem) -> Z.of_nat (length bs) <= 8 * n ->
  exists s0 s1, BitStream_Init mem n = Ok s0 /\ enc s0 = Ok (a, s1) /\ count s1 = n /\
    length (buf s1) = length mem /\ Forall is_byte (buf s1) /\
    pos s1 = Z.of_nat (length bs) /\ 0 <= curBit s1 < 8 /\
    bits_of_bytes (firstn (Z.to_nat n) (buf s1)) = bs ++ zeros (Z.to_nat (8 * n) - length bs) /\
    skipn (Z.to_nat n) (buf s1) = skipn (Z.to_nat n) mem.
Proof.
  intros A enc a bs mem n HW HB Hn HL.
  unfold BitStream_Init. replace ((n <? 0) || (Z.of_nat (length mem) <? n)) with false by lia.
  set (s0 := mkbs (repeat 0 (Z.to_nat n) ++ skipn (Z.to_nat n) mem) n 0 0).
  assert (H0 : at_ s0 [] (zeros (8 * Z.to_nat n) ++ bits_of_bytes (skipn (Z.to_nat n) mem))).
  { unfold at_, s0, pos. cbn [buf curByte curBit length app]. splits; try lia.
    - apply Forall_app. split; [|apply Forall_skipn; auto]. apply Forall_forall. intros x Hx.
      apply repeat_spec in Hx. subst. unfold is_byte; lia.
    - rewrite bits_of_bytes_app, bits_of_bytes_zeros. reflexivity. }
  destruct (HW s0 [] (8 * Z.to_nat n)%nat (bits_of_bytes (skipn (Z.to_nat n) mem)) H0) as (s1 & E & HA & HC).
  { unfold s0. cbn [count length]. lia. } { lia. }
  exists s0, s1. pose proof (at_len _ _ _ HA) as AL. destruct HA as (F1 & B1 & P1 & C1).
  cbn [app] in *.
  assert (LM : length (buf s1) = length mem).
  { rewrite !app_length, len_bits_of_bytes, skipn_length in AL. unfold zeros in AL. rewrite repeat_length in AL. lia. }
  splits; auto; try lia.
  - rewrite bits_of_bytes_firstn, B1, app_assoc.
    replace (8 * Z.to_nat n)%nat with (length (bs ++ zeros (8 * Z.to_nat n - length bs))) at 1.
    + rewrite firstn_app_exact. repeat f_equal. lia.
    + rewrite app_length. unfold zeros. rewrite repeat_length. lia.
  - apply bits_of_bytes_inj; try (apply Forall_skipn; auto).
    rewrite bits_of_bytes_skipn, B1, app_assoc.
    replace (8 * Z.to_nat n)%nat with (length (bs ++ zeros (8 * Z.to_nat n - length bs))) at 1.
    + rewrite skipn_app_exact. reflexivity.
    + rewrite app_length. unfold zeros. rewrite repeat_length. lia.
Qed.

Lemma run_reads : forall {A} (dec : M A) a bs mem n rest, reads dec a bs ->
  Forall is_byte mem -> bits_of_bytes mem = bs ++ rest -> Z.of_nat (length bs) <= 8 * n ->
  exists s, dec (BitStream_AttachBuffer mem n) = Ok (a, s) /\ pos s = Z.of_nat (length bs) /\
    count s = n /\ buf s = mem.
Proof.
  intros A dec a bs mem n rest HR HB HM HL.
  destruct (HR (BitStream_AttachBuffer mem n) [] rest) as (s & E & HA & HC & HBf).
  - unfold at_, BitStream_AttachBuffer, pos. cbn [buf curByte curBit length app]. splits; auto; lia.
  - cbn [length BitStream_AttachBuffer count]. lia.
  - exists s. splits; auto. apply at_len_pos in HA. cbn [app] in HA. lia.
Qed.

(** Encode into a fresh buffer, ship the bytes counted by GetLength (anything
    may follow them), decode. *)
Lemma end_to_end : forall {A B} (enc : M A) (dec : M B) a v bs mem n, writes enc a bs -> reads dec v bs ->
  Forall is_byte mem -> 0 <= n <= Z.of_nat (length mem) -> Z.of_nat (length bs) <= 8 * n ->
  exists s0 s1, BitStream_Init mem n = Ok s0 /\ enc s0 = Ok (a, s1) /\
    let L := BitStream_GetLength s1 in
    L = (Z.of_nat (length bs) + 7) / 8 /\ L <= n /\
    bits_of_bytes (firstn (Z.to_nat n) (buf s1)) = bs ++ zeros (Z.to_nat (8 * n) - length bs) /\
    skipn (Z.to_nat n) (buf s1) = skipn (Z.to_nat n) mem /\
    forall tail, Forall is_byte tail ->
    exists s2, dec (BitStream_AttachBuffer (firstn (Z.to_nat L) (buf s1) ++ tail) L) = Ok (v, s2) /\
      pos s2 = pos s1.
Proof.
  intros A B enc dec a v bs mem n HW HR HB Hn HL.
  destruct (run_writes enc a bs mem n HW HB Hn HL) as (s0 & s1 & E0 & E1 & HC & HLm & HF & HP & HCb & HBits & HSk).
  exists s0, s1. cbv zeta. rewrite GetLength_pos by auto. rewrite HP. splits; auto; try lia.
  intros tail HT. set (L := (Z.of_nat (length bs) + 7) / 8).
  destruct (run_reads dec v bs (firstn (Z.to_nat L) (buf s1) ++ tail) L
    (zeros (8 * Z.to_nat L - length bs) ++ bits_of_bytes tail) HR) as (s2 & E2 & P2 & _).
  - apply Forall_app. split; auto. apply Forall_firstn; auto.
  - rewrite bits_of_bytes_app, app_assoc. f_equal.
    replace (firstn (Z.to_nat L) (buf s1)) with (firstn (Z.to_nat L) (firstn (Z.to_nat n) (buf s1))).
    2:{ rewrite firstn_firstn. f_equal. lia. }
    rewrite bits_of_bytes_firstn, HBits, firstn_app.
    rewrite (firstn_all2 bs) by lia. f_equal. rewrite firstn_zeros by lia. f_equal.
  - lia.
  - exists s2. split; auto.
Qed.
