(** Proofs about the bit stream primitives: byte arrays and bit arrays. *)
From Coq Require Import ZArith List Bool Lia.
From Coq Require Import ZifyBool ZifyNat.
From Verif Require Import Base Bits BitsProofs BitStream Contracts BitStreamProofs BitStreamProofs2.
Import ListNotations.
Open Scope Z_scope.
Ltac Zify.zify_post_hook ::= Z.div_mod_to_equations.

(** ** Byte arrays *)
Lemma land_hi_zeros : forall b pb cb, is_byte b -> 0 <= cb < 8 ->
  bits_of_byte b = pb ++ zeros (Z.to_nat (8 - cb)) -> Z.of_nat (length pb) = cb ->
  Z.land b (256 - 2 ^ (8 - cb)) = b.
Proof.
  intros b pb cb B C E L. apply bits_of_byte_inj; auto.
  - apply is_byte_land; auto. assert (2 ^ (8 - cb) <= 2 ^ 8) by (apply Z.pow_le_mono_r; lia). lia.
  - cst8 cb; lst pb; evc;
    match type of E with context[Z.to_nat ?a] => let y := eval cbv in (Z.to_nat a) in change (Z.to_nat a) with y in E end;
    unfold zeros in E; cbn [repeat] in E; solve_byte E.
Qed.

Lemma land_lo_zeros : forall b tb cb, is_byte b -> 0 <= cb < 8 ->
  bits_of_byte b = zeros (Z.to_nat cb) ++ tb ->
  Z.land b (2 ^ (8 - cb) - 1) = b.
Proof.
  intros b tb cb B C E. apply bits_of_byte_inj; auto.
  - apply is_byte_land; auto. assert (0 < 2 ^ (8 - cb)) by (apply Z.pow_pos_nonneg; lia). lia.
  - cst8 cb; evc;
    match type of E with context[Z.to_nat ?a] => let y := eval cbv in (Z.to_nat a) in change (Z.to_nat a) with y in E end;
    unfold zeros in E; cbn [repeat] in E; solve_byte E.
Qed.

Lemma firstn_zeros : forall a b, (a <= b)%nat -> firstn a (zeros b) = zeros a.
Proof.
  intros. replace b with (a + (b - a))%nat by lia. rewrite zeros_app, firstn_app, len_zeros, Nat.sub_diag.
  rewrite firstn_O, app_nil_r. apply firstn_all2. rewrite len_zeros. lia.
Qed.
Lemma skipn_zeros : forall a b, (a <= b)%nat -> skipn a (zeros b) = zeros (b - a).
Proof.
  intros. replace b with (a + (b - a))%nat at 1 by lia. rewrite zeros_app, skipn_app, len_zeros, Nat.sub_diag.
  rewrite skipn_all2 by (rewrite len_zeros; lia). reflexivity.
Qed.

(** One byte written by the AppendByteArray code at offset cb > 0, in the three
    equivalent ways the code writes it; [n] zeros follow. *)
Lemma array_byte : forall s pre n tl v, at_ s pre (zeros n ++ tl) -> 0 < curBit s ->
  (8 <= n)%nat -> is_byte v ->
  exists b m1 b2 m2, nthZ (buf s) (curByte s) = Ok b /\
    updZ (buf s) (curByte s) (put_hi b v (curBit s)) = Ok m1 /\
    nthZ m1 (curByte s + 1) = Ok b2 /\
    updZ m1 (curByte s + 1) (put_lo b2 v (curBit s)) = Ok m2 /\
    Z.lor b (byte_of (Z.shiftr v (curBit s))) = put_hi b v (curBit s) /\
    Z.lor b2 (byte_of (Z.shiftl v (8 - curBit s))) = put_lo b2 v (curBit s) /\
    at_ (mkbs m2 (count s) (curByte s + 1) (curBit s)) (pre ++ bits_of_byte v) (zeros (n - 8) ++ tl).
Proof.
  intros s pre n tl v (F & E & L & C) C0 N V. unfold pos in *.
  destruct (mem_byte (buf s) pre (zeros 8) (zeros (n - 8) ++ tl) (curByte s) (curBit s) v) as
    (b & m1 & HN & HU & LM & (B & pb & EB & LP) & HZ & HP); auto.
  { rewrite E. f_equal. rewrite app_assoc, <- zeros_app. do 2 f_equal. lia. }
  destruct HP as (b2 & m2 & HN2 & HU2 & LM2 & F2 & E2 & B2 & tb & r' & ER & EB2); [lia|].
  rewrite firstn_zeros in EB by lia. rewrite skipn_zeros in EB2 by lia.
  exists b, m1, b2, m2. splits; auto.
  - unfold put_hi. rewrite (land_hi_zeros b pb (curBit s)); auto.
  - unfold put_lo. rewrite (land_lo_zeros b2 tb (curBit s)); auto.
    rewrite EB2. do 2 f_equal. lia.
  - unfold at_, pos; cbn [buf count curByte curBit].
    rewrite <- app_assoc, app_length, len_bits_of_byte. splits; auto; lia.
Qed.

Lemma append_mid_ok : forall vs s pre n tl, at_ s pre (zeros n ++ tl) -> 0 < curBit s ->
  (8 * length vs <= n)%nat -> Forall is_byte vs ->
  exists s', append_mid (curBit s) (8 - curBit s) vs s = Ok (tt, s') /\
    at_ s' (pre ++ bits_of_bytes vs) (zeros (n - 8 * length vs) ++ tl) /\
    count s' = count s /\ curBit s' = curBit s.
Proof.
  induction vs as [|v vs IH]; intros s pre n tl HA C0 HN FV.
  - exists s. cbn [append_mid bits_of_bytes length Nat.mul]. rewrite app_nil_r, ?Nat.mul_0_r, Nat.sub_0_r. auto.
  - inversion FV; subst. cbn [length] in HN.
    destruct (array_byte s pre n tl v HA C0) as (b & m1 & b2 & m2 & H1' & H2' & H3' & H4' & E1 & E2 & HA'); auto; try lia.
    cbn [append_mid]. run. rewrite H1'. run. rewrite E1, H2'. run. rewrite H3'. run. rewrite E2, H4'. run.
    destruct (IH _ _ _ _ HA') as (s' & EE & HA2 & CC & CB); auto; cbn [curBit] in *; try lia.
    exists s'. rewrite EE. cbn [bits_of_bytes length]. rewrite <- app_assoc in HA2.
    replace (n - 8 * S (length vs))%nat with (n - 8 - 8 * length vs)%nat by lia. auto.
Qed.

Lemma nthZ_nth : forall l i, 0 <= i < Z.of_nat (length l) -> nthZ l i = Ok (nth (Z.to_nat i) l 0).
Proof.
  intros. unfold nthZ. destruct (i <? 0) eqn:E; [lia|].
  rewrite (nth_error_nth' l 0) by lia. reflexivity.
Qed.

Lemma list_ends : forall (A : Type) (l : list A) d, (2 <= length l)%nat ->
  l = nth 0 l d :: firstn (length l - 2) (tl l) ++ [nth (length l - 1) l d].
Proof.
  intros. destruct l as [|x l]; cbn [length] in *; [lia|]. cbn [nth List.tl]. f_equal.
  replace (S (length l) - 2)%nat with (length l - 1)%nat by lia.
  replace (S (length l) - 1)%nat with (length l) by lia.
  destruct (length l) as [|k] eqn:L; [lia|]. cbn [nth].
  replace (S k - 1)%nat with k by lia.
  rewrite <- (firstn_skipn k l) at 1. f_equal.
  assert (LS : length (skipn k l) = 1%nat) by (rewrite skipn_length; lia).
  destruct (skipn k l) as [|y [|]] eqn:SK; try discriminate.
  f_equal. rewrite <- (firstn_skipn k l). rewrite app_nth2; rewrite firstn_length; [|lia].
  rewrite SK. replace (k - Nat.min k (length l))%nat with 0%nat by lia. reflexivity.
Qed.

Lemma AppendByteArray_ok : forall arr k s pre n tl, at_ s pre (zeros n ++ tl) -> 0 < curBit s ->
  Z.of_nat (length pre + n) = 8 * count s -> 0 <= k <= Z.of_nat (length arr) ->
  (8 * Z.to_nat k <= n)%nat -> Forall is_byte arr ->
  exists s', BitStream_AppendByteArray arr k s = Ok (true, s') /\
    at_ s' (pre ++ bits_of_bytes (firstn (Z.to_nat k) arr)) (zeros (n - 8 * Z.to_nat k) ++ tl) /\
    count s' = count s /\ curBit s' = curBit s.
Proof.
  intros arr k s pre n tl HA C0 HC K HN FA.
  assert (HA' := HA). destruct HA' as (F & E & L & C). unfold pos in L.
  unfold BitStream_AppendByteArray. run. rewrite nthZ_masksb by lia. run.
  rewrite bnot_mask, bnot_mask2 by lia.
  replace (count s * 8 <? (curByte s + k) * 8 + curBit s) with false by lia. run.
  destruct (Z.eq_dec k 0) as [->|K0].
  { cbn [Z.ltb Z.compare]. run. replace (Z.of_nat (length arr) <? 0) with false by lia.
    change (Z.to_nat (0 - 2)) with 0%nat. cbn [firstn append_mid]. run.
    change (0 <? 0 - 1) with false. exists s. change (Z.to_nat 0) with 0%nat. cbn [firstn bits_of_bytes Nat.mul].
    rewrite app_nil_r, Nat.sub_0_r. auto. }
  replace (0 <? k) with true by lia. run.
  destruct arr as [|v0 arr]; [cbn [length] in K; lia|]. inversion FA; subst.
  rewrite (nthZ_app [] v0 arr 0 eq_refl : nthZ (v0 :: arr) 0 = Ok v0). run.
  destruct (array_byte s pre n tl v0 HA C0) as (b & m1 & b2 & m2 & H1' & H2' & H3' & H4' & E1 & E2 & HA1); auto; try lia.
  rewrite H1'. run. fold (put_hi b v0 (curBit s)). rewrite H2'. run. rewrite H3'. run.
  fold (put_lo b2 v0 (curBit s)). rewrite H4'. run.
  replace (Z.of_nat (length (v0 :: arr)) <? k) with false by lia.
  cbn [List.tl].
  set (mid := firstn (Z.to_nat (k - 2)) arr).
  assert (LM : length mid = Z.to_nat (k - 2)).
  { unfold mid. rewrite firstn_length. cbn [length] in K. lia. }
  assert (FM : Forall is_byte mid).
  { unfold mid. rewrite <- (firstn_skipn (Z.to_nat (k-2)) arr) in H2. apply Forall_app in H2. tauto. }
  set (s1 := mkbs m2 (count s) (curByte s + 1) (curBit s)) in *.
  destruct (append_mid_ok mid s1 _ _ _ HA1) as (s2 & EM & HA2 & CC2 & CB2); auto; try (cbn; lia).
  cbn [curBit s1] in EM. rewrite EM.
  destruct (0 <? k - 1) eqn:K1; run.
  - rewrite nthZ_nth by (cbn [length] in *; lia). run.
    set (vl := nth (Z.to_nat (k - 1)) (v0 :: arr) 0).
    assert (VL : is_byte vl).
    { eapply Forall_forall; [exact FA|]. apply nth_In. cbn [length] in *; lia. }
    destruct (array_byte s2 _ _ _ vl HA2) as (b' & m1' & b2' & m2' & J1 & J2 & J3 & J4 & JE1 & JE2 & HA3); auto.
    { rewrite CB2. auto. }
    { rewrite LM. lia. }
    rewrite CB2 in *. cbn [curBit s1] in *.
    rewrite J1. run. fold (put_hi b' vl (curBit s)). rewrite J2. run.
    replace (curBit s =? 0) with false by lia. run. rewrite J3. run.
    fold (put_lo b2' vl (curBit s)). rewrite J4. run.
    eexists; split; [reflexivity|]. cbn [count curBit]. rewrite CC2 in *. splits; auto.
    replace (n - 8 * Z.to_nat k)%nat with (n - 8 - 8 * length mid - 8)%nat by lia.
    match goal with |- at_ _ ?a _ => match type of HA3 with at_ _ ?b _ => replace a with b; auto end end.
    rewrite <- !app_assoc. f_equal.
    assert (LE := list_ends Z (firstn (Z.to_nat k) (v0 :: arr)) 0).
    assert (LF : length (firstn (Z.to_nat k) (v0 :: arr)) = Z.to_nat k) by (rewrite firstn_length; lia).
    rewrite LE by lia. rewrite LF. cbn [bits_of_bytes]. rewrite bits_of_bytes_app. cbn [bits_of_bytes].
    rewrite app_nil_r.
    destruct (Z.to_nat k) as [|k'] eqn:EK; [lia|]. cbn [firstn List.tl nth].
    replace (S k' - 2)%nat with (Z.to_nat (k - 2)) by lia.
    replace (S k' - 1)%nat with k' by lia.
    rewrite firstn_firstn. replace (Nat.min (Z.to_nat (k - 2)) k') with (Z.to_nat (k - 2)) by lia.
    fold mid. do 2 f_equal. f_equal. unfold vl. replace (Z.to_nat (k - 1)) with k' by lia.
    rewrite <- (firstn_skipn (S k') (v0 :: arr)) at 1.
    rewrite app_nth1 by (rewrite firstn_length; cbn [length] in *; lia). reflexivity.
  - assert (k = 1) by lia. subst k.
    assert (mid = []) by (destruct mid; [auto|cbn in LM; lia]). rewrite H in *. cbn [length Nat.mul bits_of_bytes] in HA2.
    rewrite app_nil_r, ?Nat.mul_0_r, Nat.sub_0_r in HA2.
    eexists; split; [reflexivity|]. splits; auto.
Qed.

(** Memory divided at a byte boundary. *)
Lemma mem_aligned : forall m pre rest i, Forall is_byte m -> bits_of_bytes m = pre ++ rest ->
  Z.of_nat (length pre) = 8 * i ->
  exists m1 m2, m = m1 ++ m2 /\ Z.of_nat (length m1) = i /\ pre = bits_of_bytes m1 /\ rest = bits_of_bytes m2 /\
    Forall is_byte m1 /\ Forall is_byte m2.
Proof.
  intros m pre rest i F E L.
  pose proof (len_bits_of_bytes m) as LB. rewrite E, app_length in LB.
  exists (firstn (Z.to_nat i) m), (skipn (Z.to_nat i) m).
  assert (EM : m = firstn (Z.to_nat i) m ++ skipn (Z.to_nat i) m) by (symmetry; apply firstn_skipn).
  assert (LF : length (firstn (Z.to_nat i) m) = Z.to_nat i) by (rewrite firstn_length; lia).
  rewrite EM in E at 1. rewrite bits_of_bytes_app in E. apply app_split in E.
  2:{ rewrite len_bits_of_bytes, LF. lia. }
  destruct E. rewrite EM in F. apply Forall_app in F. splits; auto; try lia; tauto.
Qed.

Lemma skipn_skipn' : forall A (l : list A) a b, skipn a (skipn b l) = skipn (b + a) l.
Proof.
  intros A l a b. revert l. induction b; intros; [reflexivity|].
  destruct l; cbn [skipn Nat.add]; [apply skipn_nil|auto].
Qed.

Lemma wr_many_ok : forall m1 m2 src i n cu cb, Z.of_nat (length m1) = i -> (length src <= length m2)%nat ->
  wr_many i src (mkbs (m1 ++ m2) n cu cb) = Ok (tt, mkbs (m1 ++ src ++ skipn (length src) m2) n cu cb).
Proof.
  intros. unfold wr_many. cbn [buf count curByte curBit]. rewrite app_length.
  destruct ((i <? 0) || (Z.of_nat (length m1 + length m2) <? i + Z.of_nat (length src))) eqn:E; [lia|].
  unfold blit. subst i. rewrite Nat2Z.id. rewrite firstn_app, Nat.sub_diag, firstn_O, app_nil_r, firstn_all.
  rewrite skipn_app. rewrite skipn_all2 by lia.
  replace (length m1 + length src - length m1)%nat with (length src) by lia. reflexivity.
Qed.

Lemma Forall_firstn : forall A (P : A -> Prop) n l, Forall P l -> Forall P (firstn n l).
Proof. intros. rewrite <- (firstn_skipn n l) in H. apply Forall_app in H. tauto. Qed.
Lemma Forall_skipn : forall A (P : A -> Prop) n l, Forall P l -> Forall P (skipn n l).
Proof. intros. rewrite <- (firstn_skipn n l) in H. apply Forall_app in H. tauto. Qed.

Lemma writes_EncodeOctets : forall arr k, Forall is_byte arr -> 0 <= k <= Z.of_nat (length arr) ->
  writes (BitStream_EncodeOctetString_no_length arr k) true (bits_of_bytes (firstn (Z.to_nat k) arr)).
Proof.
  intros arr k FA K s pre n tl HA HC HN.
  assert (LF : length (firstn (Z.to_nat k) arr) = Z.to_nat k) by (rewrite firstn_length; lia).
  rewrite len_bits_of_bytes, LF in *.
  unfold BitStream_EncodeOctetString_no_length. run.
  destruct (curBit s =? 0) eqn:C0.
  - destruct HA as (F & E & L & C). unfold pos in L.
    replace (curByte s + k <=? count s) with true by lia.
    replace ((k <? 0) || (Z.of_nat (length arr) <? k)) with false by lia.
    destruct (mem_aligned (buf s) pre (zeros n ++ tl) (curByte s)) as (m1 & m2 & EM & L1 & E1 & E2 & F1 & F2); auto; try lia.
    assert (L2 := len_bits_of_bytes m2). rewrite <- E2, app_length, len_zeros in L2.
    destruct s as [bf ct cu cb]. cbn [buf count curByte curBit] in *. subst bf.
    assert (W : wr_many cu (firstn (Z.to_nat k) arr) (mkbs (m1 ++ m2) ct cu cb) =
       Ok (tt, mkbs (m1 ++ firstn (Z.to_nat k) arr ++ skipn (length (firstn (Z.to_nat k) arr)) m2) ct cu cb)).
    { apply wr_many_ok; auto. rewrite LF. lia. }
    rewrite W. cbn [buf count curByte curBit]. eexists; split; [reflexivity|].
    unfold at_, pos; cbn [buf count curByte curBit].
    rewrite app_length, len_bits_of_bytes, LF. splits; auto; try lia.
    + apply Forall_app; split; auto. apply Forall_app; split; auto using Forall_firstn, Forall_skipn.
    + rewrite !bits_of_bytes_app, <- app_assoc. rewrite E1. f_equal. f_equal.
      assert (E3 : zeros (8 * Z.to_nat k) ++ zeros (n - 8 * Z.to_nat k) ++ tl = bits_of_bytes (firstn (Z.to_nat k) m2) ++ bits_of_bytes (skipn (Z.to_nat k) m2)).
      { rewrite <- bits_of_bytes_app, firstn_skipn, <- E2, app_assoc, <- zeros_app. do 2 f_equal. lia. }
      apply app_split in E3; [symmetry; tauto|].
      rewrite len_zeros, len_bits_of_bytes, firstn_length. lia.
  - destruct (AppendByteArray_ok arr k s pre n tl) as (s' & EE & HA' & CC & CB); auto; try lia.
    { destruct HA as (? & ? & ? & ?). lia. }
    eauto.
Qed.

(** ** Reading byte arrays *)
Lemma read_loop_ok : forall ws m pre rest i cb st, Forall is_byte m -> Forall is_byte ws ->
  bits_of_bytes m = pre ++ bits_of_bytes ws ++ rest -> Z.of_nat (length pre) = 8 * i + cb -> 0 < cb < 8 ->
  buf st = m -> read_loop i cb (8 - cb) (length ws) st = Ok (ws, st).
Proof.
  induction ws as [|w ws IH]; intros m pre rest i cb st FM FW E L C EB; [reflexivity|].
  inversion FW; subst. cbn [bits_of_bytes] in E. rewrite <- app_assoc in E.
  destruct (mem_get (buf st) pre (bits_of_bytes ws ++ rest) i cb w) as (b & HN & B & HI & _ & HP); auto; try lia.
  destruct HP as (b2 & HN2 & HI2 & EV); [lia|].
  cbn [length read_loop]. run. rewrite HN. run. rewrite HN2. run. rewrite EV.
  rewrite (IH (buf st) (pre ++ bits_of_byte w) rest (i + 1) cb st); auto.
  - rewrite E, <- app_assoc. reflexivity.
  - rewrite app_length, len_bits_of_byte. lia.
Qed.

Lemma reads_DecodeOctets : forall ws, Forall is_byte ws ->
  reads (BitStream_DecodeOctetString_no_length (Z.of_nat (length ws))) (Some ws) (bits_of_bytes ws).
Proof.
  intros ws FW s pre rest (F & E & L & C) LE. rewrite len_bits_of_bytes in *. unfold pos in *.
  unfold BitStream_DecodeOctetString_no_length. run.
  destruct (curBit s =? 0) eqn:C0.
  - replace (curByte s + Z.of_nat (length ws) <=? count s) with true by lia.
    destruct (mem_aligned (buf s) pre (bits_of_bytes ws ++ rest) (curByte s)) as (m1 & m2 & EM & L1 & E1 & E2 & F1 & F2); auto; try lia.
    assert (L2 := len_bits_of_bytes m2). rewrite <- E2, app_length, len_bits_of_bytes in L2.
    assert (EW : ws = firstn (length ws) m2).
    { apply bits_of_bytes_inj; auto using Forall_firstn.
      rewrite <- (firstn_skipn (length ws) m2), bits_of_bytes_app in E2.
      apply app_split in E2; [tauto|]. rewrite !len_bits_of_bytes, firstn_length. lia. }
    assert (LBM : length (buf s) = (length m1 + length m2)%nat) by (rewrite EM, app_length; auto).
    unfold rd_many. cbv beta.
    replace ((curByte s <? 0) || (Z.of_nat (length ws) <? 0) || (Z.of_nat (length (buf s)) <? curByte s + Z.of_nat (length ws))) with false by lia.
    assert (ES : firstn (Z.to_nat (Z.of_nat (length ws))) (skipn (Z.to_nat (curByte s)) (buf s)) = ws).
    { rewrite Nat2Z.id, EM, skipn_app. rewrite skipn_all2 by lia.
      replace (Z.to_nat (curByte s) - length m1)%nat with 0%nat by lia. rewrite skipn_O. cbn [app]. auto. }
    rewrite ES. eexists; split; [reflexivity|]. unfold at_, pos; cbn [buf count curByte curBit].
    rewrite app_length, len_bits_of_bytes, <- app_assoc. splits; auto; try lia.
  - unfold BitStream_ReadByteArray. run.
    replace (count s * 8 <? (curByte s + Z.of_nat (length ws)) * 8 + curBit s) with false by lia.
    rewrite Nat2Z.id.
    rewrite (read_loop_ok ws (buf s) pre rest (curByte s) (curBit s) s) by (auto; lia).
    cbn [buf count curByte curBit].
    eexists; split; [reflexivity|]. unfold at_, pos; cbn [buf count curByte curBit].
    rewrite app_length, len_bits_of_bytes, <- app_assoc. splits; auto; try lia.
Qed.

(** ** Bit arrays *)
(** The first [n] bits of a byte array. *)

Lemma take_bits_split : forall l n, Forall is_byte l -> 0 <= n <= 8 * Z.of_nat (length l) ->
  take_bits n l = bits_of_bytes (firstn (Z.to_nat (n / 8)) l) ++
    (if 0 <? n mod 8 then Zbits (Z.to_nat (n mod 8)) (Z.shiftr (nth (Z.to_nat (n / 8)) l 0) (8 - n mod 8)) else []).
Proof.
  intros l n F N. unfold take_bits.
  rewrite <- (firstn_skipn (Z.to_nat (n / 8)) l) at 1. rewrite bits_of_bytes_app.
  rewrite firstn_app, len_bits_of_bytes, firstn_length.
  rewrite firstn_all2 by (rewrite len_bits_of_bytes, firstn_length; lia). f_equal.
  destruct (0 <? n mod 8) eqn:R.
  - replace (Z.to_nat n - 8 * Nat.min (Z.to_nat (n / 8)) (length l))%nat with (Z.to_nat (n mod 8)) by lia.
    assert (SK : skipn (Z.to_nat (n / 8)) l = nth (Z.to_nat (n / 8)) l 0 :: skipn (S (Z.to_nat (n / 8))) l).
    { assert (Z.to_nat (n / 8) < length l)%nat by lia. revert H. generalize (Z.to_nat (n/8)). clear.
      induction l; intros; cbn [length] in *; [lia|]. destruct n; [reflexivity|]. cbn [skipn nth].
      rewrite IHl by lia. reflexivity. }
    rewrite SK. cbn [bits_of_bytes].
    set (x := nth (Z.to_nat (n / 8)) l 0). rewrite firstn_app, len_bits_of_byte.
    replace (Z.to_nat (n mod 8) - 8)%nat with 0%nat by lia. rewrite firstn_O, app_nil_r.
    rewrite Zbits8, (Zbits8_split x (8 - n mod 8)) by lia.
    replace (8 - (8 - n mod 8)) with (n mod 8) by lia.
    rewrite firstn_app, len_Zbits, Nat.sub_diag, firstn_O, app_nil_r. apply firstn_all2. rewrite len_Zbits. lia.
  - replace (Z.to_nat n - 8 * Nat.min (Z.to_nat (n / 8)) (length l))%nat with 0%nat by lia. reflexivity.
Qed.

Lemma shiftr_byte_range : forall b k, is_byte b -> 0 <= k <= 8 -> 0 <= Z.shiftr b (8 - k) < 2 ^ k.
Proof.
  unfold is_byte; intros. rewrite Z.shiftr_div_pow2 by lia.
  assert (2 ^ k * 2 ^ (8 - k) = 256) by (rewrite <- Z.pow_add_r by lia; replace (k + (8-k)) with 8 by lia; reflexivity).
  assert (0 < 2 ^ (8 - k)) by (apply Z.pow_pos_nonneg; lia).
  split; [apply Z.div_pos; lia|]. apply Z.div_lt_upper_bound; lia.
Qed.

Lemma writes_AppendBits : forall c src n, Forall is_byte src -> 0 <= n <= 8 * Z.of_nat (length src) ->
  writes (BitStream_AppendBits c src n) tt (take_bits n src).
Proof.
  intros c src n F N. rewrite take_bits_split by auto.
  unfold BitStream_AppendBits. rewrite Z.quot_div_nonneg, Z.rem_mod_nonneg by lia.
  eapply writes_bind.
  - apply writes_EncodeOctets; auto. lia.
  - cbv beta. destruct (0 <? n mod 8) eqn:R.
    + apply writes_pure_l with (a := nth (Z.to_nat (n / 8)) src 0).
      { intros. unfold lift. rewrite nthZ_nth by lia. reflexivity. }
      set (x := nth (Z.to_nat (n / 8)) src 0).
      assert (X : is_byte x) by (eapply Forall_forall; [exact F|]; apply nth_In; lia).
      assert (XR := shiftr_byte_range x (n mod 8) X).
      rewrite byte_of_id.
      2:{ unfold is_byte. assert (2 ^ (n mod 8) <= 2 ^ 8) by (apply Z.pow_le_mono_r; lia). lia. }
      apply (writes_AppendPartialByte c _ (n mod 8) false); try lia.
    + apply writes_ret.
Qed.

(** The array form of a bit string: whole bytes, last byte padded with zero
    bits on the right. *)
Definition bytes_of_nbits (n : Z) (l : list Z) : list Z :=
  firstn (Z.to_nat (n / 8)) l ++
  (if 0 <? n mod 8 then [byte_of (Z.shiftl (Z.shiftr (nth (Z.to_nat (n / 8)) l 0) (8 - n mod 8)) (8 - n mod 8))] else []).

Lemma reads_ReadBits : forall l n, Forall is_byte l -> 0 <= n <= 8 * Z.of_nat (length l) ->
  reads (BitStream_ReadBits n) (Some (bytes_of_nbits n l)) (take_bits n l).
Proof.
  intros l n F N. rewrite take_bits_split by auto. unfold bytes_of_nbits.
  unfold BitStream_ReadBits. rewrite Z.quot_div_nonneg, Z.rem_mod_nonneg by lia.
  eapply reads_bindo.
  - replace (n / 8) with (Z.of_nat (length (firstn (Z.to_nat (n / 8)) l))) at 1 by (rewrite firstn_length; lia).
    apply reads_DecodeOctets. auto using Forall_firstn.
  - cbv beta. destruct (0 <? n mod 8) eqn:R.
    + set (x := nth (Z.to_nat (n / 8)) l 0).
      assert (X : is_byte x) by (eapply Forall_forall; [exact F|]; apply nth_In; lia).
      assert (XR := shiftr_byte_range x (n mod 8) X).
      eapply reads_eq.
      * eapply reads_bindo; [apply reads_ReadPartialByte with (v := Z.shiftr x (8 - n mod 8)); lia|].
        apply reads_ret.
      * rewrite app_nil_r. reflexivity.
    + rewrite app_nil_r. apply reads_ret.
Qed.

(** Runs of ones. *)
Lemma overwrites_append_ones : forall c k, overwrites (append_ones c k) tt (ones k).
Proof.
  induction k; [apply overwrites_ret|]. cbn [append_ones].
  change (ones (S k)) with ([true] ++ ones k).
  eapply overwrites_bind; [apply overwrites_AppendBitOne|auto].
Qed.
Lemma overwrites_append_FFs : forall c k, overwrites (append_FFs c k) tt (ones (8 * k)).
Proof.
  induction k; [apply overwrites_ret|]. cbn [append_FFs].
  replace (8 * S k)%nat with (8 + 8 * k)%nat by lia. rewrite ones_app.
  eapply overwrites_bind; [|auto]. change (ones 8) with (Zbits 8 (if false then Z.lnot 255 else 255)).
  apply overwrites_AppendByte. unfold is_byte; lia.
Qed.
Lemma overwrites_AppendNBitOne : forall c k, 0 <= k -> overwrites (BitStream_AppendNBitOne c k) tt (ones (Z.to_nat k)).
Proof.
  intros. unfold BitStream_AppendNBitOne. destruct (8 <=? k) eqn:E.
  - replace (Z.to_nat k) with (8 * Z.to_nat (k / 8) + Z.to_nat (k mod 8))%nat by lia. rewrite ones_app.
    eapply overwrites_bind; [apply overwrites_append_FFs|apply overwrites_append_ones].
  - apply overwrites_append_ones.
Qed.
