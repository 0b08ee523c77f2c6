(** Remaining proofs for Properties2.v. *)
From Verif Require Import Base Bits StrSpec BitStream Ints Contracts Octets Parse.
From Verif Require Import BitsProofs BitStreamProofs BitStreamProofs2 BitStreamProofs3 IntsProofs SafeProofs HistoryProofs TameProofs ParseProofs OctetsProofs OctetsProofs2.
From Coq Require Import ZifyBool ZifyNat.
Ltac Zify.zify_post_hook ::= Z.div_mod_to_equations.

Lemma frag_eq : forall items,
  let n := Z.of_nat (length items) in
  (n <= 127 -> frag items = Zbits 8 n ++ concat items) /\
  (127 < n < 16384 -> frag items = [true; false] ++ Zbits 14 n ++ concat items) /\
  (forall k blk rest, items = blk ++ rest -> Z.of_nat (length blk) = k * 16384 ->
     k = 4 \/ (1 <= k <= 3 /\ Z.of_nat (length rest) < 16384) ->
     frag items = [true; true] ++ Zbits 6 k ++ concat blk ++ frag rest).
Proof.
  intros items n. splits.
  - apply frag_small.
  - intros H. rewrite frag_mid by auto.
    change (Zbits 15 (Z.of_nat (length items))) with
      (Z.testbit (Z.of_nat (length items)) (Z.of_nat 14) :: Zbits 14 (Z.of_nat (length items))).
    rewrite (testbit_high0 _ 14); [reflexivity|lia|lia|lia].
  - intros k blk rest E Hb Hk.
    assert (Hn : n = k * 16384 + Z.of_nat (length rest)) by (unfold n; rewrite E, app_length; lia).
    assert (Hk2 : k = Z.min 4 (n / 16384)) by lia.
    rewrite (frag_big items k) by (unfold n in *; lia).
    replace (Z.to_nat (k * 16384)) with (length blk) by lia. subst items.
    rewrite firstn_app_exact, skipn_app_exact. rewrite (app_assoc [true; true]). f_equal.
    assert (k = 1 \/ k = 2 \/ k = 3 \/ k = 4) as [->|[->|[->| ->]]] by lia; reflexivity.
Qed.

Lemma C09_end_to_end : forall c arr arr0 n min max mem N,
  Forall is_byte arr -> 0 <= n <= Z.of_nat (length arr) -> n <= Z.of_nat (length arr0) ->
  0 <= min <= n -> n <= max -> max < 65536 \/ 0 < n ->
  Forall is_byte mem -> 0 <= N <= Z.of_nat (length mem) ->
  Z.of_nat (length (sized min max (octets (firstn (Z.to_nat n) arr)))) <= 8 * N ->
  exists s0 s1, BitStream_Init mem N = Ok s0 /\
    BitStream_EncodeOctetString c arr n min max s0 = Ok (true, s1) /\
    forall tail, Forall is_byte tail -> exists s2,
      BitStream_DecodeOctetString c arr0 min max
        (BitStream_AttachBuffer (firstn (Z.to_nat (BitStream_GetLength s1)) (buf s1) ++ tail) (BitStream_GetLength s1))
      = Ok (Some (n, firstn (Z.to_nat n) arr ++ skipn (Z.to_nat n) arr0), s2) /\ pos s2 = pos s1.
Proof.
  intros c arr arr0 n min max mem N HB Hn Hn0 Hmin Hmax HE HM HN HL.
  assert (LN : length (firstn (Z.to_nat n) arr) = Z.to_nat n) by (rewrite firstn_length; lia).
  pose proof (reads_DecodeOctetString c (firstn (Z.to_nat n) arr) arr0 min max) as HR.
  rewrite LN in HR. replace (Z.of_nat (Z.to_nat n)) with n in HR by lia.
  destruct (end_to_end _ _ true _ _ mem N (writes_EncodeOctetString c arr n min max HB Hn Hmin Hmax)
     (HR ltac:(apply Forall_firstn; auto) ltac:(lia) ltac:(lia) ltac:(lia)
       ltac:(destruct HE; [auto|right; intro EE; rewrite EE in LN; cbn in LN; lia])) HM HN HL)
    as (s0 & s1 & E0 & E1 & HX).
  cbv zeta in HX. destruct HX as (_ & _ & _ & _ & HX). exists s0, s1. splits; auto.
Qed.

Lemma C10_end_to_end : forall c arr arr0 n min max mem N,
  Forall is_byte arr -> 0 <= n <= 8 * Z.of_nat (length arr) -> n <= 8 * Z.of_nat (length arr0) ->
  0 <= min <= n -> n <= max -> max < 65536 \/ 0 < n ->
  Forall is_byte mem -> 0 <= N <= Z.of_nat (length mem) ->
  Z.of_nat (length (sized min max (single_bits (take_bits n arr)))) <= 8 * N ->
  exists s0 s1, BitStream_Init mem N = Ok s0 /\
    BitStream_EncodeBitString c arr n min max s0 = Ok (true, s1) /\
    forall tail, Forall is_byte tail -> exists s2,
      BitStream_DecodeBitString c arr0 min max
        (BitStream_AttachBuffer (firstn (Z.to_nat (BitStream_GetLength s1)) (buf s1) ++ tail) (BitStream_GetLength s1))
      = Ok (Some (n, pack (take_bits n arr) ++ skipn (Z.to_nat ((n + 7) / 8)) arr0), s2) /\ pos s2 = pos s1.
Proof.
  intros c arr arr0 n min max mem N HB Hn Hn0 Hmin Hmax HE HM HN HL.
  assert (LN : length (take_bits n arr) = Z.to_nat n) by (unfold take_bits; rewrite firstn_length, len_bits_of_bytes; lia).
  assert (LP : length (pack (take_bits n arr)) = Z.to_nat ((n + 7) / 8)) by (pose proof (pack_len (take_bits n arr)); lia).
  pose proof (reads_DecodeBitString c (take_bits n arr) arr0 min max) as HR.
  rewrite LN, LP in HR. replace (Z.of_nat (Z.to_nat n)) with n in HR by lia.
  destruct (end_to_end _ _ true _ _ mem N (writes_EncodeBitString c arr n min max HB Hn Hmin Hmax)
     (HR ltac:(lia) ltac:(lia) ltac:(lia)
       ltac:(destruct HE; [auto|right; intro EE; rewrite EE in LN; cbn in LN; lia])) HM HN HL)
    as (s0 & s1 & E0 & E1 & HX).
  cbv zeta in HX. destruct HX as (_ & _ & _ & _ & HX). exists s0, s1. splits; auto.
Qed.

Lemma success_enough : forall {A} (f : M (option A)) (m : A -> Z),
  parses f (fun a bs => m a <= Z.of_nat (length bs)) ->
  forall s a s', wfp s -> f s = Ok (Some a, s') -> pos s + m a <= 8 * count s.
Proof.
  intros A f m HP s a s' HW E. destruct (HP s a s' HW E) as (pre & bs & rest & X1 & X2 & X3 & X4 & X5).
  destruct X1 as (_ & _ & Y & _). lia.
Qed.

Lemma C11_octets : forall c arr max s n a s', wfp s ->
  BitStream_DecodeOctetString_fragmentation c arr max s = Ok (Some (n, a), s') -> pos s + 8 * n <= 8 * count s.
Proof.
  intros c arr max s n a s' HW E.
  apply (success_enough _ (fun p => 8 * fst p)) in E; auto.
  eapply parses_weaken; [|apply parses_DecodeOctetString_fragmentation]. cbv beta. intros; lia.
Qed.
Lemma C11_octets64K : forall c arr min max s n a s', 65536 <= max -> wfp s ->
  BitStream_DecodeOctetString c arr min max s = Ok (Some (n, a), s') -> pos s + 8 * n <= 8 * count s.
Proof.
  intros c arr min max s n a s' Hm HW E. unfold BitStream_DecodeOctetString in E.
  replace (max <? 65536) with false in E by lia. eapply C11_octets; eauto.
Qed.
Lemma C11_bits : forall c arr min max s n a s', 0 <= min <= max -> is_s64 min -> is_s64 max -> wfp s ->
  BitStream_DecodeBitString c arr min max s = Ok (Some (n, a), s') -> pos s + n <= 8 * count s.
Proof.
  intros c arr min max s n a s' Hm H1 H2 HW E.
  apply (success_enough _ fst) in E; auto.
  eapply parses_weaken; [|apply parses_DecodeBitString; auto]. cbv beta. intros; lia.
Qed.

(** Every proper prefix of an encoding is rejected. *)
Lemma safe_not_some : forall {A} (f : M (option A)) P s, safe f P -> wfs s ->
  (forall b s', f s <> Ok (Some b, s')) -> exists s', f s = Ok (None, s').
Proof.
  intros A f P s HS HW HN. destruct (HS s HW) as (r & s' & E & _). destruct r; [exfalso; eapply HN; eauto|eauto].
Qed.
Lemma wfs_wfp : forall s, wfs s -> wfp s.
Proof. intros s (H1 & H2 & H3 & H4 & H5). unfold wfp, inside. splits; auto; lia. Qed.

Lemma C11_truncated_octets : forall c l arr0 max s pre rest, Forall is_byte l -> (length l <= length arr0)%nat ->
  1 <= Z.of_nat (length l) <= max -> max <= Z.of_nat (length arr0) -> wfs s ->
  at_ s pre (frag (octets l) ++ rest) -> 8 * count s < Z.of_nat (length pre + length (frag (octets l))) ->
  exists s', BitStream_DecodeOctetString_fragmentation c arr0 max s = Ok (None, s').
Proof.
  intros c l arr0 max s pre rest HB HL H1 H2 HW HA HT.
  eapply safe_not_some; [apply safe_DecodeOctetString_fragmentation; lia|auto|].
  eapply parses_truncated; [apply parses_DecodeOctetString_fragmentation|apply reads_DecodeOctetString_fragmentation|exact HA|apply wfs_wfp| ]; auto.
Qed.
Lemma C11_truncated_bits : forall c l arr0 min max s pre rest, Z.of_nat (length l) <= 8 * Z.of_nat (length arr0) ->
  0 <= min <= Z.of_nat (length l) -> Z.of_nat (length l) <= max -> max < 65536 \/ l <> [] ->
  max <= 8 * Z.of_nat (length arr0) -> is_s64 max -> wfs s ->
  at_ s pre (sized min max (single_bits l) ++ rest) ->
  8 * count s < Z.of_nat (length pre + length (sized min max (single_bits l))) ->
  exists s', BitStream_DecodeBitString c arr0 min max s = Ok (None, s').
Proof.
  intros c l arr0 min max s pre rest HL H1 H2 H3 H4 H5 HW HA HT.
  eapply safe_not_some; [apply safe_DecodeBitString; lia|auto|].
  eapply parses_truncated; [apply parses_DecodeBitString|apply reads_DecodeBitString|exact HA|apply wfs_wfp| ]; auto;
    unfold is_s64, two63 in *; lia.
Qed.

(** Occurrence of the pattern in content ++ pattern decides the round trip. *)
Lemma occurs_prefix : forall p d x i, (i + length p <= length d)%nat -> occurs_at p (d ++ x) i <-> occurs_at p d i.
Proof.
  intros p d x i H. unfold occurs_at. rewrite skipn_app, firstn_app.
  replace (length p - length (skipn i d))%nat with 0%nat by (rewrite skipn_length; lia).
  rewrite firstn_O, app_nil_r. reflexivity.
Qed.

Lemma C38_roundtrip : forall c ct p extra dst nMax s pre rest, wfp s -> Forall is_byte dst ->
  first_at p (ct ++ p) (length ct) -> 1 <= nMax -> Z.of_nat (length ct) <= nMax ->
  (nMax + 7) / 8 <= Z.of_nat (length dst) ->
  at_ s pre ((ct ++ p) ++ rest) -> Z.of_nat (length pre + length (ct ++ p)) <= 8 * count s ->
  exists s', BitStream_ReadBits_nullterminated c (pack p ++ extra) (Z.of_nat (length p)) dst nMax s =
      Ok (Some (Z.of_nat (length ct),
        pack (ct ++ zeros (8 * Z.to_nat ((nMax + 7) / 8) - length ct)) ++ skipn (Z.to_nat ((nMax + 7) / 8)) dst), s') /\
    at_ s' (pre ++ ct ++ p) rest.
Proof.
  intros c ct p extra dst nMax s pre rest HW HD HF H1 H2 H3 HA HC.
  destruct (ReadBits_nullterminated_ok c p extra dst nMax s pre _ HW HA HD H1 H3) as (r & s' & E & _ & _ & _ & G & _).
  assert (HF' : first_at p (remaining s ((ct ++ p) ++ rest)) (length ct)).
  { unfold remaining. rewrite app_length in HC.
    destruct HA as (_ & _ & LP & _).
    rewrite firstn_app, (firstn_all2 (ct ++ p)) by (rewrite app_length; lia).
    destruct HF as [F1 F2]. split.
    - apply occurs_prefix; [rewrite app_length; lia|exact F1].
    - intros i Hi. rewrite occurs_prefix by (rewrite app_length; lia). auto. }
  destruct (G (length ct) HF' H2) as (-> & G2 & _).
  assert (X1 : firstn (length ct) ((ct ++ p) ++ rest) = ct) by (rewrite <- app_assoc; apply firstn_app_exact).
  assert (X2 : skipn (length ct + length p) ((ct ++ p) ++ rest) = rest)
    by (rewrite <- app_length; apply skipn_app_exact).
  rewrite X1 in *. rewrite X2 in *. exists s'. split; auto.
Qed.

Lemma bits_of_pack : forall k l, (length l <= k)%nat ->
  bits_of_bytes (pack l) = l ++ zeros (8 * length (pack l) - length l) /\ Forall is_byte (pack l).
Proof.
  induction k; intros l Hk; [destruct l; cbn in *; [split; auto|lia]|].
  destruct (le_lt_dec 8 (length l)) as [H|H].
  - rewrite <- (firstn_skipn 8 l). set (x := firstn 8 l). set (y := skipn 8 l).
    assert (LX : length x = 8%nat) by (unfold x; rewrite firstn_length; lia).
    rewrite pack_cons8 by auto. destruct (IHk y) as [E F]; [unfold y; rewrite skipn_length; lia|].
    split.
    + cbn [bits_of_bytes flat_map]. fold (bits_of_bytes (pack y)). rewrite E, <- app_assoc. f_equal.
      * pose proof (Zbits_bval x) as Z0. rewrite LX in Z0. exact Z0.
      * f_equal. rewrite app_length. cbn [length]. f_equal. lia.
    + constructor; auto. pose proof (bval_bounds x). rewrite LX in H0. exact H0.
  - destruct l as [|b l']; [split; [reflexivity|constructor]|]. set (l := b :: l') in *.
    assert (0 < length l)%nat by (cbn; lia).
    rewrite pack_short by lia. cbn [length bits_of_bytes flat_map]. rewrite app_nil_r.
    assert (EB : bval l * 2 ^ (8 - Z.of_nat (length l)) = bval (l ++ zeros (8 - length l))).
    { rewrite bval_app, bval_zeros, len_zeros. replace (Z.of_nat (8 - length l)) with (8 - Z.of_nat (length l)) by lia. lia. }
    rewrite EB.
    assert (L8 : length (l ++ zeros (8 - length l)) = 8%nat) by (rewrite app_length, len_zeros; lia).
    split; [|constructor; auto; pose proof (bval_bounds (l ++ zeros (8 - length l))) as B; rewrite L8 in B; exact B].
    pose proof (Zbits_bval (l ++ zeros (8 - length l))) as Z0. rewrite L8 in Z0. exact Z0.
Qed.
Lemma pack_spec : forall l, Forall is_byte (pack l) /\
  Z.of_nat (length (pack l)) = (Z.of_nat (length l) + 7) / 8 /\
  take_bits (Z.of_nat (length l)) (pack l) = l /\
  skipn (length l) (bits_of_bytes (pack l)) = zeros (8 * length (pack l) - length l).
Proof.
  intros l. destruct (bits_of_pack (length l) l (le_n _)) as [E F]. splits; auto.
  - apply pack_len.
  - unfold take_bits. rewrite E, Nat2Z.id. apply firstn_app_exact.
  - rewrite E. apply skipn_app_exact.
Qed.
