(** Proofs about Misc.v. *)
From Verif Require Import Base Bits BitStream Ints Misc Contracts.
From Verif Require Import BitsProofs BitStreamProofs IntsProofs SafeProofs HistoryProofs OctetsProofs.
From Coq Require Import ZifyBool ZifyNat Sorted.
Ltac Zify.zify_post_hook ::= Z.div_mod_to_equations.

Lemma int2uint_ok : forall c v, is_s64 v -> sfits c (- v) -> int2uint c v = Ok (v mod two64).
Proof.
  intros c v Hv Hf. unfold int2uint. destruct (v <? 0) eqn:E.
  - rewrite neg_m1_ok by (auto; lia). cbn [obind]. unfold u64. f_equal. f_equal. unfold Z.lnot. lia.
  - reflexivity.
Qed.

(** v with the bits 8n..63 set *)
Lemma or_aux_ok : forall k n v, (Z.of_nat k = 8 - n) -> 0 <= n -> 0 <= v ->
  exists r, or_aux k 7 v = Ok r /\
    forall i, 0 <= i -> Z.testbit r i = Z.testbit v i || (8 * n <=? i) && (i <? 64).
Proof.
  assert (G : forall k i v, -1 <= i - Z.of_nat k -> i <= 7 -> 0 <= v ->
    exists r, or_aux k i v = Ok r /\
      forall j, 0 <= j -> Z.testbit r j = Z.testbit v j || (8 * (i + 1 - Z.of_nat k) <=? j) && (j <? 8 * (i + 1))).
  { induction k; intros i v H1 H2 H3; cbn [or_aux].
    - exists v. split; auto. intros j Hj.
      replace ((8 * (i + 1 - Z.of_nat 0) <=? j) && (j <? 8 * (i + 1))) with false by lia. now rewrite orb_false_r.
    - assert (HM : nthZ ber_aux i = Ok (255 * 2 ^ (8 * i))).
      { assert (i = 0 \/ i = 1 \/ i = 2 \/ i = 3 \/ i = 4 \/ i = 5 \/ i = 6 \/ i = 7) as H by lia.
        repeat destruct H as [->|H]; try reflexivity. subst; reflexivity. }
      rewrite HM. cbn [obind].
      destruct (IHk (i - 1) (Z.lor v (255 * 2 ^ (8 * i)))) as (r & R1 & R2); try lia.
      { apply Z.lor_nonneg; split; lia. }
      exists r. split; auto. intros j Hj. rewrite R2 by auto. rewrite Z.lor_spec.
      assert (HT : Z.testbit (255 * 2 ^ (8 * i)) j = (8 * i <=? j) && (j <? 8 * i + 8)).
      { rewrite <- Z.shiftl_mul_pow2 by lia. rewrite Z.shiftl_spec by lia.
        change 255 with (Z.ones 8). 
        destruct (Z.ltb_spec j (8 * i)); [rewrite Z.testbit_neg_r by lia; lia|].
        destruct (Z.ltb_spec (j - 8 * i) 8); [rewrite Z.ones_spec_low by lia; lia|rewrite Z.ones_spec_high by lia; lia]. }
      rewrite HT. destruct (Z.testbit v j); cbn [orb]; lia. }
  intros k n v Hk Hn Hv. destruct (G k 7 v) as (r & R1 & R2); try lia.
  exists r. split; auto. intros i Hi. rewrite R2 by auto. f_equal. lia.
Qed.

Lemma uint2int_ok : forall c v n, 1 <= n <= 8 -> 0 <= v < 2 ^ (8 * n) ->
  uint2int c v n = Ok (if v <? 2 ^ (8 * n - 1) then v else v - 2 ^ (8 * n)).
Proof.
  intros c v n Hn Hv. unfold uint2int.
  destruct ((_ <? 0) || _) eqn:E; [lia|]. clear E.
  assert (HS : u64 (Z.shiftl 128 ((n - 1) * 8)) = 2 ^ (8 * n - 1)).
  { assert (n = 1 \/ n = 2 \/ n = 3 \/ n = 4 \/ n = 5 \/ n = 6 \/ n = 7 \/ n = 8) as H by lia.
    repeat destruct H as [->|H]; try reflexivity. subst; reflexivity. }
  rewrite HS. pose proof (land_pow2_testbit v (8 * n - 1) ltac:(lia)) as HT.
  assert (HB : Z.testbit v (8 * n - 1) = (2 ^ (8 * n - 1) <=? v)).
  { rewrite Z.testbit_eqb by lia.
    assert (P : 2 ^ (8 * n) = 2 * 2 ^ (8 * n - 1)) by (rewrite <- Z.pow_succ_r by lia; f_equal; lia).
    assert (0 < 2 ^ (8 * n - 1)) by lia.
    destruct (2 ^ (8 * n - 1) <=? v) eqn:E.
    - assert (v / 2 ^ (8 * n - 1) = 1) as ->; [|reflexivity].
      symmetry. apply Z.div_unique with (r := v - 2 ^ (8 * n - 1)); lia.
    - rewrite Z.div_small by lia. reflexivity. }
  rewrite HB in HT.
  assert (P64 : 2 ^ (8 * n) <= 2 ^ 64) by (apply Z.pow_le_mono_r; lia).
  assert (P63 : 2 ^ (8 * n) = 2 * 2 ^ (8 * n - 1)) by (rewrite <- Z.pow_succ_r by lia; f_equal; lia).
  destruct (Z.land v _ =? 0) eqn:E0.
  - replace (v <? 2 ^ (8 * n - 1)) with true by lia. f_equal. apply s64_id. unfold is_s64, two63.
    change (2 ^ 64) with (2 * 2 ^ 63) in P64. lia.
  - replace (v <? 2 ^ (8 * n - 1)) with false by lia.
    destruct (or_aux_ok (Z.to_nat (8 - n)) n v) as (r & R1 & R2); try lia.
    rewrite R1. cbn [obind].
    assert (HR : u64 (Z.lnot r) = 2 ^ (8 * n) - 1 - v).
    { unfold u64, two64. apply Z.bits_inj'. intros i Hi.
      replace (2 ^ (8 * n) - 1 - v) with ((Z.lnot v) mod 2 ^ (8 * n)).
      2:{ unfold Z.lnot. symmetry. apply Z.mod_unique with (q := -1); lia. }
      destruct (Z.ltb_spec i (8 * n)).
      - rewrite !Z.mod_pow2_bits_low by lia. rewrite !Z.lnot_spec by lia. rewrite R2 by lia.
        replace ((8 * n <=? i) && (i <? 64)) with false by lia. now rewrite orb_false_r.
      - rewrite (Z.mod_pow2_bits_high _ (8 * n)) by lia.
        destruct (Z.ltb_spec i 64).
        + rewrite Z.mod_pow2_bits_low by lia. rewrite Z.lnot_spec, R2 by lia.
          replace ((8 * n <=? i) && (i <? 64)) with true by lia. now rewrite orb_true_r.
        + now rewrite Z.mod_pow2_bits_high by lia. }
    rewrite HR.
    assert (P1 : 2 ^ (8 * n - 1) <= 2 ^ 63) by lia.
    rewrite s64_id by (unfold is_s64, two63; lia).
    rewrite sres_ok by (unfold is_s64, two63; lia). cbn [obind].
    rewrite sres_ok by (unfold is_s64, two63; lia). f_equal. lia.
Qed.

Lemma C28_roundtrip : forall c v n u, 1 <= n <= 8 -> - 2 ^ (8 * n - 1) <= v < 2 ^ (8 * n - 1) -> sfits c (- v) ->
  int2uint c v = Ok u -> uint2int c (u mod 2 ^ (8 * n)) n = Ok v.
Proof.
  intros c v n u Hn Hv Hf E.
  assert (P64 : 2 ^ (8 * n) <= 2 ^ 64) by (apply Z.pow_le_mono_r; lia).
  assert (P63 : 2 ^ (8 * n) = 2 * 2 ^ (8 * n - 1)) by (rewrite <- Z.pow_succ_r by lia; f_equal; lia).
  rewrite int2uint_ok in E; auto. 2:{ unfold is_s64, two63. change (2 ^ 64) with (2 * 2 ^ 63) in P64. lia. }
  injection E as <-.
  assert (HM : (v mod two64) mod 2 ^ (8 * n) = v mod 2 ^ (8 * n)).
  { unfold two64. replace 64 with (8 * n + (64 - 8 * n)) by lia. rewrite Z.pow_add_r by lia.
    rewrite Z.rem_mul_r by lia. rewrite (Z.mul_comm (2 ^ (8 * n))), Z_mod_plus_full. apply Z.mod_mod. lia. }
  rewrite HM. destruct (Z.ltb_spec v 0).
  - assert (EV : v mod 2 ^ (8 * n) = v + 2 ^ (8 * n)) by (symmetry; apply Z.mod_unique with (q := -1); lia).
    rewrite EV. rewrite uint2int_ok; try lia.
    destruct (_ <? _) eqn:E; [lia|]. f_equal. lia.
  - rewrite Z.mod_small by lia. rewrite uint2int_ok; try lia.
    destruct (_ <? _) eqn:E; [auto|lia].
Qed.

(** ** Searches *)
Lemma nthZ_spec : forall l i, 0 <= i < Z.of_nat (length l) -> nthZ l i = Ok (nth (Z.to_nat i) l 0).
Proof.
  intros. unfold nthZ. destruct (i <? 0) eqn:E; [lia|].
  erewrite nth_error_nth'; [reflexivity|lia].
Qed.

Lemma sorted_nth : forall l, StronglySorted Z.lt l -> forall i j, (i < j < length l)%nat -> nth i l 0 < nth j l 0.
Proof.
  induction 1 as [|a l HS IH HF]; intros i j Hij; cbn in Hij; [lia|].
  destruct j; [lia|]. cbn [nth]. destruct i.
  - rewrite Forall_forall in HF. apply HF. apply nth_In. lia.
  - apply IH. lia.
Qed.

Lemma bin_loop_ok : forall fuel arr low high value, StronglySorted Z.lt arr ->
  0 <= low -> high < Z.of_nat (length arr) -> high - low + 1 < Z.of_nat fuel -> low <= high + 1 ->
  (forall i, 0 <= i < Z.of_nat (length arr) -> nth (Z.to_nat i) arr 0 = value -> low <= i <= high) ->
  exists r, bin_loop fuel arr low high value = Ok r /\
    (0 <= r < Z.of_nat (length arr) /\ nth (Z.to_nat r) arr 0 = value \/ r = -1 /\ ~ In value arr).
Proof.
  induction fuel; intros arr low high value HS Hl Hh Hf HE HI; cbn [bin_loop]; [lia|].
  destruct (low <=? high) eqn:E.
  - rewrite Z.quot_div_nonneg by lia. set (mid := low + (high - low) / 2).
    assert (HM : low <= mid <= high) by (unfold mid; lia).
    rewrite nthZ_spec by lia. cbn [obind].
    destruct (nth (Z.to_nat mid) arr 0 =? value) eqn:E1; [exists mid; split; auto; left; lia|].
    destruct (nth (Z.to_nat mid) arr 0 <? value) eqn:E2; apply IHfuel; auto; try lia.
    + intros i Hi Hv. specialize (HI i Hi Hv). split; [|lia].
      destruct (Z.le_gt_cases i mid); [|lia]. destruct (Z.eq_dec i mid); [subst; lia|].
      pose proof (sorted_nth arr HS (Z.to_nat i) (Z.to_nat mid) ltac:(lia)). lia.
    + intros i Hi Hv. specialize (HI i Hi Hv). split; [lia|].
      destruct (Z.le_gt_cases mid i); [|lia]. destruct (Z.eq_dec i mid); [subst; lia|].
      pose proof (sorted_nth arr HS (Z.to_nat mid) (Z.to_nat i) ltac:(lia)). lia.
  - exists (-1). split; auto. right. split; auto. intros HIn.
    destruct (In_nth _ _ 0 HIn) as (k & K1 & K2).
    specialize (HI (Z.of_nat k) ltac:(lia)). rewrite Nat2Z.id in HI. specialize (HI K2). lia.
Qed.

Lemma binarySearch_ok : forall arr value, StronglySorted Z.lt arr ->
  exists r, binarySearch arr (Z.of_nat (length arr)) value = Ok r /\
    (0 <= r < Z.of_nat (length arr) /\ nth (Z.to_nat r) arr 0 = value \/ r = -1 /\ ~ In value arr).
Proof. intros. apply bin_loop_ok; auto; try lia. Qed.

Lemma lin_loop_ok : forall k arr i value, 0 <= i -> i + Z.of_nat k = Z.of_nat (length arr) ->
  exists r, lin_loop k arr i value = Ok r /\
    ((i <= r < Z.of_nat (length arr) /\ nth (Z.to_nat r) arr 0 = value /\
      forall j, i <= j < r -> nth (Z.to_nat j) arr 0 <> value) \/
     r = -1 /\ forall j, i <= j < Z.of_nat (length arr) -> nth (Z.to_nat j) arr 0 <> value).
Proof.
  induction k; intros arr i value Hi HL; cbn [lin_loop].
  - exists (-1). split; auto. right. split; auto. intros; lia.
  - rewrite nthZ_spec by lia. cbn [obind]. destruct (_ =? value) eqn:E.
    + exists i. split; auto. left. split; [lia|]. split; [lia|]. intros; lia.
    + destruct (IHk arr (i + 1) value) as (r & R1 & R2); try lia. exists r. split; auto.
      destruct R2 as [(R2 & R3 & R4)|[R2 R3]]; [left|right]; splits; auto; try lia.
      * intros j Hj. destruct (Z.eq_dec j i); [subst; lia|apply R4; lia].
      * intros j Hj. destruct (Z.eq_dec j i); [subst; lia|apply R3; lia].
Qed.

Lemma linearSearch_ok : forall arr value,
  exists r, linearSearch arr (Z.of_nat (length arr)) value = Ok r /\
    ((0 <= r < Z.of_nat (length arr) /\ nth (Z.to_nat r) arr 0 = value /\
      forall j, 0 <= j < r -> nth (Z.to_nat j) arr 0 <> value) \/
     r = -1 /\ ~ In value arr).
Proof.
  intros arr value. destruct (lin_loop_ok (Z.to_nat (Z.of_nat (length arr))) arr 0 value) as (r & R1 & R2); try lia.
  exists r. split; auto. destruct R2 as [R2|[R2 R3]]; [left; auto|right]. split; auto.
  intros HIn. destruct (In_nth _ _ 0 HIn) as (k & K1 & K2). apply (R3 (Z.of_nat k)); [lia|]. now rewrite Nat2Z.id.
Qed.

Lemma searches_agree : forall arr value, StronglySorted Z.lt arr ->
  binarySearch arr (Z.of_nat (length arr)) value = linearSearch arr (Z.of_nat (length arr)) value.
Proof.
  intros arr value HS. destruct (binarySearch_ok arr value HS) as (r & R1 & R2).
  destruct (linearSearch_ok arr value) as (q & Q1 & Q2). rewrite R1, Q1. f_equal.
  destruct R2 as [[R2 R3]|[R2 R3]]; destruct Q2 as [(Q2 & Q3 & _)|[Q2 Q3]].
  - destruct (Z.lt_trichotomy r q) as [H|[H|H]]; auto.
    + pose proof (sorted_nth arr HS (Z.to_nat r) (Z.to_nat q) ltac:(lia)). lia.
    + pose proof (sorted_nth arr HS (Z.to_nat q) (Z.to_nat r) ltac:(lia)). lia.
  - exfalso. apply Q3. rewrite <- R3. apply nth_In. lia.
  - exfalso. apply R3. rewrite <- Q3. apply nth_In. lia.
  - lia.
Qed.

(** ** GetCharIndex *)
Lemma char_loop_ok : forall k ch set i, 0 <= i -> i + Z.of_nat k = Z.of_nat (length set) ->
  exists r, char_loop k ch set i = Ok r /\
    ((i <= r < Z.of_nat (length set) /\ nth (Z.to_nat r) set 0 = ch /\
      forall j, i <= j < r -> nth (Z.to_nat j) set 0 <> ch) \/
     r = 0 /\ forall j, i <= j < Z.of_nat (length set) -> nth (Z.to_nat j) set 0 <> ch).
Proof.
  induction k; intros ch set i Hi HL; cbn [char_loop].
  - exists 0. split; auto. right. split; auto. intros; lia.
  - rewrite nthZ_spec by lia. cbn [obind]. destruct (ch =? _) eqn:E.
    + exists i. split; auto. left. split; [lia|]. split; [lia|]. intros; lia.
    + destruct (IHk ch set (i + 1)) as (r & R1 & R2); try lia. exists r. split; auto.
      destruct R2 as [(R2 & R3 & R4)|[R2 R3]]; [left|right]; splits; auto; try lia.
      * intros j Hj. destruct (Z.eq_dec j i); [subst; lia|apply R4; lia].
      * intros j Hj. destruct (Z.eq_dec j i); [subst; lia|apply R3; lia].
Qed.
Lemma GetCharIndex_in : forall ch set, In ch set ->
  exists r, GetCharIndex ch set (Z.of_nat (length set)) = Ok r /\ 0 <= r < Z.of_nat (length set) /\
    nth (Z.to_nat r) set 0 = ch.
Proof.
  intros ch set HIn. destruct (char_loop_ok (Z.to_nat (Z.of_nat (length set))) ch set 0) as (r & R1 & R2); try lia.
  exists r. split; auto. destruct R2 as [R2|[R2 R3]]; [tauto|].
  destruct (In_nth _ _ 0 HIn) as (k & K1 & K2). exfalso. apply (R3 (Z.of_nat k)); [lia|]. now rewrite Nat2Z.id.
Qed.
Lemma GetCharIndex_notin : forall ch set, ~ In ch set -> GetCharIndex ch set (Z.of_nat (length set)) = Ok 0.
Proof.
  intros ch set HIn. destruct (char_loop_ok (Z.to_nat (Z.of_nat (length set))) ch set 0) as (r & R1 & R2); try lia.
  unfold GetCharIndex. rewrite R1. f_equal. destruct R2 as [(R2 & R3 & _)|[R2 R3]]; auto.
  exfalso. apply HIn. rewrite <- R3. apply nth_In. lia.
Qed.

(** ** Equality functions *)
Lemma Forall_first : forall (A : Type) (P : A -> Prop) n l, Forall P l -> Forall P (firstn n l).
Proof.
  intros A P n l H. rewrite <- (firstn_skipn n l) in H. apply Forall_app in H. tauto.
Qed.

Lemma forallb_combine : forall a b, length a = length b ->
  forallb (fun p => fst p =? snd p) (combine a b) = true <-> a = b.
Proof.
  induction a; destruct b; cbn; intros HL; try lia; [tauto|].
  rewrite andb_true_iff. rewrite IHa by lia. rewrite Z.eqb_eq. split; [intros [-> ->]; auto|intros H; injection H; auto].
Qed.
Lemma OctetString_equal_ok : forall n1 n2 a1 a2, 0 <= n1 <= Z.of_nat (length a1) -> 0 <= n2 <= Z.of_nat (length a2) ->
  exists b, OctetString_equal n1 n2 a1 a2 = Ok b /\
    (b = true <-> firstn (Z.to_nat n1) a1 = firstn (Z.to_nat n2) a2).
Proof.
  intros n1 n2 a1 a2 H1 H2. unfold OctetString_equal. destruct (n1 =? n2) eqn:E.
  - assert (n1 = n2) by lia. subst n2. unfold memeq. destruct (_ || _ || _) eqn:E2; [lia|].
    eexists. split; [reflexivity|]. apply forallb_combine. rewrite !firstn_length. lia.
  - exists false. split; auto. split; [discriminate|]. intros H. apply (f_equal (@length Z)) in H.
    rewrite !firstn_length in H. lia.
Qed.

Lemma bits_prefix_eq : forall a b k r, Forall is_byte a -> Forall is_byte b ->
  0 <= k -> 0 <= r < 8 -> 8 * k + r <= 8 * Z.of_nat (length a) -> 8 * k + r <= 8 * Z.of_nat (length b) ->
  take_bits (8 * k + r) a = take_bits (8 * k + r) b <->
  firstn (Z.to_nat k) a = firstn (Z.to_nat k) b /\
  (0 < r -> Z.shiftr (nth (Z.to_nat k) a 0) (8 - r) = Z.shiftr (nth (Z.to_nat k) b 0) (8 - r)).
Proof.
  assert (G : forall a k r, Forall is_byte a -> 0 <= k -> 0 <= r < 8 -> 8 * k + r <= 8 * Z.of_nat (length a) ->
    take_bits (8 * k + r) a = bits_of_bytes (firstn (Z.to_nat k) a) ++
      (if 0 <? r then Zbits (Z.to_nat r) (Z.shiftr (nth (Z.to_nat k) a 0) (8 - r)) else [])).
  { intros a k r HB Hk Hr HL. unfold take_bits. rewrite <- (firstn_skipn (Z.to_nat k) a) at 1.
    rewrite bits_of_bytes_app, firstn_app, len_bits_of_bytes, firstn_length.
    rewrite firstn_all2 by (rewrite len_bits_of_bytes, firstn_length; lia). f_equal.
    replace (Z.to_nat (8 * k + r) - 8 * Nat.min (Z.to_nat k) (length a))%nat with (Z.to_nat r) by lia.
    destruct (0 <? r) eqn:E; [|replace r with 0 by lia; reflexivity].
    rewrite (skipn_nth_cons a (Z.to_nat k) (nth (Z.to_nat k) a 0) 0) by (auto; lia).
    cbn [bits_of_bytes]. rewrite firstn_app, len_bits_of_byte.
    replace (Z.to_nat r - 8)%nat with 0%nat by lia. rewrite firstn_O, app_nil_r, Zbits8.
    rewrite (Zbits8_split _ (8 - r)) by lia. replace (8 - (8 - r)) with r by lia.
    rewrite firstn_app, len_Zbits, Nat.sub_diag, firstn_O, app_nil_r. apply firstn_all2. rewrite len_Zbits. lia. }
  assert (B : forall a k, Forall is_byte a -> is_byte (nth k a 0)).
  { intros a k HB. destruct (nth_in_or_default k a 0) as [H|H]; [rewrite Forall_forall in HB; auto|rewrite H; split; lia]. }
  intros a b k r HA HB Hk Hr H1 H2. rewrite !G by auto. split.
  - intros H. apply app_split in H; [|rewrite !len_bits_of_bytes, !firstn_length; lia]. destruct H as [E1 E2].
    split; [apply bits_of_bytes_inj in E1; auto; apply Forall_first; auto|]. intros Hp.
    replace (0 <? r) with true in E2 by lia. apply Zbits_inj in E2; auto;
      (pose proof (B a (Z.to_nat k) HA); pose proof (B b (Z.to_nat k) HB); unfold is_byte in *;
       replace (Z.of_nat (Z.to_nat r)) with (8 - (8 - r)) by lia; apply shiftr_lt; lia).
  - intros [-> E2]. f_equal. destruct (0 <? r) eqn:E; auto. rewrite E2 by lia. reflexivity.
Qed.

Lemma BitString_equal_ok : forall n1 n2 a1 a2, Forall is_byte a1 -> Forall is_byte a2 ->
  0 <= n1 <= 8 * Z.of_nat (length a1) -> 0 <= n2 <= 8 * Z.of_nat (length a2) ->
  exists b, BitString_equal n1 n2 a1 a2 = Ok b /\ (b = true <-> take_bits n1 a1 = take_bits n2 a2).
Proof.
  intros n1 n2 a1 a2 B1 B2 H1 H2. unfold BitString_equal. destruct (n1 =? n2) eqn:E; cbn [negb].
  - assert (n1 = n2) by lia. subst n2. rewrite Z.quot_div_nonneg, Z.rem_mod_nonneg by lia.
    pose proof (bits_prefix_eq a1 a2 (n1 / 8) (n1 mod 8) B1 B2 ltac:(lia) ltac:(lia) ltac:(lia) ltac:(lia)) as HP.
    replace (8 * (n1 / 8) + n1 mod 8) with n1 in HP by lia.
    destruct ((_ <? _) || _) eqn:E2; [lia|].
    assert (HE : forallb (fun p => fst p =? snd p) (combine (firstn (Z.to_nat (n1 / 8)) a1) (firstn (Z.to_nat (n1 / 8)) a2)) = true
       <-> firstn (Z.to_nat (n1 / 8)) a1 = firstn (Z.to_nat (n1 / 8)) a2)
      by (apply forallb_combine; rewrite !firstn_length; lia).
    destruct (forallb _ _); cbn [negb].
    + destruct (0 <? n1 mod 8) eqn:E3.
      * rewrite !nthZ_spec by lia. cbn [obind]. eexists. split; [reflexivity|]. rewrite Z.eqb_eq, HP.
        split; [intros H; split; [apply HE; auto|auto]|intros [_ H]; apply H; lia].
      * exists true. split; auto. rewrite HP. split; auto. intros _. split; [apply HE; auto|lia].
    + exists false. split; auto. rewrite HP. split; [discriminate|]. intros [H _]. apply HE in H. discriminate.
  - exists false. split; auto. split; [discriminate|]. intros H. apply (f_equal (@length bool)) in H.
    unfold take_bits in H. rewrite !firstn_length, !len_bits_of_bytes in H. lia.
Qed.

Lemma oid_eq_loop_ok : forall k v1 v2 i, 0 <= i -> i + Z.of_nat k <= Z.of_nat (length v1) ->
  i + Z.of_nat k <= Z.of_nat (length v2) ->
  exists b, oid_eq_loop k v1 v2 i = Ok b /\
    (b = true <-> firstn k (skipn (Z.to_nat i) v1) = firstn k (skipn (Z.to_nat i) v2)).
Proof.
  induction k; intros v1 v2 i Hi H1 H2; cbn [oid_eq_loop]; [exists true; split; auto; tauto|].
  rewrite !nthZ_spec by lia. cbn [obind].
  rewrite (skipn_nth_cons v1 (Z.to_nat i) _ 0 ltac:(lia) eq_refl), (skipn_nth_cons v2 (Z.to_nat i) _ 0 ltac:(lia) eq_refl).
  cbn [firstn]. destruct (_ =? _) eqn:E.
  - destruct (IHk v1 v2 (i + 1)) as (b & B1 & B2); try lia. exists b. split; auto. rewrite B2.
    replace (Z.to_nat (i + 1)) with (S (Z.to_nat i)) by lia. split; [intros ->; f_equal; lia|intros H; injection H; auto].
  - exists false. split; auto. split; [discriminate|]. intros H. injection H as H _. lia.
Qed.
Lemma ObjectIdentifier_equal_ok : forall n1 n2 v1 v2, length v1 = 20%nat -> length v2 = 20%nat ->
  0 <= n1 <= 20 -> 0 <= n2 <= 20 ->
  exists b, ObjectIdentifier_equal n1 n2 v1 v2 = Ok b /\
    (b = true <-> firstn (Z.to_nat n1) v1 = firstn (Z.to_nat n2) v2).
Proof.
  intros n1 n2 v1 v2 L1 L2 H1 H2. unfold ObjectIdentifier_equal. destruct (_ && _) eqn:E.
  - assert (n1 = n2) by lia. subst n2. apply (oid_eq_loop_ok (Z.to_nat n1) v1 v2 0); lia.
  - exists false. split; auto. split; [discriminate|]. intros H. apply (f_equal (@length Z)) in H.
    rewrite !firstn_length in H. lia.
Qed.
