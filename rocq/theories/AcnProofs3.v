(** ACN packed decimal and decimal text integers. *)
From Verif Require Import Base Bits BitStream Ints Contracts Misc AcnSpec Acn.
From Verif Require Import BitsProofs BitStreamProofs BitStreamProofs2 BitStreamProofs3 IntsProofs SafeProofs MiscProofs AcnProofs1.
From Coq Require Import ZifyBool ZifyNat.
Ltac Zify.zify_post_hook ::= Z.div_mod_to_equations.

(** ** Digits *)
Lemma pow10_pos : forall n, 0 < 10 ^ Z.of_nat n.
Proof. intros. apply Z.pow_pos_nonneg; lia. Qed.
Lemma pow10_S : forall n, 10 ^ Z.of_nat (S n) = 10 * 10 ^ Z.of_nat n.
Proof. intros. replace (Z.of_nat (S n)) with (1 + Z.of_nat n) by lia. rewrite Z.pow_add_r by lia. reflexivity. Qed.
Lemma len_digits : forall n v, length (digits n v) = n.
Proof. induction n; intros; cbn [digits length]; auto. Qed.
Lemma digits_range : forall n v, Forall (fun d => 0 <= d <= 9) (digits n v).
Proof. induction n; intros; cbn [digits]; constructor; auto. lia. Qed.
Lemma dval_digits : forall n v, dval (digits n v) = v mod 10 ^ Z.of_nat n.
Proof.
  induction n; intros; cbn [digits dval].
  - change (10 ^ Z.of_nat 0) with 1. now rewrite Z.mod_1_r.
  - rewrite len_digits, IHn, pow10_S. pose proof (pow10_pos n).
    rewrite (Z.mul_comm 10). rewrite Z.rem_mul_r by lia. lia.
Qed.
Lemma dval_bounds : forall l, Forall (fun d => 0 <= d <= 9) l -> 0 <= dval l < 10 ^ Z.of_nat (length l).
Proof.
  induction l; intros F; cbn [dval length].
  - change (10 ^ Z.of_nat 0) with 1. lia.
  - rewrite pow10_S. pose proof (Forall_inv F). apply Forall_inv_tail in F. specialize (IHl F).
    cbv beta in H. pose proof (pow10_pos (length l)). nia.
Qed.
Lemma digits_dval : forall l, Forall (fun d => 0 <= d <= 9) l -> digits (length l) (dval l) = l.
Proof.
  assert (G : forall n v w, v mod 10 ^ Z.of_nat n = w mod 10 ^ Z.of_nat n -> digits n v = digits n w).
  { induction n; intros v w E; cbn [digits]; [reflexivity|].
    rewrite pow10_S in E. pose proof (pow10_pos n).
    rewrite !(Z.mul_comm 10), !Z.rem_mul_r in E by lia.
    pose proof (Z.mod_pos_bound v (10 ^ Z.of_nat n) H). pose proof (Z.mod_pos_bound w (10 ^ Z.of_nat n) H).
    assert ((v / 10 ^ Z.of_nat n) mod 10 = (w / 10 ^ Z.of_nat n) mod 10 /\ v mod 10 ^ Z.of_nat n = w mod 10 ^ Z.of_nat n) as [E1 E2].
    { set (a := (v / 10 ^ Z.of_nat n) mod 10) in *. set (b := (w / 10 ^ Z.of_nat n) mod 10) in *.
      clearbody a b. assert (a = b) by nia. subst. split; [reflexivity|lia]. }
    f_equal; [assumption|]. now apply IHn. }
  induction l; intros F; cbn [digits length dval]; [reflexivity|].
  pose proof (Forall_inv F) as Ha. apply Forall_inv_tail in F. cbv beta in Ha.
  pose proof (dval_bounds l F). pose proof (pow10_pos (length l)). f_equal.
  - rewrite Z.add_comm, Z.div_add by lia. rewrite Z.div_small by lia. lia.
  - transitivity (digits (length l) (dval l)); [|auto]. apply G.
    rewrite Z.add_comm, Z.mod_add by lia. reflexivity.
Qed.

Lemma least_digits_fun : forall v n m, least_digits v n -> least_digits v m -> n = m.
Proof. intros v n m [A B] [C D]. specialize (B _ C). specialize (D _ A). lia. Qed.
Lemma least_digits_0 : least_digits 0 0.
Proof. split; [reflexivity|]. intros. lia. Qed.
Lemma least_digits_S : forall v n, 0 < v -> least_digits (v / 10) n -> least_digits v (S n).
Proof.
  intros v n Hv [A B]. split.
  - rewrite pow10_S. pose proof (pow10_pos n). lia.
  - intros m Hm. destruct m; [cbn in Hm; lia|].
    rewrite pow10_S in Hm. assert (n <= m)%nat; [|lia]. apply B.
    apply Z.div_lt_upper_bound; lia.
Qed.
Lemma text_digits_fun : forall v n m, text_digits v n -> text_digits v m -> n = m.
Proof. intros v n m (a & A & ->) (b & B & ->). now rewrite (least_digits_fun v a b). Qed.
Lemma text_digits_lt : forall v n, text_digits v n -> v < 10 ^ Z.of_nat n.
Proof.
  intros v n (m & [A _] & ->). apply Z.lt_le_trans with (10 ^ Z.of_nat m); [assumption|].
  apply Z.pow_le_mono_r; lia.
Qed.

(** The digits come out least significant first. *)
Lemma digits_last : forall n v, digits (S n) v = digits n (v / 10) ++ [v mod 10].
Proof.
  induction n; intros.
  - cbn [digits app]. change (10 ^ Z.of_nat 0) with 1. now rewrite Z.div_1_r.
  - change (digits (S (S n)) v) with ((v / 10 ^ Z.of_nat (S n)) mod 10 :: digits (S n) v).
    rewrite IHn. cbn [digits app]. f_equal. rewrite pow10_S.
    pose proof (pow10_pos n). rewrite Z.div_div by lia. reflexivity.
Qed.
Lemma digit_loop_ok : forall fuel v, 0 <= v -> v < 10 ^ Z.of_nat fuel ->
  exists n, digit_loop (S fuel) v = Ok (rev (digits n v)) /\ least_digits v n /\ (n <= fuel)%nat.
Proof.
  induction fuel; intros v Hv Hf.
  - change (10 ^ Z.of_nat 0) with 1 in Hf. replace v with 0 by lia.
    exists 0%nat. split; [reflexivity|]. split; [apply least_digits_0|lia].
  - change (digit_loop (S (S fuel)) v) with
      (if 0 <? v then obind (digit_loop (S fuel) (Z.quot v 10)) (fun l => Ok (Z.rem v 10 :: l)) else Ok []).
    destruct (Z.ltb_spec 0 v).
    + rewrite Z.quot_div_nonneg, Z.rem_mod_nonneg by lia.
      destruct (IHfuel (v / 10)) as (n & E & L & B).
      * apply Z.div_pos; lia.
      * apply Z.div_lt_upper_bound; [lia|]. rewrite pow10_S in Hf. lia.
      * exists (S n). rewrite E. cbn [obind]. rewrite digits_last, rev_app_distr. cbn [rev app].
        split; [reflexivity|]. split; [apply least_digits_S; assumption|lia].
    + replace v with 0 by lia. exists 0%nat. split; [reflexivity|]. split; [apply least_digits_0|lia].
Qed.
Lemma digit_loop_u64 : forall v, is_u64 v ->
  exists n, digit_loop 64 v = Ok (rev (digits n v)) /\ least_digits v n /\ (n <= 20)%nat.
Proof.
  intros v Hv. destruct (digit_loop_ok 63 v) as (n & E & L & B); [red in Hv; lia| |].
  - apply Z.lt_le_trans with (10 ^ 20); [red in Hv; unfold two64 in Hv; lia|]. apply Z.pow_le_mono_r; lia.
  - exists n. split; [exact E|]. split; [exact L|]. apply (proj2 L).
    change (10 ^ Z.of_nat 20) with 100000000000000000000. red in Hv. unfold two64 in Hv. lia.
Qed.
Lemma bcd_size_ok : forall fuel v r, 0 <= v -> v < 10 ^ Z.of_nat fuel ->
  exists n, bcd_size (S fuel) v r = Ok (r + Z.of_nat n) /\ least_digits v n.
Proof.
  induction fuel; intros v r Hv Hf.
  - change (10 ^ Z.of_nat 0) with 1 in Hf. replace v with 0 by lia.
    exists 0%nat. split; [cbn; f_equal; lia|]. apply least_digits_0.
  - change (bcd_size (S (S fuel)) v r) with
      (if 0 <? v then bcd_size (S fuel) (Z.quot v 10) (r + 1) else Ok r).
    destruct (Z.ltb_spec 0 v).
    + rewrite Z.quot_div_nonneg by lia.
      destruct (IHfuel (v / 10) (r + 1)) as (n & E & L).
      * apply Z.div_pos; lia.
      * apply Z.div_lt_upper_bound; [lia|]. rewrite pow10_S in Hf. lia.
      * exists (S n). rewrite E. split; [f_equal; lia|]. apply least_digits_S; assumption.
    + replace v with 0 by lia. exists 0%nat. split; [f_equal; lia|]. apply least_digits_0.
Qed.
Lemma Get_Int_Size_BCD_ok : forall v n, is_u64 v -> least_digits v n -> Acn_Get_Int_Size_BCD v = Ok (Z.of_nat n).
Proof.
  intros v n Hv Hn. unfold Acn_Get_Int_Size_BCD.
  destruct (bcd_size_ok 63 v 0) as (m & E & L); [red in Hv; lia| |].
  - apply Z.lt_le_trans with (10 ^ 20); [red in Hv; unfold two64 in Hv; lia|]. apply Z.pow_le_mono_r; lia.
  - rewrite E, (least_digits_fun v n m); auto.
Qed.
Lemma least_digits_20 : forall v n, is_u64 v -> least_digits v n -> (n <= 20)%nat.
Proof.
  intros v n Hv L. apply (proj2 L). change (10 ^ Z.of_nat 20) with 100000000000000000000.
  red in Hv. unfold two64 in Hv. lia.
Qed.
Lemma text_digits_20 : forall v n, is_u64 v -> text_digits v n -> (1 <= n <= 20)%nat.
Proof. intros v n Hv (m & L & ->). pose proof (least_digits_20 v m Hv L). lia. Qed.

(** tmp[100] *)
Lemma nth_rev_digits : forall n v i, (i < n)%nat -> nth i (rev (digits n v)) 0 = (v / 10 ^ Z.of_nat i) mod 10.
Proof.
  induction n; intros v i Hi; [lia|]. cbn [digits rev].
  destruct (Nat.eq_dec i n) as [->|].
  - rewrite app_nth2 by (rewrite rev_length, len_digits; lia).
    rewrite rev_length, len_digits, Nat.sub_diag. reflexivity.
  - rewrite app_nth1 by (rewrite rev_length, len_digits; lia). apply IHn. lia.
Qed.
Lemma digit_array_ok : forall v, is_u64 v -> exists tmp n, digit_array v = Ok (tmp, Z.of_nat n) /\ least_digits v n /\
  length tmp = 100%nat /\ forall i, 0 <= i < 100 -> nthZ tmp i = Ok ((v / 10 ^ i) mod 10).
Proof.
  intros v Hv. destruct (digit_loop_u64 v Hv) as (n & E & L & B).
  exists (rev (digits n v) ++ repeat 0 (100 - n)), n. unfold digit_array. rewrite E. cbn [obind].
  rewrite rev_length, len_digits.
  destruct (Z.ltb_spec 100 (Z.of_nat n)); [lia|]. split; [reflexivity|]. split; [exact L|].
  assert (Len : length (rev (digits n v) ++ repeat 0 (100 - n)) = 100%nat).
  { rewrite app_length, rev_length, len_digits, repeat_length. lia. }
  split; [exact Len|]. intros i Hi. rewrite nthZ_nth by lia. f_equal.
  destruct (Nat.lt_ge_cases (Z.to_nat i) n).
  - rewrite app_nth1 by (rewrite rev_length, len_digits; lia).
    rewrite nth_rev_digits by lia. now rewrite Z2Nat.id by lia.
  - rewrite app_nth2 by (rewrite rev_length, len_digits; lia).
    rewrite nth_repeat. destruct L as [L _].
    assert (10 ^ Z.of_nat n <= 10 ^ i) by (apply Z.pow_le_mono_r; lia).
    red in Hv. rewrite Z.div_small by lia. reflexivity.
Qed.

Lemma writes_put_digits : forall (put : Z -> M unit) (g : Z -> list bool) tmp v k,
  (forall d, 0 <= d <= 9 -> writes (put d) tt (g d)) -> (k <= 100)%nat ->
  (forall i, 0 <= i < 100 -> nthZ tmp i = Ok ((v / 10 ^ i) mod 10)) ->
  writes (put_digits put tmp k) tt (concat (map g (digits k v))).
Proof.
  induction k; intros Hput Hk Hn; cbn [put_digits digits map concat].
  - apply writes_ret.
  - eapply writes_pure_l. { intro s. unfold lift. rewrite Hn by lia. reflexivity. }
    eapply writes_bind; [apply Hput; lia|]. apply IHk; [assumption|lia|assumption].
Qed.
Lemma overwrites_put_digits : forall (put : Z -> M unit) (g : Z -> list bool) tmp v k,
  (forall d, 0 <= d <= 9 -> overwrites (put d) tt (g d)) -> (k <= 100)%nat ->
  (forall i, 0 <= i < 100 -> nthZ tmp i = Ok ((v / 10 ^ i) mod 10)) ->
  overwrites (put_digits put tmp k) tt (concat (map g (digits k v))).
Proof.
  induction k; intros Hput Hk Hn; cbn [put_digits digits map concat].
  - apply overwrites_ret.
  - eapply overwrites_pure_l. { intro s. unfold lift. rewrite Hn by lia. reflexivity. }
    eapply overwrites_bind; [apply Hput; lia|]. apply IHk; [assumption|lia|assumption].
Qed.

(** ** Packed decimal *)
Lemma writes_nibble : forall c d, 0 <= d <= 15 -> writes (BitStream_AppendPartialByte c d 4 false) tt (Zbits 4 d).
Proof. intros. eapply writes_eq; [apply writes_AppendPartialByte; intros; lia|reflexivity]. Qed.

Lemma writes_BCD : forall c v n, is_u64 v -> v < 10 ^ Z.of_nat n -> (n <= 100)%nat ->
  writes (Acn_Enc_Int_BCD_ConstSize c v (Z.of_nat n)) tt (nibbles (digits n v)).
Proof.
  intros c v n Hv Hn Hb. unfold Acn_Enc_Int_BCD_ConstSize.
  eapply writes_pure_l; [intro; apply massert_true; lia|].
  destruct (digit_array_ok v Hv) as (tmp & m & E & L & Len & Hnth).
  eapply writes_pure_l. { intro s. unfold lift. rewrite E. reflexivity. }
  cbv beta iota. pose proof (proj2 L n Hn).
  eapply writes_pure_l; [intro; apply massert_true; lia|].
  eapply writes_checked. rewrite Nat2Z.id. apply writes_put_digits; [|assumption|assumption].
  intros d Hd. rewrite byte_of_id by (red; lia). apply writes_nibble. lia.
Qed.

Lemma u64_mul10 : forall r d, u64 (u64 (r * 10) + d) = u64 (r * 10 + d).
Proof. intros. destruct (u64_cong (r * 10)) as [q ->]. rewrite <- (u64_add_k (r * 10 + d) q). f_equal. lia. Qed.
Lemma u64_idem : forall a b p, u64 (u64 a * p + b) = u64 (a * p + b).
Proof.
  intros. destruct (u64_cong a) as [q ->]. rewrite <- (u64_add_k (a * p + b) (q * p)). f_equal. lia.
Qed.

Lemma reads_dec_bcd : forall l r, Forall (fun d => 0 <= d <= 15) l -> is_u64 r ->
  reads (dec_bcd r (length l)) (Some (u64 (r * 10 ^ Z.of_nat (length l) + dval l))) (nibbles l).
Proof.
  induction l; intros r F Hr; cbn [dec_bcd length dval].
  - change (10 ^ Z.of_nat 0) with 1. rewrite Z.mul_1_r, Z.add_0_r, (u64_id r) by assumption. apply reads_ret.
  - pose proof (Forall_inv F) as Ha. apply Forall_inv_tail in F. cbv beta in Ha.
    change (nibbles (a :: l)) with (Zbits 4 a ++ nibbles l).
    eapply reads_bindo with (a := a).
    { eapply reads_eq; [apply reads_ReadPartialByte; lia|reflexivity]. }
    rewrite u64_mul10.
    replace (u64 (r * 10 ^ Z.of_nat (S (length l)) + (a * 10 ^ Z.of_nat (length l) + dval l)))
      with (u64 (u64 (r * 10 + a) * 10 ^ Z.of_nat (length l) + dval l)).
    + apply IHl; [assumption|apply u64_range].
    + rewrite u64_idem, pow10_S. f_equal. lia.
Qed.
Lemma Forall_le15 : forall l, Forall (fun d => 0 <= d <= 9) l -> Forall (fun d => 0 <= d <= 15) l.
Proof. intros. eapply Forall_impl; [|eassumption]. cbv beta. intros. lia. Qed.
Lemma reads_BCD : forall v n, is_u64 v -> v < 10 ^ Z.of_nat n ->
  reads (Acn_Dec_Int_BCD_ConstSize (Z.of_nat n)) (Some v) (nibbles (digits n v)).
Proof.
  intros v n Hv Hn. unfold Acn_Dec_Int_BCD_ConstSize. rewrite Nat2Z.id.
  pose proof (reads_dec_bcd (digits n v) 0 (Forall_le15 _ (digits_range n v)) ltac:(split; [lia|reflexivity])) as R.
  rewrite len_digits, dval_digits in R. rewrite Z.mod_small in R by (red in Hv; lia).
  rewrite Z.mul_0_l, Z.add_0_l, u64_id in R by assumption. exact R.
Qed.

Lemma writes_BCD_Var : forall c v n, is_u64 v -> least_digits v n ->
  writes (Acn_Enc_Int_BCD_VarSize_LengthEmbedded c v) tt (Zbits 8 (Z.of_nat n) ++ nibbles (digits n v)).
Proof.
  intros c v n Hv Hn. unfold Acn_Enc_Int_BCD_VarSize_LengthEmbedded.
  pose proof (least_digits_20 v n Hv Hn).
  eapply writes_pure_l. { intro s. unfold lift. rewrite (Get_Int_Size_BCD_ok v n) by assumption. reflexivity. }
  rewrite byte_of_id by (red; lia).
  eapply writes_bind; [apply overwrites_writes, overwrites_AppendByte0; red; lia|].
  eapply writes_checked. apply writes_BCD; [assumption|apply Hn|lia].
Qed.
Lemma reads_BCD_Var : forall v n, is_u64 v -> least_digits v n -> (n <= 16)%nat ->
  reads Acn_Dec_Int_BCD_VarSize_LengthEmbedded (Some v) (Zbits 8 (Z.of_nat n) ++ nibbles (digits n v)).
Proof.
  intros v n Hv Hn H16. unfold Acn_Dec_Int_BCD_VarSize_LengthEmbedded.
  eapply reads_bindo with (a := Z.of_nat n); [apply reads_ReadByte; red; lia|].
  change (2 * 8) with 16. destruct (Z.ltb_spec 16 (Z.of_nat n)); [lia|].
  apply reads_BCD; [assumption|apply Hn].
Qed.
Lemma reads_BCD_Var_none : forall n, 16 < n < 256 ->
  reads Acn_Dec_Int_BCD_VarSize_LengthEmbedded None (Zbits 8 n).
Proof.
  intros n Hn. unfold Acn_Dec_Int_BCD_VarSize_LengthEmbedded. rewrite <- (app_nil_r (Zbits 8 n)).
  eapply reads_bindo with (a := n); [apply reads_ReadByte; red; lia|].
  change (2 * 8) with 16. destruct (Z.ltb_spec 16 n); [|lia]. apply reads_ret.
Qed.

Lemma writes_BCD_Null : forall c v n, is_u64 v -> least_digits v n ->
  writes (Acn_Enc_Int_BCD_VarSize_NullTerminated c v) tt (nibbles (digits n v) ++ Zbits 4 15).
Proof.
  intros c v n Hv Hn. unfold Acn_Enc_Int_BCD_VarSize_NullTerminated.
  pose proof (least_digits_20 v n Hv Hn).
  eapply writes_pure_l. { intro s. unfold lift. rewrite (Get_Int_Size_BCD_ok v n) by assumption. reflexivity. }
  eapply writes_bind; [apply writes_BCD; [assumption|apply Hn|lia]|].
  eapply writes_checked. apply writes_nibble. lia.
Qed.
Lemma reads_dec_bcd_null : forall l fuel r t, Forall (fun d => 0 <= d <= 9) l -> is_u64 r -> 9 < t <= 15 ->
  (length l < fuel)%nat ->
  reads (dec_bcd_null fuel r) (Some (u64 (r * 10 ^ Z.of_nat (length l) + dval l))) (nibbles l ++ Zbits 4 t).
Proof.
  induction l; intros fuel r t F Hr Ht Hf; (destruct fuel; [cbn in Hf; lia|]); cbn [dec_bcd_null length dval].
  - change (10 ^ Z.of_nat 0) with 1. rewrite Z.mul_1_r, Z.add_0_r, (u64_id r) by assumption.
    change (nibbles [] ++ Zbits 4 t) with (Zbits 4 t). rewrite <- (app_nil_r (Zbits 4 t)).
    eapply reads_bindo with (a := t).
    { eapply reads_eq; [apply reads_ReadPartialByte; lia|reflexivity]. }
    destruct (Z.ltb_spec 9 t); [|lia]. apply reads_ret.
  - pose proof (Forall_inv F) as Ha. apply Forall_inv_tail in F. cbv beta in Ha.
    change (nibbles (a :: l)) with (Zbits 4 a ++ nibbles l). rewrite <- app_assoc.
    eapply reads_bindo with (a := a).
    { eapply reads_eq; [apply reads_ReadPartialByte; lia|reflexivity]. }
    destruct (Z.ltb_spec 9 a); [lia|]. rewrite u64_mul10.
    replace (u64 (r * 10 ^ Z.of_nat (S (length l)) + (a * 10 ^ Z.of_nat (length l) + dval l)))
      with (u64 (u64 (r * 10 + a) * 10 ^ Z.of_nat (length l) + dval l)).
    + apply IHl; [assumption|apply u64_range|assumption|cbn in Hf; lia].
    + rewrite u64_idem, pow10_S. f_equal. lia.
Qed.
Lemma len_nibbles : forall l, length (nibbles l) = (4 * length l)%nat.
Proof. induction l; [reflexivity|]. change (nibbles (a :: l)) with (Zbits 4 a ++ nibbles l). rewrite app_length, IHl. cbn. lia. Qed.

Lemma reads_BCD_Null_gen : forall l t, Forall (fun d => 0 <= d <= 9) l -> 9 < t <= 15 ->
  reads Acn_Dec_Int_BCD_VarSize_NullTerminated (Some (u64 (dval l))) (nibbles l ++ Zbits 4 t).
Proof.
  intros l t F Ht s pre rest Hat Hc. unfold Acn_Dec_Int_BCD_VarSize_NullTerminated, bind, get.
  pose proof (reads_dec_bcd_null l (S (Z.to_nat (2 * count s))) 0 t F ltac:(split; [lia|reflexivity]) Ht) as R.
  rewrite Z.mul_0_l, Z.add_0_l in R. apply (R ltac:(rewrite app_length, len_nibbles, len_Zbits in Hc; lia) s pre rest Hat Hc).
Qed.
Lemma reads_BCD_Null : forall v n, is_u64 v -> v < 10 ^ Z.of_nat n ->
  reads Acn_Dec_Int_BCD_VarSize_NullTerminated (Some v) (nibbles (digits n v) ++ Zbits 4 15).
Proof.
  intros v n Hv Hn. pose proof (reads_BCD_Null_gen (digits n v) 15 (digits_range n v) ltac:(lia)) as R.
  rewrite dval_digits in R. rewrite Z.mod_small in R by (red in Hv; lia). rewrite u64_id in R by assumption. exact R.
Qed.

(** ** Decimal text *)
Lemma chars_bits : forall l, concat (map (fun d => Zbits 8 (48 + d)) l) = bits_of_bytes (digit_chars l).
Proof.
  induction l; [reflexivity|]. cbn [map concat digit_chars]. rewrite IHl.
  change (bits_of_bytes (48 + a :: map (fun d => 48 + d) l)) with (bits_of_byte (48 + a) ++ bits_of_bytes (digit_chars l)).
  reflexivity.
Qed.
Lemma overwrites_ASCII_U : forall c v n, is_u64 v -> v < 10 ^ Z.of_nat n -> (n <= 100)%nat ->
  overwrites (Acn_Enc_UInt_ASCII_ConstSize c v (Z.of_nat n)) tt (bits_of_bytes (digit_chars (digits n v))).
Proof.
  intros c v n Hv Hn Hb. unfold Acn_Enc_UInt_ASCII_ConstSize.
  eapply overwrites_pure_l; [intro; apply massert_true; lia|].
  destruct (digit_array_ok v Hv) as (tmp & m & E & L & Len & Hnth).
  eapply overwrites_pure_l. { intro s. unfold lift. rewrite E. reflexivity. }
  cbv beta iota. pose proof (proj2 L n Hn).
  eapply overwrites_pure_l; [intro; apply massert_true; lia|].
  eapply overwrites_checked. rewrite Nat2Z.id, <- chars_bits. apply overwrites_put_digits; [|assumption|assumption].
  intros d Hd. rewrite byte_of_id by (red; lia). rewrite <- (app_nil_r (Zbits _ _)).
  eapply overwrites_bind; [|apply overwrites_ret].
  eapply overwrites_eq; [apply overwrites_AppendByte0; red; lia|f_equal; lia].
Qed.

Lemma abs_u_ok : forall c v, is_s64 v -> sfits c (- v) -> abs_u c v = Ok (Z.abs v).
Proof.
  intros c v Hv Hc. unfold abs_u. unfold is_s64, two63 in Hv. destruct (Z.leb_spec 0 v).
  - rewrite u64_id by (unfold is_u64, two64; lia). f_equal. lia.
  - rewrite sres_s64 by assumption. cbn [obind]. rewrite u64_s64, u64_id by (unfold is_u64, two64; lia).
    f_equal. lia.
Qed.
Lemma abs_u64 : forall v, is_s64 v -> is_u64 (Z.abs v).
Proof. unfold is_s64, is_u64, two63, two64. intros. lia. Qed.
Lemma sign_char_ok : forall v, (if 0 <=? v then 43 else 45) = sign_char v.
Proof. intros. unfold sign_char. destruct (Z.leb_spec 0 v), (Z.ltb_spec v 0); lia || reflexivity. Qed.
Lemma sign_char_byte : forall v, is_byte (sign_char v).
Proof. intros. unfold sign_char, is_byte. destruct (v <? 0); lia. Qed.
Lemma bits_cons : forall b l, bits_of_bytes (b :: l) = Zbits 8 b ++ bits_of_bytes l.
Proof. intros. reflexivity. Qed.

Lemma overwrites_ASCII_S : forall c v n, is_s64 v -> sfits c (- v) -> Z.abs v < 10 ^ Z.of_nat n -> (n <= 100)%nat ->
  overwrites (Acn_Enc_SInt_ASCII_ConstSize c v (1 + Z.of_nat n)) tt
    (bits_of_bytes (sign_char v :: digit_chars (digits n (Z.abs v)))).
Proof.
  intros c v n Hv Hc Hn Hb. unfold Acn_Enc_SInt_ASCII_ConstSize.
  eapply overwrites_pure_l. { intro s. unfold lift. rewrite abs_u_ok by assumption. reflexivity. }
  rewrite sign_char_ok, bits_cons.
  eapply overwrites_bind; [apply overwrites_AppendByte0, sign_char_byte|].
  replace (1 + Z.of_nat n - 1) with (Z.of_nat n) by lia.
  apply overwrites_ASCII_U; [apply abs_u64|..]; assumption.
Qed.

Lemma reads_dec_ascii : forall c l r, Forall (fun d => 0 <= d <= 9) l -> is_u64 r ->
  reads (dec_ascii c r (length l)) (Some (u64 (r * 10 ^ Z.of_nat (length l) + dval l))) (bits_of_bytes (digit_chars l)).
Proof.
  induction l; intros r F Hr; cbn [dec_ascii length dval].
  - change (10 ^ Z.of_nat 0) with 1. rewrite Z.mul_1_r, Z.add_0_r, (u64_id r) by assumption. apply reads_ret.
  - pose proof (Forall_inv F) as Ha. apply Forall_inv_tail in F. cbv beta in Ha.
    change (digit_chars (a :: l)) with (48 + a :: digit_chars l). rewrite bits_cons.
    eapply reads_bindo with (a := 48 + a); [apply reads_ReadByte; red; lia|].
    unfold assert_or_false.
    assert (T : (48 <=? 48 + a) && (48 + a <=? 57) = true) by lia.
    eapply reads_pure_l; [intro; apply massert_true; exact T|]. rewrite T.
    replace (byte_of (48 + a - 48)) with a by (unfold byte_of; lia). rewrite u64_mul10.
    replace (u64 (r * 10 ^ Z.of_nat (S (length l)) + (a * 10 ^ Z.of_nat (length l) + dval l)))
      with (u64 (u64 (r * 10 + a) * 10 ^ Z.of_nat (length l) + dval l)).
    + apply IHl; [assumption|apply u64_range].
    + rewrite u64_idem, pow10_S. f_equal. lia.
Qed.
Lemma reads_ASCII_U : forall c v n, is_u64 v -> v < 10 ^ Z.of_nat n ->
  reads (Acn_Dec_UInt_ASCII_ConstSize c (Z.of_nat n)) (Some v) (bits_of_bytes (digit_chars (digits n v))).
Proof.
  intros c v n Hv Hn. unfold Acn_Dec_UInt_ASCII_ConstSize. rewrite Nat2Z.id.
  pose proof (reads_dec_ascii c (digits n v) 0 (digits_range n v) ltac:(split; [lia|reflexivity])) as R.
  rewrite len_digits, dval_digits in R. rewrite Z.mod_small in R by (red in Hv; lia).
  rewrite Z.mul_0_l, Z.add_0_l, u64_id in R by assumption. exact R.
Qed.
Lemma signed_back : forall c v, is_s64 v -> sfits c (- v) ->
  sres c ((if v <? 0 then -1 else 1) * s64 (Z.abs v)) = Ok v.
Proof.
  intros c v Hv Hc. unfold is_s64, two63 in Hv. destruct (Z.ltb_spec v 0).
  - replace (Z.abs v) with (- v) by lia.
    destruct (Z.eq_dec v (- 2 ^ 63)) as [->|].
    + replace (-1 * s64 (- - 2 ^ 63)) with (- - 2 ^ 63) by reflexivity.
      rewrite sres_s64 by assumption. reflexivity.
    + rewrite s64_id by (unfold is_s64, two63; lia). rewrite sres_ok; [f_equal; lia|]. unfold is_s64, two63; lia.
  - replace (Z.abs v) with v by lia. rewrite s64_id by (unfold is_s64, two63; lia).
    rewrite sres_ok; [f_equal; lia|]. unfold is_s64, two63; lia.
Qed.
Lemma reads_ASCII_S : forall c v n, is_s64 v -> sfits c (- v) -> Z.abs v < 10 ^ Z.of_nat n ->
  reads (Acn_Dec_SInt_ASCII_ConstSize c (1 + Z.of_nat n)) (Some v)
    (bits_of_bytes (sign_char v :: digit_chars (digits n (Z.abs v)))).
Proof.
  intros c v n Hv Hc Hn. unfold Acn_Dec_SInt_ASCII_ConstSize. rewrite bits_cons.
  eapply reads_bindo with (a := sign_char v); [apply reads_ReadByte, sign_char_byte|].
  replace (1 + Z.of_nat n - 1) with (Z.of_nat n) by lia.
  pose proof (signed_back c v Hv Hc) as SB.
  assert (R : forall sign, sign = (if v <? 0 then -1 else 1) ->
    reads (let? r := Acn_Dec_UInt_ASCII_ConstSize c (Z.of_nat n) in
           let* v0 := lift (sres c (sign * s64 r)) in ret (Some v0)) (Some v)
      (bits_of_bytes (digit_chars (digits n (Z.abs v))))).
  { intros sign ->. rewrite <- (app_nil_r (bits_of_bytes _)).
    eapply reads_bindo with (a := Z.abs v); [apply reads_ASCII_U; [apply abs_u64; assumption|assumption]|].
    eapply reads_pure_l; [|apply reads_ret]. intro s. unfold lift. rewrite SB. reflexivity. }
  cbv zeta. unfold sign_char. destruct (Z.ltb_spec v 0).
  - change (45 =? 43) with false. change (45 =? 45) with true. apply R. reflexivity.
  - change (43 =? 43) with true. apply R. reflexivity.
Qed.

(** getIntegerDigits *)
Lemma getIntegerDigits_ok : forall v n, is_u64 v -> text_digits v n ->
  getIntegerDigits v = Ok (digit_chars (digits n v) ++ repeat 0 (100 - n), Z.of_nat n).
Proof.
  intros v n Hv T. unfold getIntegerDigits. destruct (Z.ltb_spec 0 v).
  - destruct (digit_loop_u64 v Hv) as (m & E & L & B). rewrite E. cbn [obind].
    assert (m <> 0)%nat. { intros ->. destruct L as [L _]. cbn in L. lia. }
    assert (n = m) as ->. { apply (text_digits_fun v); [assumption|]. exists m. split; [assumption|lia]. }
    rewrite rev_involutive, rev_length, len_digits.
    destruct (Z.ltb_spec 100 (Z.of_nat m)); [lia|reflexivity].
  - red in Hv. replace v with 0 in * by lia.
    assert (n = 1%nat) as ->. { apply (text_digits_fun 0); [assumption|]. exists 0%nat. split; [apply least_digits_0|reflexivity]. }
    reflexivity.
Qed.
Lemma nthZ_mid : forall l1 x l2, nthZ (l1 ++ x :: l2) (Z.of_nat (length l1)) = Ok x.
Proof. intros. now apply nthZ_app. Qed.
Lemma overwrites_put_chars : forall l2 l1 k, Forall (fun ch => 0 < ch < 256) l2 -> (length l2 < k)%nat ->
  overwrites (put_chars (l1 ++ l2 ++ [0]) k (Z.of_nat (length l1))) tt (bits_of_bytes l2).
Proof.
  induction l2; intros l1 k F Hk; (destruct k; [cbn in Hk; lia|]); cbn [put_chars app].
  - eapply overwrites_pure_l. { intro s. unfold lift. rewrite nthZ_mid. reflexivity. }
    cbn [Z.eqb]. apply overwrites_ret.
  - pose proof (Forall_inv F) as Ha. apply Forall_inv_tail in F. cbv beta in Ha.
    eapply overwrites_pure_l. { intro s. unfold lift. rewrite nthZ_mid. reflexivity. }
    destruct (Z.eqb_spec a 0); [lia|]. rewrite bits_cons.
    eapply overwrites_bind; [apply overwrites_AppendByte0; red; lia|].
    replace (l1 ++ a :: l2 ++ [0]) with ((l1 ++ [a]) ++ l2 ++ [0]) by (rewrite <- app_assoc; reflexivity).
    replace (Z.of_nat (length l1) + 1) with (Z.of_nat (length (l1 ++ [a]))) by (rewrite app_length; cbn; lia).
    apply IHl2; [assumption|cbn in Hk; lia].
Qed.
Lemma put_chars_ext : forall k arr tl i s, 0 <= i -> (exists l, (Z.to_nat i <= length l)%nat /\ arr = l ++ [0]) ->
  put_chars (arr ++ tl) k i s = put_chars arr k i s.
Proof.
  induction k; intros arr tl i s Hi (l & Hl & ->); cbn [put_chars]; [reflexivity|].
  unfold bind, lift.
  assert (Hin : (Z.to_nat i < length (l ++ [0%Z]))%nat) by (rewrite app_length; cbn; lia).
  assert (E : nthZ ((l ++ [0]) ++ tl) i = nthZ (l ++ [0]) i).
  { rewrite !nthZ_nth by (rewrite ?app_length in *; cbn in *; lia). f_equal. apply app_nth1. assumption. }
  rewrite E. destruct (nthZ (l ++ [0]) i) eqn:En; auto.
  destruct (Z.eqb_spec a 0); [reflexivity|].
  destruct (BitStream_AppendByte0 a s) as [[r s']| | |]; auto.
  apply IHk; [lia|]. exists l. split; [|reflexivity].
  rewrite nthZ_nth in En by lia. injection En as En.
  assert (Z.to_nat i <> length l).
  { intro X. rewrite X, app_nth2, Nat.sub_diag in En by lia. cbn in En. congruence. }
  lia.
Qed.
Lemma digit_chars_range : forall n v, Forall (fun ch => 0 < ch < 256) (digit_chars (digits n v)).
Proof.
  intros. unfold digit_chars. apply Forall_map. eapply Forall_impl; [|apply digits_range]. cbv beta. intros. lia.
Qed.
Lemma digit_chars_byte : forall n v, Forall is_byte (digit_chars (digits n v)).
Proof. intros. eapply Forall_impl; [|apply digit_chars_range]. cbv beta. unfold is_byte. intros. lia. Qed.
Lemma len_digit_chars : forall l, length (digit_chars l) = length l.
Proof. intros. apply map_length. Qed.
Lemma overwrites_text : forall v n, is_u64 v -> text_digits v n ->
  overwrites (put_chars (digit_chars (digits n v) ++ repeat 0 (100 - n)) 100 0) tt (bits_of_bytes (digit_chars (digits n v))).
Proof.
  intros v n Hv T. pose proof (text_digits_20 v n Hv T).
  eapply overwrites_ext with (f := put_chars ([] ++ digit_chars (digits n v) ++ [0]) 100 (Z.of_nat (length (@nil Z)))).
  - intro s. cbn [app length Z.of_nat]. change (Z.of_nat 0) with 0.
    replace (100 - n)%nat with (S (99 - n)) by lia. cbn [repeat].
    replace (digit_chars (digits n v) ++ 0 :: repeat 0 (99 - n)) with
      ((digit_chars (digits n v) ++ [0]) ++ repeat 0 (99 - n)) by (rewrite <- app_assoc; reflexivity).
    symmetry. apply put_chars_ext; [lia|]. eexists; split; [|reflexivity]. lia.
  - apply overwrites_put_chars; [apply digit_chars_range|]. rewrite len_digit_chars, len_digits. lia.
Qed.

Lemma overwrites_ASCII_VarU : forall c v n, is_u64 v -> text_digits v n ->
  overwrites (Acn_Enc_UInt_ASCII_VarSize_LengthEmbedded c v) tt
    (bits_of_bytes (Z.of_nat n :: digit_chars (digits n v))).
Proof.
  intros c v n Hv T. unfold Acn_Enc_UInt_ASCII_VarSize_LengthEmbedded.
  pose proof (text_digits_20 v n Hv T).
  eapply overwrites_pure_l. { intro s. unfold lift. rewrite (getIntegerDigits_ok v n) by assumption. reflexivity. }
  cbv beta iota. rewrite bits_cons.
  eapply overwrites_bind; [apply overwrites_AppendByte0; red; lia|].
  eapply overwrites_checked. now apply overwrites_text.
Qed.
Lemma overwrites_ASCII_VarS : forall c v n, is_s64 v -> sfits c (- v) -> text_digits (Z.abs v) n ->
  overwrites (Acn_Enc_SInt_ASCII_VarSize_LengthEmbedded c v) tt
    (bits_of_bytes (1 + Z.of_nat n :: sign_char v :: digit_chars (digits n (Z.abs v)))).
Proof.
  intros c v n Hv Hc T. unfold Acn_Enc_SInt_ASCII_VarSize_LengthEmbedded.
  pose proof (abs_u64 v Hv) as Ha. pose proof (text_digits_20 _ n Ha T).
  eapply overwrites_pure_l. { intro s. unfold lift. rewrite abs_u_ok by assumption. reflexivity. }
  eapply overwrites_pure_l. { intro s. unfold lift. rewrite (getIntegerDigits_ok _ n) by assumption. reflexivity. }
  cbv beta iota. rewrite 2bits_cons, sign_char_ok.
  rewrite byte_of_id by (red; lia).
  eapply overwrites_bind.
  { eapply overwrites_eq; [apply overwrites_AppendByte0; red; lia|f_equal; lia]. }
  eapply overwrites_bind; [apply overwrites_AppendByte0, sign_char_byte|].
  eapply overwrites_checked. now apply overwrites_text.
Qed.
Lemma reads_ASCII_VarU : forall c v n, is_u64 v -> v < 10 ^ Z.of_nat n -> (n <= 255)%nat ->
  reads (Acn_Dec_UInt_ASCII_VarSize_LengthEmbedded c) (Some v) (bits_of_bytes (Z.of_nat n :: digit_chars (digits n v))).
Proof.
  intros c v n Hv T Hn. unfold Acn_Dec_UInt_ASCII_VarSize_LengthEmbedded. rewrite bits_cons.
  eapply reads_bindo with (a := Z.of_nat n); [apply reads_ReadByte; red; lia|].
  now apply reads_ASCII_U.
Qed.
Lemma reads_ASCII_VarS : forall c v n, is_s64 v -> sfits c (- v) -> Z.abs v < 10 ^ Z.of_nat n -> (n < 255)%nat ->
  reads (Acn_Dec_SInt_ASCII_VarSize_LengthEmbedded c) (Some v)
    (bits_of_bytes (1 + Z.of_nat n :: sign_char v :: digit_chars (digits n (Z.abs v)))).
Proof.
  intros c v n Hv Hc T Hn. unfold Acn_Dec_SInt_ASCII_VarSize_LengthEmbedded. rewrite bits_cons.
  eapply reads_bindo with (a := 1 + Z.of_nat n); [apply reads_ReadByte; red; lia|].
  now apply reads_ASCII_S.
Qed.

(** Null-terminated text *)
Lemma overwrites_put_bytes0 : forall l2 l1, Forall is_byte l2 ->
  overwrites (put_bytes0 (l1 ++ l2) (length l2) (Z.of_nat (length l1))) tt (bits_of_bytes l2).
Proof.
  induction l2; intros l1 F; cbn [put_bytes0 length].
  - apply overwrites_ret.
  - eapply overwrites_pure_l. { intro s. unfold lift. rewrite nthZ_mid. reflexivity. }
    rewrite bits_cons. eapply overwrites_bind; [apply overwrites_AppendByte0; exact (Forall_inv F)|].
    replace (l1 ++ a :: l2) with ((l1 ++ [a]) ++ l2) by (rewrite <- app_assoc; reflexivity).
    replace (Z.of_nat (length l1) + 1) with (Z.of_nat (length (l1 ++ [a]))) by (rewrite app_length; cbn; lia).
    apply IHl2. exact (Forall_inv_tail F).
Qed.
Lemma overwrites_ASCII_NullU : forall c v n p, is_u64 v -> text_digits v n -> Forall is_byte p ->
  overwrites (Acn_Enc_UInt_ASCII_VarSize_NullTerminated c v p (Z.of_nat (length p))) tt
    (bits_of_bytes (digit_chars (digits n v) ++ p)).
Proof.
  intros c v n p Hv T Hp. unfold Acn_Enc_UInt_ASCII_VarSize_NullTerminated.
  eapply overwrites_pure_l. { intro s. unfold lift. rewrite (getIntegerDigits_ok v n) by assumption. reflexivity. }
  cbv beta iota. rewrite bits_of_bytes_app.
  eapply overwrites_bind; [now apply overwrites_text|].
  eapply overwrites_checked. rewrite Nat2Z.id. exact (overwrites_put_bytes0 p [] Hp).
Qed.
Lemma overwrites_ASCII_NullS : forall c v n p, is_s64 v -> sfits c (- v) -> text_digits (Z.abs v) n -> Forall is_byte p ->
  overwrites (Acn_Enc_SInt_ASCII_VarSize_NullTerminated c v p (Z.of_nat (length p))) tt
    (bits_of_bytes (sign_char v :: digit_chars (digits n (Z.abs v)) ++ p)).
Proof.
  intros c v n p Hv Hc T Hp. unfold Acn_Enc_SInt_ASCII_VarSize_NullTerminated.
  eapply overwrites_pure_l. { intro s. unfold lift. rewrite abs_u_ok by assumption. reflexivity. }
  rewrite sign_char_ok, bits_cons.
  eapply overwrites_bind; [apply overwrites_AppendByte0, sign_char_byte|].
  apply overwrites_ASCII_NullU; [now apply abs_u64|assumption|assumption].
Qed.

Lemma reads_read_window : forall l, Forall is_byte l -> reads (read_window (length l)) (Some l) (bits_of_bytes l).
Proof.
  induction l; intros F; cbn [read_window length].
  - apply reads_ret.
  - rewrite bits_cons. eapply reads_bindo with (a := a); [apply reads_ReadByte; exact (Forall_inv F)|].
    rewrite <- (app_nil_r (bits_of_bytes l)).
    eapply reads_bindo with (a := l); [apply IHl; exact (Forall_inv_tail F)|]. apply reads_ret.
Qed.
Lemma list_eqb_iff : forall a b, list_eqb a b = true <-> a = b.
Proof.
  intros. unfold list_eqb. split.
  - intro H. apply andb_prop in H. destruct H as [H1 H2]. apply Nat.eqb_eq in H1.
    now apply forallb_combine.
  - intros ->. rewrite Nat.eqb_refl. now apply forallb_combine.
Qed.
Lemma window_is_ok : forall p w, length w = length p -> window_is p w = Ok (list_eqb p w).
Proof.
  intros p w H. unfold window_is. rewrite H, firstn_all.
  destruct (Z.ltb_spec (Z.of_nat (length p)) (Z.of_nat (length p))); [lia|reflexivity].
Qed.
Lemma terminates_cons : forall p a l, terminates p (a :: l) -> terminates p l /\ firstn (length p) (a :: l ++ p) <> p.
Proof.
  intros p a l H. split.
  - intros i Hi. specialize (H (S i)). cbn [length skipn app] in H. apply H. lia.
  - specialize (H O). cbn [length skipn app] in H. apply H. lia.
Qed.
(** The window [w] holds the first octets of what is left, [l ++ p]. *)
Lemma reads_dec_ascii_null : forall p, (0 < length p)%nat -> Forall is_byte p ->
  forall l fuel r w rest, Forall (fun d => 0 <= d <= 9) l -> is_u64 r ->
  terminates p (digit_chars l) -> (length l < fuel)%nat ->
  length w = length p -> w ++ rest = digit_chars l ++ p ->
  reads (dec_ascii_null fuel p w r) (Some (u64 (r * 10 ^ Z.of_nat (length l) + dval l))) (bits_of_bytes rest).
Proof.
  intros p Hp Hpb. induction l; intros fuel r w rest F Hr T Hf Hw E; (destruct fuel; [cbn in Hf; lia|]);
    cbn [dec_ascii_null length dval].
  - cbn [digit_chars map app] in E.
    assert (rest = []). { apply (f_equal (@length Z)) in E. rewrite app_length in E. destruct rest; [reflexivity|cbn in E; lia]. }
    subst rest. rewrite app_nil_r in E. subst w.
    eapply reads_pure_l. { intro s. unfold lift. rewrite window_is_ok by reflexivity. reflexivity. }
    replace (list_eqb p p) with true by (symmetry; now apply list_eqb_iff).
    change (10 ^ Z.of_nat 0) with 1. rewrite Z.mul_1_r, Z.add_0_r, (u64_id r) by assumption. apply reads_ret.
  - pose proof (Forall_inv F) as Ha. apply Forall_inv_tail in F. cbv beta in Ha.
    change (digit_chars (a :: l)) with (48 + a :: digit_chars l) in *.
    apply terminates_cons in T. destruct T as [T Hne].
    assert (Hl : length rest = S (length l)).
    { apply (f_equal (@length Z)) in E. cbn [app] in E. rewrite app_length in E. cbn [length] in E.
      rewrite app_length, len_digit_chars in E. lia. }
    destruct rest as [|b rest]; [discriminate|].
    assert (Hne' : p <> w).
    { intro X. apply Hne. change (48 + a :: digit_chars l ++ p) with ((48 + a :: digit_chars l) ++ p). rewrite <- E.
      rewrite <- Hw, firstn_app, firstn_all, Nat.sub_diag. cbn [firstn]. rewrite app_nil_r. auto. }
    eapply reads_pure_l. { intro s. unfold lift. rewrite window_is_ok by assumption. reflexivity. }
    replace (list_eqb p w) with false.
    2:{ destruct (list_eqb p w) eqn:X; [|reflexivity]. apply list_eqb_iff in X. contradiction. }
    destruct w as [|w0 w]; [cbn in Hw; lia|]. cbn [app] in E.
    assert (E0 : w0 = 48 + a) by exact (f_equal (hd 0) E).
    apply (f_equal (@tl Z)) in E. cbn [tl] in E. subst w0.
    cbn [tl hd]. rewrite bits_cons.
    assert (Hb : is_byte b).
    { assert (Forall is_byte (w ++ b :: rest)).
      { rewrite E. apply Forall_app. split; [|assumption]. unfold digit_chars. apply Forall_map.
        eapply Forall_impl; [|exact F]. cbv beta. unfold is_byte. intros. lia. }
      apply Forall_app in H. exact (Forall_inv (proj2 H)). }
    eapply reads_bindo with (a := b); [apply reads_ReadByte; exact Hb|].
    replace (byte_of (48 + a - 48)) with a by (unfold byte_of; lia). rewrite u64_mul10.
    replace (u64 (r * 10 ^ Z.of_nat (S (length l)) + (a * 10 ^ Z.of_nat (length l) + dval l)))
      with (u64 (u64 (r * 10 + a) * 10 ^ Z.of_nat (length l) + dval l)).
    + apply IHl; [assumption|apply u64_range|assumption|cbn in Hf; lia| |].
      * rewrite app_length. cbn [length] in *. lia.
      * rewrite <- app_assoc. exact E.
    + rewrite u64_idem, pow10_S. f_equal. lia.
Qed.
Lemma reads_ASCII_NullU_gen : forall p l, (1 <= length p <= 10)%nat -> Forall is_byte p ->
  Forall (fun d => 0 <= d <= 9) l -> terminates p (digit_chars l) ->
  reads (Acn_Dec_UInt_ASCII_VarSize_NullTerminated p (Z.of_nat (length p))) (Some (u64 (dval l)))
    (bits_of_bytes (digit_chars l ++ p)).
Proof.
  intros p l Hp Hpb F T. unfold Acn_Dec_UInt_ASCII_VarSize_NullTerminated.
  assert (Esz : Z.to_nat (if Z.of_nat (length p) <? 10 then Z.of_nat (length p) else 10) = length p).
  { destruct (Z.ltb_spec (Z.of_nat (length p)) 10); lia. }
  rewrite Esz. intros s pre rest Hat Hc. unfold bind at 1, get at 1. cbv beta iota.
  set (w := firstn (length p) (digit_chars l ++ p)).
  set (q := skipn (length p) (digit_chars l ++ p)).
  assert (Ewq : w ++ q = digit_chars l ++ p) by apply firstn_skipn.
  assert (Hw : length w = length p). { unfold w. rewrite firstn_length, app_length. lia. }
  assert (Fb : Forall is_byte (digit_chars l ++ p)).
  { apply Forall_app. split; [|assumption]. unfold digit_chars. apply Forall_map.
    eapply Forall_impl; [|exact F]. cbv beta. unfold is_byte. intros. lia. }
  assert (R : reads (let? w0 := read_window (length p) in dec_ascii_null (S (Z.to_nat (count s))) p w0 0)
     (Some (u64 (dval l))) (bits_of_bytes (digit_chars l ++ p))).
  { rewrite <- Ewq at 1. rewrite bits_of_bytes_app.
    eapply reads_bindo with (a := w).
    - rewrite <- Hw. apply reads_read_window. unfold w. now apply Forall_firstn.
    - pose proof (reads_dec_ascii_null p ltac:(lia) Hpb l (S (Z.to_nat (count s))) 0 w q F ltac:(split; [lia|reflexivity]) T) as R.
      rewrite Z.mul_0_l, Z.add_0_l in R. apply R; [|assumption|assumption].
      rewrite len_bits_of_bytes, app_length, len_digit_chars in Hc. lia. }
  exact (R s pre rest Hat Hc).
Qed.
Lemma reads_ASCII_NullU : forall v n p, is_u64 v -> v < 10 ^ Z.of_nat n -> (1 <= length p <= 10)%nat -> Forall is_byte p ->
  terminates p (digit_chars (digits n v)) ->
  reads (Acn_Dec_UInt_ASCII_VarSize_NullTerminated p (Z.of_nat (length p))) (Some v)
    (bits_of_bytes (digit_chars (digits n v) ++ p)).
Proof.
  intros v n p Hv Hn Hp Hpb T.
  pose proof (reads_ASCII_NullU_gen p (digits n v) Hp Hpb (digits_range n v) T) as R.
  rewrite dval_digits in R. rewrite Z.mod_small in R by (red in Hv; lia). rewrite u64_id in R by assumption. exact R.
Qed.
Lemma reads_ASCII_NullS : forall c v n p, is_s64 v -> sfits c (- v) -> Z.abs v < 10 ^ Z.of_nat n ->
  (1 <= length p <= 10)%nat -> Forall is_byte p -> terminates p (digit_chars (digits n (Z.abs v))) ->
  reads (Acn_Dec_SInt_ASCII_VarSize_NullTerminated c p (Z.of_nat (length p))) (Some v)
    (bits_of_bytes (sign_char v :: digit_chars (digits n (Z.abs v)) ++ p)).
Proof.
  intros c v n p Hv Hc Hn Hp Hpb T. unfold Acn_Dec_SInt_ASCII_VarSize_NullTerminated. rewrite bits_cons.
  eapply reads_bindo with (a := sign_char v); [apply reads_ReadByte, sign_char_byte|].
  unfold assert_or_false.
  assert (E : (sign_char v =? 45) || (sign_char v =? 43) = true) by (unfold sign_char; destruct (v <? 0); reflexivity).
  eapply reads_pure_l; [intro; apply massert_true; exact E|]. rewrite E.
  rewrite <- (app_nil_r (bits_of_bytes _)).
  eapply reads_bindo with (a := Z.abs v); [apply reads_ASCII_NullU; try assumption; now apply abs_u64|].
  pose proof (signed_back c v Hv Hc) as SB. unfold sign_char. destruct (Z.ltb_spec v 0).
  - change (45 =? 45) with true. eapply reads_pure_l; [|apply reads_ret].
    intro s. unfold lift. replace (- s64 (Z.abs v)) with (-1 * s64 (Z.abs v)) by lia. rewrite SB. reflexivity.
  - change (43 =? 45) with false. unfold is_s64 in Hv. rewrite Z.abs_eq by lia. rewrite s64_id by (unfold is_s64; lia). apply reads_ret.
Qed.
(** A terminator whose first octet is no digit never occurs inside the text. *)
Lemma terminates_nondigit : forall b p l, Forall (fun d => 0 <= d <= 9) l -> ~ (48 <= b <= 57) ->
  terminates (b :: p) (digit_chars l).
Proof.
  intros b p l F Hb i Hi E. rewrite len_digit_chars in Hi.
  rewrite skipn_app in E. rewrite len_digit_chars in E.
  destruct (skipn i (digit_chars l)) as [|x t] eqn:Es.
  - apply (f_equal (@length Z)) in Es. rewrite skipn_length, len_digit_chars in Es. cbn in Es. lia.
  - cbn [app firstn length] in E. injection E as E0 _.
    assert (In x (digit_chars l)). { rewrite <- (firstn_skipn i (digit_chars l)), Es. apply in_app_iff. right. now left. }
    unfold digit_chars in H. apply in_map_iff in H. destruct H as (d & <- & Hd).
    rewrite Forall_forall in F. specialize (F d Hd). cbv beta in F. lia.
Qed.
