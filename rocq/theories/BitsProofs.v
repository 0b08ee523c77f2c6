(** Lemmas about the bit-level specification. *)
From Coq Require Import ZArith List Bool Lia.
From Coq Require Import ZifyBool ZifyNat.
From Verif Require Import Base Bits.
Import ListNotations.
Open Scope Z_scope.
Ltac Zify.zify_post_hook ::= Z.div_mod_to_equations.

(** Split conjunctions only, without unfolding. *)
Ltac splits := repeat match goal with |- _ /\ _ => split end.

Lemma Zbits8 : forall b, bits_of_byte b = Zbits 8 b.
Proof. reflexivity. Qed.

Lemma len_bits_of_byte : forall b, length (bits_of_byte b) = 8%nat.
Proof. reflexivity. Qed.

Lemma len_bits_of_bytes : forall l, length (bits_of_bytes l) = (8 * length l)%nat.
Proof.
  induction l; [reflexivity|]. cbn [bits_of_bytes]. rewrite app_length, IHl.
  rewrite len_bits_of_byte. cbn [length]. lia.
Qed.

Lemma bits_of_bytes_app : forall a b,
  bits_of_bytes (a ++ b) = bits_of_bytes a ++ bits_of_bytes b.
Proof.
  induction a; intros; [reflexivity|]. cbn [bits_of_bytes app].
  rewrite IHa, app_assoc. reflexivity.
Qed.

Lemma len_Zbits : forall n z, length (Zbits n z) = n.
Proof. induction n; intros; cbn; auto. Qed.

Lemma len_zeros : forall n, length (zeros n) = n.
Proof. intros; apply repeat_length. Qed.

Lemma len_ones : forall n, length (ones n) = n.
Proof. intros; apply repeat_length. Qed.

Lemma zeros_app : forall a b, zeros (a + b) = zeros a ++ zeros b.
Proof. intros; apply repeat_app. Qed.

Lemma ones_app : forall a b, ones (a + b) = ones a ++ ones b.
Proof. intros; apply repeat_app. Qed.

Lemma Zbits_ext : forall n a b,
  (forall i, 0 <= i < Z.of_nat n -> Z.testbit a i = Z.testbit b i) ->
  Zbits n a = Zbits n b.
Proof.
  induction n; intros; [reflexivity|]. cbn [Zbits]. f_equal.
  - apply H. lia.
  - apply IHn. intros. apply H. lia.
Qed.

Lemma Zbits_ext_inv : forall n a b,
  Zbits n a = Zbits n b ->
  (forall i, 0 <= i < Z.of_nat n -> Z.testbit a i = Z.testbit b i).
Proof.
  induction n; intros; [lia|]. cbn [Zbits] in H. inversion H.
  destruct (Z.eq_dec i (Z.of_nat n)); subst; auto. apply IHn; auto. lia.
Qed.

Lemma Zbits_mod : forall n z, Zbits n (z mod 2 ^ Z.of_nat n) = Zbits n z.
Proof.
  intros. apply Zbits_ext. intros. apply Z.mod_pow2_bits_low. lia.
Qed.

Lemma Zbits_inj_mod : forall n a b,
  Zbits n a = Zbits n b -> a mod 2 ^ Z.of_nat n = b mod 2 ^ Z.of_nat n.
Proof.
  intros. apply Z.bits_inj'. intros i Hi.
  destruct (Z_lt_dec i (Z.of_nat n)).
  - rewrite !Z.mod_pow2_bits_low by lia. apply (Zbits_ext_inv n); auto; lia.
  - rewrite !Z.mod_pow2_bits_high by lia. reflexivity.
Qed.

Lemma Zbits_inj : forall n a b,
  0 <= a < 2 ^ Z.of_nat n -> 0 <= b < 2 ^ Z.of_nat n ->
  Zbits n a = Zbits n b -> a = b.
Proof.
  intros. apply Zbits_inj_mod in H1. rewrite !Z.mod_small in H1 by lia. auto.
Qed.

(** Splitting a big-endian number into high and low parts. *)
Lemma Zbits_app : forall a b z,
  Zbits (a + b) z = Zbits a (Z.shiftr z (Z.of_nat b)) ++ Zbits b z.
Proof.
  induction a; intros; [reflexivity|].
  cbn [Nat.add Zbits app]. f_equal; auto.
  rewrite Z.shiftr_spec by lia. f_equal. lia.
Qed.

Lemma Zbits_0 : forall n, Zbits n 0 = zeros n.
Proof. induction n; cbn; [reflexivity|]. rewrite Z.testbit_0_l, IHn. reflexivity. Qed.

Lemma Zbits_m1 : forall n, Zbits n (-1) = ones n.
Proof.
  induction n; cbn [Zbits ones repeat]; [reflexivity|].
  rewrite Z.bits_m1 by lia. rewrite IHn. reflexivity.
Qed.

Lemma testbit_high0 : forall v n i,
  0 <= v < 2 ^ n -> 0 <= n -> n <= i -> Z.testbit v i = false.
Proof.
  intros. destruct (Z.eq_dec v 0) as [->|]; [apply Z.testbit_0_l|].
  apply Z.bits_above_log2; [lia|].
  apply Z.log2_lt_pow2; [lia|]. apply Z.lt_le_trans with (2 ^ n); [lia|].
  apply Z.pow_le_mono_r; lia.
Qed.

Lemma Zbits_pad : forall n k v,
  0 <= v < 2 ^ Z.of_nat n -> (n <= k)%nat -> Zbits k v = zeros (k - n) ++ Zbits n v.
Proof.
  intros. replace k with ((k - n) + n)%nat at 1 by lia.
  rewrite Zbits_app. f_equal. rewrite <- Zbits_0. apply Zbits_ext. intros.
  rewrite Z.shiftr_spec by lia. rewrite Z.testbit_0_l.
  eapply testbit_high0; eauto; lia.
Qed.

Lemma byte_testbit_high : forall v i, is_byte v -> 8 <= i -> Z.testbit v i = false.
Proof. intros. apply testbit_high0 with (n := 8); auto; unfold is_byte in *; lia. Qed.

(** ** bval *)
Lemma bval_bounds : forall l, 0 <= bval l < 2 ^ Z.of_nat (length l).
Proof.
  induction l as [|b l IH]; [cbn; lia|]. cbn [bval length].
  rewrite Nat2Z.inj_succ, Z.pow_succ_r by lia. destruct b; lia.
Qed.

Lemma bval_app : forall a b,
  bval (a ++ b) = bval a * 2 ^ Z.of_nat (length b) + bval b.
Proof.
  induction a as [|x a IH]; intros; cbn [bval app]; [lia|].
  rewrite IH, app_length, Nat2Z.inj_add, Z.pow_add_r by lia. destruct x; lia.
Qed.

Lemma mod_pow2_succ : forall z n, 0 <= n ->
  z mod 2 ^ (n + 1) = (if Z.testbit z n then 2 ^ n else 0) + z mod 2 ^ n.
Proof.
  intros. rewrite Z.pow_add_r, Z.pow_1_r by lia.
  rewrite Z.rem_mul_r by (try (apply Z.pow_nonzero; lia); lia).
  assert (E : (z / 2 ^ n) mod 2 = if Z.testbit z n then 1 else 0).
  { rewrite <- Z.bit0_mod. rewrite <- Z.shiftr_div_pow2 by lia.
    rewrite Z.shiftr_spec by lia. rewrite Z.add_0_l. destruct (Z.testbit z n); reflexivity. }
  rewrite E. destruct (Z.testbit z n); lia.
Qed.

Lemma bval_Zbits : forall n z, bval (Zbits n z) = z mod 2 ^ Z.of_nat n.
Proof.
  induction n; intros.
  - cbn. rewrite Z.mod_1_r. reflexivity.
  - cbn [Zbits bval]. rewrite len_Zbits, IHn.
    replace (Z.of_nat (S n)) with (Z.of_nat n + 1) by lia.
    rewrite mod_pow2_succ by lia. reflexivity.
Qed.

Lemma bval_Zbits_small : forall n z, 0 <= z < 2 ^ Z.of_nat n -> bval (Zbits n z) = z.
Proof. intros. rewrite bval_Zbits. apply Z.mod_small; auto. Qed.

Lemma bval_inj : forall a b, length a = length b -> bval a = bval b -> a = b.
Proof.
  induction a as [|x a IH]; destruct b as [|y b]; intros; cbn in *; try discriminate; auto.
  inversion H. pose proof (bval_bounds a). pose proof (bval_bounds b).
  rewrite H2 in *. destruct x, y; try (f_equal; apply IH; auto; lia); lia.
Qed.

Lemma Zbits_bval : forall l, Zbits (length l) (bval l) = l.
Proof.
  intros. apply bval_inj. apply len_Zbits.
  apply bval_Zbits_small. apply bval_bounds.
Qed.

Lemma Zbits_bval_n : forall l n, length l = n -> Zbits n (bval l) = l.
Proof. intros; subst; apply Zbits_bval. Qed.

Lemma bval_zeros : forall n, bval (zeros n) = 0.
Proof. induction n; cbn; auto. Qed.

Lemma bval_zeros_app : forall n l, bval (zeros n ++ l) = bval l.
Proof. intros. rewrite bval_app, bval_zeros. lia. Qed.

(** ** bytes and bits *)
Lemma bval_byte : forall b, is_byte b -> bval (bits_of_byte b) = b.
Proof. intros. rewrite Zbits8. apply bval_Zbits_small. exact H. Qed.

Lemma bits_of_byte_inj : forall a b, is_byte a -> is_byte b ->
  bits_of_byte a = bits_of_byte b -> a = b.
Proof. intros. rewrite !Zbits8 in H1. eapply (Zbits_inj 8); eauto. Qed.

Lemma bits_of_bytes_inj : forall a b, Forall is_byte a -> Forall is_byte b ->
  bits_of_bytes a = bits_of_bytes b -> a = b.
Proof.
  induction a as [|x a IH]; destruct b as [|y b]; intros; auto; try discriminate.
  inversion H; inversion H0; subst. cbn [bits_of_bytes] in H1.
  apply app_inj_tail_iff || idtac.
  assert (bits_of_byte x = bits_of_byte y /\ bits_of_bytes a = bits_of_bytes b) as [E1 E2].
  { assert (firstn 8 (bits_of_byte x ++ bits_of_bytes a) = firstn 8 (bits_of_byte y ++ bits_of_bytes b)) by congruence.
    assert (skipn 8 (bits_of_byte x ++ bits_of_bytes a) = skipn 8 (bits_of_byte y ++ bits_of_bytes b)) by congruence.
    cbn in H2, H3. split; [exact H2|exact H3]. }
  f_equal; [apply bits_of_byte_inj|apply IH]; auto.
Qed.

Lemma is_byte_lor : forall a b, is_byte a -> is_byte b -> is_byte (Z.lor a b).
Proof.
  unfold is_byte; intros. split.
  - apply Z.lor_nonneg; lia.
  - destruct (Z.eq_dec (Z.lor a b) 0); [lia|].
    apply (Z.log2_lt_pow2 _ 8); [pose proof (proj2 (Z.lor_nonneg a b)); lia|].
    rewrite Z.log2_lor by lia.
    apply Z.max_lub_lt.
    + destruct (Z.eq_dec a 0); [subst; cbn; lia|]. apply Z.log2_lt_pow2; lia.
    + destruct (Z.eq_dec b 0); [subst; cbn; lia|]. apply Z.log2_lt_pow2; lia.
Qed.

Lemma is_byte_land : forall a b, is_byte a -> 0 <= b -> is_byte (Z.land a b).
Proof.
  unfold is_byte; intros. split.
  - apply Z.land_nonneg; lia.
  - destruct (Z.eq_dec (Z.land a b) 0); [lia|].
    apply (Z.log2_lt_pow2 _ 8); [pose proof (proj2 (Z.land_nonneg a b)); lia|].
    eapply Z.le_lt_trans; [apply Z.log2_land; lia|].
    assert (a <> 0) by (intro; subst; rewrite Z.land_0_l in n; lia).
    apply Z.le_lt_trans with (Z.log2 a); [lia|]. apply Z.log2_lt_pow2; lia.
Qed.

Lemma is_byte_byte_of : forall a, is_byte (byte_of a).
Proof. unfold is_byte, byte_of; intros. apply Z.mod_pos_bound. lia. Qed.

Lemma byte_of_id : forall a, is_byte a -> byte_of a = a.
Proof. unfold is_byte, byte_of; intros. apply Z.mod_small. lia. Qed.

Lemma byte_of_testbit : forall a i, 0 <= i < 8 -> Z.testbit (byte_of a) i = Z.testbit a i.
Proof. intros. unfold byte_of. change 256 with (2^8). apply Z.mod_pow2_bits_low. lia. Qed.

(** Appending lists: unique split. *)
Lemma app_split : forall (A : Type) (a b c d : list A),
  a ++ b = c ++ d -> length a = length c -> a = c /\ b = d.
Proof.
  induction a; destruct c; intros; cbn in *; try discriminate; auto.
  inversion H. inversion H0. destruct (IHa _ _ _ H3 H4). subst; auto.
Qed.

Lemma app_split_tail : forall (A : Type) (a b c d : list A),
  a ++ b = c ++ d -> length b = length d -> a = c /\ b = d.
Proof.
  intros. apply app_split; auto.
  assert (length (a ++ b) = length (c ++ d)) by congruence.
  rewrite !app_length in H1. lia.
Qed.

Lemma bytes_of_bits_exist : forall n l, length l = (8 * n)%nat ->
  exists bs, Forall is_byte bs /\ bits_of_bytes bs = l /\ length bs = n.
Proof.
  induction n; intros.
  - destruct l; [|cbn in H; lia]. exists []. auto.
  - do 8 (destruct l as [|? l]; [cbn in H; lia|]).
    destruct (IHn l) as (bs & F & E & L); [cbn [length] in H; lia|].
    exists (bval [b;b0;b1;b2;b3;b4;b5;b6] :: bs). repeat split.
    + constructor; auto. apply (bval_bounds [b;b0;b1;b2;b3;b4;b5;b6]).
    + cbn [bits_of_bytes]. rewrite E, Zbits8, (Zbits_bval_n _ 8) by reflexivity. reflexivity.
    + cbn; lia.
Qed.

(** ** nbits *)
Lemma nbits_nonneg : forall r, 0 <= nbits r.
Proof. intros. unfold nbits. destruct (r <=? 0); [lia|]. pose proof (Z.log2_nonneg r). lia. Qed.

Lemma nbits_bound : forall r, 0 <= r -> r < 2 ^ nbits r.
Proof.
  intros. unfold nbits. destruct (r <=? 0) eqn:E.
  - cbn. lia.
  - pose proof (Z.log2_spec r). replace (Z.log2 r + 1) with (Z.succ (Z.log2 r)) by lia. lia.
Qed.

Lemma nbits_min : forall r n, 0 <= n -> r < 2 ^ n -> nbits r <= n.
Proof.
  intros. unfold nbits. destruct (r <=? 0) eqn:E; [lia|].
  assert (Z.log2 r < n) by (apply Z.log2_lt_pow2; lia). lia.
Qed.

Lemma nbits_mono : forall a b, a <= b -> nbits a <= nbits b.
Proof.
  intros. apply nbits_min; [apply nbits_nonneg|].
  destruct (Z_le_dec 0 b); [pose proof (nbits_bound b); lia|].
  pose proof (Z.pow_nonneg 2 (nbits b)). lia.
Qed.

Lemma nbits_unique : forall r n, 0 < n -> 2 ^ (n - 1) <= r < 2 ^ n -> nbits r = n.
Proof.
  intros. unfold nbits.
  assert (0 < 2 ^ (n-1)) by (apply Z.pow_pos_nonneg; lia).
  destruct (r <=? 0) eqn:E; [lia|].
  rewrite (Z.log2_unique r (n-1)); try lia.
  replace (Z.succ (n-1)) with n by lia. lia.
Qed.

Lemma nbits_pow : forall r n, 0 <= n -> (nbits r <= n <-> r < 2 ^ n).
Proof.
  intros. split; intros.
  - destruct (Z_le_dec 0 r).
    + pose proof (nbits_bound r). apply Z.lt_le_trans with (2 ^ nbits r); [lia|].
      apply Z.pow_le_mono_r; lia.
    + pose proof (Z.pow_pos_nonneg 2 n). lia.
  - apply nbits_min; auto.
Qed.
