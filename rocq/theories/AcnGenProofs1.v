(** Contracts by position and the leaves of the generated ACN code. *)
From Verif Require Import Base Bits BitStream Ints Octets Misc StrSpec Contracts Parse RealSpec RealC UperTypes UperSpec UperWf Uper
  Acn AcnStr AcnReal AcnSpec AcnGen AcnGenSpec.
From Verif Require Import BitsProofs BitStreamProofs BitStreamProofs2 BitStreamProofs3 UperProofs1 UperProofs2 UperProofs3.
From Verif Require Import Properties6.
From Coq Require Import ZifyBool ZifyNat Sorting.Sorted.

Lemma blen_app : forall a b, blen (a ++ b) = blen a + blen b.
Proof. intros. unfold blen. rewrite app_length. lia. Qed.
Lemma blen_nn : forall a, 0 <= blen a.
Proof. intros. unfold blen. lia. Qed.

Lemma writesAt_of : forall A (f : M A) a bs p, writes f a bs -> writesAt p f a bs.
Proof. intros A f a bs p H s pre n tl _. apply H. Qed.
Lemma readsAt_of : forall A (f : M A) a bs p, reads f a bs -> readsAt p f a bs.
Proof. intros A f a bs p H s pre rest _ _. apply H. Qed.

Lemma writesAt_bind : forall A B (f : M A) (g : A -> M B) a b bs1 bs2 p,
  writesAt p f a bs1 -> writesAt (p + blen bs1) (g a) b bs2 -> writesAt p (bind f g) b (bs1 ++ bs2).
Proof.
  unfold writesAt; intros A B f g a b bs1 bs2 p Hf Hg s pre n tl HP HA HN HL.
  rewrite app_length in *.
  destruct (Hf s pre n tl) as (s1 & E1 & HA1 & C1); auto; try lia.
  destruct (Hg s1 (pre ++ bs1) (n - length bs1)%nat tl) as (s2 & E2 & HA2 & C2); auto.
  - rewrite blen_app. lia.
  - rewrite app_length, C1. lia.
  - lia.
  - exists s2. unfold bind. rewrite E1. rewrite <- app_assoc in HA2.
    replace (n - (length bs1 + length bs2))%nat with (n - length bs1 - length bs2)%nat by lia.
    splits; try (apply HA2); auto. congruence.
Qed.
Lemma readsAt_bind : forall A B (f : M A) (g : A -> M B) a b bs1 bs2 p,
  readsAt p f a bs1 -> readsAt (p + blen bs1) (g a) b bs2 -> readsAt p (bind f g) b (bs1 ++ bs2).
Proof.
  unfold readsAt; intros A B f g a b bs1 bs2 p Hf Hg s pre rest HP HW HA HN.
  rewrite app_length in *. rewrite <- app_assoc in HA.
  destruct (Hf s pre _ HP HW HA) as (s1 & E1 & HA1 & C1 & B1); try lia.
  destruct (Hg s1 (pre ++ bs1) rest) as (s2 & E2 & HA2 & C2 & B2); auto.
  - rewrite blen_app. lia.
  - congruence.
  - rewrite app_length, C1. lia.
  - exists s2. unfold bind. rewrite E1. rewrite <- app_assoc in HA2.
    splits; try (apply HA2); auto; congruence.
Qed.
Lemma readsAt_bindo : forall A B (f : M (option A)) (g : A -> M (option B)) a b bs1 bs2 p,
  readsAt p f (Some a) bs1 -> readsAt (p + blen bs1) (g a) b bs2 -> readsAt p (bindo f g) b (bs1 ++ bs2).
Proof. intros. unfold bindo. eapply readsAt_bind; eauto. Qed.
Lemma writesAt_ret : forall A (a : A) p, writesAt p (ret a) a [].
Proof. intros. apply writesAt_of, writes_ret. Qed.
Lemma readsAt_ret : forall A (a : A) p, readsAt p (ret a) a [].
Proof. intros. apply readsAt_of, reads_ret. Qed.
(** A last step that writes or reads nothing. *)
Lemma writesAt_then : forall A B (f : M A) (g : A -> M B) a b bs p,
  writesAt p f a bs -> (forall q, writesAt q (g a) b []) -> writesAt p (bind f g) b bs.
Proof. intros. rewrite <- (app_nil_r bs). eapply writesAt_bind; eauto. Qed.
Lemma readsAt_then : forall A B (f : M (option A)) (g : A -> M (option B)) a b bs p,
  readsAt p f (Some a) bs -> (forall q, readsAt q (g a) b []) -> readsAt p (bindo f g) b bs.
Proof. intros. rewrite <- (app_nil_r bs). eapply readsAt_bindo; eauto. Qed.
Lemma writesAt_ext : forall A (f g : M A) a bs p, (forall s, f s = g s) -> writesAt p f a bs -> writesAt p g a bs.
Proof. unfold writesAt; intros A f g a bs p E H s pre n tl. rewrite <- E. apply H. Qed.
Lemma readsAt_ext : forall A (f g : M A) a bs p, (forall s, f s = g s) -> readsAt p f a bs -> readsAt p g a bs.
Proof. unfold readsAt; intros A f g a bs p E H s pre rest. rewrite <- E. apply H. Qed.
Lemma writesAt_pure : forall A B (f : M A) (g : A -> M B) a b bs p,
  (forall s, f s = Ok (a, s)) -> writesAt p (g a) b bs -> writesAt p (bind f g) b bs.
Proof. intros. eapply writesAt_ext; [|eassumption]. intros. unfold bind. now rewrite H. Qed.
Lemma readsAt_pure : forall A B (f : M A) (g : A -> M B) a b bs p,
  (forall s, f s = Ok (a, s)) -> readsAt p (g a) b bs -> readsAt p (bind f g) b bs.
Proof. intros. eapply readsAt_ext; [|eassumption]. intros. unfold bind. now rewrite H. Qed.
Lemma writes_thenM : forall A B (f : M A) a (b : B) bs, writes f a bs -> writes (f ;;; ret b) b bs.
Proof. intros. rewrite <- (app_nil_r bs). eapply writes_bind; eauto. apply writes_ret. Qed.
Lemma reads_thenM : forall A B (f : M (option A)) a (g : A -> M (option B)) b bs,
  reads f (Some a) bs -> reads (g a) b [] -> reads (bindo f g) b bs.
Proof. intros. rewrite <- (app_nil_r bs). eapply reads_bindo; eauto. Qed.

(** ** Integers *)
Lemma signed_coding_eq : forall k, signed_coding k = k_signed k.
Proof. destruct k; reflexivity. Qed.

Lemma u64_eq : forall z, 0 <= z < 2 ^ 64 -> is_u64 z.
Proof. unfold is_u64, two64. intros; lia. Qed.
Lemma s64_eq : forall z, - 2 ^ 63 <= z < 2 ^ 63 -> is_s64 z.
Proof. unfold is_s64, two63. intros; lia. Qed.


Ltac conjs := repeat match goal with H : _ /\ _ |- _ => destruct H end.
Lemma writes_k : forall c k w z bs, wf_codec k w -> int_encodes c k w z bs -> writes (k_enc c k z) tt bs.
Proof.
  intros c k w z bs [HW HK] (HC & HS & HI).
  destruct k; cbn [wf_codec icode iside k_enc] in *; conjs; subst.
  - apply (writes_int c (INoExt (Concrete a b)) true w z); cbn; unfold in_class; try lia.
  - apply C15_nbits; try lia. apply u64_eq. assert (2 ^ n <= 2 ^ 64) by (apply Z.pow_le_mono_r; lia). lia.
  - apply overwrites_writes, C15_octet. unfold is_byte; lia.
  - apply overwrites_writes, C15_big_endian; lia.
  - apply overwrites_writes, C15_little_endian; lia.
  - apply overwrites_writes, C17_unsigned, u64_eq; lia.
  - apply C16_nbits; auto; lia.
  - apply overwrites_writes, C16_octet; lia.
  - apply overwrites_writes, C16_big_endian; auto; lia.
  - apply overwrites_writes, C16_little_endian; auto; lia.
  - apply overwrites_writes, C17_signed; auto. apply s64_eq; lia.
  - destruct (C18_const c z (Z.to_nat n)) as [A _]; [apply u64_eq; lia|rewrite Z2Nat.id by lia; auto|].
    rewrite Z2Nat.id in A by lia. apply A. lia.
  - destruct H0 as (n & HL & ->). apply C18_length_partial; auto. apply u64_eq; lia.
  - destruct H0 as (n & HL & ->). apply C18_terminated; auto. apply u64_eq; lia.
  - destruct (C19_const_signed c z (Z.to_nat (n - 1))) as [A _]; auto; [apply s64_eq; lia|rewrite Z2Nat.id by lia; auto|].
    rewrite Z2Nat.id in A by lia. replace (1 + (n - 1)) with n in A by lia. apply overwrites_writes, A. lia.
  - destruct H0 as (n & HL & ->). apply overwrites_writes, C19_length_signed; auto. apply s64_eq; lia.
  - destruct H0 as (n & HL & HT & ->). apply overwrites_writes, C19_terminated_signed; auto. apply s64_eq; lia.
  - destruct (C19_const_unsigned c z (Z.to_nat n)) as [A _]; [apply u64_eq; lia|rewrite Z2Nat.id by lia; auto|].
    rewrite Z2Nat.id in A by lia. apply overwrites_writes, A. lia.
  - destruct H0 as (n & HL & HT & ->). apply overwrites_writes, C19_terminated_unsigned; auto. apply u64_eq; lia.
Qed.

Lemma reads_k64 : forall c k w z bs, wf_codec k w -> int_encodes c k w z bs -> reads (k_dec64 c k w) (Some z) bs.
Proof.
  intros c k w z bs [HW HK] (HC & HS & HI).
  destruct k; cbn [wf_codec icode iside k_dec64] in *; conjs; subst.
  - apply (reads_int c (INoExt (Concrete a b)) true w z); cbn; unfold in_class; try lia.
  - apply (C15_nbits c); try lia. apply u64_eq. assert (2 ^ n <= 2 ^ 64) by (apply Z.pow_le_mono_r; lia). lia.
  - apply (C15_octet c). unfold is_byte; lia.
  - apply (C15_big_endian c); lia.
  - apply (C15_little_endian c); lia.
  - apply (C17_unsigned c), u64_eq; lia.
  - apply C16_nbits; auto; lia.
  - apply C16_octet; lia.
  - apply C16_big_endian; auto; lia.
  - apply C16_little_endian; auto; lia.
  - apply C17_signed; auto. apply s64_eq; lia.
  - destruct (C18_const c z (Z.to_nat n)) as [_ A]; [apply u64_eq; lia|rewrite Z2Nat.id by lia; auto|].
    rewrite Z2Nat.id in A by lia. apply A.
  - destruct H0 as (n & HL & ->). apply (C18_length_partial c); auto. { apply u64_eq; lia. }
    destruct HL as [_ HL]. apply (HL 16%nat). exact HS.
  - destruct H0 as (n & HL & ->). apply (C18_terminated c); auto. apply u64_eq; lia.
  - destruct (C19_const_signed c z (Z.to_nat (n - 1))) as [_ A]; auto; [apply s64_eq; lia|rewrite Z2Nat.id by lia; auto|].
    rewrite Z2Nat.id in A by lia. replace (1 + (n - 1)) with n in A by lia. apply A.
  - destruct H0 as (n & HL & ->). apply C19_length_signed; auto. apply s64_eq; lia.
  - destruct H0 as (n & HL & HT & ->). apply C19_terminated_signed; auto. apply s64_eq; lia.
  - destruct (C19_const_unsigned c z (Z.to_nat n)) as [_ A]; [apply u64_eq; lia|rewrite Z2Nat.id by lia; auto|].
    rewrite Z2Nat.id in A by lia. apply A.
  - destruct H0 as (n & HL & HT & ->). apply (C19_terminated_unsigned c); auto. apply u64_eq; lia.
Qed.
Lemma reads_k : forall c k w z bs, wf_codec k w -> int_encodes c k w z bs -> reads (k_dec c k w) (Some z) bs.
Proof.
  intros c k w z bs HW HE. pose proof (reads_k64 _ _ _ _ _ HW HE) as HR.
  destruct HE as (_ & _ & HI). rewrite signed_coding_eq in HI. destruct HW as [HW _].
  assert (G : reads (if w =? 64 then k_dec64 c k w else if k_signed k then narrow_s w (k_dec64 c k w) else narrow_u w (k_dec64 c k w)) (Some z) bs).
  { destruct (w =? 64); auto. destruct (k_signed k); cbn [negb in_class] in HI.
    - apply C16_narrow; auto. lia.
    - apply C15_narrow; auto. }
  destruct k; auto.
Qed.
