(** C06: what a successful constrained decode can return, from any state. *)
From Verif Require Import Base Bits BitStream Ints Contracts BitsProofs BitStreamProofs IntsProofs.
From Coq Require Import ZifyBool ZifyNat.
Ltac Zify.zify_post_hook ::= Z.div_mod_to_equations.

(** Partial correctness: whatever the state, memory is unchanged and a returned
    value satisfies P. *)
Definition yields {A} (f : M (option A)) (P : A -> Prop) : Prop :=
  forall s r s', Forall is_byte (buf s) -> f s = Ok (r, s') ->
    buf s' = buf s /\ match r with Some a => P a | None => True end.

Lemma yields_ret : forall {A} (a : A) (P : A -> Prop), P a -> yields (ret (Some a)) P.
Proof. intros A a P H s r s' HB E. unfold ret in E. injection E; intros; subst. auto. Qed.
Lemma yields_none : forall {A} (P : A -> Prop), yields (ret None) P.
Proof. intros A P s r s' HB E. unfold ret in E. injection E; intros; subst. auto. Qed.
Lemma yields_bindo : forall {A B} (f : M (option A)) (g : A -> M (option B)) P Q,
  yields f P -> (forall a, P a -> yields (g a) Q) -> yields (let? x := f in g x) Q.
Proof.
  intros A B f g P Q HF HG s r s' HB E. unfold bindo, bind in E.
  destruct (f s) as [[[a|] s1]| | |] eqn:EF; try discriminate.
  - destruct (HF s (Some a) s1 HB EF) as [EB HP]. rewrite <- EB in *. eapply HG; eauto.
  - destruct (HF s None s1 HB EF) as [EB _]. unfold ret in E. injection E; intros; subst. auto.
Qed.
(** A step that does not touch the state. *)
Lemma yields_lift : forall {A B} (o : outcome A) (g : A -> M (option B)) Q,
  (forall a, o = Ok a -> yields (g a) Q) -> yields (let* x := lift o in g x) Q.
Proof.
  intros A B o g Q HG s r s' HB E. unfold bind, lift in E. destruct o; try discriminate. eapply HG; eauto.
Qed.
Lemma yields_massert : forall {B} c b (g : M (option B)) Q,
  yields g Q -> yields (massert c b ;;; g) Q.
Proof.
  intros B c b g Q HG s r s' HB E. unfold bind, massert in E. destruct (b || ndebug c); try discriminate.
  eapply HG; eauto.
Qed.
Lemma yields_ub : forall {A} (P : A -> Prop), yields ub P.
Proof. intros A P s r s' HB E. discriminate. Qed.

Lemma nthZ_byte : forall l i b, Forall is_byte l -> nthZ l i = Ok b -> is_byte b.
Proof.
  intros l i b F E. unfold nthZ in E. destruct (i <? 0); try discriminate.
  destruct (nth_error l (Z.to_nat i)) eqn:E1; run; try discriminate. injection E; intros; subst.
  apply nth_error_In in E1. rewrite Forall_forall in F. auto.
Qed.

Ltac inv_ok H := injection H; intros; subst; clear H.
Lemma yields_ReadByte : yields BitStream_ReadByte is_byte.
Proof.
  intros s r s' HB E. unfold BitStream_ReadByte in E. revert E. run.
  destruct (count s - curByte s <? _). { intro E; inv_ok E. auto. }
  destruct (nthZ (buf s) (curByte s)) eqn:E1; run; try discriminate. run.
  destruct (0 <? curBit s); run.
  - destruct (nthZ (buf s) (curByte s + 1)) eqn:E2; run; try discriminate. run.
    intro E; inv_ok E. cbn [buf]. split; auto. isbyte.
  - intro E; inv_ok E. cbn [buf]. split; auto. isbyte.
Qed.

Lemma land_nn : forall a b, 0 <= b -> 0 <= Z.land a b.
Proof. intros. apply Z.land_nonneg. auto. Qed.

Lemma nthZ_masksb_nn : forall n m, nthZ masksb n = Ok m -> 0 <= m.
Proof.
  intros n m E. unfold nthZ in E. destruct (n <? 0); try discriminate.
  destruct (nth_error masksb (Z.to_nat n)) eqn:E1; run; try discriminate. inv_ok E.
  apply nth_error_In in E1. cbn in E1. lia.
Qed.

Lemma yields_ReadPartialByte : forall n, yields (BitStream_ReadPartialByte n) (fun v => 0 <= v).
Proof.
  intros n s r s' HB E. unfold BitStream_ReadPartialByte in E. revert E. run.
  destruct (nthZ masksb n) as [m| | |] eqn:EM; run; try discriminate. apply nthZ_masksb_nn in EM. run.
  destruct (curBit s + n <=? 8); run.
  - destruct (nthZ (buf s) (curByte s)) eqn:E1; run; try discriminate. run.
    destruct (curBit s + n =? 8); run; intro E; inv_ok E; cbn [buf]; (split; [auto|]);
      match goal with |- match (if ?t then _ else _) with _ => _ end => destruct t end; auto;
      apply is_byte_byte_of.
  - destruct (nthZ (buf s) (curByte s)) eqn:E1; run; try discriminate. run.
    destruct (nthZ (buf s) (curByte s + 1)) eqn:E2; run; try discriminate. run.
    intro E; inv_ok E. cbn [buf]. split; auto.
    match goal with |- match (if ?t then _ else _) with _ => _ end => destruct t end; auto.
    apply land_nn; auto.
Qed.

Lemma lor_nn : forall a b, 0 <= a -> 0 <= b -> 0 <= Z.lor a b.
Proof. intros. apply Z.lor_nonneg. auto. Qed.
Lemma u32_nn : forall x, 0 <= u32 x.
Proof. intros. unfold u32, two32. apply Z.mod_pos_bound. lia. Qed.
Lemma u64_nn : forall x, 0 <= u64 x.
Proof. intros. unfold u64, two64. apply Z.mod_pos_bound. lia. Qed.

Lemma yields_dec32_bytes : forall k v, 0 <= v -> yields (dec32_bytes k v) (fun x => 0 <= x).
Proof.
  induction k; intros v HV; cbn [dec32_bytes]; [apply yields_ret; auto|].
  eapply yields_bindo; [apply yields_ReadByte|]. intros b Hb. apply IHk. apply lor_nn; [apply u32_nn|].
  unfold is_byte in Hb; lia.
Qed.

Lemma yields_Decode32 : forall n, yields (BitStream_DecodeNonNegativeInteger32Neg n) (fun x => 0 <= x).
Proof.
  intros n. unfold BitStream_DecodeNonNegativeInteger32Neg. destruct (n <? 0); [apply yields_ub|].
  eapply yields_bindo; [apply yields_dec32_bytes; lia|]. intros v Hv. cbv beta zeta.
  destruct (n mod 8 =? 0); [apply yields_ret; auto|].
  eapply yields_bindo; [apply yields_ReadPartialByte|]. intros b Hb. apply yields_ret.
  apply lor_nn; [apply u32_nn|auto].
Qed.

Lemma yields_DecodeNonNeg : forall n, yields (BitStream_DecodeNonNegativeInteger n) (fun x => 0 <= x).
Proof.
  intros n. unfold BitStream_DecodeNonNegativeInteger. destruct (n <=? 32); [apply yields_Decode32|].
  eapply yields_bindo; [apply yields_Decode32|]. intros hi Hhi.
  eapply yields_bindo; [apply yields_Decode32|]. intros lo Hlo.
  destruct (96 <=? n); [apply yields_ub|]. apply yields_ret. apply lor_nn; [apply u64_nn|auto].
Qed.

Lemma sres_val : forall c x y, sres c x = Ok y -> y = s64 x.
Proof.
  intros c x y E. unfold sres in E. destruct (in_s64 x) eqn:EI.
  - inv_ok E. apply in_s64_iff in EI. symmetry. apply s64_id. auto.
  - destruct (ovf_wrap c); try discriminate; injection E; auto.
Qed.

Lemma yields_DecodeConstraint : forall c min max, is_s64 min -> is_s64 max ->
  yields (BitStream_DecodeConstraintWholeNumber c min max) (fun v => min <= v <= max).
Proof.
  intros c min max Hmin Hmax. unfold BitStream_DecodeConstraintWholeNumber.
  apply yields_lift. intros d Ed. apply sres_val in Ed. subst. cbv zeta. unfold assert_or_false.
  apply yields_massert. destruct (min <=? max) eqn:EM; [|apply yields_none].
  rewrite u64_sub by (auto; lia).
  destruct (max - min =? 0) eqn:E0. { apply yields_ret. lia. }
  apply yields_lift. intros n _.
  eapply yields_bindo; [apply yields_DecodeNonNeg|]. intros uv Huv. cbv beta in Huv.
  destruct (max - min <? uv) eqn:E; [apply yields_none|].
  apply yields_lift. intros v Ev. apply sres_val in Ev. subst. apply yields_ret.
  destruct (s64_cong uv) as [k Hk]. rewrite Hk.
  replace (uv + k * two64 + min) with (uv + min + k * two64) by lia. rewrite s64_add_k, s64_id; [lia|].
  unfold is_s64 in *; lia.
Qed.

Lemma yields_DecodeConstraintPos : forall c min max, is_u64 min -> is_u64 max ->
  yields (BitStream_DecodeConstraintPosWholeNumber c min max) (fun v => min <= v <= max).
Proof.
  intros c min max Hmin Hmax. unfold BitStream_DecodeConstraintPosWholeNumber.
  cbv zeta. unfold assert_or_false. apply yields_massert. destruct (min <=? max) eqn:EM; [|apply yields_none].
  rewrite u64_id by (unfold is_u64 in *; lia).
  destruct (max - min =? 0) eqn:E0. { apply yields_ret. lia. }
  apply yields_lift. intros n _.
  eapply yields_bindo; [apply yields_DecodeNonNeg|]. intros uv Huv. cbv beta in Huv.
  destruct (max - min <? uv) eqn:E; [apply yields_none|].
  apply yields_ret. rewrite u64_id by (unfold is_u64 in *; lia). lia.
Qed.

Lemma yields_IntN : forall c w min max, w = 8 \/ w = 16 \/ w = 32 ->
  - 2 ^ (w - 1) <= min -> max < 2 ^ (w - 1) -> is_s64 min -> is_s64 max ->
  yields (BitStream_DecodeConstraintWholeNumberIntN c w min max) (fun v => min <= v <= max).
Proof.
  intros c w min max W Hmin Hmax H1 H2. unfold BitStream_DecodeConstraintWholeNumberIntN.
  eapply yields_bindo; [apply yields_DecodeConstraint; auto|]. cbv beta. intros v Hv. apply yields_ret.
  rewrite sN_id; lia.
Qed.
Lemma yields_UIntN : forall c w min max, w = 8 \/ w = 16 \/ w = 32 ->
  is_u64 min -> max < 2 ^ w -> is_u64 max ->
  yields (BitStream_DecodeConstraintPosWholeNumberUIntN c w min max) (fun v => min <= v <= max).
Proof.
  intros c w min max W Hmin Hmax H1. unfold BitStream_DecodeConstraintPosWholeNumberUIntN.
  eapply yields_bindo; [apply yields_DecodeConstraintPos; auto|]. cbv beta. intros v Hv. apply yields_ret.
  unfold is_u64 in *. rewrite Z.mod_small; lia.
Qed.
