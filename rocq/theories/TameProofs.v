(** C07 for the bit stream and integer decoders. *)
From Verif Require Import Base Bits BitStream Ints Contracts BitsProofs BitStreamProofs IntsProofs.
From Coq Require Import ZifyBool ZifyNat.
Ltac Zify.zify_post_hook ::= Z.div_mod_to_equations.
Ltac inv_ok H := injection H; intros; subst; clear H.

Lemma tame_ret : forall {A} (o : option A), tame (ret o).
Proof.
  intros A o s r s' (H1 & H2 & H3) E. unfold ret in E. inv_ok E. splits; auto; lia.
Qed.
Lemma tame_ub : forall {A}, tame (@ub (option A)).
Proof. intros A s r s' _ E. discriminate. Qed.
Lemma tame_diverge : forall {A}, tame (@diverge (option A)).
Proof. intros A s r s' _ E. discriminate. Qed.
Lemma tame_bindo : forall {A B} (f : M (option A)) (g : A -> M (option B)),
  tame f -> (forall a, tame (g a)) -> tame (let? x := f in g x).
Proof.
  intros A B f g HF HG s r s' HI E. unfold bindo, bind in E.
  destruct (f s) as [[[a|] s1]| | |] eqn:EF; try discriminate.
  - destruct (HF s _ s1 HI EF) as (E1 & E2 & E3 & E4 & E5).
    assert (HI1 : inside s1).
    { destruct HI as (I1 & I2 & I3). specialize (E5 ltac:(discriminate)). unfold inside, pos in *. splits; lia. }
    destruct (HG a s1 r s' HI1 E) as (F1 & F2 & F3 & F4 & F5). splits; auto; try congruence; lia.
  - unfold ret in E. inv_ok E. destruct (HF s _ s' HI EF) as (E1 & E2 & E3 & E4 & E5). splits; auto; try lia.
Qed.
Lemma tame_lift : forall {A B} (o : outcome A) (g : A -> M (option B)),
  (forall a, o = Ok a -> tame (g a)) -> tame (let* x := lift o in g x).
Proof.
  intros A B o g HG s r s' HI E. unfold bind, lift in E. destruct o; try discriminate. eapply HG; eauto.
Qed.
Lemma tame_massert : forall {B} c b (g : M (option B)), tame g -> tame (massert c b ;;; g).
Proof.
  intros B c b g HG s r s' HI E. unfold bind, massert in E. destruct (b || ndebug c); try discriminate.
  eapply HG; eauto.
Qed.
Lemma tame_peek : forall {B} (g : bool -> M (option B)), (forall b, tame (g b)) ->
  tame (let* x := BitStream_PeekBit in g x).
Proof.
  intros B g HG s r s' HI E. revert E. unfold BitStream_PeekBit. run.
  destruct (nthZ masks (curBit s)); run; try discriminate.
  destruct (nthZ (buf s) (curByte s)); run; try discriminate. intro E. eapply HG; eauto.
Qed.
Lemma tame_ext : forall {A} (f g : M (option A)), (forall s, f s = g s) -> tame f -> tame g.
Proof. intros A f g H HT s r s' HI E. rewrite <- H in E. eapply HT; eauto. Qed.
(** A read that leaves the state alone. *)
Lemma tame_get : forall {B} (g : bstream -> M (option B)), (forall x, tame (g x)) ->
  tame (let* x := get in g x).
Proof. intros B g HG s r s' HI E. unfold bind, get in E. eapply HG; eauto. Qed.

Ltac dn := match goal with |- context [nthZ ?a ?b] => destruct (nthZ a b) eqn:?; run; try discriminate end.

Lemma tame_ReadByte : tame BitStream_ReadByte.
Proof.
  intros s r s' (H1 & H2 & H3) E. revert E. unfold BitStream_ReadByte, pos in *. run.
  destruct (count s - curByte s <? (if 0 <? curBit s then 2 else 1)) eqn:EC.
  { intro E; inv_ok E. splits; auto; try lia. }
  dn. destruct (0 <? curBit s) eqn:E0; run; [dn|]; intro E; inv_ok E; cbn [buf count curByte curBit]; splits; auto; lia.
Qed.

Lemma tame_ReadPartialByte : forall n, tame (BitStream_ReadPartialByte n).
Proof.
  intros n s r s' (H1 & H2 & H3) E. revert E. unfold BitStream_ReadPartialByte. run.
  destruct (nthZ masksb n) as [m| | |] eqn:EM; run; try discriminate.
  assert (HN : 0 <= n <= 8).
  { unfold nthZ in EM. destruct (n <? 0) eqn:EN; try discriminate.
    destruct (nth_error masksb (Z.to_nat n)) eqn:E1; try discriminate.
    assert (Z.to_nat n < length masksb)%nat by (apply nth_error_Some; congruence). cbn in *; lia. }
  unfold in_stream, pos in *.
  destruct (curBit s + n <=? 8) eqn:E8; run.
  - dn. destruct (curBit s + n =? 8) eqn:E9; run; intro E; inv_ok E; cbn [buf count curByte curBit]; splits; auto; try lia;
    match goal with |- (if ?t then _ else _) <> _ -> _ => destruct t eqn:? end; intros; try congruence; lia.
  - dn. dn. intro E; inv_ok E; cbn [buf count curByte curBit]; splits; auto; try lia;
    match goal with |- (if ?t then _ else _) <> _ -> _ => destruct t eqn:? end; intros; try congruence; lia.
Qed.

Lemma tame_ReadBit : forall {B} (f : bool -> B), tame (let* r := BitStream_ReadBit in ret (if fst r then Some (f (snd r)) else None)).
Proof.
  intros B f s r s' (H1 & H2 & H3) E. revert E. unfold BitStream_ReadBit. run.
  dn. dn. unfold in_stream, pos in *.
  destruct (curBit s <? 7) eqn:E7; run; cbn [fst snd]; intro E; inv_ok E; cbn [buf count curByte curBit]; splits; auto; try lia;
    match goal with |- (if ?t then _ else _) <> _ -> _ => destruct t eqn:? end; intros; try congruence; lia.
Qed.

Lemma read_loop_state : forall k i cb ncb s l s', read_loop i cb ncb k s = Ok (l, s') -> s' = s.
Proof.
  induction k; intros i cb ncb s l s'; cbn [read_loop]; run.
  - intro E; inv_ok E; auto.
  - dn. dn. destruct (read_loop (i + 1) cb ncb k s) as [[w s1]| | |] eqn:E1; run; try discriminate.
    intro E; inv_ok E. eapply IHk; eauto.
Qed.

Lemma tame_DecodeOctets : forall n, 0 <= n -> tame (BitStream_DecodeOctetString_no_length n).
Proof.
  intros n Hn s r s' (H1 & H2 & H3) E. revert E.
  unfold BitStream_DecodeOctetString_no_length, BitStream_ReadByteArray, rd_many, pos in *. run.
  destruct (curBit s =? 0) eqn:E0.
  - destruct (curByte s + n <=? count s) eqn:E1; run.
    + destruct ((curByte s <? 0) || (n <? 0) || (Z.of_nat (length (buf s)) <? curByte s + n)); run; try discriminate.
      intro E; inv_ok E; cbn [buf count curByte curBit]; splits; auto; lia.
    + intro E; inv_ok E; splits; auto; lia.
  - destruct (count s * 8 <? (curByte s + n) * 8 + curBit s) eqn:E1; run.
    + intro E; inv_ok E; splits; auto; lia.
    + destruct (read_loop (curByte s) (curBit s) (8 - curBit s) (Z.to_nat n) s) as [[l s1]| | |] eqn:ER; run; try discriminate.
      apply read_loop_state in ER. subst. intro E; inv_ok E; cbn [buf count curByte curBit]; splits; auto; lia.
Qed.

Lemma tame_ReadBits : forall n, 0 <= n -> tame (BitStream_ReadBits n).
Proof.
  intros n Hn. unfold BitStream_ReadBits. cbv zeta.
  apply tame_bindo; [apply tame_DecodeOctets; apply Z.quot_pos; lia|]. intros d.
  destruct (0 <? Z.rem n 8); [|apply tame_ret].
  apply tame_bindo; [apply tame_ReadPartialByte|]. intros; apply tame_ret.
Qed.

Lemma tame_dec32_bytes : forall k v, tame (dec32_bytes k v).
Proof.
  induction k; intros; cbn [dec32_bytes]; [apply tame_ret|]. apply tame_bindo; [apply tame_ReadByte|auto].
Qed.
Lemma tame_Decode32 : forall n, tame (BitStream_DecodeNonNegativeInteger32Neg n).
Proof.
  intros. unfold BitStream_DecodeNonNegativeInteger32Neg. destruct (n <? 0); [apply tame_ub|].
  apply tame_bindo; [apply tame_dec32_bytes|]. intros. cbv zeta. destruct (n mod 8 =? 0); [apply tame_ret|].
  apply tame_bindo; [apply tame_ReadPartialByte|]. intros; apply tame_ret.
Qed.
Lemma tame_DecodeNonNeg : forall n, tame (BitStream_DecodeNonNegativeInteger n).
Proof.
  intros. unfold BitStream_DecodeNonNegativeInteger. destruct (n <=? 32); [apply tame_Decode32|].
  apply tame_bindo; [apply tame_Decode32|]. intros.
  apply tame_bindo; [apply tame_Decode32|]. intros. destruct (96 <=? n); [apply tame_ub|apply tame_ret].
Qed.
Lemma tame_DecodeConstraint : forall c min max, tame (BitStream_DecodeConstraintWholeNumber c min max).
Proof.
  intros. unfold BitStream_DecodeConstraintWholeNumber. apply tame_lift. intros d _. cbv zeta.
  unfold assert_or_false. apply tame_massert. destruct (min <=? max); [|apply tame_ret].
  destruct (u64 d =? 0); [apply tame_ret|]. apply tame_lift. intros n _.
  apply tame_bindo; [apply tame_DecodeNonNeg|]. intros. destruct (u64 d <? a); [apply tame_ret|].
  apply tame_lift. intros; apply tame_ret.
Qed.
Lemma tame_DecodeConstraintPos : forall c min max, tame (BitStream_DecodeConstraintPosWholeNumber c min max).
Proof.
  intros. unfold BitStream_DecodeConstraintPosWholeNumber. cbv zeta.
  unfold assert_or_false. apply tame_massert. destruct (min <=? max); [|apply tame_ret].
  destruct (u64 (max - min) =? 0); [apply tame_ret|]. apply tame_lift. intros n _.
  apply tame_bindo; [apply tame_DecodeNonNeg|]. intros. destruct (u64 (max - min) <? a); apply tame_ret.
Qed.
Lemma tame_DecodeConstraintIntN : forall c w min max, tame (BitStream_DecodeConstraintWholeNumberIntN c w min max).
Proof. intros. apply tame_bindo; [apply tame_DecodeConstraint|]. intros; apply tame_ret. Qed.
Lemma tame_DecodeConstraintUIntN : forall c w min max, tame (BitStream_DecodeConstraintPosWholeNumberUIntN c w min max).
Proof. intros. apply tame_bindo; [apply tame_DecodeConstraintPos|]. intros; apply tame_ret. Qed.
Lemma tame_dec_sbytes : forall c k v, tame (dec_sbytes c k v).
Proof.
  intros c. induction k; intros; cbn [dec_sbytes]; [apply tame_ret|]. apply tame_bindo; [apply tame_ReadByte|].
  intros. apply tame_lift. auto.
Qed.
Lemma tame_dec_ubytes : forall k v, tame (dec_ubytes k v).
Proof.
  induction k; intros; cbn [dec_ubytes]; [apply tame_ret|]. apply tame_bindo; [apply tame_ReadByte|auto].
Qed.
Lemma tame_DecodeSemi : forall c min, tame (BitStream_DecodeSemiConstraintWholeNumber c min).
Proof.
  intros. unfold BitStream_DecodeSemiConstraintWholeNumber. apply tame_bindo; [apply tame_DecodeConstraint|].
  intros n. destruct (8 <? n); [apply tame_ret|]. apply tame_bindo; [apply tame_dec_sbytes|].
  intros. apply tame_lift. intros; apply tame_ret.
Qed.
Lemma tame_DecodeSemiPos : forall c min, tame (BitStream_DecodeSemiConstraintPosWholeNumber c min).
Proof.
  intros. unfold BitStream_DecodeSemiConstraintPosWholeNumber. apply tame_bindo; [apply tame_DecodeConstraint|].
  intros n. destruct (8 <? n); [apply tame_ret|]. apply tame_bindo; [apply tame_dec_ubytes|].
  intros; apply tame_ret.
Qed.
Lemma tame_DecodeUnc : forall c, tame (BitStream_DecodeUnConstraintWholeNumber c).
Proof.
  intros. unfold BitStream_DecodeUnConstraintWholeNumber. apply tame_bindo; [apply tame_DecodeConstraint|].
  intros n. destruct (8 <? n); [apply tame_ret|]. apply tame_peek. intros. apply tame_dec_sbytes.
Qed.
