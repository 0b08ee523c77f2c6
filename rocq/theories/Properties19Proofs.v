(** Proofs for Properties19.v *)
From Verif Require Import Base Bits BitStream Ints StrSpec Contracts UperTypes UperSpec UperWf Constraints
  Acn AcnSpec AcnGen AcnGenSpec AcnGenSizes AcnEncClass.
From Verif Require Import BitsProofs AcnProofs3 AcnGenProofs1 AcnGenProofs6 AcnEncClassProofs.
From Coq Require Import ZifyBool ZifyNat.
Ltac Zify.zify_post_hook ::= Z.div_mod_to_equations.

Lemma enumerated : forall c slim al p vals ev ub vb k kk mn mx z,
  mergeEnumerated 8 al p vals ev ub vb = Some (k, mn, mx) -> class_codec k = Some kk -> In z vals ->
  forall lo hi uns w, (forall x, In x vals -> lo <= x <= hi) -> In lo vals -> In hi vals ->
  int_class slim 64 (Concrete lo hi) = (uns, w) -> in_class uns w z -> signed_coding kk = negb uns ->
  iside c kk z -> open_case kk z -> carries c kk w al mn mx z.
Proof.
  intros c slim al p vals ev ub vb k kk mn mx z H HK HZ lo hi uns w HB HL HH HC HR HS HI HO.
  destruct vals as [|v l]; [destruct HZ|]. unfold mergeEnumerated in H. cbv zeta in H.
  set (a := fold_right Z.min v l) in H. set (b := fold_right Z.max v l) in H.
  assert (a <= z <= b) by (split; [apply fold_min|apply fold_max]; auto).
  pose proof (int_class_w slim (Concrete lo hi)) as HW. pose proof (int_class_neg slim (Concrete lo hi)) as HN.
  rewrite HC in HW, HN. cbn [fst snd] in HW, HN. cbv zeta in HW.
  assert (EA : a = lo).
  { apply Z.le_antisymm; [apply fold_min; auto|]. unfold a.
    assert (G : In (fold_right Z.min v l) (v :: l)).
    { clear. induction l as [|x l IH]; cbn [fold_right]; [left; reflexivity|].
      destruct (Z.min_spec x (fold_right Z.min v l)) as [[_ ->]|[_ ->]]; [right; left; reflexivity|].
      destruct IH as [<-|IH]; [left; reflexivity|right; right; exact IH]. }
    apply HB. exact G. }
  assert (EU : uns = true -> 0 <= lo) by (intros ->; apply (HN lo eq_refl); cbn [in_range]; specialize (HB z HZ); specialize (HB); lia).
  assert (EN : 0 <= lo -> uns = true).
  { intros P. cbn [int_class] in HC. replace (0 <=? lo) with true in HC by lia.
    destruct slim; repeat match type of HC with context [if ?b then _ else _] => destruct b end; injection HC as <- _; reflexivity. }
  assert (G : exists u2, GetIntEncodingClass 8 al p (if ev then vb else ub) (if ev then vb else ub) u2 = Some (k, mn, mx) /\
                checkIntHasEnoughSpace k false a b = true /\ (u2 = uns \/ ev = false /\ u2 = true)).
  { destruct ev.
    - destruct (GetIntEncodingClass 8 al p vb vb (0 <=? a)) as [[[k' m1] m2]|] eqn:G; [|discriminate].
      destruct (checkIntHasEnoughSpace k' false a b) eqn:C; [|discriminate]. injection H as -> -> ->.
      exists (0 <=? a). splits; auto. left. rewrite EA. destruct (0 <=? lo) eqn:E; [symmetry; apply EN; lia|].
      destruct uns; [|reflexivity]. specialize (EU eq_refl). lia.
    - destruct (GetIntEncodingClass 8 al p ub ub true) as [[[k' m1] m2]|] eqn:G; [|discriminate].
      destruct (checkIntHasEnoughSpace k' false a b) eqn:C; [|discriminate]. injection H as -> -> ->.
      exists true. auto. }
  destruct G as (u2 & G & C & D).
  assert (u2 = uns) as ->.
  { destruct D as [->|[-> ->]]; [reflexivity|]. destruct uns; [reflexivity|]. exfalso. clear - G HK HS.
    destruct (class_signed _ _ _ _ _ _ _ _ _ G HK) as [F|[F _]]; rewrite F in HS; discriminate. }
  eapply class_carries; eauto.
Qed.

Lemma size_field_carries : forall c al p lo hi k mn mx z,
  size_field 8 al p lo hi = Some (k, mn, mx) -> mappingFunction p = false -> lo <= z <= hi -> 0 <= z < 2 ^ 63 ->
  exists kk, class_codec k = Some kk /\ (iside c kk z -> open_case kk z -> carries c kk 64 al mn mx z).
Proof.
  intros c al p lo hi k mn mx z H HM HZ HR. unfold size_field in H.
  destruct (encodingProp p) as [e|] eqn:E; [|discriminate]. cbv zeta in H. rewrite HM in H.
  set (uns := match e with PosInt | BCD => true | TwosComplement | IntAscii => false end) in H.
  destruct (GetIntEncodingClass 8 al p 0 0 uns) as [[[k' a] b]|] eqn:G; [|discriminate].
  destruct (checkIntHasEnoughSpace k' false lo hi) eqn:C; [|discriminate]. injection H as -> -> ->.
  destruct (class_codec k) as [kk|] eqn:K.
  - exists kk. split; [reflexivity|]. intros HI HO. eapply class_carries; eauto 6.
    + destruct uns; cbn [in_class]; lia.
    + destruct (class_signed _ _ _ _ _ _ _ _ _ G K) as [F|[F B]]; [exact F|]. rewrite E in B. injection B as ->. exact F.
  - exfalso. clear - E G K. destruct k; cbn [class_codec] in K; try discriminate.
    unfold GetIntEncodingClass in G. rewrite E in G. clearbody uns.
    change (maxDigitsInInteger 8 uns) with (Some (if uns then 20 else 19)) in G. cbv iota in G.
    destruct (sizeProp p) as [[n|q]|]; [| |discriminate]; cbv zeta in G.
    all: set (big := match endiannessProp p with Some LittleEndianness => false | _ => true end) in G; clearbody big.
    all: destruct e, uns, big; cbn [negb] in G; try discriminate;
      repeat match type of G with context [if ?b then _ else _] => destruct b eqn:? end; discriminate.
Qed.

(** Binary and packed decimal encodings of fixed size. *)
Definition fixed_coding (k : icodec) : Prop :=
  match k with KText _ | KTextNull _ | KUText _ | KUTextNull _ | KBcdNull => False | _ => True end.
Lemma exact_check : forall k kk lo hi, class_codec k = Some kk -> fixed_coding kk -> lo <= hi < 2 ^ 64 ->
  (checkIntHasEnoughSpace k false lo hi = true <-> forall z, lo <= z <= hi -> exists bs, icode kk z bs).
Proof.
  intros k kk lo hi HK HF HL. split.
  - intros HC z HZ. 
    destruct k; cbn [class_codec] in HK; try discriminate; apply inj1 in HK; subst kk; cbn [fixed_coding] in HF; try contradiction;
      cbn [icode]; cbn [checkIntHasEnoughSpace] in HC; unfold checkBinary, checkAscii, checkBCD, check_, Pow in HC; cbv zeta in HC.
    all: try (match type of HC with context [?a <? 0] => destruct (a <? 0) eqn:? end; cbn [option_map] in HC); try discriminate.
    all: try (apply andb_prop in HC; destruct HC as [HC1 HC2]; apply Z.leb_le in HC1, HC2; rewrite <- ?Z.sub_1_r in HC2).
    all: try (eexists; split; [|reflexivity]; lia).
    eexists. split; [lia|]. split; [lia|reflexivity].
  - intros HA. destruct (HA lo) as [b1 B1]; [lia|]. destruct (HA hi) as [b2 B2]; [lia|].
    destruct k; cbn [class_codec] in HK; try discriminate; apply inj1 in HK; subst kk; cbn [fixed_coding] in HF; try contradiction;
      cbn [icode] in B1, B2; cbn [checkIntHasEnoughSpace]; unfold checkBinary, checkAscii, checkBCD, check_, Pow; cbv zeta.
    all: destruct B1 as [B1 _], B2 as [B2 B3]; try match type of B3 with _ /\ _ => destruct B3 as [B3 _] end.
    all: try (match goal with |- context [?a <? 0] => destruct (a <? 0) eqn:E end; cbn [option_map];
      [try (rewrite Z.pow_neg_r in B1, B2 by lia); try (rewrite Z.pow_neg_r in B3 by lia); lia|]).
    all: try discriminate.
    all: cbn [option_map]; apply andb_true_intro; split; apply Z.leb_le; rewrite <- ?Z.sub_1_r; lia.
Qed.

(** ** The class and the declared properties *)
(** What the ACN properties of an INTEGER say about the bits (user manual, chapter ACN):
    encoding, size, endianness and termination pattern; [uns]: the type has no negative values. *)
Definition little (p : int_props) : bool := match endiannessProp p with Some LittleEndianness => true | _ => false end.
Definition declared (p : int_props) (uns : bool) (z : Z) (bs : list bool) : Prop :=
  match encodingProp p, sizeProp p with
  | Some PosInt, Some (Fixed n) => 0 <= z < 2 ^ n /\
      bs = if little p then bits_of_bytes (le_octets (Z.to_nat (n / 8)) z) else Zbits (Z.to_nat n) z
  | Some TwosComplement, Some (Fixed n) => - 2 ^ (n - 1) <= z < 2 ^ (n - 1) /\
      bs = if little p then bits_of_bytes (le_octets (Z.to_nat (n / 8)) z) else Zbits (Z.to_nat n) z
  | Some BCD, Some (Fixed n) => 0 <= z < 10 ^ (n / 4) /\ bs = nibbles (digits (Z.to_nat (n / 4)) z)
  | Some BCD, Some (IntNullTerminated _) => 0 <= z /\ exists n, least_digits z n /\ bs = nibbles (digits n z) ++ Zbits 4 15
  | Some IntAscii, Some (Fixed n) =>
      if uns then 0 <= z < 10 ^ (n / 8) /\ bs = bits_of_bytes (digit_chars (digits (Z.to_nat (n / 8)) z))
      else Z.abs z < 10 ^ (n / 8 - 1) /\
        bs = bits_of_bytes (sign_char z :: digit_chars (digits (Z.to_nat (n / 8 - 1)) (Z.abs z)))
  | Some IntAscii, Some (IntNullTerminated t) =>
      exists n, text_digits (Z.abs z) n /\ (uns = true -> 0 <= z) /\
        bs = bits_of_bytes ((if uns then [] else [sign_char z]) ++ digit_chars (digits n (Z.abs z)) ++ t)
  | _, _ => False
  end.
Lemma le1 : forall z, bits_of_bytes (le_octets 1 z) = Zbits 8 z.
Proof.
  intros z. cbn [le_octets bits_of_bytes]. rewrite app_nil_r. change (bits_of_byte (z mod 256)) with (Zbits 8 (z mod 256)). apply Zbits_ext. intros i Hi.
  change 256 with (2 ^ 8). rewrite Z.mod_pow2_bits_low by lia. reflexivity.
Qed.
Lemma quot_div : forall n k, 0 < k -> Z.rem n k = 0 -> Z.quot n k = n / k.
Proof.
  intros n k K H. pose proof (Z.quot_rem n k ltac:(lia)) as E. rewrite H in E. rewrite E at 2.
  rewrite Z.add_0_r, Z.mul_comm, Z.div_mul by lia. reflexivity.
Qed.
Lemma class_declared : forall isz al p umin umax uns k kk mn mx z bs,
  GetIntEncodingClass isz al p umin umax uns = Some (k, mn, mx) -> class_codec k = Some kk -> icode kk z bs -> declared p uns z bs.
Proof.
  intros isz al p umin umax uns k kk mn mx z bs G K I. unfold GetIntEncodingClass in G.
  destruct (maxDigitsInInteger isz uns) as [dg|]; [|discriminate]. cbv zeta in G.
  unfold declared, little.
  destruct (encodingProp p) as [e|]; destruct (sizeProp p) as [s|]; destruct (endiannessProp p) as [[|]|]; try discriminate.
  all: try (assert (k = Integer_uPER) by congruence; subst k; discriminate).
  all: destruct e, s as [n|pt]; try discriminate.
  all: repeat match type of G with
       | context [match (if ?b then _ else _) with _ => _ end] => destruct b eqn:?; try discriminate
       | context [match Some (if ?b then _ else _, _, _) with _ => _ end] => destruct b eqn:?; try discriminate
       | context [match Some (if ?b then (_, _, _) else _) with _ => _ end] => destruct b eqn:?; try discriminate
       end.
  all: match type of G with Some (?k', _, _) = _ => assert (k = k') by congruence; subst k; clear G end.
  all: try match goal with |- if ?u then _ else _ => destruct u end.
  all: cbn [class_codec] in K; match type of K with Some ?k' = _ => assert (kk = k') by congruence; subst kk; clear K end.
  all: repeat match goal with H : negb (Z.rem _ _ =? 0) = false |- _ => apply negb_false_iff, Z.eqb_eq in H end.
  all: repeat match goal with H : (?m =? _) = true |- _ => apply Z.eqb_eq in H; subst m end.
  all: try (exact I).
  all: try (change (Z.to_nat (8 / 8)) with 1%nat; rewrite le1; exact I).
  all: cbn [icode] in I; try match goal with H : Z.rem ?m ?q = 0 |- _ => rewrite (quot_div m q) in I by (assumption || reflexivity) end.
  all: try (intuition lia).
  all: destruct I as (I1 & m & I2 & I3).
  all: try (split; [lia|exists m; split; [exact I2|exact I3]]).
  all: exists m; split; [|split; [lia || discriminate|]].
  all: rewrite ?Z.abs_eq by lia; first [exact I2 | exact (proj2 I3)].
Qed.
(** An accepted termination pattern. *)
Lemma pattern : forall pat p, null_terminated pat = Some (IntNullTerminated p) ->
  (length p <= 10)%nat /\ match pat with None => p = [0] | Some (ba, bits) => p = ba /\ (8 | bits) end.
Proof.
  intros [[ba bits]|] p H; unfold null_terminated in H.
  - destruct (negb (bits mod 8 =? 0)) eqn:E; [discriminate|]. destruct (10 <? Z.of_nat (length ba)) eqn:L; [discriminate|].
    assert (p = ba) by congruence. subst p. apply negb_false_iff, Z.eqb_eq in E. split; [lia|]. split; [reflexivity|].
    apply Z.mod_divide; lia.
  - assert (p = [0]) by congruence. subst p. split; [cbn [length]; lia|reflexivity].
Qed.
