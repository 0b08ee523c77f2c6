(** The ACN integer encoding chosen by the compiler holds the values of the type. *)
From Verif Require Import Base Bits BitStream Ints StrSpec Contracts UperTypes UperSpec UperWf Constraints
  Acn AcnSpec AcnGen AcnGenSpec AcnGenSizes AcnEncClass.
From Verif Require Import BitsProofs AcnProofs3 AcnGenProofs1 AcnGenProofs6.
From Coq Require Import ZifyBool ZifyNat.
Ltac Zify.zify_post_hook ::= Z.div_mod_to_equations.

(** A digit of decimal text. *)
Definition is_digit (ch : Z) : Prop := 48 <= ch <= 57.
(** What the checks leave open for a value. *)
Definition open_case (k : icodec) (z : Z) : Prop :=
  match k with
  | KText n => z <> - 10 ^ (n - 1)
  | KTextNull p | KUTextNull p => Forall is_byte p /\ (1 <= length p <= 10)%nat /\ ~ is_digit (hd 0 p)
  | _ => True
  end.

Lemma digits_digit : forall n v, Forall is_digit (digit_chars (digits n v)).
Proof.
  intros n v. induction n; cbn [digits digit_chars map]; [constructor|].
  constructor; [|exact IHn]. unfold is_digit.
  pose proof (Z.mod_pos_bound (v / 10 ^ Z.of_nat n) 10). lia.
Qed.
Lemma hd_terminates : forall p l, (1 <= length p)%nat -> ~ is_digit (hd 0 p) -> Forall is_digit l -> terminates p l.
Proof.
  intros p l HL HD HF i Hi E. destruct p as [|x p]; [cbn in HL; lia|].
  rewrite skipn_app in E. destruct (skipn i l) as [|y m] eqn:S.
  - apply (f_equal (@length Z)) in S. rewrite skipn_length in S. cbn in S. lia.
  - cbn [app length firstn] in E. injection E as E _. cbn [hd] in HD. apply HD. rewrite <- E.
    rewrite Forall_forall in HF. apply HF. rewrite <- (firstn_skipn i l), S. apply in_or_app. right. left. reflexivity.
Qed.
Lemma least_ex : forall v, 0 <= v < 2 ^ 64 -> exists n, least_digits v n.
Proof. intros v H. destruct (digit_array_ok v (u64_of _ H)) as (_ & n & _ & L & _). eauto. Qed.
Lemma text_ex : forall v, 0 <= v < 2 ^ 64 -> exists n, text_digits v n.
Proof. intros v H. destruct (least_ex v H) as [n L]. exists (Nat.max 1 n), n. auto. Qed.

Lemma inj1 : forall A (a b : A), Some a = Some b -> a = b.
Proof. congruence. Qed.
Lemma inj3 : forall A B C (a a' : A) (b b' : B) (c c' : C), Some (a, b, c) = Some (a', b', c') -> a = a' /\ b = b' /\ c = c'.
Proof. intros. split; [|split]; congruence. Qed.

(** ** The sizes computed with the class *)
Definition bcd_ok (uns : bool) (k : icodec) : Prop := match k with KBcdNull => uns = true | _ => True end.
Lemma class_sizes : forall al p umin umax uns k kk mn mx,
  GetIntEncodingClass 8 al p umin umax uns = Some (k, mn, mx) -> class_codec k = Some kk -> bcd_ok uns kk ->
  mn = k_min kk /\ mx = k_max kk + (al - 1).
Proof.
  intros al [enc sz en mf] umin umax uns k kk mn mx H HK HB.
  unfold GetIntEncodingClass, alignment_size in H. cbn [encodingProp sizeProp endiannessProp] in H.
  change (maxDigitsInInteger 8 uns) with (Some (if uns then 20 else 19)) in H. cbv iota in H.
  destruct enc as [e|], sz as [[n|q]|]; try (destruct en; discriminate);
    [destruct e|destruct e|destruct en; cbv iota beta in H; try discriminate; apply inj3 in H; destruct H as (<- & <- & <-); discriminate].
  all: set (big := match en with Some LittleEndianness => false | _ => true end) in H; clearbody big; cbv zeta in H.
  all: destruct uns, big; cbn [negb] in H; try discriminate.
  all: repeat match type of H with context [if ?b then _ else _] => destruct b eqn:? end; cbv iota beta in H; try discriminate;
    apply inj3 in H; destruct H as (<- & <- & <-); cbn [class_codec] in HK; apply inj1 in HK; subst kk; cbn [k_min k_max bcd_ok] in *; try discriminate;
    split; try lia.
Qed.

(** The codec is one the run time supports. *)
Lemma class_wf : forall al p umin umax uns k kk mn mx lo hi z w,
  GetIntEncodingClass 8 al p umin umax uns = Some (k, mn, mx) -> class_codec k = Some kk ->
  checkIntHasEnoughSpace k false lo hi = true -> (w = 8 \/ w = 16 \/ w = 32 \/ w = 64) -> open_case kk z -> wf_codec kk w.
Proof.
  intros al [enc sz en mf] umin umax uns k kk mn mx lo hi z w H HK HC HW HO. split; [exact HW|].
  unfold GetIntEncodingClass, alignment_size in H. cbn [encodingProp sizeProp endiannessProp] in H.
  change (maxDigitsInInteger 8 uns) with (Some (if uns then 20 else 19)) in H. cbv iota in H.
  destruct enc as [e|], sz as [[n|q]|]; try (destruct en; discriminate);
    [destruct e|destruct e|destruct en; cbv iota beta in H; try discriminate; apply inj3 in H; destruct H as (<- & <- & <-); discriminate].
  all: set (big := match en with Some LittleEndianness => false | _ => true end) in H; clearbody big; cbv zeta in H.
  all: destruct uns, big; cbn [negb] in H; try discriminate.
  all: repeat match type of H with context [if ?b then _ else _] => destruct b eqn:? end; cbv iota beta in H; try discriminate;
    apply inj3 in H; destruct H as (<- & <- & <-); cbn [class_codec] in HK; apply inj1 in HK; subst kk; try lia; try exact I.
  all: cbn [checkIntHasEnoughSpace] in HC; unfold checkBinary, checkAscii, checkBCD, check_, Pow in HC; cbv zeta in HC.
  all: repeat match type of HC with context [option_map _ (if ?b then _ else _)] => destruct b eqn:?; cbn [option_map] in HC end;
    try discriminate; try lia.
  all: try (match goal with H : (Z.rem ?n _ =? 0) = true |- _ => pose proof (Z.quot_rem' n 8); pose proof (Z.quot_rem' n 4) end; lia).
  all: cbn [open_case] in HO; tauto.
Qed.

(** Apart from packed decimal, the C type of the encoding is that of the variable. *)
Lemma class_signed : forall al p umin umax uns k kk mn mx,
  GetIntEncodingClass 8 al p umin umax uns = Some (k, mn, mx) -> class_codec k = Some kk ->
  signed_coding kk = negb uns \/ signed_coding kk = false /\ encodingProp p = Some BCD.
Proof.
  intros al [enc sz en mf] umin umax uns k kk mn mx H HK.
  unfold GetIntEncodingClass, alignment_size in H. cbn [encodingProp sizeProp endiannessProp] in H.
  change (maxDigitsInInteger 8 uns) with (Some (if uns then 20 else 19)) in H. cbv iota in H.
  destruct enc as [e|], sz as [[n|q]|]; try (destruct en; discriminate);
    [destruct e|destruct e|destruct en; cbv iota beta in H; try discriminate; apply inj3 in H; destruct H as (<- & <- & <-); discriminate].
  all: set (big := match en with Some LittleEndianness => false | _ => true end) in H; clearbody big; cbv zeta in H.
  all: destruct uns, big; cbn [negb] in H; try discriminate.
  all: repeat match type of H with context [if ?b then _ else _] => destruct b eqn:? end; cbv iota beta in H; try discriminate;
    apply inj3 in H; destruct H as (<- & <- & <-); cbn [class_codec] in HK; apply inj1 in HK; subst kk; cbn [signed_coding negb]; auto.
Qed.

(** ** The values *)
Lemma class_fits : forall k kk lo hi z, class_codec k = Some kk -> checkIntHasEnoughSpace k false lo hi = true ->
  lo <= z <= hi -> in_class (negb (signed_coding kk)) 64 z -> open_case kk z -> exists bs, icode kk z bs.
Proof.
  intros k kk lo hi z HK HC HZ HR HO.
  destruct k; cbn [class_codec] in HK; try discriminate; apply inj1 in HK; subst kk; cbn [signed_coding negb in_class] in HR;
    cbn [icode]; cbn [checkIntHasEnoughSpace] in HC; unfold checkBinary, checkAscii, checkBCD, check_, Pow in HC; cbv zeta in HC.
  all: try (match type of HC with context [?a <? 0] => destruct (a <? 0) eqn:? end; cbn [option_map] in HC); try discriminate.
  all: try (apply andb_prop in HC; destruct HC as [HC1 HC2]; apply Z.leb_le in HC1, HC2; rewrite <- ?Z.sub_1_r in HC2).
  all: repeat match goal with |- context [8 * ?k] => let e := eval compute in (8 * k) in change (8 * k) with e end.
  all: repeat match goal with |- context [?a - 1] => is_const a; let e := eval compute in (a - 1) in change (a - 1) with e end.
  all: try (eexists; split; [|reflexivity]; lia).
  all: try (eexists; split; [exact HR|]; split; [|reflexivity]; lia).
  - cbn [open_case] in HO. eexists. split; [exact HR|]. split; [|reflexivity]. lia.
  - destruct HO as (HB & HL & HD). destruct (text_ex (Z.abs z)) as [n T]; [lia|].
    eexists. split; [exact HR|]. exists n. split; [exact T|]. split; [|reflexivity].
    apply hd_terminates; [lia|auto|apply digits_digit].
  - eexists. split; [exact HR|]. split; [|reflexivity].
    pose proof (Z.pow_lt_mono_r 10 (n ÷ 8 - 1) (n ÷ 8)). lia.
  - destruct HO as (HB & HL & HD). destruct (text_ex z) as [n T]; [lia|].
    eexists. split; [exact HR|]. exists n. split; [exact T|]. split; [|reflexivity].
    apply hd_terminates; [lia|auto|apply digits_digit].
  - destruct (least_ex z HR) as [n L]. eexists. split; [exact HR|]. exists n. split; [exact L|reflexivity].
Qed.

(** ** Accepted: the generated encoder and decoder carry the value *)
Definition carries (c : cfg) (k : icodec) (w al mn mx z : Z) : Prop :=
  wf_codec k w /\ exists bs, int_encodes c k w z bs /\ writes (k_enc c k z) tt bs /\ reads (k_dec c k w) (Some z) bs /\
    mn <= blen bs /\ blen bs + (al - 1) <= mx.
Lemma in_class_64 : forall uns w z, (w = 8 \/ w = 16 \/ w = 32 \/ w = 64) -> in_class uns w z -> in_class uns 64 z.
Proof. intros [|] w z [->|[->|[->| ->]]] H; cbn [in_class] in *; lia. Qed.
Lemma class_carries : forall c al p umin umax uns k kk mn mx lo hi w z,
  GetIntEncodingClass 8 al p umin umax uns = Some (k, mn, mx) -> class_codec k = Some kk ->
  checkIntHasEnoughSpace k false lo hi = true -> lo <= z <= hi ->
  (w = 8 \/ w = 16 \/ w = 32 \/ w = 64) -> in_class uns w z -> signed_coding kk = negb uns ->
  iside c kk z -> open_case kk z -> carries c kk w al mn mx z.
Proof.
  intros c al p umin umax uns k kk mn mx lo hi w z HG HK HC HZ HW HR HS HI HO.
  assert (W : wf_codec kk w) by (eapply class_wf; eauto).
  assert (EU : uns = negb (signed_coding kk)) by (rewrite HS, negb_involutive; reflexivity).
  split; [exact W|].
  destruct (class_fits k kk lo hi z HK HC HZ) as [bs B].
  { rewrite <- EU. eapply in_class_64; eauto. }
  { exact HO. }
  assert (E : int_encodes c kk w z bs) by (split; [exact B|split; [exact HI|rewrite <- EU; exact HR]]).
  exists bs. split; [exact E|]. split; [eapply writes_k; eauto|]. split; [eapply reads_k; eauto|].
  destruct (class_sizes al p umin umax uns k kk mn mx HG HK) as [-> ->].
  { destruct kk; try exact I. rewrite EU. reflexivity. }
  pose proof (k_size c kk w z bs W E). lia.
Qed.

Lemma int_class_w : forall slim r, let w := snd (int_class slim 64 r) in w = 8 \/ w = 16 \/ w = 32 \/ w = 64.
Proof.
  intros slim r. cbv zeta. unfold int_class.
  destruct r, slim; repeat match goal with |- context [if ?b then _ else _] => destruct b end; cbn [snd]; auto.
Qed.
Lemma int_class_neg : forall slim r z, fst (int_class slim 64 r) = true -> in_range r z -> 0 <= z.
Proof.
  intros slim r z H HR. destruct r; cbn [int_class in_range] in *.
  - destruct (0 <=? a) eqn:E; [lia|]. destruct slim; repeat match type of H with context [if ?b then _ else _] => destruct b end; discriminate.
  - destruct (0 <=? a) eqn:E; [lia|discriminate].
  - discriminate.
  - discriminate.
Qed.
Lemma integer : forall c slim al p r rt umin umax k kk mn mx uns w z,
  mergeInteger slim 8 al p r rt umin umax = Some (k, mn, mx, (uns, w)) -> mappingFunction p = false -> class_codec k = Some kk ->
  (forall x, in_range r x -> in_range rt x) -> in_range r z -> in_class uns w z -> signed_coding kk = negb uns ->
  iside c kk z -> open_case kk z -> carries c kk w al mn mx z.
Proof.
  intros c slim al p r rt umin umax k kk mn mx uns w z H HM HK HS HZ HR HG HI HO.
  unfold mergeInteger in H. change (8 * 8) with 64 in H. cbv zeta in H.
  pose proof (int_class_w slim rt) as HW. pose proof (int_class_neg slim rt) as HN.
  destruct (int_class slim 64 rt) as [u w']. cbn [fst snd] in *. cbv zeta in HW.
  destruct (GetIntEncodingClass 8 al p umin umax u) as [[[k' a] b]|] eqn:G; [|discriminate].
  destruct (asn1_limits 8 r) as [lo hi] eqn:L. rewrite HM in H.
  destruct (checkIntHasEnoughSpace k' false lo hi) eqn:C; [|discriminate].
  injection H as -> -> -> -> ->.
  eapply class_carries; eauto.
  pose proof (in_class_64 _ _ _ HW HR) as H64.
  destruct r as [x y|x|y|]; cbn [asn1_limits in_range] in *; cbv zeta in L; change (8 * 8) with 64 in L.
  - injection L as <- <-. exact HZ.
  - destruct (0 <=? x) eqn:E; injection L as <- <-.
    + destruct uns; cbn [in_class] in H64; lia.
    + destruct uns; cbn [in_class] in H64; [|lia]. specialize (HN x eq_refl (HS x (Z.le_refl x))). exfalso. lia.
  - injection L as <- <-. destruct uns; cbn [in_class] in H64; lia.
  - injection L as <- <-. destruct uns; cbn [in_class] in H64; [|lia]. specialize (HN (-1) eq_refl (HS (-1) I)). lia.
Qed.

Lemma fold_min : forall l v z, In z (v :: l) -> fold_right Z.min v l <= z.
Proof.
  induction l as [|x l IH]; intros v z [->|H]; cbn [fold_right].
  - lia. - destruct H.
  - specialize (IH z z (or_introl eq_refl)). lia.
  - destruct H as [->|H]; [lia|]. specialize (IH v z (or_intror H)). lia.
Qed.
Lemma fold_max : forall l v z, In z (v :: l) -> z <= fold_right Z.max v l.
Proof.
  induction l as [|x l IH]; intros v z [->|H]; cbn [fold_right].
  - lia. - destruct H.
  - specialize (IH z z (or_introl eq_refl)). lia.
  - destruct H as [->|H]; [lia|]. specialize (IH v z (or_intror H)). lia.
Qed.
