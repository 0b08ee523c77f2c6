(** Whatever the input, a decoded value respects the structural limits. *)
From Verif Require Import Base Bits BitStream BitsProofs BitStreamProofs BitStreamProofs3 Ints IntsProofs SafeProofs RangeProofs
  StrSpec Octets OctetsProofs OctetsProofs2 Contracts
  Misc Oid OidProofs RealSpec RealC RealProofs UperTypes UperSpec Uper UperWf UperProofs1 UperProofs2 UperProofs3 UperProofs4 UperSizes UperShape.
From Coq Require Import ZifyBool ZifyNat Sorting.Sorted.
Ltac Zify.zify_post_hook ::= Z.div_mod_to_equations.

Lemma yields_weaken : forall {A} (f : M (option A)) (P Q : A -> Prop), (forall a, P a -> Q a) -> yields f P -> yields f Q.
Proof. intros A f P Q H HF s r s' HB E. destruct (HF s r s' HB E) as [H1 H2]. split; auto. destruct r; auto. Qed.
Lemma yields_diverge : forall {A} (P : A -> Prop), yields diverge P.
Proof. intros A P s r s' HB E. discriminate. Qed.
Lemma yields_opt : forall {A} (o : option A) (P : A -> Prop), (forall a, o = Some a -> P a) -> yields (ret o) P.
Proof. intros A o P H s r s' HB E. unfold ret in E. inv_ok E. split; auto. destruct r; auto. Qed.

(** Steps that return plain values *)
Definition keeps {A} (f : M A) (P : A -> Prop) : Prop :=
  forall s a s', Forall is_byte (buf s) -> f s = Ok (a, s') -> buf s' = buf s /\ P a.
Lemma keeps_yields : forall {A} (f : M (option A)) P,
  yields f P <-> keeps f (fun o => match o with Some a => P a | None => True end).
Proof. intros. split; intros H s r s' HB E; exact (H s r s' HB E). Qed.
Lemma yields_keeps : forall {A B} (f : M A) (g : A -> M (option B)) P Q,
  keeps f P -> (forall a, P a -> yields (g a) Q) -> yields (let* x := f in g x) Q.
Proof.
  intros A B f g P Q HF HG s r s' HB E. unfold bind in E.
  destruct (f s) as [[a s1]| | |] eqn:EF; try discriminate.
  destruct (HF _ _ _ HB EF) as [EB HP]. rewrite <- EB in *. eapply HG; eauto.
Qed.
Lemma keeps_bind : forall {A B} (f : M A) (g : A -> M B) P Q,
  keeps f P -> (forall a, P a -> keeps (g a) Q) -> keeps (let* x := f in g x) Q.
Proof.
  intros A B f g P Q HF HG s r s' HB E. unfold bind in E.
  destruct (f s) as [[a s1]| | |] eqn:EF; try discriminate.
  destruct (HF _ _ _ HB EF) as [EB HP]. rewrite <- EB in *. eapply HG; eauto.
Qed.
Lemma keeps_ret : forall {A} (a : A) (P : A -> Prop), P a -> keeps (ret a) P.
Proof. intros A a P H s r s' HB E. unfold ret in E. inv_ok E. auto. Qed.
Lemma keeps_ub : forall {A} (P : A -> Prop), keeps ub P.
Proof. intros A P s r s' HB E. discriminate. Qed.

Lemma keeps_ReadBit : keeps BitStream_ReadBit (fun _ => True).
Proof.
  intros s r s' HB E. unfold BitStream_ReadBit in E. revert E. run.
  destruct (nthZ masks (curBit s)); run; try discriminate.
  destruct (nthZ (buf s) (curByte s)); run; try discriminate. run.
  destruct (curBit s <? 7); run; intro E; inv_ok E; auto.
Qed.
Lemma keeps_PeekBit : keeps BitStream_PeekBit (fun _ => True).
Proof.
  intros s r s' HB E. unfold BitStream_PeekBit in E. revert E. run.
  destruct (nthZ masks (curBit s)); run; try discriminate.
  destruct (nthZ (buf s) (curByte s)); run; try discriminate. intro E; inv_ok E; auto.
Qed.

(** ** Integers *)
Lemma yields_len255 : forall c, yields (BitStream_DecodeConstraintWholeNumber c 0 255) (fun n => 0 <= n <= 255).
Proof. intros. apply yields_DecodeConstraint; unfold is_s64, two63; lia. Qed.
Lemma yields_dec_sbytes : forall c k v, is_s64 v -> yields (dec_sbytes c k v) is_s64.
Proof.
  intros c k. induction k; intros v HV; cbn [dec_sbytes]; [apply yields_ret; auto|].
  eapply yields_bindo; [apply yields_ReadByte|]. intros b Hb. cbv beta.
  apply yields_lift. intros w Hw. apply IHk.
  assert (w = s64 (v * 256)) as ->.
  { unfold sshl in Hw. change (2 ^ 8) with 256 in Hw.
    destruct ((0 <=? v) && in_s64 (v * 256)) eqn:E.
    - apply andb_true_iff in E. destruct E as [_ E]. apply in_s64_iff in E. rewrite s64_id by auto. inversion Hw; auto.
    - destruct (shl_wrap c); [|discriminate]. inversion Hw; auto. }
  rewrite s64_lor_byte by (exact Hb). apply s64_range.
Qed.
Lemma lor_byte_u64 : forall v b, is_byte b -> is_u64 (Z.lor (u64 (Z.shiftl v 8)) b).
Proof.
  intros v b Hb. unfold u64, is_u64, two64. rewrite Z.shiftl_mul_pow2 by lia.
  assert (EM : (v * 2 ^ 8) mod 2 ^ 64 = (v mod 2 ^ 56) * 2 ^ 8).
  { change (2 ^ 64) with (2 ^ 56 * 2 ^ 8). now rewrite Z.mul_mod_distr_r by lia. }
  unfold is_byte in Hb. rewrite EM, lor_add by lia. lia.
Qed.
Lemma yields_dec_ubytes : forall k v, is_u64 v -> yields (dec_ubytes k v) is_u64.
Proof.
  intros k. induction k; intros v HV; cbn [dec_ubytes]; [apply yields_ret; auto|].
  eapply yields_bindo; [apply yields_ReadByte|]. intros b Hb. cbv beta. apply IHk. apply lor_byte_u64; auto.
Qed.
Lemma yields_Unc : forall c, yields (BitStream_DecodeUnConstraintWholeNumber c) is_s64.
Proof.
  intros. unfold BitStream_DecodeUnConstraintWholeNumber. eapply yields_bindo; [apply yields_len255|]. intros n Hn. cbv beta in Hn |- *.
  destruct (8 <? n); [apply yields_none|]. eapply yields_keeps; [apply keeps_PeekBit|]. intros b _.
  apply yields_dec_sbytes. destruct b; unfold is_s64, two63; lia.
Qed.
Lemma yields_Semi : forall c min, yields (BitStream_DecodeSemiConstraintWholeNumber c min) is_s64.
Proof.
  intros. unfold BitStream_DecodeSemiConstraintWholeNumber. eapply yields_bindo; [apply yields_len255|]. intros n Hn. cbv beta in Hn |- *.
  destruct (8 <? n); [apply yields_none|].
  eapply yields_bindo; [apply yields_dec_sbytes; unfold is_s64, two63; lia|]. intros v Hv. cbv beta.
  apply yields_lift. intros r Hr. apply yields_ret. rewrite (sres_val _ _ _ Hr). apply s64_range.
Qed.
Lemma yields_SemiPos : forall c min, yields (BitStream_DecodeSemiConstraintPosWholeNumber c min) is_u64.
Proof.
  intros. unfold BitStream_DecodeSemiConstraintPosWholeNumber. eapply yields_bindo; [apply yields_len255|]. intros n Hn. cbv beta in Hn |- *.
  destruct (8 <? n); [apply yields_none|].
  eapply yields_bindo; [apply yields_dec_ubytes; unfold is_u64, two64; lia|]. intros v Hv. cbv beta.
  apply yields_ret. apply u64_range.
Qed.

Lemma s64_class : forall z, is_s64 z <-> in_class false 64 z.
Proof. intros. unfold is_s64, in_class, two63. lia. Qed.
Lemma yields_range64 : forall c r, wf_range64 r -> yields (range_dec c r false 64 true) is_s64.
Proof.
  intros c r Hr. destruct r as [a b|a|b|]; cbn [range_dec wf_range64] in *; change (64 =? 64) with true; cbv iota.
  - destruct Hr as (H1 & H2 & H3). destruct (a =? b); [apply yields_ret; auto|]. cbn [andb].
    eapply yields_weaken; [|apply yields_DecodeConstraint; auto]. cbv beta. intros. unfold is_s64 in *. lia.
  - rewrite Bool.andb_false_r. apply yields_Semi.
  - apply yields_Unc.
  - apply yields_Unc.
Qed.
Lemma yields_int : forall c i p w, wf_int i p w -> yields (int_dec c i p w) (shape_int i p w).
Proof.
  intros c i p w Hw. unfold shape_int.
  assert (HX : forall r, w = 64 /\ p = false /\ wf_range64 r ->
    yields (let* b := BitStream_ReadBit in
      if fst b then if snd b then BitStream_DecodeUnConstraintWholeNumber c else range_dec c r p w true else ret None)
     (fun z => in_class p w z /\ True)).
  { intros r (-> & -> & Hr). eapply yields_keeps; [apply keeps_ReadBit|]. intros [b1 b2] _. cbn [fst snd].
    destruct b1; [|apply yields_none].
    eapply yields_weaken with (P := is_s64); [intros a Ha; split; auto; apply s64_class; auto|].
    destruct b2; [apply yields_Unc|apply yields_range64; auto]. }
  destruct i as [r|r|r isr]; cbn [int_dec wf_int] in *; [|apply HX; auto|apply HX; auto].
  destruct r as [a b|a|b|]; cbn [range_dec negb].
  - destruct Hw as (Hw & Hab & Ha & Hb). rewrite Bool.andb_true_r.
    destruct (Z.eqb_spec a b) as [<-|Hne]; [apply yields_ret; split; [auto|lia]|].
    eapply yields_weaken with (P := fun z => a <= z <= b).
    { intros z Hz. split; auto. unfold in_class in *. destruct p; lia. }
    destruct p; unfold in_class in Ha, Hb.
    + destruct (Z.eqb_spec w 64).
      * subst. apply yields_DecodeConstraintPos; unfold is_u64, two64; lia.
      * assert (2 ^ w <= 2 ^ 64) by (apply Z.pow_le_mono_r; lia).
        apply yields_UIntN; unfold is_u64, two64; try lia.
    + destruct (Z.eqb_spec w 64).
      * subst. apply yields_DecodeConstraint; unfold is_s64, two63; lia.
      * assert (2 ^ (w - 1) <= 2 ^ 63) by (apply Z.pow_le_mono_r; lia).
        apply yields_IntN; unfold is_s64, two63; try lia.
  - destruct Hw as (-> & -> & Ha). rewrite Bool.andb_true_r. destruct (0 <=? a) eqn:E.
    + eapply yields_weaken; [|apply yields_SemiPos]. cbv beta. intros z Hz.
      split; [unfold in_class; unfold is_u64, two64 in Hz; lia|auto].
    + eapply yields_weaken; [|apply yields_Semi]. cbv beta. intros z Hz. split; [apply s64_class; auto|auto].
  - destruct Hw as (-> & ->). eapply yields_weaken; [|apply yields_Unc]. cbv beta. intros z Hz. split; [apply s64_class; auto|auto].
  - destruct Hw as (-> & ->). eapply yields_weaken; [|apply yields_Unc]. cbv beta. intros z Hz. split; [apply s64_class; auto|auto].
Qed.

Lemma nthZ_In : forall l i v, nthZ l i = Ok v -> In v l.
Proof.
  intros l i v E. unfold nthZ in E. destruct (i <? 0); [discriminate|].
  destruct (nth_error l (Z.to_nat i)) eqn:E1; [|discriminate]. injection E as ->. eapply nth_error_In; eauto.
Qed.
Lemma yields_enum : forall c items eff, wf_enum items eff ->
  yields (enum_dec c items eff) (fun v => exists z, v = VEnum z /\ In z items).
Proof.
  intros c items eff (Hn & Hd & HL & He). unfold enum_dec.
  eapply yields_bindo; [apply yields_DecodeConstraint; unfold is_s64, two63; lia|]. intros i Hi. cbv beta in Hi |- *.
  destruct eff as [arr|].
  - destruct (_ && _); [|apply yields_none]. apply yields_lift. intros v Hv. apply yields_ret.
    exists v. split; auto. apply He. eapply nthZ_In; eauto.
  - apply yields_opt. intros a Ha. destruct (i <? 0); [discriminate|].
    destruct (nth_error items (Z.to_nat i)) eqn:E; [|discriminate]. injection Ha as <-.
    exists z. split; auto. eapply nth_error_In; eauto.
Qed.

(** ** Bytes *)
Lemma keeps_read_loop : forall k i cb ncb, keeps (read_loop i cb ncb k) (fun l => length l = k /\ Forall is_byte l).
Proof.
  induction k; intros i cb ncb; cbn [read_loop]; [apply keeps_ret; auto|].
  intros s r s' HB E. revert E. run.
  destruct (nthZ (buf s) i); run; try discriminate.
  destruct (nthZ (buf s) (i + 1)); run; try discriminate.
  destruct (read_loop (i + 1) cb ncb k s) as [[ws s1]| | |] eqn:ER; run; try discriminate.
  intro E; inv_ok E. destruct (IHk _ _ _ _ _ _ HB ER) as (H1 & H2 & H3).
  split; auto. split; [cbn; auto|]. constructor; auto. isbyte.
Qed.
Lemma yields_DecodeOctets : forall n, 0 <= n ->
  yields (BitStream_DecodeOctetString_no_length n) (fun d => Z.of_nat (length d) = n /\ Forall is_byte d).
Proof.
  intros n Hn s r s' HB E. unfold BitStream_DecodeOctetString_no_length, BitStream_ReadByteArray, rd_many in E. revert E. run.
  destruct (curBit s =? 0).
  - destruct (curByte s + n <=? count s); run.
    + destruct (_ || _) eqn:EO; run; try discriminate. intro E; inv_ok E. cbn [buf]. split; auto.
      split; [rewrite firstn_length, skipn_length; lia|].
      apply Forall_firstn, Forall_skipn; auto.
    + intro E; inv_ok E. auto.
  - destruct (_ <? _); run.
    + intro E; inv_ok E. auto.
    + destruct (read_loop _ _ _ _ s) as [[ws s1]| | |] eqn:ER; run; try discriminate.
      intro E; inv_ok E. destruct (keeps_read_loop _ _ _ _ _ _ _ HB ER) as (H1 & H2 & H3).
      cbn [buf]. split; auto. split; auto. lia.
Qed.
Lemma yields_ReadBits : forall n, 0 <= n ->
  yields (BitStream_ReadBits n) (fun d => Z.of_nat (length d) = (n + 7) / 8 /\ Forall is_byte d).
Proof.
  intros n Hn. unfold BitStream_ReadBits. rewrite Z.quot_div_nonneg, Z.rem_mod_nonneg by lia.
  eapply yields_bindo; [apply yields_DecodeOctets; lia|]. intros d [Hd1 Hd2]. cbv beta.
  destruct (0 <? n mod 8) eqn:E.
  - eapply yields_bindo; [apply yields_ReadPartialByte|]. intros b Hb. cbv beta. apply yields_ret.
    rewrite app_length. cbn [length]. split; [lia|]. apply Forall_app; split; auto. constructor; auto. isbyte.
  - apply yields_ret. split; auto. lia.
Qed.

(** ** Object identifiers *)
Lemma land_7F_byte : forall si b, is_byte b -> is_u64 (Z.lor (u64 (Z.shiftl si 7)) (Z.land b 127)).
Proof.
  intros si b Hb. rewrite land_7F by auto. unfold u64, is_u64, two64. rewrite Z.shiftl_mul_pow2 by lia.
  assert (EM : (si * 2 ^ 7) mod 2 ^ 64 = (si mod 2 ^ 57) * 2 ^ 7).
  { change (2 ^ 64) with (2 ^ 57 * 2 ^ 7). now rewrite Z.mul_mod_distr_r by lia. }
  rewrite EM, lor_add by lia. lia.
Qed.
Lemma yields_sub_decode : forall rem si, is_u64 si -> yields (sub_decode rem si) (fun p => is_u64 (snd p)).
Proof.
  induction rem; intros si Hs; cbn [sub_decode]; [apply yields_ret; auto|].
  eapply yields_bindo; [apply yields_ReadByte|]. intros b Hb. cbv beta in Hb |- *.
  pose proof (land_7F_byte si b Hb). destruct (_ =? 0); [apply yields_ret; auto|apply IHrem; auto].
Qed.
Lemma updZ_inv : forall l i v l', updZ l i v = Ok l' -> l' = upd l (Z.to_nat i) v /\ 0 <= i < Z.of_nat (length l).
Proof. intros l i v l' E. unfold updZ in E. destruct (_ || _) eqn:EO; [discriminate|]. injection E as <-. split; [auto|lia]. Qed.
Lemma yields_dec_arcs : forall f rem n vals, 0 <= n -> Forall is_u64 vals ->
  yields (dec_arcs f rem n vals) (fun r => n <= snd (fst r) <= n + Z.of_nat f /\ Forall is_u64 (snd r)).
Proof.
  induction f; intros rem n vals Hn Hv; cbn [dec_arcs]; [apply yields_ret; cbn [fst snd]; split; [lia|auto]|].
  destruct rem as [|rem]; [apply yields_ret; cbn [fst snd]; split; [lia|auto]|].
  eapply yields_bindo; [apply yields_sub_decode; unfold is_u64, two64; lia|]. intros p Hp. cbv beta in Hp |- *.
  apply yields_lift. intros vals' E. apply updZ_inv in E. destruct E as [-> _].
  eapply yields_weaken; [|apply IHf; [lia|apply Forall_upd; auto]]. intros a [H1 H2]. split; [lia|auto].
Qed.
Lemma yields_oid_length : forall c, yields (oid_decode_length c) (fun n => 0 <= n).
Proof.
  intros. unfold oid_decode_length. eapply yields_bindo; [apply yields_len255|]. intros h Hh. cbv beta in Hh |- *.
  destruct (127 <? h); [|apply yields_ret; lia].
  eapply yields_bindo; [apply yields_len255|]. intros h2 Hh2. cbv beta. apply yields_ret. apply land_nn. lia.
Qed.
Lemma yields_oid_done : forall r, 0 <= snd (fst r) <= 20 -> Forall is_u64 (snd r) ->
  yields (oid_done r) (fun p => 0 <= fst p <= 20 /\ Forall is_u64 (snd p)).
Proof.
  intros [[rem n] vals] H1 H2. unfold oid_done. apply yields_opt. intros a Ha.
  destruct (Nat.eqb rem 0); [|discriminate]. injection Ha as <-. auto.
Qed.
Lemma zero_u64 : Forall is_u64 oid_zero.
Proof. unfold oid_zero. apply Forall_forall. intros x Hx. apply repeat_spec in Hx. subst. unfold is_u64, two64. lia. Qed.
Lemma yields_oid : forall c (rel : bool), yields (if rel then RelativeOID_uper_decode c else ObjectIdentifier_uper_decode c)
  (fun p => 0 <= fst p <= 20 /\ Forall is_u64 (snd p)).
Proof.
  intros c [].
  - unfold RelativeOID_uper_decode. eapply yields_bindo; [apply yields_oid_length|]. intros n Hn. cbv beta in Hn |- *.
    eapply yields_bindo; [apply yields_dec_arcs; [lia|apply zero_u64]|]. intros r [H1 H2]. apply yields_oid_done; [lia|auto].
  - unfold ObjectIdentifier_uper_decode. eapply yields_bindo; [apply yields_oid_length|]. intros n Hn. cbv beta in Hn |- *.
    eapply yields_bindo; [apply yields_sub_decode; unfold is_u64, two64; lia|]. intros p Hp. cbv beta in Hp |- *.
    apply yields_lift. intros v1 E1. apply yields_lift. intros v2 E2.
    apply updZ_inv in E1. destruct E1 as [-> _]. apply updZ_inv in E2. destruct E2 as [-> _].
    eapply yields_bindo; [apply yields_dec_arcs; [lia|]|].
    + repeat apply Forall_upd; [apply zero_u64| |]; unfold is_u64, two64 in Hp |- *; lia.
    + intros r [H1 H2]. apply yields_oid_done; [lia|auto].
Qed.

(** ** Items *)
Lemma yields_items : forall {A} (f : bool -> M (option A)) P cap, yields (f true) P -> forall k i,
  yields (dec_items f cap k i) (fun l => length l = k /\ Forall P l).
Proof.
  intros A f P cap Hf k. induction k; intros i; cbn [dec_items]; [apply yields_ret; auto|].
  destruct (cap <=? i); [apply yields_ub|].
  eapply yields_bindo; [exact Hf|]. intros x Hx. cbv beta. eapply yields_bindo; [apply IHk|].
  intros l [Hl1 Hl2]. cbv beta. apply yields_ret. split; [cbn; auto|constructor; auto].
Qed.
Lemma keeps_items_u : forall {A} (f : bool -> M (option A)) (P : A -> Prop) junk cap, (forall r, yields (f r) P) -> forall k i r,
  keeps (dec_items_u f junk cap k i r) (fun p => length (fst p) = k /\ Forall (fun x => P x \/ x = junk) (fst p)).
Proof.
  intros A f P junk cap Hf k. induction k; intros i r; cbn [dec_items_u]; [apply keeps_ret; cbn; auto|].
  destruct (cap <=? i); [apply keeps_ub|].
  eapply keeps_bind; [apply (proj1 (keeps_yields _ _) (Hf r))|]. intros o Ho. cbv beta in Ho.
  destruct o as [x|].
  - eapply keeps_bind; [apply IHk|]. intros [l b] [Hl1 Hl2]. cbn [fst snd] in *. apply keeps_ret. cbn [fst length]. split; auto.
  - eapply keeps_bind; [apply IHk|]. intros [l b] [Hl1 Hl2]. cbn [fst snd] in *. apply keeps_ret. cbn [fst length]. split; auto.
Qed.

Lemma yields_dec_frag : forall {A} c (blk : A -> Z -> Z -> M (option A)) (Inv : A -> Z -> Prop) szmin szmax,
  (forall a o len, Inv a o -> 0 <= o -> 0 <= len -> yields (blk a o len) (fun a' => Inv a' (o + len))) ->
  forall fuel a off h, Inv a off -> 0 <= off -> 0 <= h ->
  yields (dec_frag c blk szmin szmax fuel a off h) (fun p => szmin <= fst p <= szmax /\ Inv (snd p) (fst p)).
Proof.
  intros A c blk Inv szmin szmax Hb. induction fuel; intros a off h Ha Ho Hh; cbn [dec_frag]; [apply yields_diverge|].
  destruct (Z.land h 192 =? 192).
  - destruct (frag_size h) as [bs|] eqn:Ef; [|apply yields_none].
    destruct (frag_size_pos _ _ Ef).
    destruct (off + bs <=? szmax); [|apply yields_none].
    eapply yields_bindo; [apply Hb; auto; lia|]. intros a' Ha'. cbv beta in Ha' |- *.
    eapply yields_bindo; [apply yields_len255|]. intros h' Hh'. cbv beta in Hh' |- *. apply IHfuel; auto; lia.
  - eapply yields_bindo with (P := fun rem => 0 <= rem).
    + destruct (0 <? Z.land h 128); [|apply yields_ret; auto].
      eapply yields_bindo; [apply yields_len255|]. intros h2 Hh2. cbv beta. apply yields_ret. apply land_nn. lia.
    + intros rem Hr. destruct (off + rem <=? szmax) eqn:E; [|apply yields_none].
      eapply yields_bindo; [apply Hb; auto|]. intros a' Ha'. cbv beta in Ha' |- *.
      destruct (_ && _) eqn:E2; [|apply yields_none]. apply yields_ret. cbn [fst snd]. split; [lia|auto].
Qed.

Lemma yields_dec_64K : forall {A} c (blk : A -> Z -> Z -> M (A * bool)) (Inv : A -> Z -> Prop),
  (forall a o len, Inv a o -> 0 <= o -> 0 <= len -> keeps (blk a o len) (fun p => snd p = true -> Inv (fst p) (o + len))) ->
  forall k a off, Inv a off -> 0 <= off -> yields (dec_64K c blk k a off) (fun a' => Inv a' (off + Z.of_nat k * 65536)).
Proof.
  intros A c blk Inv Hb. induction k; intros a off Ha Ho; cbn [dec_64K].
  - apply yields_ret. replace (off + Z.of_nat 0 * 65536) with off by lia. auto.
  - eapply yields_bindo; [apply yields_len255|]. intros h Hh. cbv beta in Hh |- *.
    destruct (h =? 196); [|apply yields_none].
    eapply yields_keeps; [apply Hb; auto; lia|]. intros [a' b] Ha'. cbn [fst snd] in *.
    destruct b; [|apply yields_none].
    replace (off + Z.of_nat (S k) * 65536) with (off + 65536 + Z.of_nat k * 65536) by lia. apply IHk; [auto|lia].
Qed.
Lemma yields_dec_small : forall {A} c (blk : A -> Z -> Z -> M (A * bool)) (Inv : A -> Z -> Prop),
  (forall a o len, Inv a o -> 0 <= o -> 0 <= len -> keeps (blk a o len) (fun p => snd p = true -> Inv (fst p) (o + len))) ->
  forall ps a off rem, Inv a off -> 0 <= off -> Forall (fun p => 0 <= snd p) ps -> 0 <= rem ->
  yields (dec_small c blk ps a off rem) (fun a' => Inv a' (off + parts_total ps + rem)).
Proof.
  intros A c blk Inv Hb. induction ps as [|[id bs] ps IH]; intros a off rem Ha Ho HF Hr; cbn [dec_small].
  - change (parts_total []) with 0. rewrite Z.add_0_r. destruct (Z.eqb_spec rem 0).
    + apply yields_ret. subst. rewrite Z.add_0_r. auto.
    + eapply yields_bindo with (P := fun _ => True).
      * destruct (rem <=? 127); eapply yields_weaken; try apply yields_DecodeConstraint; auto; unfold is_s64, two63; lia.
      * intros h _. destruct (if rem <=? 127 then _ else _); [|apply yields_none].
        eapply yields_keeps; [apply Hb; auto|]. intros [a' b] Ha'. cbn [fst snd] in *. apply yields_opt.
        intros a0 E. destruct b; [|discriminate]. injection E as <-. auto.
  - pose proof (Forall_inv HF) as Hbs. cbn [snd] in Hbs.
    eapply yields_bindo; [apply yields_len255|]. intros h Hh. cbv beta in Hh |- *. destruct (h =? id); [|apply yields_none].
    eapply yields_keeps; [apply Hb; auto|]. intros [a' b] Ha'. cbn [fst snd] in *.
    destruct b; [|apply yields_none].
    replace (off + parts_total ((id, bs) :: ps) + rem) with (off + bs + parts_total ps + rem)
      by (unfold parts_total; cbn [fold_right snd]; lia).
    apply IH; auto; [lia|]. eapply Forall_inv_tail; eauto.
Qed.
Lemma small_parts_facts : forall m, 0 <= m < 65536 ->
  Forall (fun p => 0 <= snd p) (small_parts m) /\ 0 <= m - parts_total (small_parts m).
Proof.
  intros m Hm. unfold small_parts.
  destruct (Z.leb_spec 49152 m).
  - destruct (Z.leb_spec 32768 (m - 49152)); [lia|]. destruct (Z.leb_spec 16384 (m - 49152)); [lia|].
    cbn [app]. unfold parts_total; cbn [fold_right snd]. split; [repeat constructor; cbn; lia|lia].
  - destruct (Z.leb_spec 32768 m).
    + destruct (Z.leb_spec 16384 (m - 32768)); [lia|].
      cbn [app]. unfold parts_total; cbn [fold_right snd]. split; [repeat constructor; cbn; lia|lia].
    + destruct (Z.leb_spec 16384 m); cbn [app]; unfold parts_total; cbn [fold_right snd]; split; try lia; repeat constructor; cbn; lia.
Qed.
Lemma yields_dec_fixed : forall {A} c (blk : A -> Z -> Z -> M (A * bool)) (Inv : A -> Z -> Prop) n a,
  (forall a o len, Inv a o -> 0 <= o -> 0 <= len -> keeps (blk a o len) (fun p => snd p = true -> Inv (fst p) (o + len))) ->
  0 <= n -> Inv a 0 -> yields (dec_fixed c blk n a) (fun a' => Inv a' n).
Proof.
  intros A c blk Inv n a Hb Hn Ha. unfold dec_fixed.
  eapply yields_bindo; [apply yields_dec_64K with (Inv := Inv); auto; lia|]. intros a' Ha'. cbv beta in Ha' |- *.
  destruct (small_parts_facts (n mod 65536) ltac:(lia)) as [H1 H2].
  eapply yields_weaken; [|apply yields_dec_small with (Inv := Inv); auto].
  - cbv beta. intros a0 H0. match type of H0 with Inv _ ?x => replace x with n in H0 by lia end. auto.
  - replace (0 + Z.of_nat (Z.to_nat (n / 65536)) * 65536) with (n / 65536 * 65536) in Ha' by lia. auto.
  - lia.
Qed.

Lemma yields_sized : forall {A} c (f : bool -> M (option A)) (P : A -> Prop) junk min max r,
  wf_size min max -> (forall r, yields (f r) P) ->
  yields (sized_dec c f junk min max r)
    (fun l => size_in min max (length l) /\ Forall (fun x => P x \/ x = junk /\ loose min max) l).
Proof.
  intros A c f P junk min max r [Hw Hw2] Hf. unfold sized_dec, size_in.
  assert (HI : forall a o len, (Z.of_nat (length a) = o /\ Forall P a) -> 0 <= o -> 0 <= len ->
    yields (let? l := dec_items f max (Z.to_nat len) o in ret (Some (a ++ l))) (fun a' => Z.of_nat (length a') = o + len /\ Forall P a')).
  { intros a o len [H1 H2] Ho Hl. eapply yields_bindo; [apply yields_items; apply Hf|]. intros l [H3 H4]. cbv beta. apply yields_ret.
    split; [rewrite app_length; lia|apply Forall_app; auto]. }
  assert (HW : forall l, Forall P l -> Forall (fun x => P x \/ x = junk /\ loose min max) l).
  { intros l Hl. eapply Forall_impl; [|exact Hl]. auto. }
  destruct (Z.ltb_spec max 65536).
  - destruct (Z.eqb_spec min max).
    + destruct r; [|apply yields_none]. eapply yields_weaken; [|apply yields_items; apply Hf].
      intros l [H1 H2]. split; [lia|auto].
    + eapply yields_bindo; [apply yields_DecodeConstraint; unfold is_s64, two63; lia|]. intros n0 Hn. cbv beta in Hn |- *.
      eapply yields_weaken; [|apply yields_items; apply Hf]. intros l [H1 H2]. split; [lia|auto].
  - destruct (Z.eqb_spec min max).
    + destruct r; [|apply yields_none].
      eapply yields_weaken; [|apply yields_dec_fixed with
        (Inv := fun a o => Z.of_nat (length a) = o /\ Forall (fun x => P x \/ x = junk) a)].
      * intros l [H1 H2]. split; [lia|]. eapply Forall_impl; [|exact H2]. cbv beta. intros x [Hx|Hx]; auto.
        right. split; auto. split; auto.
      * intros a o len [H1 H2] Ho Hl. eapply keeps_bind; [apply keeps_items_u; apply Hf|]. intros [l b] [H3 H4].
        cbn [fst snd] in *. apply keeps_ret. cbn [fst snd]. intros _. split; [rewrite app_length; lia|apply Forall_app; auto].
      * lia.
      * split; [reflexivity|constructor].
    + eapply yields_bindo; [apply yields_len255|]. intros h Hh. cbv beta in Hh |- *.
      eapply yields_bindo; [apply yields_dec_frag with (Inv := fun a o => Z.of_nat (length a) = o /\ Forall P a)|].
      * exact HI.
      * split; [reflexivity|constructor].
      * lia.
      * lia.
      * intros [n' l] (H1 & H2 & H3). cbn [fst snd] in *. apply yields_ret. split; [lia|auto].
Qed.

Lemma yields_char : forall c a r, wf_alpha a -> yields (char_dec c a r) (in_alpha a).
Proof.
  intros c [l|] r Ha; cbn [char_dec wf_alpha in_alpha] in *.
  - destruct Ha as (H1 & H2 & H3). eapply yields_bindo; [apply yields_DecodeConstraint; unfold is_s64, two63; lia|].
    intros i Hi. cbv beta in Hi |- *. destruct (_ || _); [apply yields_none|]. apply yields_lift. intros ch E. apply yields_ret.
    eapply nthZ_In; eauto.
  - apply yields_DecodeConstraint; unfold is_s64, two63; lia.
Qed.

Lemma yields_octet : forall c min max r, wf_size min max ->
  yields (octet_dec c min max r) (fun l => (size_in min max (length l) \/ l = [] /\ min < max < 65536) /\ Forall is_byte l).
Proof.
  intros c min max r Hw. pose proof Hw as [Hw1 Hw2]. unfold octet_dec.
  destruct (Z.ltb_spec max 65536).
  - destruct (Z.eqb_spec min max).
    + eapply yields_weaken; [|apply yields_DecodeOctets; lia]. intros d [H1 H2]. split; auto. left. unfold size_in. lia.
    + eapply yields_keeps.
      { apply keeps_yields with (P := fun v => min <= v <= max). apply yields_DecodeConstraint; unfold is_s64, two63; lia. }
      intros o Ho. cbv beta in Ho.
      eapply yields_bindo; [apply yields_DecodeOctets; destruct o; lia|]. intros d [H1 H2]. cbv beta.
      destruct (_ <? _); [apply yields_ub|]. apply yields_ret. split; auto.
      destruct o as [n0|]; [left; unfold size_in; lia|]. right. split; [|lia].
      apply length_zero_iff_nil. lia.
  - eapply yields_weaken; [|apply yields_sized with (P := is_byte); auto; intros; apply yields_ReadByte].
    cbv beta. intros l [H1 H2]. split; auto. eapply Forall_impl; [|exact H2]. cbv beta.
    intros x [Hx|[-> _]]; auto. unfold is_byte; lia.
Qed.

Lemma yields_bits_in : forall max off len, 0 <= len ->
  yields (read_bits_in max off len) (fun l => Z.of_nat (length l) = len).
Proof.
  intros max off len Hl. unfold read_bits_in. eapply yields_bindo; [apply yields_ReadBits; auto|].
  intros d [H1 H2]. cbv beta. destruct (_ <? _); [apply yields_ub|]. apply yields_ret.
  unfold take_bits. rewrite firstn_length, len_bits_of_bytes. lia.
Qed.
Lemma yields_bit : forall c min max r, wf_size min max -> yields (bit_dec c min max r) (fun l => size_in min max (length l)).
Proof.
  intros c min max r [Hw1 Hw2]. unfold bit_dec, size_in.
  destruct (Z.ltb_spec max 65536).
  - destruct (Z.eqb_spec min max).
    + eapply yields_weaken; [|apply yields_bits_in; lia]. cbv beta. lia.
    + eapply yields_bindo; [apply yields_DecodeConstraint; unfold is_s64, two63; lia|]. intros n0 Hn. cbv beta in Hn |- *.
      eapply yields_weaken; [|apply yields_bits_in; lia]. cbv beta. lia.
  - destruct (Z.eqb_spec min max).
    + destruct r; [|apply yields_none].
      eapply yields_weaken; [|apply yields_dec_fixed with (Inv := fun a o => Z.of_nat (length a) = o)].
      * cbv beta. lia.
      * intros a o len H1 Ho Hl. eapply keeps_bind; [apply (proj1 (keeps_yields _ _) (yields_bits_in max o len Hl))|].
        intros [l|] H2; cbv beta in H2; apply keeps_ret; cbn [fst snd]; [|discriminate]. intros _. rewrite app_length. lia.
      * lia.
      * reflexivity.
    + eapply yields_bindo; [apply yields_len255|]. intros h Hh. cbv beta in Hh |- *.
      eapply yields_bindo; [apply yields_dec_frag with (Inv := fun a o => Z.of_nat (length a) = o)|].
      * intros a o len H1 Ho Hl. eapply yields_bindo; [apply yields_bits_in; auto|]. intros l Hl2. cbv beta in Hl2 |- *. apply yields_ret.
        rewrite app_length. lia.
      * reflexivity.
      * lia.
      * lia.
      * intros [n' l] (H1 & H2). cbn [fst snd] in *. apply yields_ret. lia.
Qed.

(** ** Contents of CONTAINING strings *)
Lemma yields_read_bytes : forall k arr i, Forall is_byte arr -> yields (read_bytes k arr i) (Forall is_byte).
Proof.
  induction k; intros arr i Ha; cbn [read_bytes]; [apply yields_ret; auto|].
  eapply yields_bindo; [apply yields_ReadByte|]. intros b Hb. cbv beta. apply yields_lift. intros arr' E.
  apply updZ_inv in E. destruct E as [-> _]. apply IHk. apply Forall_upd; auto.
Qed.
Lemma store_bytes : forall arr o d a, Forall is_byte arr -> Forall is_byte d -> store arr o d = Ok a -> Forall is_byte a.
Proof.
  intros arr o d a H1 H2 E. unfold store in E. destruct (_ || _); [discriminate|]. injection E as <-. unfold blit.
  apply Forall_app; split; [apply Forall_firstn; auto|]. apply Forall_app; split; [auto|apply Forall_skipn; auto].
Qed.
Lemma yields_read_bits_at : forall arr o len, 0 <= len -> Forall is_byte arr -> yields (read_bits_at arr o len) (Forall is_byte).
Proof.
  intros arr o len Hl Ha. unfold read_bits_at. eapply yields_bindo; [apply yields_ReadBits; auto|]. intros d [H1 H2]. cbv beta.
  apply yields_lift. intros a E. apply yields_ret. eapply store_bytes; [exact Ha|exact H2|exact E].
Qed.
Lemma yields_cont : forall c (bits : bool) arr min max, wf_size min max -> Forall is_byte arr ->
  yields (if bits then BitStream_DecodeBitString c arr min max else BitStream_DecodeOctetString c arr min max)
    (fun p => Forall is_byte (snd p)).
Proof.
  intros c bits arr min max [Hw Hw2] Ha.
  assert (HN : yields (BitStream_DecodeConstraintWholeNumber c min max) (fun n => min <= n <= max))
    by (apply yields_DecodeConstraint; unfold is_s64, two63; lia).
  destruct bits.
  - unfold BitStream_DecodeBitString. destruct (max <? 65536).
    + eapply yields_bindo with (P := fun n => min <= n <= max).
      { destruct (negb _); [exact HN|apply yields_ret; lia]. }
      intros n Hn. cbv beta in Hn |- *. eapply yields_bindo; [apply yields_read_bits_at; auto; lia|]. intros a' Ha'. cbv beta. apply yields_ret. auto.
    + eapply yields_bindo; [apply yields_len255|]. intros h Hh. cbv beta in Hh |- *.
      eapply yields_weaken; [|apply yields_dec_frag with (Inv := fun a _ => Forall is_byte a)]; auto; try lia.
      * intros a [_ H]. auto.
      * intros a o len H1 Ho Hl. eapply yields_weaken; [|apply yields_read_bits_at; auto]. auto.
  - unfold BitStream_DecodeOctetString. destruct (max <? 65536).
    + eapply yields_bindo with (P := fun n => min <= n <= max).
      { destruct (min <? max); [exact HN|apply yields_ret; lia]. }
      intros n Hn. cbv beta in Hn |- *. destruct (_ && _); [|apply yields_none].
      eapply yields_keeps; [apply (proj1 (keeps_yields _ _) (yields_DecodeOctets n ltac:(lia)))|]. intros [d|] Hd; cbv beta in Hd.
      * apply yields_lift. intros a E. apply yields_ret. cbn [snd]. eapply store_bytes; [exact Ha| |exact E]. tauto.
      * apply yields_ret. auto.
    + unfold BitStream_DecodeOctetString_fragmentation. eapply yields_bindo; [apply yields_len255|]. intros h Hh. cbv beta in Hh |- *.
      eapply yields_weaken; [|apply yields_dec_frag with (Inv := fun a _ => Forall is_byte a)]; auto; try lia.
      * intros a [_ H]. auto.
      * intros a o len H1 Ho Hl. eapply yields_weaken; [|apply yields_read_bytes; auto]. auto.
Qed.

(** ** Types *)
Definition flags_ok : fields -> list bool -> Prop :=
  fix go fs es := match fs, es with
    | FNil, [] => True
    | FCons o _ fs, e :: es => match o with Mandatory => e = true | _ => True end /\ go fs es
    | _, _ => False
    end.
Lemma yields_presence : forall fs, yields (dec_presence fs) (flags_ok fs).
Proof.
  assert (HX : forall fs o t, yields (dec_presence fs) (flags_ok fs) -> o <> Mandatory ->
    yields (let* b := BitStream_ReadBit in if fst b then let? es := dec_presence fs in ret (Some (snd b :: es)) else ret None)
     (flags_ok (FCons o t fs))).
  { intros fs o t IH Ho. eapply yields_keeps; [apply keeps_ReadBit|]. intros [b1 b2] _. cbn [fst snd].
    destruct b1; [|apply yields_none]. eapply yields_bindo; [exact IH|]. intros es He. cbv beta. apply yields_ret.
    cbn [flags_ok]. split; [destruct o; auto; congruence|auto]. }
  induction fs as [|o t fs IH]; cbn [dec_presence]; [apply yields_ret; exact I|].
  destruct o; try (apply HX; [auto|discriminate]).
  eapply yields_bindo; [exact IH|]. intros es He. cbv beta. apply yields_ret. cbn [flags_ok]. auto.
Qed.
Lemma flags_all : forall fs, flags_ok fs (repeat true (fields_len fs)).
Proof. induction fs as [|o t fs IH]; cbn [fields_len repeat flags_ok]; [exact I|]. split; [destruct o; auto|auto]. Qed.

Lemma shape_ok : forall c,
  (forall t, wft t -> forall r, yields (dec c t r) (shape t)) /\
  (forall fs, wf_fields fs -> forall es r, flags_ok fs es -> yields (dec_fields c fs es r) (shape_fields fs)) /\
  (forall cs, wf_alts cs -> forall i r, yields (dec_alt c cs i r) (shape_alt cs i)).
Proof.
  intros c. apply ty_mutind; cbn [wft wf_fields wf_alts].
  - intros _ r. cbn [dec]. eapply yields_keeps; [apply keeps_ReadBit|]. intros [b1 b2] _. apply yields_opt. cbn [fst snd].
    intros a E. destruct b1; [|discriminate]. injection E as <-. exact I.
  - intros _ r. cbn [dec]. apply yields_opt. intros a E. destruct r; [|discriminate]. injection E as <-. exact I.
  - intros i p w Hw r. cbn [dec]. eapply yields_bindo; [apply yields_int; eauto|]. intros z Hz. cbv beta. apply yields_ret. exact Hz.
  - intros items eff Hw r. cbn [dec]. eapply yields_weaken; [|apply yields_enum; eauto]. intros v (z & -> & Hz). exact Hz.
  - intros rel _ r. cbn [dec]. eapply yields_bindo; [apply yields_oid|]. intros [n l] [H1 H2]. cbn [fst snd] in *. apply yields_ret.
    cbn [shape]. split; [rewrite firstn_length; lia|].
    apply Forall_firstn. eapply Forall_impl; [|exact H2]. unfold is_u64, two64. auto.
  - intros f _ r. cbn [dec]. eapply yields_bindo with (P := fun x => if f then is_float x else is_double x).
    + destruct f; [apply yields_DecodeReal_fp32|apply yields_DecodeReal].
    + intros x Hx. apply yields_ret. exact Hx.
  - intros a min max [Ha Hs] r. cbn [dec]. eapply yields_bindo; [apply yields_sized with (P := in_alpha a); auto; intros; apply yields_char; auto|].
    intros l [H1 H2]. cbv beta. apply yields_ret. cbn [shape]. split; auto.
    destruct (Z.eq_dec min max) as [E|E]; [destruct (Z.leb_spec 65536 max) as [E2|E2]; [left; split; auto|]|];
      right; eapply Forall_impl; try exact H2; cbv beta; intros x [Hx|[_ [H3 H4]]]; auto; lia.
  - intros min max Hs r. cbn [dec]. eapply yields_bindo; [apply yields_octet; auto|]. intros l Hl. cbv beta. apply yields_ret. exact Hl.
  - intros min max Hs r. cbn [dec]. eapply yields_bindo; [apply yields_bit; auto|]. intros l Hl. cbv beta. apply yields_ret. exact Hl.
  - intros t IH min max [Hs Ht] r. cbn [dec]. eapply yields_bindo; [apply yields_sized with (P := shape t); auto|].
    intros l Hl. cbv beta. apply yields_ret. exact Hl.
  - intros fs IH Hw r. cbn [dec]. destruct (has_presence fs).
    + eapply yields_bindo; [apply yields_presence|]. intros es He. cbv beta.
      eapply yields_bindo; [apply IH; auto|]. intros l Hl. cbv beta. apply yields_ret. exact Hl.
    + eapply yields_bindo; [apply IH; auto; apply flags_all|]. intros l Hl. cbv beta. apply yields_ret. exact Hl.
  - intros cs IH (Hn & HL & Hw) r. cbn [dec].
    eapply yields_bindo; [apply yields_DecodeConstraint; unfold is_s64, two63; lia|]. intros i Hi. cbv beta in Hi |- *.
    destruct (_ && _); [|apply yields_none].
    eapply yields_bindo; [apply IH; auto|]. intros v Hv. cbv beta. apply yields_ret. exact Hv.
  - intros ok t IH Hw r. cbn [dec]. eapply yields_bindo; [apply IH; auto|]. intros v Hv. cbv beta. apply yields_opt.
    intros a E. destruct (ok v) eqn:Eok; [|discriminate]. injection E as <-. cbn [shape]. auto.
  - intros bits min max req t IH [Hs Ht] r. cbn [dec].
    eapply yields_bindo; [apply yields_cont; auto|].
    { apply Forall_forall. intros x Hx. apply repeat_spec in Hx. subst. unfold is_byte; lia. }
    intros [n arr] Ha. cbn [snd] in *. unfold run_on.
    apply yields_lift. intros [o s1] E. cbn [fst].
    apply yields_opt. intros a ->. destruct (IH Ht true (mkbs arr req 0 0) _ _ Ha E) as [_ H]. exact H.
  - intros _ es r He. destruct es; [|contradiction]. cbn [dec_fields]. apply yields_opt.
    intros a E. destruct r; [|discriminate]. injection E as <-. exact I.
  - intros o t IHt fs IHf (Ht & Hf & Hd) es r He. destruct es as [|e es]; [contradiction|].
    cbn [flags_ok] in He. destruct He as [He1 He2]. cbn [dec_fields]. destruct (silent t) eqn:Es.
    + eapply yields_bindo; [apply IHt; auto|]. intros v Hv. cbv beta. eapply yields_bindo; [apply IHf; auto|]. intros l Hl. cbv beta.
      apply yields_ret. cbn [shape_fields]. split; auto. destruct e; [exact Hv|].
      destruct o; auto; try discriminate.
    + destruct e.
      * eapply yields_bindo; [apply IHt; auto|]. intros v Hv. cbv beta. eapply yields_bindo; [apply IHf; auto|]. intros l Hl. cbv beta.
        apply yields_ret. cbn [shape_fields]. split; auto.
      * destruct r; [|apply yields_none]. eapply yields_bindo; [apply IHf; auto|]. intros l Hl. cbv beta.
        apply yields_ret. cbn [shape_fields]. split; auto. destruct o; auto. discriminate.
  - intros _ i r. destruct i; cbn [dec_alt]; apply yields_ub.
  - intros t IHt cs IHc (Ht & Hc) [|i] r; cbn [dec_alt shape_alt]; auto.
Qed.
