(** The generated ACN decoders accept only encodings: types. *)
From Verif Require Import Base Bits BitStream BitsProofs BitStreamProofs BitStreamProofs2 BitStreamProofs3 Ints IntsProofs SafeProofs RangeProofs
  StrSpec Octets OctetsProofs OctetsProofs2 Contracts Parse ParseProofs Misc MiscProofs RealSpec RealC RealProofs
  UperTypes UperSpec Uper UperWf UperClasses UperShape UperProofs1 UperProofs2 UperProofs3 UperProofs5 UperProofs6 UperProofs7 UperProofs8 UperCanon UperCanonProofs
  Acn AcnStr AcnReal AcnSpec AcnProofs3 AcnProofs6 AcnProofs7 AcnGen AcnGenSpec AcnGenProofs1 AcnGenProofs2 AcnGenProofs3 AcnGenProofs4 AcnGenParse
  AcnGenShape AcnGenProofs7 AcnGenProofs8 AcnCanon AcnCanonProofs Properties17Proofs.
From Coq Require Import ZifyBool ZifyNat Sorting.Sorted Logic.FinFun.
Ltac Zify.zify_post_hook ::= Z.div_mod_to_equations.
Local Open Scope Z_scope.

(** ** Kinds of determinants *)
Lemma limits_ok : forall c k w z bs, wf_codec k w -> int_encodes c k w z bs -> within (Some (limits k w)) z.
Proof.
  intros c k w z bs [W _] (H1 & _ & H3). assert (0 < 2 ^ w) by (apply Z.pow_pos_nonneg; lia).
  assert (HM : forall n, 0 <= z < 2 ^ n -> 0 <= z < 2 ^ w -> within (Some (0, 2 ^ Z.min n w - 1)) z).
  { intros n A1 A2. cbn. destruct (Z.min_spec n w) as [[_ ->]|[_ ->]]; lia. }
  destruct k; cbn [icode signed_coding negb in_class limits] in *; try (cbn; lia); apply HM; try lia; try tauto;
    rewrite ?Z.min_id; try lia.
Qed.
Lemma enc_kind : forall c st t e v p bs k, wfa t -> encodes c st t e v p bs -> kind_of t = Some k -> of_kind k v.
Proof.
  intros c st. fix IH 1. intros t e v p bs k. destruct t; cbn [kind_of]; try (intros _ _ HH; discriminate HH).
  - intros _. destruct t; try (intros _ HH; discriminate HH); cbn [encodes]; intros (H & _ & _); destruct v; cbn [valid] in H; try contradiction; try (intros [= <-]; exact I).
    destruct i as [[]| |]; intros [= <-]; cbn; auto. destruct H as [_ H]. exact H.
  - intros _. destruct v; cbn [encodes]; try contradiction. intros _ [= <-]. exact I.
  - cbn [wfa]. intros [W _]. destruct v; cbn [encodes]; try contradiction. destruct mf as [[f g]|]; intros H [= <-]; [exact I|]. eapply limits_ok; eauto.
  - intros _. destruct v; cbn [encodes]; try contradiction. intros _ [= <-]. exact I.
  - intros _. destruct v; cbn [encodes]; try contradiction. intros _ [= <-]. exact I.
  - intros _. destruct v; cbn [encodes]; try contradiction. intros _ [= <-]. exact I.
  - cbn [wfa]. intros W. replace (encodes c st (ARef ok t) e v p bs) with (encodes c st t e v p bs /\ ok (anorm t v) = true) by (destruct v; reflexivity).
    intros [H _]. eapply IH; eauto.
  - cbn [wfa]. intros [_ W]. replace (encodes c st (AAlign n t) e v p bs) with
      (exists b, bs = zeros (Z.to_nat (align n p - p)) ++ b /\ encodes c st t e v (align n p) b) by (destruct v; reflexivity).
    intros (b & _ & H). eapply IH; eauto.
Qed.
Lemma env_put : forall s e d t v, env_ok s e -> (forall k, kind_of t = Some k -> of_kind k v) -> env_ok (add d (kind_of t) s) ((d, v) :: e).
Proof.
  intros s e d t v HE HA x k. unfold add. cbn [lookup]. destruct (Z.eqb_spec x d); [|apply HE].
  intros HK. exists v. split; auto.
Qed.

(** ** Strings *)
Lemma until0_full : forall (l t : list Z), (length l <= length (until0 (l ++ 0%Z :: t)))%nat -> Forall (fun ch => ch <> 0) l.
Proof.
  induction l as [|x l IH]; intros t; cbn [app until0 length]; [constructor|].
  destruct (x =? 0) eqn:E; cbn [length]; [lia|]. intros H. constructor; [lia|]. apply (IH t). lia.
Qed.
Lemma stored_zero : forall l max dst, (length l <= max)%nat -> exists t, stored l max dst = l ++ 0 :: t.
Proof. intros l max dst H. unfold stored. replace (S max - length l)%nat with (S (max - length l)) by lia. cbn [repeat app]. eauto. Qed.
Lemma byte_pos : forall l, Forall is_byte l -> Forall (fun ch => ch <> 0) l -> Forall (fun ch => 0 < ch < 256) l.
Proof. intros l H1 H2. rewrite Forall_forall in *. intros x Hx. specialize (H1 x Hx). specialize (H2 x Hx). unfold is_byte in H1. lia. Qed.
Lemma terminates_nul : forall l, terminates [0] l -> Forall (fun ch => ch <> 0) l.
Proof.
  intros l H. apply Forall_forall. intros x Hx E. subst x. destruct (In_nth_error _ _ Hx) as [i Hi].
  assert (L : (i < length l)%nat) by (apply nth_error_Some; congruence). apply (H i L).
  rewrite skipn_app. replace (i - length l)%nat with O by lia. cbn [skipn length].
  apply nth_error_split in Hi. destruct Hi as (a & b & -> & <-). rewrite HistoryProofs.skipn_app_exact. reflexivity.
Qed.

Section Wrap.
Variable c : cfg.
Hypothesis Hovf : ovf_wrap c = true.
Hypothesis Hshl : shl_wrap c = true.
Variable h : bool.

Definition enc_as (t : aty) (e : env) (v : value) (p : Z) (bs : list bool) : Prop := encodes c false t e v p bs /\ anorm t v = v.
Definition wholly (t : aty) (v : value) : Prop := whole t v = true.

Lemma yields_str : forall s e k min max, wf_size min max -> wf_str k -> exact s (AStr k min max) -> env_ok s e ->
  yields (str_dec c k min max e) (wholly (AStr k min max)) (enc_as (AStr k min max) e).
Proof.
  intros s e k min max [W1 W2] WK HT HE. unfold str_dec. cbv zeta.
  assert (EM : max = Z.of_nat (Z.to_nat max)) by lia.
  set (dst := repeat 0 (S (Z.to_nat max))).
  assert (HL : length dst = S (Z.to_nat max)) by (unfold dst; rewrite repeat_length; lia).
  unfold enc_as. destruct k as [|p|d|set d|d]; cbn [exact wf_str] in *; try contradiction.
  - subst min. rewrite Z.eqb_refl. unfold Acn_Dec_String_Ascii_FixSize.
    eapply yields_map with (okA := fun _ => True); auto.
    + apply yields_of with (P := fun d bs => exists l, length l = Z.to_nat max /\ Forall is_byte l /\ bs = bits_of_bytes l /\ d = stored l (Z.to_nat max) dst)
        (Q := fun d _ bs => exists l, length l = Z.to_nat max /\ Forall is_byte l /\ bs = bits_of_bytes l /\ d = stored l (Z.to_nat max) dst); auto.
      rewrite EM at 1 2. apply parses_Ascii_private; lia.
    + intros a b p bs [= <-] HO _ (l & L1 & L2 & -> & ->). unfold wholly in HO. cbn [whole] in HO.
      destruct (stored_zero l (Z.to_nat max) dst ltac:(lia)) as [t E]. rewrite E in HO |- *.
      assert (NZ := until0_full l t ltac:(lia)). rewrite until0_app by (apply byte_pos; auto). cbn [encodes anorm].
      split; auto. unfold str_encodes, size_in. splits; auto; try lia; [apply byte_pos; auto|].
      replace (Z.of_nat (length l) - max) with 0 by lia. rewrite crange_same. reflexivity.
  - subst p. eapply yields_map with (okA := fun _ => True); auto.
    + eapply yields_of with (Q := fun d _ bs => _ d bs); [rewrite EM at 1; apply parses_Null_mult_fit; auto; cbn; lia|]. intros a bs p _ H. exact H.
    + intros a b p bs [= <-] HO _ (l & L1 & L2 & L3 & -> & ->). unfold wholly in HO. cbn [whole] in HO.
      assert (NZ := terminates_nul l L3). apply Forall_app in L2. destruct L2 as [L2 _].
      assert (PZ := byte_pos l L2 NZ).
      rewrite AcnGenProofs2.until0_stored in HO by (auto; lia); rewrite AcnGenProofs2.until0_stored by (auto; lia). cbn [encodes anorm]. split; auto.
      unfold str_encodes, size_in. splits; auto; lia.
  - destruct HT as (T1 & T2 & T3 & r & T4 & T5). destruct (HE _ _ T4) as (x & EX & KX). destruct x; cbn [of_kind] in KX; try contradiction.
    specialize (T5 _ KX).
    assert (EZ : z = Z.of_nat (Z.to_nat z)) by lia. set (n0 := Z.to_nat z) in *. clearbody n0. subst z.
    unfold ext_int. rewrite EX.
    unfold Acn_Dec_String_CharIndex_External_Field_Determinant. 
    eapply yields_map with (okA := fun _ => True); auto.
    + eapply yields_pure; [intros; reflexivity|]. replace (Z.of_nat n0 <=? max) with true by lia.
      eapply yields_of with (Q := fun d _ bs => _ d bs); [rewrite EM at 1; apply parses_CharIndex_private; auto; try lia|].
      * destruct set; [congruence|cbn [length]; lia].
      * intros a bs p _ H. exact H.
    + cbv beta. intros a b p bs [= <-] HO _ (l & L1 & L2 & -> & ->). unfold wholly in HO. cbn [whole] in HO.
      assert (PZ : Forall (fun ch => 0 < ch < 256) l).
      { rewrite Forall_forall in *. intros y Hy. specialize (T3 y (L2 y Hy)). lia. }
      rewrite AcnGenProofs2.until0_stored in HO by (auto; lia); rewrite AcnGenProofs2.until0_stored by (auto; lia). cbn [encodes anorm]. split; auto.
      unfold str_encodes, size_in. splits; auto; try lia.
      * apply has_lookup. rewrite EX. do 2 f_equal. lia.
      * rewrite Forall_forall in *. intros y Hy. split; auto. specialize (T3 y (L2 y Hy)). lia.
Qed.

Lemma yields_real : forall be d64 fp32 e, (d64 = true -> fp32 = false) ->
  yields (real_dec h be d64 fp32) (wholly (AReal be d64 fp32)) (enc_as (AReal be d64 fp32) e).
Proof.
  intros be d64 fp32 e HD.
  assert (H64 : d64 = true -> forall f : M (option spec_float), parses f (fun x bs => exists u, 0 <= u < 256 ^ 8 /\ x = ieee_value 52 11 u /\
     bs = if be then Zbits 64 u else bits_of_bytes (le_octets 8 u)) ->
     yields (let? x := f in ret (Some (VReal x))) (wholly (AReal be d64 fp32)) (enc_as (AReal be d64 fp32) e)).
  { intros -> f HP. rewrite HD by auto. eapply yields_map with (okA := fun _ => True); auto.
    - eapply yields_of with (Q := fun d _ bs => _ d bs); [exact HP|]. intros a bs p _ H. exact H.
    - cbv beta. intros a b p bs [= <-] HO _ (u & U1 & -> & U3). unfold wholly in HO. cbn [whole] in HO. unfold enc_as. cbn [encodes anorm]. split; auto.
      exists u. splits; auto; try lia. intros EN. rewrite EN in HO. discriminate. }
  assert (H32 : d64 = false -> forall x bs, (exists u, 0 <= u < 256 ^ 4 /\ x = (if fp32 then ieee_value 23 8 u else float_to_double (ieee_value 23 8 u)) /\
     bs = if be then Zbits 32 u else bits_of_bytes (le_octets 4 u)) -> whole (AReal be d64 fp32) (VReal x) = true -> forall p, enc_as (AReal be d64 fp32) e (VReal x) p bs).
  { intros -> x bs (u & U1 & -> & ->) HO p. cbn [whole] in HO. destruct (ieee_float u ltac:(lia)) as [FL _]. unfold enc_as. cbn [encodes].
    assert (NN : ieee_value 23 8 u <> S754_nan) by (intros EN; rewrite EN in HO; destruct fp32; discriminate).
    split.
    - exists u. splits; auto; try lia. destruct fp32; auto. now rewrite to_float_inv.
    - destruct fp32; cbn [anorm]; auto. now rewrite to_float_inv. }
  unfold real_dec. destruct d64.
  - apply H64; auto. destruct be; [unfold Acn_Dec_Real_IEEE754_64_big_endian|unfold Acn_Dec_Real_IEEE754_64_little_endian].
    + eapply (parses_retf _ (fun u => Some (ieee_value 52 11 u))); [apply parses_real_be|]. cbv beta. intros u bs b [U1 U2] [= <-]. exists u. splits; auto; lia.
    + eapply (parses_retf _ (fun u => Some (ieee_value 52 11 u))); [apply parses_real_le|]. cbv beta. intros u bs b [U1 U2] [= <-]. exists u. splits; auto; lia.
  - specialize (H32 eq_refl). destruct be.
    + eapply yields_map with (okA := fun _ => True); auto.
      * eapply yields_of with (P := fun x bs => exists u, 0 <= u < 256 ^ 4 /\ x = (if fp32 then ieee_value 23 8 u else float_to_double (ieee_value 23 8 u)) /\ bs = Zbits 32 u)
          (Q := fun x _ bs => exists u, 0 <= u < 256 ^ 4 /\ x = (if fp32 then ieee_value 23 8 u else float_to_double (ieee_value 23 8 u)) /\ bs = Zbits 32 u).
        -- destruct fp32; [unfold Acn_Dec_Real_IEEE754_32_big_endian_fp32|unfold Acn_Dec_Real_IEEE754_32_big_endian].
           ++ eapply (parses_retf _ (fun u => Some (ieee_value 23 8 u))); [apply parses_real_be|]. cbv beta. intros u bs b [U1 U2] [= <-]. exists u. splits; auto; lia.
           ++ eapply (parses_retf _ (fun u => Some (float_to_double (ieee_value 23 8 u)))); [apply parses_real_be|]. cbv beta. intros u bs b [U1 U2] [= <-]. exists u. splits; auto; lia.
        -- cbv beta. auto.
      * cbv beta. intros a b p bs [= <-] HO _ H. apply H32; auto.
    + set (f := if fp32 then Acn_Dec_Real_IEEE754_32_little_endian_fp32 h else Acn_Dec_Real_IEEE754_32_little_endian h).
      assert (HP : parses f (fun x bs => exists u, 0 <= u < 256 ^ 4 /\ x = (if fp32 then ieee_value 23 8 u else float_to_double (ieee_value 23 8 u)) /\ bs = bits_of_bytes (le_octets 4 u))).
      { unfold f. destruct fp32; [unfold Acn_Dec_Real_IEEE754_32_little_endian_fp32|unfold Acn_Dec_Real_IEEE754_32_little_endian].
           ++ eapply (parses_retf _ (fun u => Some (ieee_value 23 8 u))); [apply parses_real_le|]. cbv beta. intros u bs b [U1 U2] [= <-]. exists u. splits; auto; lia.
           ++ eapply (parses_retf _ (fun u => Some (float_to_double (ieee_value 23 8 u)))); [apply parses_real_le|]. cbv beta. intros u bs b [U1 U2] [= <-]. exists u. splits; auto; lia. }
      clearbody f. intros s v s' HW E HO. unfold bind in E.
      destruct (f s) as [[[x|] s1]| | |] eqn:EF; try discriminate; unfold ret in E; injection E as <- <-; [|discriminate HO].
      destruct (HP s x s1 HW EF) as (pre & bs & rest & X1 & X2 & X3 & X4 & X5).
      destruct (parses_state f s x s1 pre bs rest HW EF X1 X2 X3) as (A2 & W2 & B2 & C2). exists pre, bs, rest. splits; auto.
Qed.

(** ** Determinants of CHOICE *)
Lemma find_item_at : forall zs z k i, find_item z zs k = Some i -> nth_error zs (Z.to_nat (i - k)) = Some z.
Proof.
  induction zs as [|x zs IH]; intros z k i; cbn [find_item]; [discriminate|].
  destruct (x =? z) eqn:E; [intros [= <-]; rewrite Z.sub_diag; cbn; f_equal; lia|].
  intros H. assert (HB := H). apply (find_item_bound c) in HB. apply IH in H. replace (Z.to_nat (i - k)) with (S (Z.to_nat (i - (k + 1)))) by lia. exact H.
Qed.
Lemma zlist_eqb_eq : forall a b, zlist_eqb a b = true -> a = b.
Proof. induction a as [|x a IH]; intros [|y b]; cbn; try discriminate; auto. intros H. apply andb_prop in H. destruct H. f_equal; [lia|auto]. Qed.
Lemma zlist_eqb_refl : forall a, zlist_eqb a a = true.
Proof. induction a; cbn; auto. rewrite Z.eqb_refl. auto. Qed.
Lemma veqb_true : forall a b, veqb a b = true -> a = b.
Proof.
  intros [] []; cbn; try discriminate; intros H; f_equal; try lia; [apply Bool.eqb_prop; auto|apply zlist_eqb_eq; auto].
Qed.
Lemma veqb_plain : forall a, plain a -> veqb a a = true.
Proof. intros []; cbn; try contradiction; intros _; rewrite ?Z.eqb_refl, ?zlist_eqb_refl, ?Bool.eqb_reflx; auto. Qed.
Lemma conds_told : forall e l b, Forall (fun p => plain (snd p)) l -> conds_hold e l = Ok b -> if b then Forall (holds e) l else ~ Forall (holds e) l.
Proof.
  intros e l. induction l as [|p l IH]; intros b HP; cbn [conds_hold].
  { intros [= <-]. constructor. }
  inversion HP; subst. unfold cond_holds. destruct (lookup (fst p) e) as [x|] eqn:EL; try discriminate.
  destruct (veqb x (snd p)) eqn:EV.
  - intros E. apply veqb_true in EV. subst x. specialize (IH _ H2 E). assert (HH : holds e p) by (apply has_lookup; auto).
    destruct b; [constructor; auto|]. intros HF. inversion HF; auto.
  - intros [= <-] HF. inversion HF; subst. apply has_lookup in H3. rewrite EL in H3. injection H3 as ->. rewrite veqb_plain in EV; auto. discriminate.
Qed.
Lemma select_told : forall s e conds i k, env_ok s e -> Forall (Forall (fun p => s (fst p) <> None)) conds ->
  Forall (Forall (fun p => plain (snd p))) conds -> select e conds k = Ok (Some i) ->
  (k <= i)%nat /\ (exists l, nth_error conds (i - k) = Some l /\ Forall (holds e) l) /\
  forall j l, (j < i - k)%nat -> nth_error conds j = Some l -> Forall (fun p => bound (fst p) e) l /\ ~ Forall (holds e) l.
Proof.
  intros s e conds. induction conds as [|l conds IH]; intros i k HE HS HP; cbn [select]; [discriminate|].
  inversion HS; subst. inversion HP; subst. destruct (conds_hold e l) as [[]| | |] eqn:EC; try discriminate.
  - intros [= <-]. rewrite Nat.sub_diag. splits; auto.
    + exists l. split; auto. apply (conds_told e l true); auto.
    + intros; lia.
  - intros E. destruct (IH _ _ HE H2 H4 E) as (K1 & (l' & K2 & K3) & K4). replace (i - k)%nat with (S (i - S k)) by lia.
    splits; [lia| |].
    + exists l'. auto.
    + intros [|j] l2 Hj; cbn [nth_error]; [|intros; apply (K4 j); auto; lia]. intros [= <-]. split; [|apply (conds_told e l false); auto].
      eapply Forall_impl; [|exact H1]. cbv beta. intros q Hq. destruct (s (fst q)) eqn:EQ; [|congruence].
      destruct (HE _ _ EQ) as (v & LV & _). exists v. now apply has_lookup.
Qed.

(** ** Presence bits *)
Fixpoint picks (fs : afields) (es : list bool) : list bool :=
  match fs, es with
  | GAsn (OOptional PBit _) _ fs, b :: es => b :: picks fs es
  | GAsn _ _ fs, _ :: es => picks fs es
  | GAcn _ _ fs, es | GPad _ fs, es => picks fs es
  | _, _ => []
  end.
Lemma parses_picks : forall fs, parses (adec_presence fs) (fun es bs => bs = picks fs es).
Proof.
  induction fs as [|o t fs IH|d t fs IH|t fs IH]; cbn [adec_presence picks]; auto; [apply parses_ret; auto|].
  assert (HY : (forall es, picks (GAsn o t fs) (true :: es) = picks fs es) ->
    parses (let? es := adec_presence fs in ret (Some (true :: es))) (fun es bs => bs = picks (GAsn o t fs) es)).
  { intros HE. eapply parses_bindo; [exact IH|]. intros es bs ->. apply parses_ret. now rewrite HE, app_nil_r. }
  destruct o as [| | |[|] def]; try (apply HY; reflexivity).
  apply (parses_ReadBit_P (fun b => let? es := adec_presence fs in ret (Some (b :: es)))). intros b.
  eapply parses_bindo; [exact IH|]. intros es bs ->. apply parses_ret. cbn [picks]. now rewrite app_nil_r.
Qed.

(** ** ACN fields *)
Lemma scalar_whole : forall t e s v s', scalar t = true -> adec c h t e s = Ok (Some v, s') -> whole t v = true /\ plain v.
Proof.
  fix IH 1. intros t e s v s'. destruct t; cbn [scalar]; try discriminate.
  - destruct t; try discriminate; intros _; cbn [adec Uper.dec]; unfold bindo, bind; intros E.
    + destruct (BitStream_ReadBit s) as [[[[] b] s1]| | |]; try discriminate. unfold ret in E. injection E as <- _. split; reflexivity || exact I.
    + destruct (int_dec _ _ _ _ s) as [[[z|] s1]| | |]; try discriminate. unfold ret in E. injection E as <- _. split; reflexivity || exact I.
    + unfold enum_dec in E. unfold bindo, bind in E. destruct (BitStream_DecodeConstraintWholeNumber _ _ _ s) as [[[z|] s1]| | |]; try discriminate.
      destruct eff.
      * destruct (_ && _); [|discriminate]. destruct (nthZ _ _) as [x| | |]; try discriminate. unfold lift, ret in E. injection E as <- _. split; reflexivity || exact I.
      * destruct (_ <? _); [discriminate|]. destruct (nth_error _ _); try discriminate. unfold ret in E. injection E as <- _. split; reflexivity || exact I.
    + destruct (sized_dec _ _ _ _ _ _ s) as [[[z|] s1]| | |]; try discriminate. unfold ret in E. injection E as <- _. split; reflexivity || exact I.
  - intros _. cbn [adec]. unfold bindo, bind.
    destruct k; [destruct (BitStream_ReadBitPattern tp n s) as [[[b|] s1]| | |]|destruct (BitStream_ReadBitPattern fp n s) as [[[b|] s1]| | |]|
      destruct (BitStream_DecodeTrueFalseBoolean tp fp n s) as [[[b|] s1]| | |]]; try discriminate; intros E; unfold ret in E; injection E as <- _; split; reflexivity || exact I.
  - intros _. cbn [adec]. unfold bindo, bind. destruct (k_dec c k w s) as [[[z|] s1]| | |]; try discriminate. intros E. unfold ret in E. injection E as <- _. split; reflexivity || exact I.
  - intros _. cbn [adec]. unfold bindo, bind. destruct (k_dec c k w s) as [[[z|] s1]| | |]; try discriminate. intros E. unfold ret in E.
    destruct (item_of z items); [|discriminate]. injection E as <- _. split; reflexivity || exact I.
  - intros _. cbn [adec]. unfold bindo, bind. destruct (k_dec c k w s) as [[[z|] s1]| | |]; try discriminate.
    destruct (if vals then lift (binarySearch arr cnt z) s1 else ret z s1) as [[i s2]| | |] eqn:EI; try (destruct vals; rewrite EI; discriminate).
    intros E. assert (E' : (if (0 <=? i) && (i <=? last) then let* x := lift (nthZ arr i) in ret (Some (VEnum x)) else ret None) s2 = Ok (Some v, s')).
    { destruct vals; rewrite EI in E; exact E. }
    destruct (_ && _); [|discriminate]. unfold bind, lift, ret in E'. destruct (nthZ arr i) as [x| | |]; try discriminate. injection E' as <- _. split; reflexivity || exact I.
  - cbn [adec]. unfold bindo, bind. intros HS. destruct (adec c h t e s) as [[[x|] s1]| | |] eqn:EA; try discriminate. unfold ret. destruct (ok x); [|discriminate].
    intros [= <- _]. destruct (IH _ _ _ _ _ HS EA). split; auto. destruct x; auto.
Qed.
Lemma blank_null : forall t e s v s', blank t = true -> adec c h t e s = Ok (Some v, s') -> v = VNull /\ whole t v = true.
Proof.
  fix IH 1. intros t e s v s'. destruct t; cbn [blank]; try discriminate.
  - intros _. cbn [adec]. destruct pat as [[p n]|]; [|unfold ret; intros [= <- _]; split; reflexivity]. unfold bindo, bind. destruct skip.
    + destruct (BitStream_ReadBitPattern_ignore_value n s) as [[[b|] s1]| | |]; try discriminate; unfold ret; intros [= <- _]; split; reflexivity.
    + destruct (BitStream_ReadBitPattern p n s) as [[[[]|] s1]| | |]; try discriminate; unfold ret; intros [= <- _]; split; reflexivity.
  - cbn [adec]. unfold bindo, bind. intros HS. destruct (adec c h t e s) as [[[x|] s1]| | |] eqn:EA; try discriminate. unfold ret. destruct (ok x); [|discriminate].
    intros [= <- _]. destruct (IH _ _ _ _ _ HS EA) as [-> HW]. split; auto.
Qed.
End Wrap.
