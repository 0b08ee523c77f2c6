(** The generated ACN decoders accept only encodings: main proof. *)
From Verif Require Import Base Bits BitStream BitsProofs BitStreamProofs BitStreamProofs2 BitStreamProofs3 Ints IntsProofs SafeProofs RangeProofs
  StrSpec Octets OctetsProofs OctetsProofs2 Contracts Parse ParseProofs Misc MiscProofs RealSpec RealC RealProofs
  UperTypes UperSpec Uper UperWf UperClasses UperShape UperProofs1 UperProofs2 UperProofs3 UperProofs5 UperProofs6 UperProofs7 UperProofs8 UperCanon UperCanonProofs
  Acn AcnStr AcnReal AcnSpec AcnProofs3 AcnProofs6 AcnProofs7 AcnGen AcnGenSpec AcnGenProofs1 AcnGenProofs2 AcnGenProofs3 AcnGenProofs4 AcnGenParse
  AcnGenShape AcnGenProofs7 AcnGenProofs8 AcnCanon AcnCanonProofs Properties17Proofs AcnCanonProofs2.
From Coq Require Import ZifyBool ZifyNat Sorting.Sorted Logic.FinFun.
Ltac Zify.zify_post_hook ::= Z.div_mod_to_equations.
Local Open Scope Z_scope.

Lemma yields_fact : forall {A} (f : M (option A)) (ok R : A -> Prop) (P : A -> Z -> list bool -> Prop),
  (forall s a s', f s = Ok (Some a, s') -> ok a /\ R a) -> yields f ok P -> yields f (fun _ => True) (fun a p bs => P a p bs /\ R a).
Proof.
  intros A f ok R P HR HY s a s' HW E _. destruct (HR _ _ _ E) as [H1 H2].
  destruct (HY s a s' HW E H1) as (pre & bs & rest & X1 & X2 & X3 & X4 & X5 & X6). exists pre, bs, rest. splits; auto.
Qed.
Lemma yields_all : forall {A} (f : M (option A)) P, parses f P -> yields f (fun _ => True) (fun a _ bs => P a bs).
Proof. intros A f P H. eapply yields_of; [exact H|]. auto. Qed.
Lemma items_both : forall {A} (P Q : A -> Z -> list bool -> Prop) (F : A -> Prop), (forall a p bs, P a p bs -> Q a p bs /\ F a) ->
  forall l p bss, items_encode P l p bss -> items_encode Q l p bss /\ Forall F l.
Proof.
  intros A P Q F HP. induction l as [|a l IH]; intros p [|b bss]; cbn [items_encode]; try contradiction; auto.
  intros [H1 H2]. destruct (HP _ _ _ H1). destruct (IH _ _ H2). auto.
Qed.
Lemma items_octets : forall l p bss, items_encode (fun z _ bs => is_byte z /\ bs = Zbits 8 z) l p bss -> bss = octets l /\ Forall is_byte l.
Proof.
  induction l as [|a l IH]; intros p [|b bss]; cbn [items_encode octets map]; try contradiction; auto.
  intros [[H1 ->] H2]. destruct (IH _ _ H2) as [-> H3]. auto.
Qed.
Lemma map_id_on : forall (f : value -> value) l, Forall (fun v => f v = v) l -> map f l = l.
Proof. intros f l H. induction H; cbn; congruence. Qed.
Lemma item_of_in : forall items z x, item_of z items = Some x -> In (x, z) items.
Proof.
  induction items as [|[a b] items IH]; intros z x; cbn [item_of]; [discriminate|]. destruct (b =? z) eqn:E.
  - intros [= <-]. left. f_equal. lia.
  - intros H. right. auto.
Qed.
Lemma take_bits_one : forall p q b, Forall is_byte p -> 1 <= 8 * Z.of_nat (length p) -> Forall is_byte q -> 1 <= 8 * Z.of_nat (length q) ->
  take_bits 1 p <> take_bits 1 q -> Z.of_nat (length b) = 1 -> b <> take_bits 1 p -> b = take_bits 1 q.
Proof.
  intros p q b HP LP HQ LQ HN HB HD. unfold take_bits in *. change (Z.to_nat 1) with 1%nat in *.
  assert (L1 : length (firstn 1 (bits_of_bytes p)) = 1%nat) by (rewrite firstn_length, len_bits_of_bytes; lia).
  assert (L2 : length (firstn 1 (bits_of_bytes q)) = 1%nat) by (rewrite firstn_length, len_bits_of_bytes; lia).
  destruct (firstn 1 (bits_of_bytes p)) as [|x [|]]; try discriminate. destruct (firstn 1 (bits_of_bytes q)) as [|y [|]]; try discriminate.
  destruct b as [|z [|]]; try (cbn in HB; lia). destruct x, y, z; congruence.
Qed.

Section Wrap.
Variable c : cfg.
Hypothesis Hovf : ovf_wrap c = true.
Hypothesis Hshl : shl_wrap c = true.
Variable h : bool.
Notation enc_as := (enc_as c).

(** A length taken from a determinant *)
Lemma length_told : forall s e d lo hi list_of min max x, env_ok s e -> exact_length s (SzExt d lo hi) list_of min max -> lookup d e = Some (VInt x) ->
  ext_check lo (if list_of || (min =? max) then Some max else hi) x = true -> min <= x <= max.
Proof.
  intros s e d lo hi list_of min max x HE (r & H1 & H2) HL HC. destruct (HE _ _ H1) as (v & L & K). rewrite HL in L. injection L as <-.
  apply H2; auto. unfold ext_check in HC. apply andb_prop in HC. destruct HC as [C1 C2].
  split; [destruct lo; auto; lia|]. destruct (if list_of || (min =? max) then Some max else hi); auto; lia.
Qed.
Lemma crange_nil : forall min n, n = min -> Zbits (crange min min) (n - min) = [].
Proof. intros. now rewrite crange_same. Qed.

Lemma yields_oct : forall s e sz min max, wf_szkind sz min max -> exact s (AOct sz min max) -> env_ok s e ->
  yields (adec c h (AOct sz min max) e) (wholly (AOct sz min max)) (enc_as (AOct sz min max) e).
Proof.
  intros s e sz min max W [T1 T2] HE. destruct W as [[W1 W2] W3]. cbn [adec].
  assert (HF : forall n l, 0 <= n -> Z.of_nat (length l) = n -> Forall is_byte l -> min <= n <= max -> forall lead trail,
    size_field sz min max e (length l) lead trail -> match sz with SzNull _ _ => no_early trail (octets l) | _ => True end ->
    forall p, enc_as (AOct sz min max) e (VOct l) p (lead ++ bits_of_bytes l ++ trail)).
  { intros n l H0 HL HB HR lead trail HS HN p. split; [|reflexivity]. cbn [encodes]. split; [exact HB|]. exists lead, trail. splits; auto. }
  assert (HX : min = max -> (sz = SzFixed \/ sz = SzEmbedded) -> yields (let? l := aoct_dec c min max in ret (Some (VOct l))) (wholly (AOct sz min max)) (enc_as (AOct sz min max) e)).
  { intros EM HZ. eapply yields_map with (okA := fun _ => True); auto.
    - unfold aoct_dec. rewrite EM, Z.eqb_refl. apply yields_all. apply parses_DecodeOctets; lia.
    - cbv beta. intros l b p bs [= <-] _ _ (H1 & H2 & ->). rewrite <- (app_nil_r (bits_of_bytes l)).
      apply (HF max l) with (lead := []); auto; try lia; [|destruct HZ as [-> | ->]; exact I]. split; [unfold size_in; lia|].
      destruct HZ as [-> | ->]; (split; [|reflexivity]); rewrite EM, crange_nil; auto; lia. }
  destruct sz as [| |d lo hi|pat n]; auto.
  - unfold oct_ext_dec. apply yields_ext_int. intros x HX2. pose proof (length_told s e d lo hi false min max x HE T1 HX2) as HL. cbn [orb] in HL.
    destruct (Z.eqb_spec min max) as [EM|NM].
    + destruct (ext_check lo (Some max) x) eqn:EC; [|apply yields_none]. specialize (HL eq_refl).
      eapply yields_map with (okA := fun _ => True); auto.
      * apply yields_all. apply parses_DecodeOctets; lia.
      * cbv beta. intros l b p bs [= <-] _ _ (H1 & H2 & ->). rewrite <- (app_nil_r (bits_of_bytes l)).
        apply (HF max l) with (lead := []); auto; try lia. split; [unfold size_in; lia|]. splits; auto. apply has_lookup. rewrite HX2. do 2 f_equal. lia.
    + destruct (ext_check lo hi x) eqn:EC; [|apply yields_none]. specialize (HL eq_refl). cbv zeta. rewrite s32_small by lia.
      replace (max <? x) with false by lia. replace (x <? 0) with false by lia.
      eapply yields_map with (okA := fun _ => True); auto.
      * apply yields_all. apply parses_DecodeOctets; lia.
      * cbv beta. intros l b p bs [= <-] _ _ (H1 & H2 & ->). rewrite <- (app_nil_r (bits_of_bytes l)).
        apply (HF x l) with (lead := []); auto; try lia. split; [unfold size_in; lia|]. splits; auto. apply has_lookup. rewrite HX2. do 2 f_equal. lia.
  - destruct W3 as [W3 W4]. eapply yields_weaken.
    + apply yields_null_dec with (ok := fun _ => True) (P := fun z _ bs => is_byte z /\ bs = Zbits 8 z) (okv := wholly (AOct (SzNull pat n) min max)); auto.
      * eapply yields_of; [apply parses_ReadByte|]. cbv beta. auto.
      * intros l _. apply Forall_forall. auto.
      * unfold wholly. cbn. discriminate.
    + auto.
    + cbv beta. intros v p bs HO (l & bss & -> & HL & -> & HI & HN). destruct (items_octets _ _ _ HI) as [-> HB]. rewrite concat_octets.
      unfold wholly in HO. cbn [whole] in HO. 
      apply (HF (Z.of_nat (length l)) l) with (lead := []); auto; try lia. split; [unfold size_in; lia|]. auto.
Qed.
Lemma yields_bit : forall s e sz min max, wf_szkind sz min max -> exact s (ABit sz min max) -> env_ok s e ->
  yields (adec c h (ABit sz min max) e) (wholly (ABit sz min max)) (enc_as (ABit sz min max) e).
Proof.
  intros s e sz min max W T1 HE. destruct W as [[W1 W2] W3]. cbn [adec]. cbn [exact] in T1.
  assert (HF : forall n l, 0 <= n -> Z.of_nat (length l) = n -> min <= n <= max -> forall lead trail,
    size_field sz min max e (length l) lead trail -> match sz with SzNull _ _ => no_early trail (single_bits l) | _ => True end ->
    forall p, enc_as (ABit sz min max) e (VBit l) p (lead ++ l ++ trail)).
  { intros n l H0 HL HR lead trail HS HN p. split; [|reflexivity]. cbn [encodes]. exists lead, trail. splits; auto. }
  assert (HF0 : forall n l, 0 <= n -> Z.of_nat (length l) = n -> min <= n <= max -> forall lead,
    size_field sz min max e (length l) lead [] -> match sz with SzNull _ _ => no_early [] (single_bits l) | _ => True end ->
    forall p, enc_as (ABit sz min max) e (VBit l) p (lead ++ l)).
  { intros n l H0 HL HR lead HS HN p. rewrite <- (app_nil_r l) at 2. apply (HF n l); auto. }
  assert (HX : (sz = SzFixed \/ sz = SzEmbedded) -> yields (let? l := abit_dec c min max in ret (Some (VBit l))) (wholly (ABit sz min max)) (enc_as (ABit sz min max) e)).
  { intros HZ. eapply yields_map with (okA := fun _ => True); auto.
    - eapply yields_of with (P := fun l bs => min <= Z.of_nat (length l) <= max /\ bs = Zbits (crange min max) (Z.of_nat (length l) - min) ++ l)
        (Q := fun l _ bs => min <= Z.of_nat (length l) <= max /\ bs = Zbits (crange min max) (Z.of_nat (length l) - min) ++ l); auto.
      unfold abit_dec. destruct (Z.eqb_spec min max) as [EM|NM].
      + eapply parses_weaken; [|apply (canon_bits_in c); lia]. cbv beta. intros l bs [H1 ->]. subst min. rewrite crange_nil by lia. split; [lia|reflexivity].
      + eapply parses_bindo; [apply parses_constr; auto; unfold is_s64, two63; lia|]. cbv beta. intros n0 bs [H1 H2].
        eapply parses_weaken; [|apply (canon_bits_in c); lia]. cbv beta. intros l bs2 [H3 ->]. rewrite H3. split; [lia|]. now rewrite H2.
    - cbv beta. intros l b p bs [= <-] _ _ [H1 ->]. 
      apply (HF0 (Z.of_nat (length l)) l); auto; try lia; [|destruct HZ as [-> | ->]; exact I]. split; [unfold size_in; lia|].
      destruct HZ as [-> | ->]; auto. }
  destruct sz as [| |d lo hi|pat n]; auto.
  - unfold bit_ext_dec. apply yields_ext_int. intros x HX2. pose proof (length_told s e d lo hi false min max x HE T1 HX2) as HL. cbn [orb] in HL.
    destruct (Z.eqb_spec min max) as [EM|NM].
    + destruct (ext_check lo (Some max) x) eqn:EC; [|apply yields_none]. specialize (HL eq_refl).
      eapply yields_map with (okA := fun _ => True); auto.
      * apply yields_all. apply (canon_bits_in c); lia.
      * cbv beta. intros l b p bs [= <-] _ _ (H1 & ->).  apply (HF0 max l) with (lead := []); auto; try lia. split; [unfold size_in; lia|]. splits; auto. apply has_lookup. rewrite HX2. do 2 f_equal. lia.
    + destruct (ext_check lo hi x) eqn:EC; [|apply yields_none]. specialize (HL eq_refl). cbv zeta. rewrite s32_small by lia.
      replace (x <? 0) with false by lia.
      eapply yields_map with (okA := fun _ => True); auto.
      * apply yields_all. apply (canon_bits_in c); lia.
      * cbv beta. intros l b p bs [= <-] _ _ (H1 & ->).  apply (HF0 x l) with (lead := []); auto; try lia. split; [unfold size_in; lia|]. splits; auto. apply has_lookup. rewrite HX2. do 2 f_equal. lia.
  - destruct W3 as [W3 W4]. eapply yields_weaken.
    + apply yields_bit_null with (ok := fun _ => True); auto; try lia.
    + auto.
    + cbv beta. intros v p bs HO (l & -> & HL & -> & HN).
      unfold wholly in HO. cbn [whole] in HO. 
      apply (HF (Z.of_nat (length l)) l) with (lead := []); auto; try lia. split; [unfold size_in; lia|]. auto.
Qed.

Definition field_as (fs : afields) (e : env) (es : list bool) (l : list (bool * option value)) (p : Z) (bs : list bool) : Prop :=
  encodes_fields c false fs e l p bs /\ anorm_fields fs l = l /\ presence_of fs l = picks fs es.
Definition alt_as (cs : aalts) (e : env) (i : nat) (v : value) (p : Z) (bs : list bool) : Prop :=
  encodes_alt c false cs e i v p bs /\ anorm_alt cs i v = v.
Theorem acn_only :
  (forall t, wfa t -> forall s e, exact s t -> env_ok s e -> yields (adec c h t e) (wholly t) (enc_as t e)) /\
  (forall fs, wfa_fields fs -> forall s e es, exact_fields s fs -> env_ok s e ->
     yields (adec_fields c h fs es e) (fun l => whole_fields fs l = true) (field_as fs e es)) /\
  (forall cs, wfa_alts cs -> forall s e i, exact_alts s cs -> env_ok s e ->
     yields (adec_alt c h cs i e) (fun v => whole_alt cs i v = true) (alt_as cs e i)).
Proof.
  apply aty_mutind; cbn [wfa wfa_fields wfa_alts exact_fields exact_alts].
  - intros t W s e T HE. cbn [adec exact] in *. eapply yields_of; [apply canon_uper; auto|]. intros v bs p _ (V1 & V2 & ->).
    split; [cbn [encodes]; splits; auto; now apply canon_sides|]. cbn [anorm]. now apply (proj1 settled_ok).
  - intros k tp fp n (W1 & W2 & WN) s e T _. cbn [adec exact] in *. destruct W1 as [W0 W1], W2 as [W2 W3].
    destruct k.
    + destruct T as [T|T]; [discriminate|]. subst n. eapply yields_map with (okA := fun _ => True); auto.
      * apply yields_all. apply parses_ReadBitPattern; auto.
      * cbv beta. intros a b p bs [= <-] _ _ [H1 H2]. split; [|reflexivity]. cbn [encodes]. destruct a; [now apply H2|].
        apply (take_bits_one tp fp bs); auto; try lia. intros E. apply H2 in E. discriminate.
    + destruct T as [T|T]; [discriminate|]. subst n. eapply yields_map with (okA := fun _ => True); auto.
      * apply yields_all. apply parses_ReadBitPattern; auto.
      * cbv beta. intros a b p bs [= <-] _ _ [H1 H2]. split; [|reflexivity]. cbn [encodes]. destruct a; cbn [negb]; [now apply H2|].
        apply (take_bits_one fp tp bs); auto; try lia. intros E. apply H2 in E. discriminate.
    + eapply yields_map with (okA := fun _ => True); auto.
      * apply yields_all. apply parses_TrueFalse; auto; lia.
      * cbv beta. intros a b p bs [= <-] _ _ ->. split; reflexivity.
  - intros [[p n]|] skip W s e T _; cbn [adec exact] in *; [|apply yields_ret; intros; split; reflexivity]. destruct W as [W0 W].
    destruct T as [T| ->]; [discriminate|]. eapply yields_map with (okA := fun _ => True); auto.
    + apply yields_all. apply parses_ReadBitPattern; auto.
    + cbv beta. intros [] b q bs; [|discriminate]. intros [= <-] _ _ [H1 H2]. split; [|reflexivity]. cbn [encodes]. now apply H2.
  - intros k w mf [W W2] s e [T T2] _. cbn [adec]. eapply yields_map with (okA := fun _ => True); auto.
    + apply yields_all. apply exact_k; auto.
    + cbv beta. intros z b q bs [= <-] _ _ H. split; [|reflexivity]. cbn [encodes]. destruct mf as [[f g]|]; [|exact H].
      assert (EM : mf_dec k (Some (f, g)) z = g z).
      { unfold mf_dec. destruct k; try reflexivity. destruct (Z.eq_dec k 2); [subst; specialize (W2 eq_refl); discriminate|].
        destruct k as [|[]|]; try reflexivity. destruct p; try reflexivity. congruence. }
      rewrite EM, T2. auto.
  - intros items k w [W _] s e T _. cbn [adec]. eapply yields_map with (okA := fun _ => True); auto.
    + apply yields_all. apply exact_k; auto.
    + cbv beta. intros z b q bs. destruct (item_of z items) eqn:EI; [|discriminate]. intros [= <-] _ _ H. split; [|reflexivity].
      cbn [encodes]. exists z. split; auto. now apply item_of_in.
  - intros arr cnt last vals k w (W & WS & WC & WL & WB) s e T _. cbn [adec]. eapply yields_then; [apply exact_k; auto|]. intros z bs p HZ.
    assert (HI : forall i, (0 <= i < cnt -> int_encodes c k w (if vals then nth (Z.to_nat i) arr 0 else i) bs) ->
      yields (if (0 <=? i) && (i <=? last) then let* x := lift (nthZ arr i) in ret (Some (VEnum x)) else ret None) (wholly (AEnumEff arr cnt last vals k w))
        (fun b q bs2 => q = p + blen bs -> enc_as (AEnumEff arr cnt last vals k w) e b p (bs ++ bs2))).
    { intros i Hi. destruct (_ && _) eqn:EB; [|apply yields_none]. apply yields_lift. intros x HX. apply yields_ret. intros q _ _. rewrite app_nil_r.
      apply nthZ_ok in HX. destruct HX as [X1 X2]. split; [|reflexivity]. cbn [encodes]. exists (Z.to_nat i). split.
      - rewrite <- X2. apply nth_error_nth'. lia.
      - specialize (Hi ltac:(lia)). destruct vals; [now rewrite <- X2|]. now rewrite Z2Nat.id by lia. }
    destruct vals; [|eapply yields_pure; [intros; reflexivity|apply HI; auto]].
    apply yields_lift. intros i Hi. apply HI. intros R. subst cnt. destruct (binarySearch_ok arr z WS) as (r & E & HR). rewrite E in Hi. injection Hi as ->.
    destruct HR as [[_ ->]|[-> _]]; [exact HZ|lia].
  - intros be d64 fp32 W s e _ _. cbn [adec]. apply yields_real; auto.
  - intros k min max [W1 W2] s e T HE. cbn [adec]. eapply yields_str; eauto.
  - intros sz min max W s e T HE. eapply yields_oct; eauto.
  - intros sz min max W s e T HE. eapply yields_bit; eauto.
  - intros t IH sz min max [W Wt] s e (T1 & T2 & T3) HE. specialize (IH Wt s e T2 HE). destruct W as [[W1 W2] W3]. cbn [adec].
    assert (HI : forall k, yields (dec_items (fun _ : bool => adec c h t e) max k 0) (Forall (wholly t))
       (fun l p bs => length l = k /\ exists bss, bs = concat bss /\ items_encode (enc_as t e) l p bss)).
    { intros k. apply (yields_items (fun _ : bool => adec c h t e)). exact IH. }
    assert (HO : forall l, wholly (ASeqOf t sz min max) (VSeqOf l) -> Forall (wholly t) l).
    { intros l H. unfold wholly in H. cbn [whole] in H. apply andb_prop in H. destruct H as [_ H]. rewrite forallb_forall in H. apply Forall_forall. exact H. }
    assert (HF : forall l p lead bss trail, items_encode (enc_as t e) l (p + blen lead) bss -> size_field sz min max e (length l) lead trail ->
      (match sz with SzNull _ _ => no_early trail bss | _ => True end) -> enc_as (ASeqOf t sz min max) e (VSeqOf l) p (lead ++ concat bss ++ trail)).
    { intros l p lead bss trail H1 H2 H3. destruct (items_both (enc_as t e) (encodes c false t e) (fun v => anorm t v = v) (fun a p bs H => H) _ _ _ H1) as [I1 I2].
      split; [|cbn [anorm]; f_equal; now apply map_id_on]. cbn [encodes]. exists lead, bss, trail. splits; auto. destruct sz; auto. }
    destruct sz as [| |d lo hi|pat n].
    + eapply yields_map; [apply HI| |].
      * intros l v [= <-]. auto.
      * cbv beta. intros l v p bs [= <-] _ _ (L & bss & -> & H). rewrite <- (app_nil_r (concat bss)). apply (HF l p []); auto; [unfold blen; cbn [length]; now rewrite Z.add_0_r|].
        split; [unfold size_in; lia|]. subst min. rewrite crange_nil by lia. auto.
    + eapply yields_then; [apply parses_constr; auto; unfold is_s64, two63; lia|]. cbv beta. intros n0 bs p [N1 N2].
      eapply yields_map; [apply HI| |].
      * intros l v [= <-]. auto.
      * cbv beta. intros l v q bs2 [= <-] _ _ (L & bss & -> & H) ->. rewrite <- (app_nil_r (concat bss)). apply (HF l p bs); auto.
        split; [unfold size_in; lia|]. replace (Z.of_nat (length l)) with n0 by lia. auto.
    + apply yields_ext_int. intros x HX. pose proof (length_told s e d lo hi true min max x HE T1 HX) as HL. cbn [orb] in HL.
      destruct (ext_check lo (Some max) x) eqn:EX; [|apply yields_none]. specialize (HL eq_refl). cbv zeta.
      assert (EN : (if min =? max then max else s32 x) = x) by (destruct (Z.eqb_spec min max); [lia|apply s32_small; lia]). rewrite EN.
      replace (x <? 0) with false by lia.
      eapply yields_map; [apply HI| |].
      * intros l v [= <-]. auto.
      * cbv beta. intros l v p bs [= <-] _ _ (L & bss & -> & H). rewrite <- (app_nil_r (concat bss)). apply (HF l p []); auto; [unfold blen; cbn [length]; now rewrite Z.add_0_r|].
        split; [unfold size_in; lia|]. splits; auto. apply has_lookup. rewrite HX. do 2 f_equal. lia.
    + destruct W3 as [W3 W4]. eapply yields_weaken.
      * apply yields_null_dec with (ok := wholly t) (P := enc_as t e) (okv := wholly (ASeqOf t (SzNull pat n) min max)); auto.
        -- intros x. apply chk_none. auto.
        -- unfold wholly. cbn. discriminate.
      * auto.
      * cbv beta. intros v p bs HW (l & bss & -> & HL & -> & H & HN). unfold wholly in HW. cbn [whole] in HW. apply andb_prop in HW. destruct HW as [HW _].
        apply (HF l p []); auto; [unfold blen; cbn [length]; now rewrite Z.add_0_r|]. split; [unfold size_in; lia|]. auto.
  - intros fs IH W s e T HE. cbn [adec exact] in *. eapply yields_then; [apply parses_picks|]. cbv beta. intros es bs p ->.
    eapply yields_map; [apply (IH W s e es T HE)| |].
    + intros l v [= <-] H. exact H.
    + cbv beta. intros l v q bs [= <-] _ _ (H1 & H2 & H3) ->. split; [|cbn [anorm]; now rewrite H2]. cbn [encodes]. rewrite H3. exists bs. auto.
  - intros k cs IH [W Wc] s e [T1 T2] HE. cbn [adec]. destruct W as (W1 & W2 & W3).
    assert (HB : forall i b1 p, told k (aalts_len cs) e i b1 -> yields (let? v := adec_alt c h cs i e in ret (Some (VChoice i v))) (wholly (AChoice k cs))
      (fun b q bs2 => q = p + blen b1 -> enc_as (AChoice k cs) e b p (b1 ++ bs2))).
    { intros i b1 p HT. eapply yields_map; [apply (IH Wc s e i T2 HE)| |].
      - intros v w [= <-] H. exact H.
      - cbv beta. intros v w q bs [= <-] _ _ [H1 H2] ->. split; [|cbn [anorm]; now rewrite H2]. cbn [encodes]. exists b1, bs. auto. }
    destruct k as [|d zs|conds].
    + eapply yields_then with (P := fun i bs => told CIndex (aalts_len cs) e i bs); [|intros; auto].
      eapply (parses_retf _ (fun i => if (0 <=? i) && (i <? Z.of_nat (aalts_len cs)) then Some (Z.to_nat i) else None));
        [apply parses_constr; auto; unfold is_s64, two63; lia|]. cbv beta. intros i bs j [H1 H2]. destruct (_ && _); [|discriminate]. intros [= <-].
      cbn [told]. rewrite Z2Nat.id by lia. rewrite H2. f_equal. lia.
    + cbn [choice_ok] in T1. destruct (HE _ _ T1) as (x & LX & KX). rewrite LX. destruct x; cbn [of_kind] in KX; try contradiction.
      eapply yields_then with (P := fun i bs => told (CEnum d zs) (aalts_len cs) e i bs); [|intros; auto].
      destruct (find_item z zs 0) as [i|] eqn:EF; cbn [option_map]; [|apply parses_none]. apply parses_ret. cbn [told]. split; auto. exists z. split.
      * apply (find_item_at c) in EF. rewrite Z.sub_0_r in EF. exact EF.
      * now apply has_lookup.
    + destruct W3 as [W3 W4]. cbn [choice_ok] in T1.
      eapply yields_then with (P := fun i bs => told (CPres conds) (aalts_len cs) e i bs); [|intros; auto].
      destruct (select e conds 0) as [[j|]| | |] eqn:ES; try (intros ? ? ? _ HH; discriminate HH).
      change (parses (ret (Some j)) (fun i bs => told (CPres conds) (aalts_len cs) e i bs)). apply parses_ret.
      destruct (select_told c s e conds j 0 HE T1 W4 ES) as (_ & S2 & S3). rewrite Nat.sub_0_r in S2, S3. cbn [told]. splits; auto.
  - intros ok t IH W s e T HE. cbn [adec exact] in *. eapply yields_map; [apply (IH W s e T HE)| |].
    + intros v w. destruct (ok v); [|discriminate]. intros [= <-] H. unfold wholly in *. destruct v; first [exact H|discriminate H].
    + cbv beta. intros v w p bs. destruct (ok v) eqn:EO; [|discriminate]. intros [= <-] _ _ [H1 H2]. split.
      * replace (encodes c false (ARef ok t) e v p bs) with (encodes c false t e v p bs /\ ok (anorm t v) = true) by (destruct v; reflexivity). rewrite H2. auto.
      * destruct v; exact H2.
  - intros n t IH [_ W] s e [].
  - intros _ s e [|] _ _; cbn [adec_fields]; [|apply yields_ub]. apply yields_ret. intros p _. split; [reflexivity|]. split; reflexivity.
  - intros o t IHt fs IHf [Wt Wf] s e es [HT HF] HE. destruct es as [|b es]; [apply yields_ub|]. cbn [adec_fields].
    set (okx := fun p : bool * option value => match fst p, snd p with true, Some v => whole t v = true | _, _ => True end).
    set (Px := fun (x : bool * option value) p b1 => 
      (match o, fst x, snd x with
         | OMandatory, _, Some v | OPresent, _, Some v => encodes c false t e v p b1
         | OAbsent, _, _ => b1 = []
         | OOptional k _, x, ov =>
             (match k with PBit => True | PDet d => has d (VBool x) e end) /\
             (match x, ov with
              | true, Some v => encodes c false t e v p b1
              | false, _ => b1 = []
              | _, _ => False
              end)
         | _, _, _ => False
         end) /\
       (match o with
       | OMandatory | OPresent => (true, option_map (anorm t) (snd x))
       | OAbsent => (false, None)
       | OOptional _ def => if fst x then (true, option_map (anorm t) (snd x)) else (false, def)
       end) = x /\ match o with OOptional PBit _ => fst x = b | _ => True end).
    eapply yields_bindo with (okA := okx) (P := Px).
    + assert (HY : o <> OAbsent -> (match o with OOptional PBit _ => b = true | OOptional (PDet d) _ => has d (VBool true) e | _ => True end) ->
        yields (let? v := adec c h t e in ret (Some (true, Some v))) okx Px).
      { intros N HD. destruct HT as [HT|HT]; [congruence|]. eapply yields_map; [apply (IHt Wt s e HT HE)| |].
        - intros v w [= <-] H. exact H.
        - cbv beta. intros v w p bs [= <-] _ _ [H1 H2]. unfold Px. cbn [fst snd option_map]. rewrite H2. destruct o as [| | |[|d] def]; try congruence; splits; auto. }
      destruct o as [| | |k def]; try (apply HY; auto; congruence).
      * apply yields_ret. intros p _. unfold Px. cbn [fst snd]. auto.
      * destruct k as [|d].
        -- eapply yields_pure; [intros; reflexivity|]. destruct b; [apply HY; auto; congruence|]. apply yields_ret. intros p _. unfold Px. cbn [fst snd]. auto.
        -- destruct (lookup d e) as [[]|] eqn:EL; try (intros ? ? ? _ HH; discriminate HH).
           eapply yields_pure; [intros; reflexivity|]. apply has_lookup in EL. destruct b0; [apply HY; auto; congruence|].
           apply yields_ret. intros p _. unfold Px. cbn [fst snd]. auto.
    + intros x p bs _ (X1 & X2 & X3). eapply yields_map; [apply (IHf Wf s e es HF HE)| |].
      * cbv beta. intros l w [= <-] H. cbn [whole_fields] in H. destruct x. apply andb_prop in H. apply H.
      * cbv beta. intros l w q bs2 [= <-] _ _ (F1 & F2 & F3) ->. destruct x as [x ov]. cbn [fst snd] in *. unfold field_as. splits.
        -- cbn [encodes_fields]. exists bs, bs2. splits; auto.
        -- cbn [anorm_fields]. now rewrite F2, X2.
        -- cbn [presence_of picks]. rewrite F3. destruct o as [| | |[|] def]; auto. now rewrite X3.
    + intros [x ov] s0 w s1 E HO. unfold bindo, bind in E. destruct (adec_fields c h fs es e s0) as [[[l|] s2]| | |]; try discriminate.
      unfold ret in E. injection E as <- _. unfold okx. cbn [fst snd]. cbn [whole_fields] in HO. apply andb_prop in HO. destruct HO as [HO _].
      destruct x, ov; auto.
  - intros d t IHt fs IHf (Wt & Wf & _) s e es (HT & HM & HF) HE. cbn [adec_fields].
    eapply yields_bindo with (okA := fun _ => True); [apply yields_fact with (ok := wholly t) (R := plain)| |intros; exact I].
    + intros s0 v s1 E. apply (scalar_whole c h t e s0 v s1); auto.
    + apply (IHt Wt s e HT HE).
    + cbv beta. intros v p bs _ [[H1 H2] H3]. eapply yields_weaken; [apply (IHf Wf _ _ es HF)| |].
      * apply env_put; auto. intros k HK. eapply enc_kind; eauto.
      * cbv beta. intros l H. exact H.
      * cbv beta. intros l q bs2 _ (F1 & F2 & F3) ->. unfold field_as. splits; auto. cbn [encodes_fields]. exists v, bs, bs2. splits; auto. discriminate.
  - intros t IHt fs IHf [Wt Wf] s e es (HT & HM & HF) HE. cbn [adec_fields].
    eapply yields_bindo with (okA := fun _ => True); [apply yields_fact with (ok := wholly t) (R := fun v => v = VNull)| |intros; exact I].
    + intros s0 v s1 E. destruct (blank_null c h t e s0 v s1 HM E) as [-> HW]. auto.
    + apply (IHt Wt s e HT HE).
    + cbv beta. intros v p bs _ [[H1 H2] ->]. eapply yields_weaken; [apply (IHf Wf _ _ es HF HE)| |].
      * cbv beta. intros l H. exact H.
      * cbv beta. intros l q bs2 _ (F1 & F2 & F3) ->. unfold field_as. splits; auto. cbn [encodes_fields]. exists bs, bs2. splits; auto.
  - intros _ s e i _ _. cbn [adec_alt]. apply yields_ub.
  - intros t IHt cs IHc [Wt Wc] s e [|i] [HT HF] HE; cbn [adec_alt].
    + eapply yields_weaken; [apply (IHt Wt s e HT HE)| |]; cbv beta; auto.
    + eapply yields_weaken; [apply (IHc Wc s e i HF HE)| |]; cbv beta; auto.
Qed.
End Wrap.
