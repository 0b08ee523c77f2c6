(** Round trip of the generated ACN code. *)
From Verif Require Import Base Bits BitStream Ints Octets Misc StrSpec Contracts Parse RealSpec RealC UperTypes UperSpec UperWf Uper
  Acn AcnStr AcnReal AcnSpec AcnGen AcnGenSpec.
From Verif Require Import BitsProofs BitStreamProofs BitStreamProofs2 BitStreamProofs3 IntsProofs HistoryProofs MiscProofs
  UperProofs1 UperProofs2 UperProofs3 Properties6 Properties6Proofs AcnGenProofs1 AcnGenProofs2 AcnGenProofs3 AcnGenProofs4.
From Coq Require Import ZifyBool ZifyNat Sorting.Sorted.

Lemma sorted_nth : forall arr i (z : Z), StronglySorted Z.lt arr -> nth_error arr i = Some z ->
  binarySearch arr (Z.of_nat (length arr)) z = Ok (Z.of_nat i).
Proof.
  intros arr i z HS HN. destruct (binarySearch_ok arr z HS) as (r & R1 & R2). rewrite R1. f_equal.
  pose proof (nth_error_In _ _ HN) as HI. destruct R2 as [[R2 R3]|[_ R2]]; [|contradiction].
  pose proof (sorted_NoDup _ HS) as ND. assert (Hi : (i < length arr)%nat) by (apply nth_error_Some; congruence).
  pose proof (proj1 (NoDup_nth arr 0) ND) as G. apply nth_error_nth with (d := 0) in HN.
  specialize (G (Z.to_nat r) i ltac:(lia) Hi ltac:(congruence)). lia.
Qed.
Lemma nthZ_nth : forall arr i z, nth_error arr i = Some z -> nthZ arr (Z.of_nat i) = Ok z.
Proof.
  intros arr i z H. unfold nthZ. destruct (Z.of_nat i <? 0) eqn:E; [lia|]. rewrite Nat2Z.id, H. reflexivity.
Qed.

Lemma writesAt_bool : forall p (f g : M bool) bs1 bs2, writesAt p f true bs1 -> writesAt (p + blen bs1) g true bs2 ->
  writesAt p (let* r := f in if r then g else ret false) true (bs1 ++ bs2).
Proof. intros. eapply writesAt_bind; [eassumption|]. assumption. Qed.

Lemma szcount : forall min max (n : nat), size_in min max n -> min = max -> Z.of_nat n = max.
Proof. unfold size_in. lia. Qed.

Lemma agen_writes : forall c h,
  (forall t, wfa t -> forall e v p bs, encodes c true t e v p bs -> writesAt p (aenc c h t v) true bs) /\
  (forall fs, wfa_fields fs -> forall e l p bs, encodes_fields c true fs e l p bs -> writesAt p (aenc_fields c h fs l) true bs) /\
  (forall cs, wfa_alts cs -> forall e i v p bs, encodes_alt c true cs e i v p bs ->
     (i < aalts_len cs)%nat /\ writesAt p (aenc_alt c h cs i v) true bs).
Proof.
  intros c h. apply aty_mutind.
  - (* uPER *) intros t W e v p bs HE. assert (G : valid t v /\ sides c t v /\ bs = ubits false t v) by (destruct v; exact HE).
    destruct G as (HV & HS & ->). replace (aenc c h (AUper t) v) with (Uper.enc c t true v) by (destruct v; reflexivity).
    apply writesAt_of, writes_uper; auto.
  - (* BOOLEAN *) intros k tp fp n (W1 & W2 & W3) e v p bs HE. destruct v; try contradiction. cbn [encodes aenc] in *. subst bs.
    apply writesAt_of, writes_thenM with (a := tt), writes_pat. destruct b; auto.
  - (* NULL *) intros pat skip W e v p bs HE. destruct pat as [[pat n]|].
    + destruct v; try contradiction. cbn [encodes aenc wfa] in *. subst bs.
      apply writesAt_of, writes_thenM with (a := tt), writes_pat. auto.
    + destruct v; try contradiction. cbn [encodes aenc] in *. subst bs. apply writesAt_ret.
  - (* INTEGER *) intros k w mf [W1 W2] e v p bs HE. destruct v; try contradiction. cbn [encodes aenc] in *.
    apply writesAt_of, writes_thenM with (a := tt). destruct mf as [[f g]|]; cbn [mf_enc].
    + destruct HE as [HE _]. eapply writes_k; eauto.
    + eapply writes_k; eauto.
  - (* ENUMERATED *) intros items k w (W1 & W2 & W3) e v p bs HE. destruct v; try contradiction. cbn [encodes aenc] in *.
    destruct HE as (z' & HI & HE). rewrite (code_of_ok _ _ _ W2 HI).
    apply writesAt_of, writes_thenM with (a := tt). eapply writes_k; eauto.
  - (* ENUMERATED by binary search *) intros arr cnt last vals k w (W1 & W2 & W3 & W4 & W5) e v p bs HE.
    destruct v; try contradiction. cbn [encodes aenc] in *. destruct HE as (i & HN & HE). subst cnt last.
    assert (Hi : (i < length arr)%nat) by (apply nth_error_Some; congruence).
    eapply writesAt_pure; [intros s; unfold lift; rewrite (sorted_nth _ _ _ W2 HN); reflexivity|]. cbv beta.
    replace ((0 <=? Z.of_nat i) && (Z.of_nat i <=? Z.of_nat (length arr) - 1)) with true by lia.
    destruct vals.
    + eapply writesAt_pure; [intros s; unfold lift; rewrite (nthZ_nth _ _ _ HN); reflexivity|]. cbv beta.
      apply writesAt_of, writes_thenM with (a := tt). eapply writes_k; eauto.
    + eapply writesAt_pure; [intros s; reflexivity|]. cbv beta.
      apply writesAt_of, writes_thenM with (a := tt). eapply writes_k; eauto.
  - (* REAL *) intros be d64 fp32 W e v p bs HE. destruct v; try contradiction. cbn [encodes] in *.
    apply writesAt_of. change (aenc c h (AReal be d64 fp32) (VReal x)) with (real_enc h be d64 fp32 x ;;; ret true).
    apply writes_thenM with (a := tt), writes_real; auto.
  - (* strings *) intros k min max [W1 W2] e v p bs HE. destruct v; try contradiction. cbn [encodes aenc] in *.
    apply writesAt_of, writes_thenM with (a := tt). eapply writes_astr; eauto.
  - intros sz min max W e v p bs HE. destruct v; try contradiction. eapply writesAt_oct; eauto.
  - intros sz min max W e v p bs HE. destruct v; try contradiction. eapply writesAt_bit; eauto.
  - (* SEQUENCE OF *) intros t IH sz min max [[WS W] W2] e v p bs HE. destruct v; try contradiction. cbn [encodes aenc] in *.
    destruct HE as (lead & bss & trail & [HZ HS] & -> & HI & HT).
    assert (HIt : forall q, q = p + blen lead -> writesAt q (enc_items (fun _ x => aenc c h t x) l true (length l) 0 true) true (concat bss)).
    { intros q ->. apply (writesAt_items value (fun _ x => aenc c h t x) l [] _ bss). eapply items_impl; [exact HI|].
      intros x q b _ Hx. cbv beta. eapply IH; eauto. }
    destruct sz as [| |d lo hi|pat k].
    + destruct HS as [-> ->]. subst min. pose proof (szcount _ _ _ HZ eq_refl) as HC.
      rewrite app_nil_r. replace (Zbits (crange max max) _) with (@nil bool).
      2:{ rewrite HC, Z.sub_diag. unfold crange. rewrite Z.sub_diag. reflexivity. }
      cbn [app]. replace (Z.to_nat max) with (length l) by lia. apply HIt.
      rewrite HC, Z.sub_diag. unfold crange. rewrite Z.sub_diag. cbn. lia.
    + destruct HS as [HL ->]. rewrite app_nil_r. eapply writesAt_bind; [|apply HIt; reflexivity].
      rewrite HL. apply writesAt_of. destruct WS as (S1 & S2). unfold size_in in HZ.
      apply writes_EncodeConstraint; try (unfold is_s64, two63; lia). left; unfold is_s64, two63; lia.
    + destruct HS as (HH & -> & ->). rewrite app_nil_r. cbn [app].
      replace (if min =? max then Z.to_nat max else length l) with (length l).
      2:{ destruct (min =? max) eqn:E; [|reflexivity]. apply Z.eqb_eq in E. pose proof (szcount _ _ _ HZ E). lia. }
      apply HIt. cbn. lia.
    + destruct HS as [-> ->]. cbn [app]. eapply writesAt_bind; [apply HIt; cbn; lia|].
      apply writesAt_of, writes_thenM with (a := tt), writes_pat. apply W.
  - (* SEQUENCE *) intros fs IH W e v p bs HE. destruct v; try contradiction. cbn [encodes aenc wfa] in *.
    destruct HE as (bs2 & -> & HE). eapply writesAt_bind; [apply writesAt_of; eapply presence_ok; exact HE|].
    eapply IH; eauto.
  - (* CHOICE *) intros k cs IH [WC W] e v p bs HE. destruct v; try contradiction. cbn [encodes aenc] in *.
    destruct HE as (b1 & b2 & -> & HT & HE). destruct (IH W _ _ _ _ _ HE) as [HL HA].
    replace (i <? aalts_len cs)%nat with true by (symmetry; apply Nat.ltb_lt; auto).
    destruct WC as (W1 & W2 & W3).
    eapply writesAt_bind; [|exact HA]. destruct k as [|d zs|conds]; cbn [told] in HT.
    + subst b1. apply writesAt_of. rewrite <- (Z.sub_0_r (Z.of_nat i)) at 2.
      apply writes_EncodeConstraint; try (unfold is_s64, two63; lia). left; unfold is_s64, two63; lia.
    + destruct HT as [-> _]. apply writesAt_ret.
    + destruct HT as [-> _]. apply writesAt_ret.
  - (* reference *) intros ok t IH W e v p bs HE.
    assert (HE' : encodes c true t e v p bs) by (destruct v; apply HE).
    replace (aenc c h (ARef ok t) v) with (aenc c h t v) by (destruct v; reflexivity). eapply IH; eauto.
  - (* alignment *) intros n t IH [W1 W2] e v p bs HE.
    assert (HE' : exists b, bs = zeros (Z.to_nat (align n p - p)) ++ b /\ encodes c true t e v (align n p) b) by (destruct v; exact HE).
    destruct HE' as (b & -> & HE').
    replace (aenc c h (AAlign n t) v) with (align_to c n ;;; aenc c h t v) by (destruct v; reflexivity).
    eapply writesAt_bind; [apply writesAt_align; auto|].
    replace (p + blen (zeros (Z.to_nat (align n p - p)))) with (align n p).
    2:{ unfold blen. rewrite len_zeros. pose proof (align_ge n p). lia. }
    eapply IH; eauto.
  - (* no component *) intros _ e l p bs HE. destruct l; [|contradiction]. cbn [encodes_fields aenc_fields] in *. subst. apply writesAt_ret.
  - (* component *) intros o t IHt fs IHf [W1 W2] e l p bs HE. destruct l as [|[x ov] l]; [contradiction|].
    cbn [encodes_fields aenc_fields] in *. destruct HE as (b1 & b2 & -> & HE & HR).
    apply writesAt_bool; [|eapply IHf; eauto].
    destruct o as [| | |k def].
    + destruct x, ov; try contradiction; eapply IHt; eauto.
    + subst b1. destruct x, ov; apply writesAt_ret.
    + destruct x, ov; try contradiction; eapply IHt; eauto.
    + destruct HE as [_ HE]. destruct x.
      * destruct ov; [|contradiction]. eapply IHt; eauto.
      * subst b1. destruct ov; apply writesAt_ret.
  - (* ACN field *) intros d t IHt fs IHf (W1 & W2 & W3) e l p bs HE.
    assert (HE' : exists x b1 b2, bs = b1 ++ b2 /\ plain x /\ encodes c true t e x p b1 /\
        encodes_fields c true fs ((d, x) :: e) l (p + blen b1) b2 /\ uses_fields d fs l).
    { destruct l; destruct HE as (x & b1 & b2 & E1 & E2 & E3 & E4 & E5); specialize (E5 eq_refl); eauto 10. }
    destruct HE' as (x & b1 & b2 & -> & HP & H1 & H2 & HU).
    replace (aenc_fields c h (GAcn d t fs) l) with
      (match resolve (dem_fields d fs l) with
       | Some x => let* r := aenc c h t x in if r then aenc_fields c h fs l else ret false
       | None => ret false end) by (destruct l; reflexivity).
    rewrite (resolve_ok x).
    + apply writesAt_bool; [eapply IHt|eapply IHf]; eauto.
    + auto.
    + destruct (dem_uses c true) as (_ & G & _). eapply G; eauto.
    + destruct (dem_ok c true) as (_ & G & _). eapply Forall_impl; [|eapply G; eauto]. cbv beta. intros y. apply has_here_eq.
  - (* ACN NULL *) intros t IHt fs IHf [W1 W2] e l p bs HE.
    assert (HE' : exists b1 b2, bs = b1 ++ b2 /\ encodes c true t e VNull p b1 /\
        encodes_fields c true fs e l (p + blen b1) b2) by (destruct l; exact HE).
    destruct HE' as (b1 & b2 & -> & H1 & H2).
    replace (aenc_fields c h (GPad t fs) l) with
      (let* r := aenc c h t VNull in if r then aenc_fields c h fs l else ret false) by (destruct l; reflexivity).
    apply writesAt_bool; [eapply IHt|eapply IHf]; eauto.
  - intros _ e i v p bs HE. contradiction.
  - intros t IHt cs IHc [W1 W2] e i v p bs HE. destruct i; cbn [encodes_alt aenc_alt aalts_len] in *.
    + split; [lia|]. eapply IHt; eauto.
    + destruct (IHc W2 _ _ _ _ _ HE). split; [lia|auto].
Qed.

(** ** Decoding *)
Lemma norm_plain : forall t v, plain v -> norm t v = v.
Proof.
  fix IH 1. intros t v H. destruct t; destruct v; try contradiction; try reflexivity; cbn [norm]; apply IH; exact I.
Qed.
Lemma anorm_plain : forall t v, plain v -> anorm t v = v.
Proof.
  fix IH 1. intros t v H. destruct t; destruct v; try contradiction; try reflexivity; cbn [anorm];
    first [apply norm_plain; exact I | apply IH; exact I | idtac].
  all: destruct d64, fp32; reflexivity.
Qed.
Lemma readsAt_ob : forall A B (f : M (option A)) (g : A -> B) a bs p, readsAt p f (Some a) bs ->
  readsAt p (let? x := f in ret (Some (g x))) (Some (g a)) bs.
Proof. intros. eapply readsAt_then; [eassumption|]. intros q. apply readsAt_ret. Qed.
Lemma readsAt_lookup : forall A (a : A) p, readsAt p (ret a) a [].
Proof. intros. apply readsAt_ret. Qed.

Lemma agen_reads : forall c st h,
  (forall t, wfa t -> forall e v p bs, encodes c st t e v p bs -> readsAt p (adec c h t e) (Some (anorm t v)) bs) /\
  (forall fs, wfa_fields fs -> forall e l p bs, encodes_fields c st fs e l p bs ->
     readsAt p (adec_fields c h fs (flags fs l) e) (Some (anorm_fields fs l)) bs) /\
  (forall cs, wfa_alts cs -> forall e i v p bs, encodes_alt c st cs e i v p bs ->
     (i < aalts_len cs)%nat /\ readsAt p (adec_alt c h cs i e) (Some (anorm_alt cs i v)) bs).
Proof.
  intros c st h. apply aty_mutind.
  - (* uPER *) intros t W e v p bs HE. assert (G : valid t v /\ sides c t v /\ bs = ubits false t v) by (destruct v; exact HE).
    destruct G as (HV & HS & ->). replace (anorm (AUper t) v) with (norm t v) by (destruct v; reflexivity).
    apply readsAt_of, reads_uper; auto.
  - (* BOOLEAN *) intros k tp fp n (W1 & W2 & W3) e v p bs HE. destruct v; try contradiction. cbn [encodes adec anorm] in *. subst bs.
    destruct W1 as [P1 P2], W2 as [P3 P4]. apply readsAt_of.
    destruct (C21_true_false c tp fp n P1 P3 P2 ltac:(lia) W3 b) as [_ G].
    assert (HL : forall pat, Forall is_byte pat -> 0 <= n <= 8 * Z.of_nat (length pat) -> Z.of_nat (length (take_bits n pat)) = n).
    { intros pat _ Hn. apply Properties6Proofs.len_take_bits; auto. }
    destruct k.
    + destruct (C21_verdict tp n (take_bits n (if b then tp else fp)) P1 P2) as (r & R1 & R2).
      { destruct b; apply HL; auto. }
      assert (r = b) as -> by (destruct r, b; try reflexivity; [symmetry in R2|]; exfalso; [apply W3; symmetry; now apply R2|];
        destruct R2 as [_ R2]; discriminate R2; reflexivity).
      apply reads_theno. exact R1.
    + destruct (C21_verdict fp n (take_bits n (if b then tp else fp)) P3 P4) as (r & R1 & R2).
      { destruct b; apply HL; auto. }
      assert (r = negb b) as -> by (destruct r, b; try reflexivity; exfalso; [apply W3; now apply R2|];
        destruct R2 as [_ R2]; discriminate R2; reflexivity).
      replace (VBool b) with (VBool (negb (negb b))) by (now rewrite negb_involutive).
      apply (reads_theno _ _ (fun b => VBool (negb b))). exact R1.
    + apply reads_theno. exact G.
  - (* NULL *) intros pat skip W e v p bs HE. destruct pat as [[pat n]|].
    + destruct v; try contradiction. cbn [encodes adec anorm wfa] in *. subst bs. destruct W as [P1 P2].
      destruct (C21_pattern c pat n P1 P2) as (_ & G1 & G2). apply readsAt_of. destruct skip.
      * apply (reads_theno _ tt (fun _ : unit => VNull)). exact G2.
      * eapply reads_thenM; [exact G1|apply reads_ret].
    + destruct v; try contradiction. cbn [encodes adec anorm] in *. subst bs. apply readsAt_ret.
  - (* INTEGER *) intros k w mf [W1 W2] e v p bs HE. destruct v; try contradiction. cbn [encodes adec anorm] in *.
    apply readsAt_of. destruct mf as [[f g]|].
    + destruct HE as [HE HG]. replace (VInt z) with (VInt (mf_dec k (Some (f, g)) (f z))).
      * apply (reads_theno _ _ (fun z => VInt (mf_dec k (Some (f, g)) z))). eapply reads_k; eauto.
      * f_equal. unfold mf_dec. destruct k; auto. destruct (Z.eq_dec k 2) as [->|N]; [discriminate (W2 eq_refl)|].
        destruct k as [|[?|[?|?|]|]|]; auto; congruence.
    + apply (reads_theno _ _ (fun z => VInt (mf_dec k None z))). eapply reads_k; eauto.
  - (* ENUMERATED *) intros items k w (W1 & W2 & W3) e v p bs HE. destruct v; try contradiction. cbn [encodes adec anorm] in *.
    destruct HE as (z' & HI & HE). apply readsAt_of. eapply reads_thenM; [eapply reads_k; eauto|].
    rewrite (item_of_ok _ _ _ W3 HI). apply reads_ret.
  - (* ENUMERATED by binary search *) intros arr cnt last vals k w (W1 & W2 & W3 & W4 & W5) e v p bs HE.
    destruct v; try contradiction. cbn [encodes adec anorm] in *. destruct HE as (i & HN & HE). subst cnt last.
    assert (Hi : (i < length arr)%nat) by (apply nth_error_Some; congruence).
    apply readsAt_of. eapply reads_thenM; [eapply reads_k; eauto|].
    eapply reads_pure_l with (a := Z.of_nat i).
    { intros s. destruct vals; [|reflexivity]. unfold lift. rewrite (sorted_nth _ _ _ W2 HN). reflexivity. }
    cbv beta. replace ((0 <=? Z.of_nat i) && (Z.of_nat i <=? Z.of_nat (length arr) - 1)) with true by lia.
    eapply reads_pure_l; [|apply reads_ret]. intros s. unfold lift. rewrite (nthZ_nth _ _ _ HN). reflexivity.
  - (* REAL *) intros be d64 fp32 W e v p bs HE. destruct v; try contradiction.
    apply readsAt_of. cbn [adec]. eapply reads_real; eauto.
  - (* strings *) intros k min max [W1 W2] e v p bs HE. destruct v; try contradiction. cbn [encodes adec anorm] in *.
    apply readsAt_of. eapply reads_astr; eauto.
  - intros sz min max W e v p bs HE. destruct v; try contradiction. eapply readsAt_oct; eauto.
  - intros sz min max W e v p bs HE. destruct v; try contradiction. eapply readsAt_bit; eauto.
  - (* SEQUENCE OF *) intros t IH sz min max [[WS W] W2] e v p bs HE. destruct v; try contradiction. cbn [encodes adec anorm] in *.
    destruct HE as (lead & bss & trail & [HZ HS] & -> & HI & HT). pose proof HZ as HZ'. unfold size_in in HZ'. destruct WS as (S1 & S2).
    assert (HIt : forall q, q = p + blen lead -> items_encode (fun x q b => readsAt q (adec c h t e) (Some (anorm t x)) b) l q bss).
    { intros q ->. eapply items_impl; [exact HI|]. intros x q b _ Hx. cbv beta. eapply IH; eauto. }
    assert (HIs : forall q, q = p + blen lead -> readsAt q (dec_items (fun _ => adec c h t e) max (length l) 0) (Some (map (anorm t) l)) (concat bss)).
    { intros q Hq. apply (readsAt_items value value (fun _ => adec c h t e)); [apply HIt; auto|lia]. }
    destruct sz as [| |d lo hi|pat k].
    + destruct HS as [-> ->]. subst min. pose proof (szcount _ _ _ HZ eq_refl) as HC.
      assert (HN : Zbits (crange max max) (Z.of_nat (length l) - max) = []).
      { rewrite HC, Z.sub_diag. unfold crange. rewrite Z.sub_diag. reflexivity. }
      rewrite HN in *. rewrite app_nil_r. cbn [app]. replace (Z.to_nat max) with (length l) by lia. 
      apply readsAt_ob, HIs. cbn. lia.
    + destruct HS as [HL ->]. rewrite app_nil_r. eapply readsAt_bindo.
      { rewrite HL. apply readsAt_of. apply reads_DecodeConstraint; try (unfold is_s64, two63; lia). left; unfold is_s64, two63; lia. }
      rewrite Nat2Z.id. apply readsAt_ob, HIs. reflexivity.
    + destruct HS as (HH & -> & ->). rewrite app_nil_r. cbn [app]. eapply ext_int_at; [exact HH|]. cbv beta.
      destruct W as [L1 L2]. replace (ext_check lo (Some max) (Z.of_nat (length l))) with true.
      2:{ unfold ext_check. destruct lo; lia. }
      cbv zeta. replace (if min =? max then max else s32 (Z.of_nat (length l))) with (Z.of_nat (length l)).
      2:{ destruct (min =? max) eqn:E; [|rewrite s32_small by lia; reflexivity]. apply Z.eqb_eq in E. now apply (szcount min). }
      rewrite Nat2Z.id. replace (Z.of_nat (length l) <? 0) with false by lia. apply readsAt_ob, HIs. cbn. lia.
    + destruct HS as [-> ->]. cbn [app]. destruct W as [W W']. destruct HT as [HT HA].
      apply (readsAt_null_dec value value (adec c h t e) (anorm t) (chk_after t) pat k W); auto; try lia.
      * apply HIt. cbn. lia.
      * destruct HA as [HA|HA]; [left; auto|right]. intros x _. apply chk_none. auto.
  - (* SEQUENCE *) intros fs IH W e v p bs HE. destruct v; try contradiction. cbn [encodes adec anorm wfa] in *.
    destruct HE as (bs2 & -> & HE). eapply readsAt_bindo; [apply readsAt_of; eapply flags_ok; exact HE|].
    apply readsAt_ob. eapply IH; eauto.
  - (* CHOICE *) intros k cs IH [WC W] e v p bs HE. destruct v; try contradiction. cbn [encodes adec anorm] in *.
    destruct HE as (b1 & b2 & -> & HT & HE). destruct (IH W _ _ _ _ _ HE) as [HL HA].
    destruct WC as (W1 & W2 & W3).
    eapply readsAt_bindo with (a := i).
    2:{ apply readsAt_ob. exact HA. }
    destruct k as [|d zs|conds]; cbn [told] in HT.
    + subst b1. apply readsAt_of. rewrite <- (Z.sub_0_r (Z.of_nat i)).
      eapply reads_thenM; [apply reads_DecodeConstraint; try (unfold is_s64, two63; lia); left; unfold is_s64, two63; lia|].
      replace ((0 <=? Z.of_nat i) && (Z.of_nat i <? Z.of_nat (aalts_len cs))) with true by lia. rewrite Nat2Z.id. apply reads_ret.
    + destruct HT as (-> & z & HN & HH). apply has_lookup in HH. rewrite HH. destruct W3 as [W3 W4].
      rewrite (find_item_nth _ _ _ 0 W4 HN). cbn [option_map]. replace (Z.to_nat (0 + Z.of_nat i)) with i by lia. apply readsAt_ret.
    + destruct HT as (-> & (l & HN & HF) & HB). destruct W3 as [W3 W4]. unfold lift.
      rewrite (select_ok e conds i 0 l HN W4 HF HB). apply readsAt_ret.
  - (* reference *) intros ok t IH W e v p bs HE.
    assert (HE' : encodes c st t e v p bs /\ ok (anorm t v) = true) by (destruct v; apply HE). destruct HE' as [HE' HO].
    replace (anorm (ARef ok t) v) with (anorm t v) by (destruct v; reflexivity). cbn [adec].
    eapply readsAt_then; [eapply IH; eauto|]. intros q. rewrite HO. apply readsAt_ret.
  - (* alignment *) intros n t IH [W1 W2] e v p bs HE.
    assert (HE' : exists b, bs = zeros (Z.to_nat (align n p - p)) ++ b /\ encodes c st t e v (align n p) b) by (destruct v; exact HE).
    destruct HE' as (b & -> & HE').
    replace (anorm (AAlign n t) v) with (anorm t v) by (destruct v; reflexivity). cbn [adec].
    assert (HB : blen (zeros (Z.to_nat (align n p - p))) = align n p - p).
    { unfold blen. rewrite len_zeros. pose proof (align_ge n p). lia. }
    eapply readsAt_bind; [apply readsAt_align; auto|].
    rewrite HB. replace (p + (align n p - p)) with (align n p) by lia. eapply IH; eauto.
  - (* no component *) intros _ e l p bs HE. destruct l; [|contradiction]. cbn [encodes_fields] in *. subst. apply readsAt_ret.
  - (* component *) intros o t IHt fs IHf [W1 W2] e l p bs HE. destruct l as [|[x ov] l]; [contradiction|].
    cbn [encodes_fields] in *. destruct HE as (b1 & b2 & -> & HE & HR).
    assert (G : exists b, flags (GAsn o t fs) ((x, ov) :: l) = b :: flags fs l /\
      (match o with OOptional PBit _ => b = x | _ => True end)).
    { destruct o as [| | |[|d] def]; cbn [flags]; eauto. }
    destruct G as (b & -> & HB). cbn [adec_fields anorm_fields].
    eapply readsAt_bindo; [|apply readsAt_ob; eapply IHf; eauto].
    destruct o as [| | |k def].
    + destruct ov; [|destruct x; contradiction]. cbn [option_map]. apply (readsAt_ob _ _ _ (fun v => (true, Some v))).
      eapply IHt; [exact W1|destruct x; exact HE].
    + subst b1. apply readsAt_ret.
    + destruct ov; [|destruct x; contradiction]. cbn [option_map]. apply (readsAt_ob _ _ _ (fun v => (true, Some v))).
      eapply IHt; [exact W1|destruct x; exact HE].
    + destruct HE as [HK HE].
      eapply readsAt_pure with (a := x).
      { intros s. destruct k as [|d]; [subst b; reflexivity|]. apply has_lookup in HK. rewrite HK. reflexivity. }
      destruct x.
      * destruct ov; [|contradiction]. cbn [option_map]. apply (readsAt_ob _ _ _ (fun v => (true, Some v))). eapply IHt; eauto.
      * subst b1. apply readsAt_ret.
  - (* ACN field *) intros d t IHt fs IHf (W1 & W2 & W3) e l p bs HE.
    assert (HE' : exists x b1 b2, bs = b1 ++ b2 /\ plain x /\ encodes c st t e x p b1 /\
        encodes_fields c st fs ((d, x) :: e) l (p + blen b1) b2).
    { destruct l; destruct HE as (x & b1 & b2 & E1 & E2 & E3 & E4 & E5); eauto 10. }
    destruct HE' as (x & b1 & b2 & -> & HP & H1 & H2).
    replace (flags (GAcn d t fs) l) with (flags fs l) by (destruct l; reflexivity).
    replace (anorm_fields (GAcn d t fs) l) with (anorm_fields fs l) by (destruct l; reflexivity).
    replace (adec_fields c h (GAcn d t fs) (flags fs l) e) with
      (let? x := adec c h t e in adec_fields c h fs (flags fs l) ((d, x) :: e)) by (destruct (flags fs l); reflexivity).
    eapply readsAt_bindo; [eapply IHt; eauto|]. cbv beta. rewrite anorm_plain by auto. eapply IHf; eauto.
  - (* ACN NULL *) intros t IHt fs IHf [W1 W2] e l p bs HE.
    assert (HE' : exists b1 b2, bs = b1 ++ b2 /\ encodes c st t e VNull p b1 /\
        encodes_fields c st fs e l (p + blen b1) b2) by (destruct l; exact HE).
    destruct HE' as (b1 & b2 & -> & H1 & H2).
    replace (flags (GPad t fs) l) with (flags fs l) by (destruct l; reflexivity).
    replace (anorm_fields (GPad t fs) l) with (anorm_fields fs l) by (destruct l; reflexivity).
    replace (adec_fields c h (GPad t fs) (flags fs l) e) with
      (let? x := adec c h t e in adec_fields c h fs (flags fs l) e) by (destruct (flags fs l); reflexivity).
    eapply readsAt_bindo; [eapply IHt; eauto|]. cbv beta. eapply IHf; eauto.
  - intros _ e i v p bs HE. contradiction.
  - intros t IHt cs IHc [W1 W2] e i v p bs HE. destruct i; cbn [encodes_alt adec_alt anorm_alt aalts_len] in *.
    + split; [lia|]. eapply IHt; eauto.
    + destruct (IHc W2 _ _ _ _ _ HE). split; [lia|auto].
Qed.
