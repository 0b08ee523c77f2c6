(** The computed sizes bound the encodings. *)
From Verif Require Import Base Bits BitStream Ints Octets Misc StrSpec Contracts Parse RealSpec RealC UperTypes UperSpec UperWf Uper UperSizes UperClasses
  Acn AcnStr AcnReal AcnSpec AcnGen AcnGenSpec AcnGenSizes.
From Verif Require Import BitsProofs BitStreamProofs BitStreamProofs2 BitStreamProofs3 IntsProofs HistoryProofs MiscProofs AcnProofs3
  UperProofs1 UperProofs2 UperProofs3 UperProofs4 Properties6 Properties6Proofs AcnGenProofs1 AcnGenProofs2 AcnGenProofs3 AcnGenProofs4 AcnGenProofs5.
From Coq Require Import ZifyBool ZifyNat Sorting.Sorted.
Ltac Zify.zify_post_hook ::= Z.div_mod_to_equations.

Lemma blen_app : forall a b, blen (a ++ b) = blen a + blen b.
Proof. intros. unfold blen. rewrite app_length. lia. Qed.
Lemma blen_Zbits : forall n v, blen (Zbits n v) = Z.of_nat n.
Proof. intros. unfold blen. rewrite len_Zbits. reflexivity. Qed.
Lemma blen_bytes : forall l, blen (bits_of_bytes l) = 8 * Z.of_nat (length l).
Proof. intros. unfold blen. rewrite len_bits_of_bytes. lia. Qed.
Lemma blen_nibbles : forall l, blen (nibbles l) = 4 * Z.of_nat (length l).
Proof.
  induction l; [reflexivity|]. unfold nibbles in *. cbn [map concat length]. rewrite blen_app, IHl, blen_Zbits. lia.
Qed.
Lemma blen_range : forall a b v, b - a < 2 ^ 100 -> blen (Zbits (crange a b) v) = gnb (b - a).
Proof. intros. apply crange_len. auto. Qed.
Lemma blen_take : forall n pat, wf_pat pat n -> blen (take_bits n pat) = n.
Proof. intros n pat [_ H]. unfold blen. rewrite len_take_bits by auto. lia. Qed.
Lemma blen_nil : blen [] = 0.
Proof. reflexivity. Qed.
Lemma len_le_octets : forall n v, length (le_octets n v) = n.
Proof. induction n; intros; cbn [le_octets length]; auto. Qed.

Lemma u64_of : forall z, 0 <= z < 2 ^ 64 -> is_u64 z.
Proof. intros. unfold is_u64, two64. lia. Qed.
Lemma text_19 : forall v n, 0 <= v <= 2 ^ 63 -> text_digits v n -> (1 <= n <= 19)%nat.
Proof.
  intros v n H (m & [H1 H2] & ->). assert (HM : (m <= 19)%nat) by (apply H2; change (Z.of_nat 19) with 19; lia). lia.
Qed.
Lemma len_chars : forall n v, length (digit_chars (digits n v)) = n.
Proof. intros. unfold digit_chars. now rewrite map_length, len_digits. Qed.

Lemma k_size : forall c k w z bs, wf_codec k w -> int_encodes c k w z bs -> k_min k <= blen bs <= k_max k.
Proof.
  intros c k w z bs [HW HK] (HI & HS & HC). destruct k; cbn [icode k_min k_max] in *.
  - destruct HI as [HI ->]. rewrite blen_range; [lia|]. destruct HW as [->|[->|[->| -> ]]]; lia.
  - destruct HI as [HI ->]. rewrite blen_Zbits. lia.
  - destruct HI as [HI ->]. rewrite blen_Zbits. lia.
  - destruct HI as [HI ->]. rewrite blen_Zbits. lia.
  - destruct HI as [HI ->]. rewrite blen_bytes, len_le_octets. lia.
  - destruct HI as [HI ->]. unfold semi_bits. rewrite blen_app, !blen_Zbits. pose proof (nbytes_u_range z (u64_of z HI)). lia.
  - destruct HI as [HI ->]. rewrite blen_Zbits. lia.
  - destruct HI as [HI ->]. rewrite blen_Zbits. lia.
  - destruct HI as [HI ->]. rewrite blen_Zbits. lia.
  - destruct HI as [HI ->]. rewrite blen_bytes, len_le_octets. lia.
  - destruct HI as [HI ->]. unfold unc_bits. rewrite blen_app, !blen_Zbits.
    assert (HS' : is_s64 z) by (unfold is_s64, two63; lia). pose proof (nbytes_s_range z HS'). lia.
  - destruct HI as (_ & _ & ->). rewrite blen_nibbles, len_digits. lia.
  - destruct HI as (HI & n0 & HL & ->). rewrite blen_app, blen_Zbits, blen_nibbles, len_digits.
    pose proof (least_digits_20 z n0 (u64_of z HI) HL). lia.
  - destruct HI as (HI & n0 & HL & ->). rewrite blen_app, blen_Zbits, blen_nibbles, len_digits.
    pose proof (least_digits_20 z n0 (u64_of z HI) HL). lia.
  - destruct HI as (_ & _ & ->). rewrite blen_bytes. cbn [length]. rewrite len_chars. lia.
  - destruct HI as (HI & n0 & HL & ->). rewrite blen_bytes. cbn [length]. rewrite len_chars.
    assert (n0 <= 20)%nat by (pose proof (text_19 (Z.abs z) n0 ltac:(lia) HL); lia). lia.
  - destruct HI as (HI & n0 & HL & _ & ->). rewrite blen_bytes. cbn [length]. rewrite app_length, len_chars.
    pose proof (text_19 (Z.abs z) n0 ltac:(lia) HL). lia.
  - destruct HI as (_ & _ & ->). rewrite blen_bytes, len_chars. lia.
  - destruct HI as (HI & n0 & HL & _ & ->). rewrite blen_bytes, app_length, len_chars.
    pose proof (text_digits_20 z n0 (u64_of z HI) HL). lia.
Qed.
Lemma k_nn : forall k w, wf_codec k w -> 0 <= k_min k <= k_max k.
Proof.
  intros k w [_ H]. destruct k; cbn [k_min k_max]; try lia. pose proof (gnb_nn (b - a)). lia.
Qed.

Lemma concat_const : forall {A} (g : A -> list bool) n l, (forall x, blen (g x) = n) -> blen (concat (map g l)) = Z.of_nat (length l) * n.
Proof.
  intros A g n l H. induction l; [reflexivity|]. cbn [map concat length]. rewrite blen_app, IHl, H. lia.
Qed.
Lemma mul_between : forall a l b s, 0 <= s -> a <= l <= b -> a * s <= l * s <= b * s.
Proof. intros. split; apply Z.mul_le_mono_nonneg_r; lia. Qed.
Lemma str_char_nn : forall k, 0 <= str_char k.
Proof. destruct k; cbn [str_char]; try lia. apply gnb_nn. Qed.
Lemma str_size : forall k min max e l bs, wf_size min max -> wf_str k -> str_encodes k min max e l bs ->
  min * str_char k + str_extra k min max <= blen bs <= max * str_char k + str_extra k min max.
Proof.
  intros k min max e l bs [W1 W2] WK (HZ & HF & HE). unfold size_in in HZ.
  pose proof (mul_between _ _ _ _ (str_char_nn k) HZ) as HM.
  destruct k; cbn [str_char str_extra wf_str] in *.
  - subst bs. rewrite blen_app, blen_bytes, blen_range by lia. lia.
  - destruct HE as [_ ->]. rewrite blen_bytes, app_length. lia.
  - destruct HE as [_ ->]. rewrite blen_bytes. lia.
  - destruct HE as (_ & _ & ->). unfold index_bits.
    rewrite (concat_const _ (gnb (Z.of_nat (length set) - 1 - 0))) by (intros; apply blen_range; lia). rewrite Z.sub_0_r. lia.
  - destruct HE as (_ & _ & ->). rewrite (concat_const _ 7) by (intros; apply blen_Zbits). lia.
Qed.

Lemma size_nn : forall sz min max, wf_szkind sz min max -> 0 <= size_extra sz min max.
Proof.
  intros sz min max [_ H]. destruct sz; cbn [size_extra]; try lia; [apply gnb_nn|]. destruct H as [[[_ H] _] _]. lia.
Qed.
Lemma field_size : forall sz min max e n lead trail, wf_szkind sz min max -> size_field sz min max e n lead trail ->
  blen lead + blen trail = size_extra sz min max /\ min <= Z.of_nat n <= max.
Proof.
  intros sz min max e n lead trail [[W1 W2] H] [HZ HE]. unfold size_in in HZ. split; [|lia]. destruct sz; cbn [size_extra].
  - destruct HE as [-> ->]. rewrite blen_range by lia. subst. rewrite Z.sub_diag. reflexivity.
  - destruct HE as [-> ->]. rewrite blen_range by lia. rewrite blen_nil. lia.
  - destruct HE as (_ & -> & ->). reflexivity.
  - destruct HE as [-> ->]. destruct H as [[HP _] _]. rewrite blen_take by auto. reflexivity.
Qed.
Lemma items_max : forall {A} (R : A -> Z -> list bool -> Prop) s l p bss, 0 <= s -> items_encode R l p bss ->
  (forall x q b, R x q b -> blen b <= s) -> blen (concat bss) <= Z.of_nat (length l) * s.
Proof.
  intros A R s. induction l as [|x l IH]; intros p [|b bss] Hs HI HB; cbn [items_encode] in HI; try contradiction.
  - reflexivity.
  - destruct HI as [H1 H2]. cbn [concat length]. rewrite blen_app. pose proof (IH _ _ Hs H2 HB). pose proof (HB _ _ _ H1). lia.
Qed.
Lemma items_min : forall {A} (R : A -> Z -> list bool -> Prop) s l p bss, 0 <= s -> items_encode R l p bss ->
  (forall x q b, R x q b -> s <= blen b) -> Z.of_nat (length l) * s <= blen (concat bss).
Proof.
  intros A R s. induction l as [|x l IH]; intros p [|b bss] Hs HI HB; cbn [items_encode] in HI; try contradiction.
  - reflexivity.
  - destruct HI as [H1 H2]. cbn [concat length]. rewrite blen_app. pose proof (IH _ _ Hs H2 HB). pose proof (HB _ _ _ H1). lia.
Qed.

Lemma align_size_ok : forall n p, (n = 8 \/ n = 16 \/ n = 32) -> 0 <= align n p - p <= align_size n.
Proof. intros n p [->|[->| ->]]; unfold align, align_size; cbn [Z.eqb Pos.eqb]; lia. Qed.
Lemma mask_len : forall c st fs e l p bs, encodes_fields c st fs e l p bs -> blen (presence_of fs l) = amask fs.
Proof.
  induction fs as [|o t fs IH|d t fs IH|t fs IH]; intros e l p bs HE; cbn [amask presence_of].
  - reflexivity.
  - destruct l as [|[x ov] l]; [contradiction|]. cbn [encodes_fields] in HE. destruct HE as (b1 & b2 & _ & _ & HE).
    specialize (IH _ _ _ _ HE). destruct o as [| | |[|d] def]; try exact IH. unfold blen in *. cbn [length]. lia.
  - cbn [encodes_fields] in HE. assert (HE' : exists x b1 b2, bs = b1 ++ b2 /\ plain x /\ encodes c st t e x p b1 /\
        encodes_fields c st fs ((d, x) :: e) l (p + blen b1) b2 /\ (st = true -> uses_fields d fs l)) by (destruct l; exact HE).
    destruct HE' as (x & b1 & b2 & _ & _ & _ & HE' & _). destruct l; eapply IH; exact HE'.
  - assert (HE' : exists b1 b2, bs = b1 ++ b2 /\ encodes c st t e VNull p b1 /\ encodes_fields c st fs e l (p + blen b1) b2)
      by (destruct l; exact HE).
    destruct HE' as (b1 & b2 & _ & _ & HE'). destruct l; eapply IH; exact HE'.
Qed.
Lemma mask_nn : forall fs, 0 <= amask fs.
Proof. induction fs as [|[| | |[|] ?]| |]; cbn [amask]; lia. Qed.

Lemma asizes_nn :
  (forall t, wfa t -> 0 <= amax t /\ 0 <= amin t) /\
  (forall fs, wfa_fields fs -> 0 <= amax_fields fs /\ 0 <= amin_fields fs) /\
  (forall cs, wfa_alts cs -> 0 <= amax_alts cs /\ 0 <= amin_alts cs).
Proof.
  apply aty_mutind; cbn [wfa wfa_fields wfa_alts amax amin amax_fields amin_fields].
  - intros t W. apply sizes_nn; auto.
  - intros k tp fp n ([_ W] & _). lia.
  - intros [[pat n]|] s W; [destruct W|]; lia.
  - intros k w mf [W _]. pose proof (k_nn k w W). lia.
  - intros items k w [W _]. pose proof (k_nn k w W). lia.
  - intros arr cnt last vals k w [W _]. pose proof (k_nn k w W). lia.
  - intros be [|] fp _; lia.
  - intros k min max [[W1 W2] W3]. pose proof (str_char_nn k).
    assert (0 <= str_extra k min max) by (destruct k; cbn [str_extra]; try lia; apply gnb_nn).
    split; apply Z.add_nonneg_nonneg; auto; apply Z.mul_nonneg_nonneg; lia.
  - intros sz min max W. pose proof (size_nn _ _ _ W). destruct W as [[W1 W2] _]. lia.
  - intros sz min max W. pose proof (size_nn _ _ _ W). destruct W as [[W1 W2] _]. lia.
  - intros t IH sz min max [W W']. pose proof (size_nn _ _ _ W). destruct (IH W'). destruct W as [[W1 W2] _].
    split; apply Z.add_nonneg_nonneg; auto; apply Z.mul_nonneg_nonneg; try lia. destruct sz; cbn [item_min]; auto.
  - intros fs IH W. destruct (IH W). pose proof (mask_nn fs). lia.
  - intros k cs IH [_ W]. destruct (IH W). assert (0 <= choice_index k (aalts_len cs)) by (destruct k; cbn [choice_index]; try lia; apply gnb_nn). lia.
  - intros ok t IH W. auto.
  - intros n t IH [_ W]. destruct (IH W). assert (0 <= align_size n) by (unfold align_size; destruct (n =? 8), (n =? 16); lia). lia.
  - intros _. lia.
  - intros o t IHt fs IH [W1 W2]. destruct (IHt W1), (IH W2). destruct o; lia.
  - intros d t IHt fs IH (W1 & W2 & _). destruct (IHt W1), (IH W2). lia.
  - intros t IHt fs IH (W1 & W2). destruct (IHt W1), (IH W2). lia.
  - intros _. cbn. lia.
  - intros t IHt cs IH (W1 & W2). destruct (IHt W1), (IH W2). cbn [amax_alts amin_alts]. destruct cs; lia.
Qed.

Lemma amax_ok : forall c st,
  (forall t, wfa t -> acomputed t -> forall e v p bs, encodes c st t e v p bs -> blen bs <= amax t) /\
  (forall fs, wfa_fields fs -> acomputed_fields fs -> forall e l p bs, encodes_fields c st fs e l p bs -> blen bs <= amax_fields fs) /\
  (forall cs, wfa_alts cs -> acomputed_alts cs -> forall e i v p bs, encodes_alt c st cs e i v p bs -> blen bs <= amax_alts cs).
Proof.
  intros c st. apply aty_mutind; cbn [wfa wfa_fields wfa_alts acomputed acomputed_fields acomputed_alts amax amax_fields].
  - intros t W C e v p bs HE. assert (HE' : valid t v /\ sides c t v /\ bs = ubits false t v) by (destruct v; exact HE).
    destruct HE' as (HV & _ & ->). unfold blen. apply umax_ok; auto.
  - intros k tp fp n (W1 & W2 & _) _ e v p bs HE. destruct v; try contradiction. cbn [encodes] in HE. subst bs.
    destruct b; rewrite blen_take by auto; lia.
  - intros [[pat n]|] s W _ e v p bs HE; destruct v; try contradiction; cbn [encodes] in HE; subst bs.
    + rewrite blen_take by auto. lia.
    + reflexivity.
  - intros k w mf [W _] _ e v p bs HE. destruct v; try contradiction. cbn [encodes] in HE.
    destruct mf as [[f g]|]; [destruct HE as [HE _]|]; apply (k_size _ _ _ _ _ W HE).
  - intros items k w [W _] _ e v p bs HE. destruct v; try contradiction. cbn [encodes] in HE. destruct HE as (z' & _ & HE).
    apply (k_size _ _ _ _ _ W HE).
  - intros arr cnt last vals k w [W _] _ e v p bs HE. destruct v; try contradiction. cbn [encodes] in HE.
    destruct HE as (i & _ & HE). apply (k_size _ _ _ _ _ W HE).
  - intros be d64 fp _ _ e v p bs HE. destruct v; try contradiction. cbn [encodes] in HE. destruct HE as (u & HE).
    destruct d64; destruct HE as (_ & _ & _ & ->); destruct be; rewrite ?blen_Zbits, ?blen_bytes, ?len_le_octets; lia.
  - intros k min max [W1 W2] _ e v p bs HE. destruct v; try contradiction. cbn [encodes] in HE. eapply str_size; eauto.
  - intros sz min max W _ e v p bs HE. destruct v; try contradiction. destruct HE as (_ & lead & trail & HS & -> & _).
    destruct (field_size _ _ _ _ _ _ _ W HS). rewrite !blen_app, blen_bytes. lia.
  - intros sz min max W _ e v p bs HE. destruct v; try contradiction. destruct HE as (lead & trail & HS & -> & _).
    destruct (field_size _ _ _ _ _ _ _ W HS). rewrite !blen_app. unfold blen at 2. lia.
  - intros t IH sz min max [W W'] C e v p bs HE. destruct v; try contradiction. destruct HE as (lead & bss & trail & HS & -> & HI & _).
    destruct (field_size _ _ _ _ _ _ _ W HS) as [HL HN]. rewrite !blen_app.
    pose proof (proj1 (proj1 asizes_nn t W')) as NN.
    pose proof (items_max _ (amax t) _ _ _ NN HI (fun x q b Hx => IH W' C _ _ _ _ Hx)) as HM.
    pose proof (mul_between _ _ _ _ NN HN). lia.
  - intros fs IH W C e v p bs HE. destruct v; try contradiction. destruct HE as (bs2 & -> & HE).
    rewrite blen_app, (mask_len _ _ _ _ _ _ _ HE). pose proof (IH W C _ _ _ _ HE). lia.
  - intros k cs IH [(K1 & K2 & _) W] C e v p bs HE. destruct v; try contradiction. destruct HE as (b1 & b2 & -> & HT & HE).
    rewrite blen_app. pose proof (IH W C _ _ _ _ _ HE).
    assert (HB : blen b1 = choice_index k (aalts_len cs)).
    { destruct k; cbn [told choice_index] in *.
      - subst b1. rewrite blen_range by lia. f_equal. lia.
      - destruct HT as [-> _]. reflexivity.
      - destruct HT as [-> _]. reflexivity. }
    lia.
  - intros ok t IH W C e v p bs HE. assert (HE' : encodes c st t e v p bs) by (destruct v; apply HE). eapply IH; eauto.
  - intros n t IH [W1 W2] C e v p bs HE.
    assert (HE' : exists b, bs = zeros (Z.to_nat (align n p - p)) ++ b /\ encodes c st t e v (align n p) b) by (destruct v; exact HE).
    destruct HE' as (b & -> & HE'). rewrite blen_app. pose proof (IH W2 C _ _ _ _ HE'). pose proof (align_size_ok n p W1).
    unfold blen at 1. rewrite len_zeros. lia.
  - intros _ _ e l p bs HE. destruct l; [|contradiction]. cbn [encodes_fields] in HE. subst. reflexivity.
  - intros o t IHt fs IH [W1 W2] [C1 C2] e l p bs HE. destruct l as [|[x ov] l]; [contradiction|]. cbn [encodes_fields] in HE.
    destruct HE as (b1 & b2 & -> & H1 & H2). rewrite blen_app. pose proof (IH W2 C2 _ _ _ _ H2).
    pose proof (proj1 (proj1 asizes_nn t W1)) as NN. destruct o as [| | |k def].
    + destruct ov as [v|]; [|contradiction]. pose proof (IHt W1 C1 _ _ _ _ H1). lia.
    + subst b1. rewrite blen_nil. lia.
    + destruct ov as [v|]; [|contradiction]. pose proof (IHt W1 C1 _ _ _ _ H1). lia.
    + destruct H1 as [_ H1]. destruct x.
      * destruct ov as [v|]; [|contradiction]. pose proof (IHt W1 C1 _ _ _ _ H1). lia.
      * subst b1. rewrite blen_nil. lia.
  - intros d t IHt fs IH (W1 & W2 & _) [C1 C2] e l p bs HE.
    assert (HE' : exists x b1 b2, bs = b1 ++ b2 /\ plain x /\ encodes c st t e x p b1 /\
        encodes_fields c st fs ((d, x) :: e) l (p + blen b1) b2 /\ (st = true -> uses_fields d fs l)) by (destruct l; exact HE).
    destruct HE' as (x & b1 & b2 & -> & _ & H1 & H2 & _). rewrite blen_app.
    pose proof (IHt W1 C1 _ _ _ _ H1). pose proof (IH W2 C2 _ _ _ _ H2). lia.
  - intros t IHt fs IH (W1 & W2) [C1 C2] e l p bs HE.
    assert (HE' : exists b1 b2, bs = b1 ++ b2 /\ encodes c st t e VNull p b1 /\ encodes_fields c st fs e l (p + blen b1) b2)
      by (destruct l; exact HE).
    destruct HE' as (b1 & b2 & -> & H1 & H2). rewrite blen_app.
    pose proof (IHt W1 C1 _ _ _ _ H1). pose proof (IH W2 C2 _ _ _ _ H2). lia.
  - intros _ _ e i v p bs HE. destruct HE.
  - intros t IHt cs IH (W1 & W2) [C1 C2] e [|i] v p bs HE; cbn [encodes_alt] in HE; cbn [amax_alts].
    + pose proof (IHt W1 C1 _ _ _ _ HE). destruct cs; lia.
    + pose proof (IH W2 C2 _ _ _ _ _ HE). destruct cs; [contradiction|lia].
Qed.

Lemma amin_ok : forall c st,
  (forall t, wfa t -> acomputed t -> amin_exact t -> forall e v p bs, encodes c st t e v p bs -> amin t <= blen bs) /\
  (forall fs, wfa_fields fs -> acomputed_fields fs -> amin_exact_fields fs -> forall e l p bs, encodes_fields c st fs e l p bs -> amin_fields fs <= blen bs) /\
  (forall cs, wfa_alts cs -> acomputed_alts cs -> amin_exact_alts cs -> forall e i v p bs, encodes_alt c st cs e i v p bs -> amin_alts cs <= blen bs).
Proof.
  intros c st. apply aty_mutind; cbn [wfa wfa_fields wfa_alts acomputed acomputed_fields acomputed_alts amin amin_fields
    amin_exact amin_exact_fields amin_exact_alts].
  - intros t W C X e v p bs HE. assert (HE' : valid t v /\ sides c t v /\ bs = ubits false t v) by (destruct v; exact HE).
    destruct HE' as (HV & _ & ->). unfold blen. apply umin_ok; auto.
  - intros k tp fp n (W1 & W2 & _) _ _ e v p bs HE. destruct v; try contradiction. cbn [encodes] in HE. subst bs.
    destruct b; rewrite blen_take by auto; lia.
  - intros [[pat n]|] s W _ _ e v p bs HE; destruct v; try contradiction; cbn [encodes] in HE; subst bs.
    + rewrite blen_take by auto. lia.
    + reflexivity.
  - intros k w mf [W _] _ _ e v p bs HE. destruct v; try contradiction. cbn [encodes] in HE.
    destruct mf as [[f g]|]; [destruct HE as [HE _]|]; apply (k_size _ _ _ _ _ W HE).
  - intros items k w [W _] _ _ e v p bs HE. destruct v; try contradiction. cbn [encodes] in HE. destruct HE as (z' & _ & HE).
    apply (k_size _ _ _ _ _ W HE).
  - intros arr cnt last vals k w [W _] _ _ e v p bs HE. destruct v; try contradiction. cbn [encodes] in HE.
    destruct HE as (i & _ & HE). apply (k_size _ _ _ _ _ W HE).
  - intros be d64 fp _ _ _ e v p bs HE. destruct v; try contradiction. cbn [encodes] in HE. destruct HE as (u & HE).
    destruct d64; destruct HE as (_ & _ & _ & ->); destruct be; rewrite ?blen_Zbits, ?blen_bytes, ?len_le_octets; lia.
  - intros k min max [W1 W2] _ _ e v p bs HE. destruct v; try contradiction. cbn [encodes] in HE. eapply str_size; eauto.
  - intros sz min max W _ _ e v p bs HE. destruct v; try contradiction. destruct HE as (_ & lead & trail & HS & -> & _).
    destruct (field_size _ _ _ _ _ _ _ W HS). rewrite !blen_app, blen_bytes. lia.
  - intros sz min max W _ _ e v p bs HE. destruct v; try contradiction. destruct HE as (lead & trail & HS & -> & _).
    destruct (field_size _ _ _ _ _ _ _ W HS). rewrite !blen_app. unfold blen at 2. lia.
  - intros t IH sz min max [W W'] C [X X'] e v p bs HE. destruct v; try contradiction. destruct HE as (lead & bss & trail & HS & -> & HI & _).
    destruct (field_size _ _ _ _ _ _ _ W HS) as [HL HN]. rewrite !blen_app.
    pose proof (proj2 (proj1 asizes_nn t W')) as NN.
    pose proof (items_min _ (amin t) _ _ _ NN HI (fun x q b Hx => IH W' C X _ _ _ _ Hx)) as HM.
    pose proof (mul_between _ _ _ _ NN HN). replace (item_min sz (amin t) (amax t)) with (amin t); [lia|].
    destruct sz; cbn [item_min]; auto.
  - intros fs IH W C X e v p bs HE. destruct v; try contradiction. destruct HE as (bs2 & -> & HE).
    rewrite blen_app, (mask_len _ _ _ _ _ _ _ HE). pose proof (IH W C X _ _ _ _ HE). lia.
  - intros k cs IH [(K1 & K2 & _) W] C X e v p bs HE. destruct v; try contradiction. destruct HE as (b1 & b2 & -> & HT & HE).
    rewrite blen_app. pose proof (IH W C X _ _ _ _ _ HE).
    assert (HB : blen b1 = choice_index k (aalts_len cs)).
    { destruct k; cbn [told choice_index] in *.
      - subst b1. rewrite blen_range by lia. f_equal. lia.
      - destruct HT as [-> _]. reflexivity.
      - destruct HT as [-> _]. reflexivity. }
    lia.
  - intros ok t IH W C X e v p bs HE. assert (HE' : encodes c st t e v p bs) by (destruct v; apply HE). eapply IH; eauto.
  - intros n t IH [W1 W2] C X e v p bs HE.
    assert (HE' : exists b, bs = zeros (Z.to_nat (align n p - p)) ++ b /\ encodes c st t e v (align n p) b) by (destruct v; exact HE).
    destruct HE' as (b & -> & HE'). rewrite blen_app. pose proof (IH W2 C X _ _ _ _ HE'). unfold blen at 1. lia.
  - intros _ _ _ e l p bs HE. unfold blen. lia.
  - intros o t IHt fs IH [W1 W2] [C1 C2] [X1 X2] e l p bs HE. destruct l as [|[x ov] l]; [contradiction|]. cbn [encodes_fields] in HE.
    destruct HE as (b1 & b2 & -> & H1 & H2). rewrite blen_app. pose proof (IH W2 C2 X2 _ _ _ _ H2).
    assert (0 <= blen b1) by (unfold blen; lia). destruct o as [| | |k def]; try lia.
    + destruct ov as [v|]; [|contradiction]. pose proof (IHt W1 C1 X1 _ _ _ _ H1). lia.
    + destruct ov as [v|]; [|contradiction]. pose proof (IHt W1 C1 X1 _ _ _ _ H1). lia.
  - intros d t IHt fs IH (W1 & W2 & _) [C1 C2] [X1 X2] e l p bs HE.
    assert (HE' : exists x b1 b2, bs = b1 ++ b2 /\ plain x /\ encodes c st t e x p b1 /\
        encodes_fields c st fs ((d, x) :: e) l (p + blen b1) b2 /\ (st = true -> uses_fields d fs l)) by (destruct l; exact HE).
    destruct HE' as (x & b1 & b2 & -> & _ & H1 & H2 & _). rewrite blen_app.
    pose proof (IHt W1 C1 X1 _ _ _ _ H1). pose proof (IH W2 C2 X2 _ _ _ _ H2). lia.
  - intros t IHt fs IH (W1 & W2) [C1 C2] [X1 X2] e l p bs HE.
    assert (HE' : exists b1 b2, bs = b1 ++ b2 /\ encodes c st t e VNull p b1 /\ encodes_fields c st fs e l (p + blen b1) b2)
      by (destruct l; exact HE).
    destruct HE' as (b1 & b2 & -> & H1 & H2). rewrite blen_app.
    pose proof (IHt W1 C1 X1 _ _ _ _ H1). pose proof (IH W2 C2 X2 _ _ _ _ H2). lia.
  - intros _ _ _ e i v p bs HE. destruct HE.
  - intros t IHt cs IH (W1 & W2) [C1 C2] [X1 X2] e [|i] v p bs HE; cbn [encodes_alt] in HE; cbn [amin_alts].
    + pose proof (IHt W1 C1 X1 _ _ _ _ HE). destruct cs; lia.
    + pose proof (IH W2 C2 X2 _ _ _ _ _ HE). destruct cs; [contradiction|lia].
Qed.
