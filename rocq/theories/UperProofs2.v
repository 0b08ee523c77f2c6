(** The leaf types of the generated uPER code: exact behaviour on valid values. *)
From Verif Require Import Base Bits StrSpec BitStream Ints Contracts Octets Misc OidSpec Oid UperTypes UperSpec Uper UperWf.
From Verif Require Import BitsProofs BitStreamProofs BitStreamProofs2 BitStreamProofs3 IntsProofs SafeProofs HistoryProofs TameProofs
  Parse ParseProofs OctetsProofs MiscProofs OidProofs Properties2Proofs UperProofs1.
From Coq Require Import Sorting.Sorted.
From Coq Require Import ZifyBool ZifyNat.
Ltac Zify.zify_post_hook ::= Z.div_mod_to_equations.

Lemma writes_then : forall {A B} (m : M A) a (b : B) bs, writes m a bs -> writes (bind m (fun _ => ret b)) b bs.
Proof. intros. rewrite <- (app_nil_r bs). eapply writes_bind; [eauto|apply writes_ret]. Qed.
Lemma reads_theno : forall {A B} (m : M (option A)) a (b : A -> B) bs, reads m (Some a) bs ->
  reads (let? x := m in ret (Some (b x))) (Some (b a)) bs.
Proof. intros. rewrite <- (app_nil_r bs). eapply reads_bindo; [eauto|apply reads_ret]. Qed.

(** ** Integers *)
Definition range_ok (r : range) (p x : bool) (v : Z) : Prop :=
  match r with
  | Concrete a b => if p && negb x then 0 <= a /\ b < 2 ^ 64 else is_s64 a /\ is_s64 b
  | PosInf a => if (0 <=? a) && negb x then is_u64 v /\ is_u64 a else is_s64 v /\ is_s64 a
  | NegInf _ | Full => is_s64 v
  end.

Lemma writes_range_enc : forall c r p x v, in_range r v -> range_ok r p x v -> range_side c r p x v ->
  writes (range_enc c r p x v) tt (range_bits r v).
Proof.
  intros c r p x v HI HO HS. destruct r; cbn [range_enc range_bits in_range range_ok range_side] in *.
  - destruct (a =? b) eqn:E.
    + replace b with a by lia. rewrite crange_same. apply writes_ret.
    + destruct (p && negb x).
      * apply writes_EncodeConstraintPos; unfold two64; lia.
      * destruct HS as [|[|]]; [lia|discriminate|]. apply writes_EncodeConstraint; auto; tauto.
  - destruct ((0 <=? a) && negb x).
    + apply writes_EncodeSemiPos; tauto.
    + destruct HS as [|[[_ HS]|HS]]; [discriminate| |]; apply writes_EncodeSemi; try tauto. now left.
  - apply writes_EncodeUnc; tauto.
  - apply writes_EncodeUnc; tauto.
Qed.

Definition width_ok (r : range) (p : bool) (w : Z) (x : bool) : Prop :=
  match r with
  | Concrete a b => (w = 8 \/ w = 16 \/ w = 32 \/ w = 64) /\
      (if p && negb x then 0 <= a /\ b < 2 ^ w else - 2 ^ (w - 1) <= a /\ b < 2 ^ (w - 1))
  | _ => True
  end.

Lemma reads_range_dec : forall c r p w x v, in_range r v -> range_ok r p x v -> width_ok r p w x ->
  range_side c r p x v ->
  reads (range_dec c r p w x) (Some v) (range_bits r v).
Proof.
  intros c r p w x v HI HO HW HS. destruct r; cbn [range_dec range_bits in_range range_ok width_ok range_side] in *.
  - destruct (a =? b) eqn:E.
    + replace b with a by lia. rewrite crange_same. replace v with a by lia. apply reads_ret.
    + destruct HW as [HW HR]. destruct (p && negb x).
      * destruct (w =? 64) eqn:E64.
        -- apply reads_DecodeConstraintPos; unfold two64; lia.
        -- apply reads_DecodeConstraintUIntN; lia.
      * destruct HS as [|[|]]; [lia|discriminate|]. destruct (w =? 64) eqn:E64.
        -- apply reads_DecodeConstraint; tauto.
        -- apply reads_DecodeConstraintIntN; lia.
  - destruct ((0 <=? a) && negb x).
    + apply reads_DecodeSemiPos; tauto.
    + destruct HS as [|HS]; [discriminate|]. apply reads_DecodeSemi; tauto.
  - apply reads_DecodeUnc; tauto.
  - apply reads_DecodeUnc; tauto.
Qed.

Lemma class_s64 : forall z, in_class false 64 z -> is_s64 z.
Proof. unfold in_class, is_s64, two63. intros. change (2 ^ (64 - 1)) with 9223372036854775808 in H. lia. Qed.
Lemma class_u64 : forall z, in_class true 64 z -> is_u64 z.
Proof. unfold in_class, is_u64, two64. intros. change (2 ^ 64) with 18446744073709551616 in H. lia. Qed.

Lemma int_ok : forall i p w z, wf_int i p w -> in_class p w z ->
  match i with
  | INoExt r => range_ok r p false z /\ width_ok r p w false
  | IExt r | IExt2 r _ => range_ok r p true z /\ width_ok r p w true /\ is_s64 z
  end.
Proof.
  intros i p w z HW HC.
  assert (EXT : forall r, w = 64 /\ p = false /\ wf_range64 r -> range_ok r p true z /\ width_ok r p w true /\ is_s64 z).
  { intros r (-> & -> & HR). pose proof (class_s64 _ HC) as HZ.
    destruct r; cbn [range_ok width_ok wf_range64 negb andb] in *; rewrite ?andb_false_r; splits; auto; try tauto.
    - change (2 ^ (64 - 1)) with 9223372036854775808. unfold is_s64, two63 in *. lia.
    - change (2 ^ (64 - 1)) with 9223372036854775808. unfold is_s64, two63 in *. lia. }
  destruct i as [r|r|r isr]; cbn [wf_int] in HW.
  - destruct r; cbn [range_ok width_ok]; rewrite ?andb_true_r.
    + destruct HW as (HW & Hab & Ha & Hb).
      destruct p; cbn [andb negb]; unfold in_class in *.
      * splits; auto; destruct HW as [->|[->|[->| ->]]]; try lia.
      * unfold is_s64, two63. splits; auto; destruct HW as [->|[->|[->| ->]]];
        change (2 ^ (8 - 1)) with 128 in *; change (2 ^ (16 - 1)) with 32768 in *;
        change (2 ^ (32 - 1)) with 2147483648 in *; change (2 ^ (64 - 1)) with 9223372036854775808 in *; lia.
    + destruct HW as (-> & -> & Ha). split; [|exact I]. destruct (0 <=? a); split; auto using class_s64, class_u64.
    + destruct HW as (-> & ->). split; auto using class_s64.
    + destruct HW as (-> & ->). split; auto using class_s64.
  - apply EXT; auto.
  - apply EXT; auto.
Qed.

Lemma writes_int : forall c i p w z, wf_int i p w -> in_class p w z -> valid_int i z -> side c (LInt i p z) ->
  writes (int_enc c i p z) tt (int_bits i z).
Proof.
  intros c i p w z HW HC HV HS. pose proof (int_ok _ _ _ _ HW HC) as HO.
  destruct i as [r|r|r isr]; cbn [int_enc int_bits side valid_int] in *.
  - apply writes_range_enc; tauto.
  - eapply writes_bind; [apply overwrites_writes, overwrites_AppendBitZero|]. apply writes_range_enc; tauto.
  - destruct (isr z) eqn:E.
    + eapply writes_bind; [apply overwrites_writes, overwrites_AppendBitZero|]. apply writes_range_enc; tauto.
    + eapply writes_bind; [apply overwrites_writes, overwrites_AppendBitOne|].
      apply writes_EncodeUnc; [tauto|]. cbn [range_side] in HS. tauto.
Qed.

Lemma reads_int : forall c i p w z, wf_int i p w -> in_class p w z -> valid_int i z -> side c (LInt i p z) ->
  reads (int_dec c i p w) (Some z) (int_bits i z).
Proof.
  intros c i p w z HW HC HV HS. pose proof (int_ok _ _ _ _ HW HC) as HO.
  destruct i as [r|r|r isr]; cbn [int_dec int_bits side valid_int] in *.
  - apply reads_range_dec; tauto.
  - eapply reads_bind; [apply reads_ReadBit|]. cbn [fst snd]. apply reads_range_dec; tauto.
  - destruct (isr z) eqn:E.
    + eapply reads_bind; [apply reads_ReadBit|]. cbn [fst snd]. apply reads_range_dec; tauto.
    + eapply reads_bind; [apply reads_ReadBit|]. cbn [fst snd]. apply reads_DecodeUnc; [tauto|].
      cbn [range_side] in HS. tauto.
Qed.

(** ** Enumerated *)
Lemma find_item_index : forall v l i, In v l -> find_item v l i = Some (i + index v l).
Proof.
  induction l as [|x t IH]; intros i H; [easy|]. cbn [find_item index].
  destruct (x =? v) eqn:E; [f_equal; lia|].
  destruct H as [H|H]; [lia|]. rewrite IH by auto. f_equal. lia.
Qed.
Lemma index_nth : forall v l, In v l -> 0 <= index v l < Z.of_nat (length l) /\
  nth_error l (Z.to_nat (index v l)) = Some v /\ nth (Z.to_nat (index v l)) l 0 = v.
Proof.
  induction l as [|x t IH]; intros H; [easy|]. cbn [index length].
  destruct (x =? v) eqn:E.
  - splits; try lia; cbn; f_equal; lia.
  - destruct H as [H|H]; [lia|]. destruct (IH H) as (I1 & I2 & I3). splits; try lia.
    + replace (Z.to_nat (1 + index v t)) with (S (Z.to_nat (index v t))) by lia. exact I2.
    + replace (Z.to_nat (1 + index v t)) with (S (Z.to_nat (index v t))) by lia. exact I3.
Qed.
Lemma index_of_nth : forall v l r, NoDup l -> 0 <= r < Z.of_nat (length l) -> nth (Z.to_nat r) l 0 = v -> r = index v l.
Proof.
  intros v l r HN Hr HV. assert (In v l) as HI by (subst; apply nth_In; lia).
  destruct (index_nth v l HI) as (I1 & I2 & I3).
  assert (Z.to_nat r = Z.to_nat (index v l)); [|lia].
  eapply (NoDup_nth l 0); auto; lia.
Qed.
Lemma sorted_NoDup : forall l, StronglySorted Z.lt l -> NoDup l.
Proof.
  induction 1 as [|x t H1 H2 H3]; constructor; auto. intros HI. rewrite Forall_forall in H3. specialize (H3 x HI). lia.
Qed.

Lemma s64_len : forall {A} (l : list A), Z.of_nat (length l) < 2 ^ 31 -> is_s64 (Z.of_nat (length l) - 1) /\ is_s64 0.
Proof. unfold is_s64, two63. intros. lia. Qed.

Lemma writes_enum : forall c items eff z, wf_enum items eff -> In z items ->
  writes (enum_enc c items eff true z) true
    (Zbits (crange 0 (Z.of_nat (length items) - 1)) (index z (match eff with None => items | Some a => a end))).
Proof.
  intros c items eff z (HE & HN & HL & HF) HI. unfold enum_enc.
  destruct (s64_len items HL) as [S1 S2].
  destruct eff as [a|].
  - destruct HF as (HS & HLa & HA).
    destruct (binarySearch_ok a z HS) as (r & R1 & R2). rewrite HLa in R1.
    destruct R2 as [[R2 R3]|[_ R2]]; [|now apply HA in HI].
    pose proof (index_of_nth z a r (sorted_NoDup _ HS) R2 R3) as ->.
    eapply writes_pure_l; [intros s; unfold lift; rewrite R1; reflexivity|]. cbv beta.
    replace ((0 <=? index z a) && (index z a <=? Z.of_nat (length items) - 1)) with true by lia.
    eapply writes_then. rewrite <- (Z.sub_0_r (index z a)) at 2.
    apply writes_EncodeConstraint; auto; [lia|]. left. unfold is_s64, two63 in *. lia.
  - rewrite (find_item_index z items 0 HI). destruct (index_nth z items HI) as (I1 & _).
    eapply writes_then. rewrite <- (Z.sub_0_r (index z items)) at 2.
    apply writes_EncodeConstraint; auto; [lia|]. left. unfold is_s64, two63 in *. lia.
Qed.
Lemma reads_enum : forall c items eff z, wf_enum items eff -> In z items ->
  reads (enum_dec c items eff) (Some (VEnum z))
    (Zbits (crange 0 (Z.of_nat (length items) - 1)) (index z (match eff with None => items | Some a => a end))).
Proof.
  intros c items eff z (HE & HN & HL & HF) HI. unfold enum_dec.
  destruct (s64_len items HL) as [S1 S2].
  set (k := index z _).
  assert (HK : 0 <= k <= Z.of_nat (length items) - 1).
  { unfold k. destruct eff as [a|]; [|pose proof (index_nth z items HI); lia].
    destruct HF as (HS & HLa & HA). apply HA in HI. pose proof (index_nth z a HI). lia. }
  rewrite <- (app_nil_r (Zbits _ _)). rewrite <- (Z.sub_0_r k).
  eapply reads_bindo.
  { apply reads_DecodeConstraint; auto. left. unfold is_s64, two63 in *. lia. }
  destruct eff as [a|].
  - destruct HF as (HS & HLa & HA). apply HA in HI. destruct (index_nth z a HI) as (I1 & I2 & I3).
    replace ((0 <=? k) && (k <=? Z.of_nat (length items) - 1)) with true by lia.
    eapply reads_pure_l with (a := z); [|apply reads_ret].
    intros s. unfold lift. rewrite nthZ_spec by (unfold k in *; lia). unfold k. now rewrite I3.
  - destruct (index_nth z items HI) as (I1 & I2 & I3).
    replace (k <? 0) with false by lia. unfold k. rewrite I2. apply reads_ret.
Qed.

(** ** Characters *)
Lemma writes_char : forall c a ch, wf_alpha a -> in_alpha a ch -> writes (char_enc c a true ch) true (char_bits false a ch).
Proof.
  intros c a ch HW HI. destruct a as [l|]; cbn [char_enc char_bits wf_alpha in_alpha] in *.
  - destruct HW as (HE & HN & HL). destruct (GetCharIndex_in ch l HI) as (r & R1 & R2 & R3).
    pose proof (index_of_nth ch l r HN R2 R3) as ->.
    eapply writes_pure_l; [intros s; unfold lift; rewrite R1; reflexivity|]. cbv beta.
    eapply writes_then. rewrite <- (Z.sub_0_r (index ch l)) at 2.
    apply writes_EncodeConstraint; try (unfold is_s64, two63; lia). left. unfold is_s64, two63. lia.
  - eapply writes_then. eapply writes_eq; [apply writes_EncodeConstraint; try (unfold is_s64, two63; lia)|].
    + left. unfold is_s64, two63. lia.
    + rewrite Z.sub_0_r. reflexivity.
Qed.
Lemma reads_char : forall c a ch, wf_alpha a -> in_alpha a ch -> reads (char_dec c a true) (Some ch) (char_bits false a ch).
Proof.
  intros c a ch HW HI. destruct a as [l|]; cbn [char_dec char_bits wf_alpha in_alpha] in *.
  - destruct HW as (HE & HN & HL). destruct (index_nth ch l HI) as (I1 & I2 & I3).
    rewrite <- (app_nil_r (Zbits _ _)), <- (Z.sub_0_r (index ch l)).
    eapply reads_bindo.
    { apply reads_DecodeConstraint; try (unfold is_s64, two63; lia). left. unfold is_s64, two63. lia. }
    replace ((index ch l <? 0) || (Z.of_nat (length l) - 1 <? index ch l)) with false by lia.
    eapply reads_pure_l with (a := ch); [|apply reads_ret].
    intros s. unfold lift. rewrite nthZ_spec by lia. now rewrite I3.
  - eapply reads_eq; [apply reads_DecodeConstraint; try (unfold is_s64, two63; lia)|].
    + left. unfold is_s64, two63. lia.
    + rewrite Z.sub_0_r. reflexivity.
Qed.
Lemma strlen_full : forall l, Forall (fun ch => ch <> 0) l -> strlen l = Z.of_nat (length l).
Proof.
  induction 1; [reflexivity|]. cbn [strlen length]. destruct (x =? 0) eqn:E; lia.
Qed.

(** With min = max the number of characters is not consulted. *)
Lemma sized_enc_fixed_n : forall {A} c (f : bool -> A -> M bool) l n m k r,
  sized_enc c f l n k k r = sized_enc c f l m k k r.
Proof. intros. unfold sized_enc. rewrite Z.eqb_refl. reflexivity. Qed.

Lemma writes_str : forall c a min max l, wf_alpha a -> wf_size min max ->
  size_in min max (length l) -> Forall (in_alpha a) l -> (min <> max -> Forall (fun ch => ch <> 0) l) ->
  writes (sized_enc c (char_enc c a) (l ++ [0]) (strlen l) min max true) true (usized false min max (map (char_bits false a) l)).
Proof.
  intros c a min max l HA HS HZ HF HN. unfold wf_size, size_in in *.
  assert (HW : writes (sized_enc c (char_enc c a) (l ++ [0]) (Z.of_nat (length l)) min max true) true
                 (usized false min max (map (char_bits false a) l))).
  { apply writes_sized_enc; try lia. intros x Hx. rewrite Forall_forall in HF. apply writes_char; auto. }
  destruct (Z.eq_dec min max) as [->|E].
  - now rewrite (sized_enc_fixed_n c _ _ _ (Z.of_nat (length l))).
  - now rewrite strlen_full by auto.
Qed.
Lemma reads_str : forall c a min max l, wf_alpha a -> wf_size min max ->
  size_in min max (length l) -> Forall (in_alpha a) l ->
  reads (sized_dec c (char_dec c a) 0 min max true) (Some l) (usized false min max (map (char_bits false a) l)).
Proof.
  intros c a min max l HA HS HZ HF. unfold wf_size, size_in in *.
  pose proof (reads_sized_dec c (char_dec c a) 0 (char_bits false a) (fun x => x) l min max) as H.
  rewrite map_id in H. apply H; try lia. intros x Hx. rewrite Forall_forall in HF. apply reads_char; auto.
Qed.

(** ** Octet strings *)
Lemma writes_octet : forall c min max l, wf_size min max -> size_in min max (length l) ->
  Forall (fun b => 0 <= b < 256) l ->
  writes (octet_enc c min max l true) true (usized false min max (octets l)).
Proof.
  intros c min max l HS HZ HF. unfold wf_size, size_in in *. unfold octet_enc.
  assert (HB : Forall is_byte l) by exact HF.
  destruct (max <? 65536) eqn:E.
  - rewrite usized_small by lia. unfold octets at 1. rewrite map_length, concat_octets.
    destruct (min =? max) eqn:E2.
    + replace (crange min max) with O by (replace max with min by lia; now rewrite crange_same). cbn [Zbits app].
      eapply writes_eq; [apply writes_EncodeOctets; auto; lia|]. now rewrite firstn_all2 by lia.
    + eapply writes_bind.
      * apply writes_EncodeConstraint; try (unfold is_s64, two63; lia). left. unfold is_s64, two63. lia.
      * eapply writes_eq; [apply writes_EncodeOctets; auto; lia|]. now rewrite firstn_all2 by lia.
  - rewrite <- (app_nil_r l) at 1. unfold octets. apply writes_sized_enc; try lia.
    intros x Hx. rewrite Forall_forall in HB. unfold oct_enc. eapply writes_then, overwrites_writes.
    rewrite Zbits8. apply overwrites_AppendByte0; auto.
Qed.
Lemma reads_octet : forall c min max l, wf_size min max -> size_in min max (length l) ->
  Forall (fun b => 0 <= b < 256) l ->
  reads (octet_dec c min max true) (Some l) (usized false min max (octets l)).
Proof.
  intros c min max l HS HZ HF. unfold wf_size, size_in in *. unfold octet_dec.
  assert (HB : Forall is_byte l) by exact HF.
  destruct (max <? 65536) eqn:E.
  - rewrite usized_small by lia. unfold octets at 1. rewrite map_length, concat_octets.
    destruct (min =? max) eqn:E2.
    + replace (crange min max) with O by (replace max with min by lia; now rewrite crange_same). cbn [Zbits app].
      replace max with (Z.of_nat (length l)) by lia. apply reads_DecodeOctets; auto.
    + eapply reads_bind.
      * apply reads_DecodeConstraint; try (unfold is_s64, two63; lia). left. unfold is_s64, two63. lia.
      * cbv beta zeta match. rewrite <- (app_nil_r (bits_of_bytes l)). eapply reads_bindo; [apply reads_DecodeOctets; auto|].
        replace (max <? Z.of_nat (length l)) with false by lia. apply reads_ret.
  - pose proof (reads_sized_dec c oct_dec 0 bits_of_byte (fun x => x) l min max) as H.
    rewrite map_id in H. apply H; try lia. intros x Hx. rewrite Forall_forall in HB. unfold oct_dec.
    rewrite Zbits8. apply reads_ReadByte; auto.
Qed.

(** ** Bit strings *)
Lemma len_single : forall l, length (single_bits l) = length l.
Proof. intros. apply map_length. Qed.
Lemma pack_take : forall l o len, 0 <= o -> o mod 8 = 0 -> 0 <= len -> o + len <= Z.of_nat (length l) ->
  take_bits len (tail_from (pack l) (Z.quot o 8)) = firstn (Z.to_nat len) (skipn (Z.to_nat o) l).
Proof.
  intros l o len Ho Hm Hlen Hle. unfold take_bits, tail_from.
  rewrite bits_of_bytes_skipn, Z.quot_div_nonneg by lia.
  replace (8 * Z.to_nat (o / 8))%nat with (Z.to_nat o) by lia.
  destruct (bits_of_pack (length l) l (le_n _)) as [-> _].
  rewrite skipn_app, firstn_app, skipn_length.
  replace (Z.to_nat len - (length l - Z.to_nat o))%nat with O by lia. cbn [firstn]. now rewrite app_nil_r.
Qed.
Lemma writes_bits_at : forall c l o len, 0 <= o -> o mod 8 = 0 -> 0 <= len -> o + len <= Z.of_nat (length l) ->
  writes (BitStream_AppendBits c (tail_from (pack l) (Z.quot o 8)) len) tt (firstn (Z.to_nat len) (skipn (Z.to_nat o) l)).
Proof.
  intros c l o len Ho Hm Hlen Hle. rewrite <- pack_take by auto. destruct (bits_of_pack (length l) l (le_n _)) as [_ HB].
  apply writes_AppendBits.
  - apply Forall_skipn; auto.
  - unfold tail_from. rewrite skipn_length. pose proof (pack_len l). rewrite Z.quot_div_nonneg by lia. lia.
Qed.
Lemma writes_bits_all : forall c l n, n = Z.of_nat (length l) -> writes (BitStream_AppendBits c (pack l) n) tt l.
Proof.
  intros c l n ->. pose proof (writes_bits_at c l 0 (Z.of_nat (length l)) ltac:(lia) ltac:(lia) ltac:(lia) ltac:(lia)) as H.
  rewrite firstn_all2 in H by (rewrite skipn_length; lia). exact H.
Qed.
Lemma writes_bit : forall c min max l, wf_size min max -> size_in min max (length l) ->
  writes (bit_enc c min max l true) true (usized false min max (single_bits l)).
Proof.
  intros c min max l HS HZ. unfold wf_size, size_in in *. unfold bit_enc.
  assert (Hblk : forall o len, 0 <= o -> 0 <= len -> o + len <= Z.of_nat (length (single_bits l)) -> o mod 16384 = 0 ->
     writes (BitStream_AppendBits c (tail_from (pack l) (Z.quot o 8)) len ;;; ret true) true (concat (slice o len (single_bits l)))).
  { intros o len Ho Hlen Hle Hm. rewrite len_single in Hle. eapply writes_then. rewrite single_slice.
    apply writes_bits_at; auto. lia. }
  destruct (max <? 65536) eqn:E.
  - rewrite usized_small by lia. rewrite len_single, concat_single.
    destruct (min =? max) eqn:E2.
    + replace (crange min max) with O by (replace max with min by lia; now rewrite crange_same). cbn [Zbits app].
      eapply writes_then, writes_bits_all. lia.
    + eapply writes_bind.
      * apply writes_EncodeConstraint; try (unfold is_s64, two63; lia). left. unfold is_s64, two63. lia.
      * eapply writes_then, writes_bits_all. reflexivity.
  - destruct (min =? max) eqn:E2.
    + rewrite usized_fixed by lia. apply writes_enc_fixed; [exact Hblk|]. rewrite len_single. lia.
    + rewrite usized_frag by lia.
      replace (Z.of_nat (length l)) with (Z.of_nat (length (single_bits l)) - 0) at 2 by (rewrite len_single; lia).
      eapply writes_eq; [apply writes_enc_frag_r; [exact Hblk|..]; rewrite ?len_single; unfold frag_fuel; lia|].
      reflexivity.
Qed.
Lemma reads_bits_in : forall l max o len, 0 <= o -> o mod 8 = 0 -> 0 <= len -> o + len <= Z.of_nat (length l) ->
  Z.of_nat (length l) <= max ->
  reads (read_bits_in max o len) (Some (firstn (Z.to_nat len) (skipn (Z.to_nat o) l))) (firstn (Z.to_nat len) (skipn (Z.to_nat o) l)).
Proof.
  intros l max o len Ho Hm Hlen Hle Hmax. unfold read_bits_in.
  set (b := firstn _ _). assert (HL : Z.of_nat (length b) = len).
  { unfold b. rewrite firstn_length, skipn_length. lia. }
  rewrite <- (app_nil_r b) at 2. eapply reads_bindo.
  - rewrite <- HL. apply reads_ReadBits_list.
  - pose proof (pack_len b) as HP. rewrite Z.quot_div_nonneg by lia.
    destruct ((max + 7) / 8 <? _) eqn:E; [lia|].
    destruct (pack_spec b) as (_ & _ & T & _). rewrite HL in T. rewrite T. apply reads_ret.
Qed.
Lemma reads_bits_all : forall l max n, n = Z.of_nat (length l) -> n <= max -> reads (read_bits_in max 0 n) (Some l) l.
Proof.
  intros l max n -> Hm. pose proof (reads_bits_in l max 0 (Z.of_nat (length l)) ltac:(lia) ltac:(lia) ltac:(lia) ltac:(lia) Hm) as H.
  rewrite firstn_all2 in H by (rewrite skipn_length; lia). exact H.
Qed.
Lemma reads_bit : forall c min max l, wf_size min max -> size_in min max (length l) ->
  reads (bit_dec c min max true) (Some l) (usized false min max (single_bits l)).
Proof.
  intros c min max l HS HZ. unfold wf_size, size_in in *. unfold bit_dec.
  destruct (max <? 65536) eqn:E.
  - rewrite usized_small by lia. rewrite len_single, concat_single.
    destruct (min =? max) eqn:E2.
    + replace (crange min max) with O by (replace max with min by lia; now rewrite crange_same). cbn [Zbits app].
      apply reads_bits_all; lia.
    + eapply reads_bindo with (a := Z.of_nat (length l)); [|apply reads_bits_all; lia].
      apply reads_DecodeConstraint; try (unfold is_s64, two63; lia). left. unfold is_s64, two63. lia.
  - set (Inv := fun (a : list bool) o => a = firstn (Z.to_nat o) l).
    destruct (min =? max) eqn:E2.
    + rewrite usized_fixed by lia.
      destruct (reads_dec_fixed c (fun a off len =>
        let* o := read_bits_in max off len in
        ret (match o with Some l => (a ++ l, true) | None => (a, false) end)) Inv (single_bits l) max)
        with (a := @nil bool) as [a' [HR HI]].
      * intros a o len -> Ho Hlen Hle Hmod. rewrite len_single in Hle. eexists. split.
        -- rewrite <- (app_nil_r (concat _)). eapply reads_bind.
           ++ rewrite single_slice. apply reads_bits_in; lia.
           ++ apply reads_ret.
        -- unfold Inv. now rewrite firstn_slice by lia.
      * rewrite len_single. lia.
      * reflexivity.
      * unfold Inv in HI. rewrite firstn_all2 in HI by lia. subst a'. exact HR.
    + rewrite usized_frag by lia.
      destruct (reads_dec_frag c (fun a off len =>
        let? l := read_bits_in max off len in ret (Some (a ++ l))) Inv (single_bits l) min max (frag_fuel max))
        with (a := @nil bool) (off := 0) as [a' [HR HI]].
      * intros a o len -> Ho Hlen Hle Hmod. rewrite len_single in Hle. eexists. split.
        -- rewrite <- (app_nil_r (concat _)). eapply reads_bindo.
           ++ rewrite single_slice. apply reads_bits_in; lia.
           ++ apply reads_ret.
        -- unfold Inv. now rewrite firstn_slice by lia.
      * rewrite len_single. lia.
      * reflexivity.
      * rewrite len_single. lia.
      * reflexivity.
      * rewrite len_single. unfold frag_fuel. lia.
      * rewrite len_single in *. unfold Inv in HI. rewrite firstn_all2 in HI by lia. subst a'.
        change (skipn (Z.to_nat 0) (single_bits l)) with (single_bits l) in HR.
        intros s pre rest Hs Hc. destruct (HR s pre rest Hs Hc) as [s' [EE [Ha Hrest]]].
        exists s'. split; [|auto]. unfold bindo, bind in *.
        destruct (BitStream_DecodeConstraintWholeNumber c 0 0xFF s) as [[[h0|] s0]| | |]; try discriminate EE.
        rewrite EE. reflexivity.
Qed.

(** ** Object identifiers *)
Fixpoint hi_digits (n : nat) (v : Z) : list Z :=
  match n with
  | O => []
  | S m => ((v / 128 ^ Z.of_nat (S m)) mod 128) :: hi_digits m v
  end.
Lemma subid_from_digits : forall n v, subid_from (S n) v = map (Z.add 128) (hi_digits n v) ++ [v mod 128].
Proof.
  induction n; intros v.
  - cbn [subid_from hi_digits map app]. change (128 ^ Z.of_nat 0) with 1. rewrite Z.div_1_r.
    change (Z.of_nat 0 =? 0) with true. cbn match. f_equal. lia.
  - change (subid_from (S (S n)) v) with
      (((v / 128 ^ Z.of_nat (S n)) mod 128 + (if Z.of_nat (S n) =? 0 then 0 else 128)) :: subid_from (S n) v).
    rewrite IHn. cbn [hi_digits map app]. f_equal. destruct (_ =? 0) eqn:E; lia.
Qed.
Lemma hi_digits_ok : forall n v, Forall is_digit (hi_digits n v).
Proof. induction n; intros; cbn [hi_digits]; constructor; auto. unfold is_digit. lia. Qed.
Lemma hi_digits_val : forall n v acc, 0 <= v ->
  fold_left (fun a d => a * 128 + d) (hi_digits n v ++ [v mod 128]) acc = acc * 128 ^ Z.of_nat (S n) + v mod 128 ^ Z.of_nat (S n).
Proof.
  induction n; intros v acc Hv.
  - cbn [hi_digits app fold_left]. change (128 ^ Z.of_nat 1) with 128. lia.
  - cbn [hi_digits app fold_left]. rewrite IHn by auto.
    replace (Z.of_nat (S (S n))) with (1 + Z.of_nat (S n)) by lia. rewrite Z.pow_add_r by lia.
    change (128 ^ 1) with 128. set (P := 128 ^ Z.of_nat (S n)).
    assert (0 < P) by (apply Z.pow_pos_nonneg; lia).
    rewrite (Z.mul_comm 128 P). rewrite (Z.rem_mul_r v P 128) by lia. lia.
Qed.
Lemma subid_ok : forall v, 0 <= v -> is_subid v (subid v).
Proof.
  intros v Hv. unfold subid. set (k := Z.max 1 ((nbits v + 6) / 7)).
  replace (Z.to_nat k) with (S (Z.to_nat (k - 1))) by lia. rewrite subid_from_digits.
  set (n := Z.to_nat (k - 1)). exists (hi_digits n v), (v mod 128).
  assert (HB : v < 128 ^ Z.of_nat (S n)).
  { change 128 with (2 ^ 7). rewrite <- Z.pow_mul_r by lia. unfold n, k, nbits.
    destruct (v <=? 0) eqn:E.
    - apply Z.lt_le_trans with 1; [lia|]. change 1 with (2 ^ 0). apply Z.pow_le_mono_r; lia.
    - pose proof (Z.log2_spec v ltac:(lia)) as [_ HL]. eapply Z.lt_le_trans; [exact HL|].
      apply Z.pow_le_mono_r; [lia|]. pose proof (Z.log2_nonneg v). lia. }
  splits; auto using hi_digits_ok.
  - unfold is_digit. lia.
  - destruct n as [|m] eqn:En; cbn [hi_digits hd]; [lia|].
    intros HZ.
    assert (HL : 128 ^ Z.of_nat (S m) <= v).
    { change 128 with (2 ^ 7). rewrite <- Z.pow_mul_r by lia.
      assert (Z.of_nat (S m) = k - 1) by lia. unfold k, nbits in *. destruct (v <=? 0) eqn:E; [lia|].
      pose proof (Z.log2_spec v ltac:(lia)) as [HL _]. eapply Z.le_trans; [|exact HL].
      apply Z.pow_le_mono_r; [lia|]. lia. }
    replace (Z.of_nat (S (S m))) with (Z.of_nat (S m) + 1) in HB by lia. rewrite Z.pow_add_r in HB by lia.
    change (128 ^ 1) with 128 in HB. set (P := 128 ^ Z.of_nat (S m)) in *. clearbody P.
    assert (0 < P) by lia.
    assert (1 <= v / P < 128).
    { split; [apply Z.div_le_lower_bound; lia|apply Z.div_lt_upper_bound; lia]. }
    rewrite Z.mod_small in HZ by lia. lia.
  - unfold base128. rewrite hi_digits_val by auto. rewrite Z.mod_small by lia. lia.
Qed.
Lemma subids_ok : forall l, Forall (fun x => 0 <= x < 2 ^ 64) l -> Forall2 is_subid l (map subid l).
Proof. induction 1; cbn; constructor; auto. apply subid_ok. lia. Qed.
Lemma Forall_u64 : forall l, Forall (fun x => 0 <= x < 2 ^ 64) l -> Forall is_u64 l.
Proof. intros l. apply Forall_impl. unfold is_u64, two64. intros a. change (2 ^ 64) with 18446744073709551616. auto. Qed.

Lemma writes_oid : forall c rel l, valid_oid rel l ->
  writes (enc c (TOid rel) true (VOid l)) true (oid_bits rel l).
Proof.
  intros c rel l (HL & HF & HR). unfold oid_bits. pose proof (subids_ok _ HF) as H2. pose proof (Forall_u64 _ HF) as HU.
  destruct rel; cbn [enc oid_arcs] in *.
  - eapply writes_then. rewrite <- (app_nil_r l) at 2. apply writes_RelativeOID; auto.
  - destruct l as [|a [|b r]]; try easy. eapply writes_then. pose proof (Forall_inv HU) as U1; pose proof (Forall_inv_tail HU) as U2.
    rewrite <- (app_nil_r r) at 2. cbn [length] in HL. pose proof U1 as U3. unfold is_u64, two64 in U3.
    apply writes_ObjectIdentifier; auto; unfold is_u64, two64; lia.
Qed.
Lemma reads_oid : forall c rel l, valid_oid rel l ->
  reads (dec c (TOid rel) true) (Some (VOid l)) (oid_bits rel l).
Proof.
  intros c rel l (HL & HF & HR). unfold oid_bits. pose proof (subids_ok _ HF) as H2. pose proof (Forall_u64 _ HF) as HU.
  cbn [dec]. rewrite <- (app_nil_r (frag _)). destruct rel; cbn [oid_arcs] in *.
  - eapply reads_bindo; [apply reads_RelativeOID; eauto|]. cbn [fst snd].
    rewrite firstn_app, Nat2Z.id, firstn_all, Nat.sub_diag. cbn [firstn]. rewrite app_nil_r. apply reads_ret.
  - destruct l as [|a [|b r]]; try easy. pose proof (Forall_inv HU) as U1; pose proof (Forall_inv_tail HU) as U2. cbn [length] in HL.
    eapply reads_bindo; [apply reads_ObjectIdentifier; eauto; lia|]. cbn [fst snd].
    replace (Z.to_nat (Z.of_nat (2 + length r))) with (S (S (length r))) by lia. cbn [firstn].
    rewrite firstn_app, firstn_all, Nat.sub_diag. cbn [firstn]. rewrite app_nil_r. apply reads_ret.
Qed.
