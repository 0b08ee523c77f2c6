(** Lists of the generated ACN code. *)
From Verif Require Import Base Bits BitStream Ints Octets Misc StrSpec Contracts Parse RealSpec RealC UperTypes UperSpec UperWf Uper
  Acn AcnStr AcnReal AcnSpec AcnGen AcnGenSpec.
From Verif Require Import BitsProofs BitStreamProofs BitStreamProofs2 BitStreamProofs3 IntsProofs HistoryProofs OctetsProofs OctetsProofs2
  UperProofs1 UperProofs2 UperProofs3 Properties2Proofs Properties6 AcnGenProofs1 AcnGenProofs2.
From Coq Require Import ZifyBool ZifyNat Sorting.Sorted.

Lemma items_length : forall A (R : A -> Z -> list bool -> Prop) l p bss, items_encode R l p bss -> length l = length bss.
Proof.
  induction l; intros p [|b bss] H; cbn in H; try contradiction; [reflexivity|]. cbn [length]. f_equal. eapply IHl. apply H.
Qed.
Lemma items_impl : forall A (R Q : A -> Z -> list bool -> Prop) l p bss, items_encode R l p bss ->
  (forall x q b, In x l -> R x q b -> Q x q b) -> items_encode Q l p bss.
Proof.
  induction l; intros p [|b bss] H HI; cbn [items_encode] in *; try contradiction; auto. destruct H. split.
  - apply HI; cbn; auto.
  - apply IHl; auto. intros. apply HI; cbn; auto.
Qed.

Lemma writesAt_items : forall A (f : bool -> A -> M bool) l pre p bss,
  items_encode (fun x q b => writesAt q (f true x) true b) l p bss ->
  writesAt p (enc_items f (pre ++ l) true (length l) (Z.of_nat (length pre)) true) true (concat bss).
Proof.
  induction l; intros pre p [|b bss] H; cbn [items_encode] in H; try contradiction.
  - apply writesAt_ret.
  - destruct H as [H1 H2]. cbn [length enc_items andb negb concat].
    rewrite Nat2Z.id, nth_error_app2, Nat.sub_diag by lia. cbn [nth_error].
    eapply writesAt_pure; [reflexivity|]. eapply writesAt_bind; [exact H1|].
    specialize (IHl (pre ++ [a]) (p + blen b) bss H2). rewrite <- app_assoc, app_length in IHl. cbn [app length] in IHl.
    replace (Z.of_nat (length pre + 1)) with (Z.of_nat (length pre) + 1) in IHl by lia. exact IHl.
Qed.
Lemma readsAt_items : forall A B (f : bool -> M (option B)) (g : A -> B) cap l i p bss,
  items_encode (fun x q b => readsAt q (f true) (Some (g x)) b) l p bss -> i + Z.of_nat (length l) <= cap ->
  readsAt p (dec_items f cap (length l) i) (Some (map g l)) (concat bss).
Proof.
  induction l; intros i p [|b bss] H HC; cbn [items_encode] in H; try contradiction.
  - apply readsAt_ret.
  - destruct H as [H1 H2]. cbn [length dec_items concat map] in *. destruct (cap <=? i) eqn:E; [lia|].
    eapply readsAt_bindo; [exact H1|]. eapply readsAt_then; [apply IHl; [exact H2|lia]|]. intros. apply readsAt_ret.
Qed.

(** ** Terminated lists *)
Lemma exact_len : forall pat n, exact_pat pat n -> Z.of_nat (length (take_bits n pat)) = n.
Proof.
  intros pat n [[HB HN] _]. unfold take_bits. rewrite firstn_length, len_bits_of_bytes. lia.
Qed.
Lemma at_wfp : forall s pre rest m, at_ s pre rest -> count s <= Z.of_nat (length (buf s)) ->
  Z.of_nat (length pre + m) <= 8 * count s -> wfp s.
Proof.
  intros s pre rest m (A1 & A2 & A3 & A4) HC HL. unfold wfp, inside, pos in *. splits; auto; lia.
Qed.
Lemma check_no : forall pat n s pre bs rest, exact_pat pat n -> count s <= Z.of_nat (length (buf s)) ->
  at_ s pre (bs ++ rest) -> Z.of_nat (length pre + length bs) <= 8 * count s -> n <= Z.of_nat (length bs) ->
  firstn (length (take_bits n pat)) bs <> take_bits n pat ->
  BitStream_checkBitPatternPresent pat n s = Ok (1, s).
Proof.
  intros pat n s pre bs rest HP HW HA HC HN HD. pose proof (exact_len _ _ HP) as HL. destruct HP as [_ [tl HP]].
  pose proof (at_wfp _ _ _ _ HA HW HC) as WP. pose proof HA as (_ & _ & A3 & _).
  destruct (checkBitPattern_ok _ pat tl s pre _ WP HP HA) as (r & s' & E & _ & H). rewrite HL in E, H.
  destruct (H ltac:(lia)) as [_ H2]. destruct H2 as [-> ->]; [|exact E].
  rewrite firstn_app. replace (length (take_bits n pat) - length bs)%nat with O by lia. cbn [firstn]. now rewrite app_nil_r.
Qed.
Lemma check_yes : forall pat n p, exact_pat pat n -> readsAt p (BitStream_checkBitPatternPresent pat n) 2 (take_bits n pat).
Proof.
  intros pat n p HP s pre rest _ HW HA HC. pose proof (exact_len _ _ HP) as HL. destruct HP as [_ [tl HP]].
  pose proof (at_wfp _ _ _ _ HA HW HC) as WP. pose proof HA as (_ & _ & A3 & _).
  destruct (checkBitPattern_ok _ pat tl s pre _ WP HP HA) as (r & s' & E & _ & H). rewrite HL in E, H.
  destruct (H ltac:(lia)) as [H1 _]. rewrite firstn_app_exact, skipn_app_exact in H1.
  destruct (H1 eq_refl) as (-> & H2 & H3 & H4). exists s'. auto.
Qed.

Lemma no_early_tail : forall pb b bss, no_early pb (b :: bss) -> no_early pb bss.
Proof. intros pb b bss H i Hi. apply (H (S i)). cbn [length]. lia. Qed.

Section NullLoop.
Variables (A B : Type) (f : M (option B)) (g : A -> B) (after : B -> option Z) (pat : list Z) (n : Z).
Hypothesis HP : exact_pat pat n.
Let pb := take_bits n pat.

Lemma null_loop_ok : forall l bss k chk s pre rest,
  items_encode (fun x q b => readsAt q f (Some (g x)) b) l (blen pre) bss -> no_early pb bss -> (length l <= k)%nat ->
  count s <= Z.of_nat (length (buf s)) -> at_ s pre (concat bss ++ pb ++ rest) ->
  Z.of_nat (length pre + length (concat bss ++ pb)) <= 8 * count s ->
  exists r s', null_loop f after pat n k chk s = Ok (Some (r, map g l), s') /\ count s' = count s /\ buf s' = buf s /\
    ((length l < k)%nat -> r = 2 /\ at_ s' (pre ++ concat bss ++ pb) rest) /\
    (length l = k -> (forall x, In x l -> after (g x) = None) ->
       r = (match l with [] => chk | _ => 1 end) /\ at_ s' (pre ++ concat bss) (pb ++ rest)).
Proof.
  induction l as [|x l IH]; intros [|b bss] k chk s pre rest HI HE HK HW HA HC; cbn [items_encode] in HI; try contradiction.
  - cbn [concat app] in *. destruct k as [|k]; cbn [null_loop].
    + exists chk, s. unfold ret. splits; auto; try (intros; cbn [length] in *; lia).
      intros _ _. split; auto. now rewrite app_nil_r.
    + destruct (check_yes pat n _ HP s pre rest eq_refl HW HA HC) as (s' & E & A' & C' & B').
      unfold bind. rewrite E. change (2 =? 1) with false. cbn match. exists 2, s'. unfold ret.
      splits; auto; try (intros; cbn [length] in *; lia).
  - destruct HI as [H1 H2]. cbn [concat] in *. destruct k as [|k]; [cbn [length] in HK; lia|]. cbn [null_loop].
    rewrite <- !app_assoc in *.
    assert (CH : BitStream_checkBitPatternPresent pat n s = Ok (1, s)).
    { apply (check_no pat n s pre (b ++ concat bss ++ pb) rest); auto.
      - rewrite <- !app_assoc. exact HA.
      - pose proof (exact_len _ _ HP). fold pb in H. rewrite !app_length. lia.
      - specialize (HE 0%nat ltac:(cbn [length]; lia)). cbn [skipn concat] in HE. rewrite <- app_assoc in HE. exact HE. }
    unfold bind. rewrite CH. change (1 =? 1) with true. cbn match.
    unfold bindo, bind. rewrite !app_length in HC.
    destruct (H1 s pre _ eq_refl HW HA) as (s1 & E1 & A1 & C1 & B1); [lia|]. rewrite E1.
    set (chk1 := match after (g x) with Some r => r | None => 1 end).
    destruct (IH bss k chk1 s1 (pre ++ b) rest) as (r & s2 & E2 & C2 & B2 & G1 & G2).
    + rewrite blen_app. exact H2.
    + eapply no_early_tail; eauto.
    + cbn [length] in HK. lia.
    + congruence.
    + exact A1.
    + rewrite !app_length, C1. lia.
    + rewrite E2. unfold ret. cbn [fst snd]. exists r, s2. splits; auto; try congruence.
      * intros HL. cbn [length] in HL. rewrite <- app_assoc in G1. apply G1. lia.
      * intros HL HX. cbn [length] in HL. rewrite <- app_assoc in G2.
        destruct G2 as [G2 G3]; [lia|intros; apply HX; cbn; auto|]. split; auto.
        rewrite G2. destruct l; [|reflexivity]. unfold chk1. rewrite HX by (cbn; auto). reflexivity.
Qed.

Lemma readsAt_null_dec : forall l p bss max mk,
  items_encode (fun x q b => readsAt q f (Some (g x)) b) l p bss -> no_early pb bss ->
  1 <= max -> Z.of_nat (length l) <= max ->
  (Z.of_nat (length l) < max \/ forall x, In x l -> after (g x) = None) ->
  readsAt p (null_dec f after pat n max mk) (Some (mk (map g l))) (concat bss ++ pb).
Proof.
  intros l p bss max mk HI HE HM HL HT s pre rest HB HW HA HC. unfold null_dec, bindo, bind. subst p.
  rewrite <- app_assoc in HA.
  destruct (null_loop_ok l bss (Z.to_nat max) 0 s pre rest HI HE ltac:(lia) HW HA HC) as (r & s1 & E & C1 & B1 & G1 & G2).
  rewrite E. cbn [fst snd]. rewrite map_length.
  destruct (Z.eq_dec (Z.of_nat (length l)) max) as [EQ|NE].
  - destruct G2 as [-> G3]; [lia|destruct HT; [lia|auto]|]. destruct l as [|x l]; [cbn [length] in *; lia|].
    replace (Z.of_nat (length (x :: l)) =? max) with true by lia. change (1 =? 1) with true. cbn [andb].
    destruct (check_yes pat n _ HP s1 (pre ++ concat bss) rest eq_refl) as (s2 & E2 & A2 & C2 & B2).
    + congruence.
    + exact G3.
    + rewrite app_length in *. fold pb. lia.
    + rewrite E2. change (2 =? 0) with false. change (2 =? 2) with true. cbn match. exists s2. unfold ret.
      rewrite <- app_assoc in A2. splits; auto; congruence.
  - destruct G1 as [-> G3]; [lia|]. change (2 =? 1) with false. rewrite andb_false_r. unfold ret.
    change (2 =? 0) with false. change (2 =? 2) with true. cbn match. exists s1. splits; auto.
Qed.
End NullLoop.

(** ** Octet strings and bit strings *)
Definition all_bytes (l : list Z) : Prop := Forall (fun b => 0 <= b < 256) l.
Lemma writes_no_length : forall l n, all_bytes l -> n = Z.of_nat (length l) ->
  writes (BitStream_EncodeOctetString_no_length l n) true (bits_of_bytes l).
Proof.
  intros l n HF ->. eapply writes_eq; [apply writes_EncodeOctets; auto; lia|]. now rewrite firstn_all2 by lia.
Qed.
Lemma octets_items : forall l p, items_encode (fun x (_ : Z) b => b = bits_of_byte x) l p (map bits_of_byte l).
Proof. induction l; intros; cbn [map items_encode]; auto. Qed.
Lemma octets_bytes : forall l, octets l = map bits_of_byte l.
Proof. intros. unfold octets. apply map_ext. intros. now rewrite ?Zbits8. Qed.
Lemma concat_bytes : forall l, concat (map bits_of_byte l) = bits_of_bytes l.
Proof. intros. rewrite <- octets_bytes. apply concat_octets. Qed.

Lemma writes_pat : forall c pat n, wf_pat pat n -> writes (BitStream_AppendBits c pat n) tt (take_bits n pat).
Proof. intros c pat n [H1 H2]. apply C21_pattern; auto. Qed.

(** Octet and bit strings without size property. *)
Lemma range0 : forall min max n, min = max -> Zbits (crange min max) n = [].
Proof. intros min max n ->. unfold crange. rewrite Z.sub_diag. reflexivity. Qed.
Lemma writes_aoct : forall c min max l, wf_size min max -> size_in min max (length l) -> Forall is_byte l ->
  writes (aoct_enc c min max l) true (Zbits (crange min max) (Z.of_nat (length l) - min) ++ bits_of_bytes l).
Proof.
  intros c min max l HS HZ HF. unfold wf_size, size_in in *. unfold aoct_enc. destruct (min =? max) eqn:E2.
  - rewrite range0 by lia. apply writes_no_length; auto. lia.
  - eapply writes_bind; [|apply writes_no_length; auto].
    apply writes_EncodeConstraint; try (unfold is_s64, two63; lia). left. unfold is_s64, two63. lia.
Qed.
Lemma reads_aoct : forall c min max l, wf_size min max -> size_in min max (length l) -> Forall is_byte l ->
  reads (aoct_dec c min max) (Some l) (Zbits (crange min max) (Z.of_nat (length l) - min) ++ bits_of_bytes l).
Proof.
  intros c min max l HS HZ HF. unfold wf_size, size_in in *. unfold aoct_dec. destruct (min =? max) eqn:E2.
  - rewrite range0 by lia. replace max with (Z.of_nat (length l)) by lia. apply reads_DecodeOctets; auto.
  - eapply reads_bind.
    + apply reads_DecodeConstraint; try (unfold is_s64, two63; lia). left. unfold is_s64, two63. lia.
    + cbv beta zeta match. rewrite <- (app_nil_r (bits_of_bytes l)). eapply reads_bindo; [apply reads_DecodeOctets; auto|].
      replace (max <? Z.of_nat (length l)) with false by lia. apply reads_ret.
Qed.
Lemma writes_abit : forall c min max l, wf_size min max -> size_in min max (length l) ->
  writes (abit_enc c min max l) true (Zbits (crange min max) (Z.of_nat (length l) - min) ++ l).
Proof.
  intros c min max l HS HZ. unfold wf_size, size_in in *. unfold abit_enc. destruct (min =? max) eqn:E2.
  - rewrite range0 by lia. assert (HM : max = Z.of_nat (length l)) by lia. eapply writes_then, writes_bits_all. exact HM.
  - eapply writes_bind.
    + apply writes_EncodeConstraint; try (unfold is_s64, two63; lia). left. unfold is_s64, two63. lia.
    + eapply writes_then, writes_bits_all. reflexivity.
Qed.
Lemma reads_abit : forall c min max l, wf_size min max -> size_in min max (length l) ->
  reads (abit_dec c min max) (Some l) (Zbits (crange min max) (Z.of_nat (length l) - min) ++ l).
Proof.
  intros c min max l HS HZ. unfold wf_size, size_in in *. unfold abit_dec. destruct (min =? max) eqn:E2.
  - rewrite range0 by lia. assert (HM : max = Z.of_nat (length l)) by lia. cbn [app]. apply reads_bits_all; [exact HM|lia].
  - eapply reads_bindo with (a := Z.of_nat (length l)); [|apply reads_bits_all; lia].
    apply reads_DecodeConstraint; try (unfold is_s64, two63; lia). left. unfold is_s64, two63. lia.
Qed.

Lemma writesAt_oct : forall c h sz min max e l p bs st, wf_szkind sz min max ->
  encodes c st (AOct sz min max) e (VOct l) p bs ->
  writesAt p (aenc c h (AOct sz min max) (VOct l)) true bs.
Proof.
  intros c h sz min max e l p bs st [HW HS] [HF HE]. cbn [aenc]. destruct sz as [| |d lo hi|pat n].
  - destruct HE as (lead & trail & [HZ [-> ->]] & -> & _). rewrite app_nil_r. apply writesAt_of, writes_aoct; auto.
  - destruct HE as (lead & trail & [HZ [-> ->]] & -> & _). rewrite app_nil_r. apply writesAt_of, writes_aoct; auto.
  - destruct HE as (lead & trail & [HZ (_ & -> & ->)] & -> & _). rewrite app_nil_r. cbn [app].
    unfold size_in in HZ. apply writesAt_of, writes_no_length; [exact HF|]. destruct (min =? max) eqn:E; lia.
  - destruct HE as (lead & trail & [HZ [-> ->]] & -> & _). cbn [app]. destruct HS as [[HP _] _].
    eapply writesAt_bind.
    + rewrite <- concat_bytes. apply (writesAt_items _ oct_enc l []).
      eapply items_impl; [apply octets_items|]. cbv beta. intros x q b Hx ->. apply writesAt_of.
      unfold oct_enc. eapply writes_thenM. apply overwrites_writes, overwrites_AppendByte0.
      rewrite Forall_forall in HF. apply HF; auto.
    + apply writesAt_of, writes_thenM with (a := tt), writes_pat; auto.
Qed.

Lemma ext_int_at : forall A d z e (f : Z -> M A) a bs p, has d (VInt z) e -> readsAt p (f z) a bs ->
  readsAt p (let* x := ext_int d e in f x) a bs.
Proof. intros A d z e f a bs p H HR. apply has_lookup in H. unfold ext_int. rewrite H. exact HR. Qed.
Lemma s32_small : forall x, 0 <= x < 2 ^ 31 -> s32 x = x.
Proof. intros x H. unfold s32, two32. cbv zeta. rewrite Z.mod_small by lia. destruct (x <? 2 ^ 31) eqn:E; lia. Qed.

Lemma readsAt_oct : forall c h sz min max e l p bs st, wf_szkind sz min max ->
  encodes c st (AOct sz min max) e (VOct l) p bs ->
  readsAt p (adec c h (AOct sz min max) e) (Some (VOct l)) bs.
Proof.
  intros c h sz min max e l p bs st [HW HS] [HF HE]. cbn [adec]. destruct sz as [| |d lo hi|pat n].
  - destruct HE as (lead & trail & [HZ [-> ->]] & -> & _). rewrite app_nil_r. apply readsAt_of, (reads_theno _ _ VOct), reads_aoct; auto.
  - destruct HE as (lead & trail & [HZ [-> ->]] & -> & _). rewrite app_nil_r. apply readsAt_of, (reads_theno _ _ VOct), reads_aoct; auto.
  - destruct HE as (lead & trail & [HZ (HD & -> & ->)] & -> & _). rewrite app_nil_r. cbn [app].
    unfold size_in, wf_size in *. unfold oct_ext_dec. eapply ext_int_at; [exact HD|]. destruct HS as [S1 S2].
    assert (X : forall b, Z.of_nat (length l) <= b -> ext_check lo (Some b) (Z.of_nat (length l)) = true).
    { intros b Hb. unfold ext_check. destruct lo; lia. }
    assert (Y : ext_check lo hi (Z.of_nat (length l)) = true).
    { unfold ext_check. destruct lo, hi; lia. }
    destruct (min =? max) eqn:E.
    + rewrite X by lia. replace max with (Z.of_nat (length l)) by lia.
      apply readsAt_of, (reads_theno _ _ VOct), reads_DecodeOctets; auto.
    + rewrite Y. rewrite s32_small by lia. replace (max <? Z.of_nat (length l)) with false by lia.
      replace (Z.of_nat (length l) <? 0) with false by lia.
      apply readsAt_of, (reads_theno _ _ VOct), reads_DecodeOctets; auto.
  - destruct HE as (lead & trail & [HZ [-> ->]] & -> & HT). cbn [app]. destruct HS as [HP HM]. unfold size_in in HZ.
    rewrite <- concat_bytes. rewrite <- (map_id l) at 1. apply readsAt_null_dec; auto; try lia.
    eapply items_impl; [apply octets_items|]. cbv beta. intros x q b Hx ->. apply readsAt_of.
    unfold oct_dec. apply reads_ReadByte. rewrite Forall_forall in HF. apply HF; auto.
Qed.

Lemma writesAt_bit : forall c h sz min max e l p bs st, wf_szkind sz min max ->
  encodes c st (ABit sz min max) e (VBit l) p bs ->
  writesAt p (aenc c h (ABit sz min max) (VBit l)) true bs.
Proof.
  intros c h sz min max e l p bs st [HW HS] HE. cbn [aenc encodes] in *. destruct sz as [| |d lo hi|pat n].
  - destruct HE as (lead & trail & [HZ [-> ->]] & -> & _). rewrite app_nil_r. apply writesAt_of, writes_abit; auto.
  - destruct HE as (lead & trail & [HZ [-> ->]] & -> & _). rewrite app_nil_r. apply writesAt_of, writes_abit; auto.
  - destruct HE as (lead & trail & [HZ (_ & -> & ->)] & -> & _). rewrite app_nil_r. cbn [app].
    unfold size_in in HZ. apply writesAt_of, writes_thenM with (a := tt), writes_bits_all. destruct (min =? max) eqn:E; lia.
  - destruct HE as (lead & trail & [HZ [-> ->]] & -> & _). cbn [app]. destruct HS as [[HP _] _].
    eapply writesAt_bind; [apply writesAt_of, writes_bits_all; reflexivity|].
    apply writesAt_of, writes_thenM with (a := tt), writes_pat; auto.
Qed.

Lemma concat_skip_single : forall l i, concat (skipn i (single_bits l)) = skipn i l.
Proof.
  induction l as [|b l IH]; intros [|i]; try reflexivity.
  - cbn [skipn]. apply concat_single.
  - cbn [skipn single_bits map]. apply IH.
Qed.
Lemma early_first : forall pb l, no_early pb (single_bits l) -> first_at pb (l ++ pb) (length l).
Proof.
  intros pb l H. split; unfold occurs_at.
  - rewrite skipn_app_exact. now rewrite firstn_all.
  - intros i Hi. rewrite skipn_app. replace (i - length l)%nat with O by lia. cbn [skipn].
    rewrite <- concat_skip_single. apply H. unfold single_bits. rewrite map_length. auto.
Qed.
Lemma readsAt_bit : forall c h sz min max e l p bs st, wf_szkind sz min max ->
  encodes c st (ABit sz min max) e (VBit l) p bs ->
  readsAt p (adec c h (ABit sz min max) e) (Some (VBit l)) bs.
Proof.
  intros c h sz min max e l p bs st [HW HS] HE. cbn [adec encodes] in *. destruct sz as [| |d lo hi|pat n].
  - destruct HE as (lead & trail & [HZ [-> ->]] & -> & _). rewrite app_nil_r. apply readsAt_of, (reads_theno _ _ VBit), reads_abit; auto.
  - destruct HE as (lead & trail & [HZ [-> ->]] & -> & _). rewrite app_nil_r. apply readsAt_of, (reads_theno _ _ VBit), reads_abit; auto.
  - destruct HE as (lead & trail & [HZ (HD & -> & ->)] & -> & _). rewrite app_nil_r. cbn [app].
    unfold size_in, wf_size in *. unfold bit_ext_dec. eapply ext_int_at; [exact HD|]. destruct HS as [S1 S2].
    assert (X : forall b, Z.of_nat (length l) <= b -> ext_check lo (Some b) (Z.of_nat (length l)) = true).
    { intros b Hb. unfold ext_check. destruct lo; lia. }
    assert (Y : ext_check lo hi (Z.of_nat (length l)) = true).
    { unfold ext_check. destruct lo, hi; lia. }
    destruct (min =? max) eqn:E.
    + rewrite X by lia. apply readsAt_of, (reads_theno _ _ VBit), reads_bits_all; lia.
    + rewrite Y. rewrite s32_small by lia. replace (Z.of_nat (length l) <? 0) with false by lia.
      apply readsAt_of, (reads_theno _ _ VBit), reads_bits_all; lia.
  - destruct HE as (lead & trail & [HZ [-> ->]] & -> & HT). cbn [app]. destruct HS as [HP HM]. unfold size_in, wf_size in *.
    pose proof (exact_len _ _ HP) as HL. destruct HP as [_ [tl EP]]. set (pb := take_bits n pat) in *. clearbody pb.
    intros s pre rest HB HC HA HN. unfold bindo, bind.
    set (dst := repeat 0 (Z.to_nat ((max + 7) / 8))).
    assert (LD : length dst = Z.to_nat ((max + 7) / 8)) by apply repeat_length.
    destruct (C38_roundtrip c l pb tl dst max s pre rest) as (s' & E & A'); auto; try lia.
    + eapply at_wfp; eauto.
    + apply Forall_forall. intros x Hx. apply repeat_spec in Hx. subst. unfold is_byte. lia.
    + apply early_first; auto.
    + rewrite <- EP, HL in E. rewrite E. cbn [fst snd]. unfold ret. exists s'.
      destruct (ReadBits_nullterminated_ok c pb tl dst max s pre ((l ++ pb) ++ rest)) as (r & s2 & E2 & B2 & C2 & _); auto; try lia.
      { eapply at_wfp; eauto. }
      { apply Forall_forall. intros x Hx. apply repeat_spec in Hx. subst. unfold is_byte. lia. }
      rewrite <- EP, HL, E in E2. inversion E2; subst s2. splits; auto. do 4 f_equal.
      unfold take_bits. rewrite bits_of_bytes_app, (proj1 (bits_of_pack _ _ (le_n _))), <- !app_assoc.
      rewrite Nat2Z.id. apply firstn_app_exact.
Qed.
