(** Safety of the generated ACN decoders on arbitrary input. *)
From Verif Require Import Base Bits BitStream BitsProofs BitStreamProofs BitStreamProofs3 Ints IntsProofs SafeProofs RangeProofs
  StrSpec Octets OctetsProofs OctetsProofs2 Contracts Parse ParseProofs Misc MiscProofs RealSpec RealC RealProofs
  UperTypes UperSpec Uper UperWf UperClasses UperShape UperProofs5 UperProofs6
  Acn AcnStr AcnReal AcnSpec AcnProofs6 AcnProofs7 AcnGen AcnGenSpec AcnGenProofs1 AcnGenProofs3 AcnGenShape.
From Coq Require Import ZifyBool ZifyNat Sorting.Sorted.
Ltac Zify.zify_post_hook ::= Z.div_mod_to_equations.

(** ** Decoders that always leave the cursor inside the data *)
Definition total {A} (f : M A) (P : A -> Prop) : Prop :=
  forall s, wfs s -> exists a s', f s = Ok (a, s') /\ wfs s' /\ buf s' = buf s /\ count s' = count s /\ pos s <= pos s' /\ P a.
Lemma safe_total : forall {A B} (f : M A) (g : A -> M (option B)) P Q, total f P -> (forall a, P a -> safe (g a) Q) ->
  safe (let* x := f in g x) Q.
Proof.
  intros A B f g P Q HF HG s Hs. destruct (HF s Hs) as (a & s1 & E & W & B1 & C1 & L1 & Pa).
  unfold bind. rewrite E. destruct (HG a Pa s1 W) as (r & s2 & E2 & B2 & C2 & L2 & K & R).
  exists r, s2. splits; auto; try congruence; lia.
Qed.
Lemma total_ret : forall {A} (a : A) (P : A -> Prop), P a -> total (ret a) P.
Proof. intros A a P H s Hs. exists a, s. splits; auto. lia. Qed.
Lemma total_bind : forall {A B} (f : M A) (g : A -> M B) P Q, total f P -> (forall a, P a -> total (g a) Q) -> total (bind f g) Q.
Proof.
  intros A B f g P Q HF HG s Hs. destruct (HF s Hs) as (a & s1 & E & W & B1 & C1 & L1 & Pa).
  unfold bind. rewrite E. destruct (HG a Pa s1 W) as (b & s2 & E2 & W2 & B2 & C2 & L2 & R).
  exists b, s2. splits; auto; try congruence; lia.
Qed.
Lemma total_weaken : forall {A} (f : M A) (P Q : A -> Prop), (forall a, P a -> Q a) -> total f P -> total f Q.
Proof. intros A f P Q H HF s Hs. destruct (HF s Hs) as (a & s1 & E & W & B1 & C1 & L1 & Pa). exists a, s1. splits; auto. Qed.

Lemma wfs_wfp : forall s, wfs s -> wfp s.
Proof. intros s (A & B & C & D & E). unfold wfp, inside. splits; auto; lia. Qed.
Lemma wfs_at : forall s, wfs s -> exists pre rest, at_ s pre rest.
Proof. intros s H. destruct (wfp_at s (wfs_wfp s H)) as (pre & rest & A & _). eauto. Qed.

Lemma total_ReadByte : total BitStream_ReadByte (fun o => match o with Some b => is_byte b | None => True end).
Proof.
  intros s Hs. destruct (safe_ReadByte s Hs) as (r & s1 & E & B1 & C1 & L1 & K & R).
  exists r, s1. destruct r as [b|].
  - destruct R as [R Hb]. splits; auto. eapply wfs_step; eauto.
  - assert (s1 = s).
    { revert E. unfold BitStream_ReadByte, bind, get, ret, rd, set_cur. cbv beta iota zeta.
      destruct (count s - curByte s <? _); [congruence|].
      destruct (nthZ (buf s) (curByte s)); try congruence. destruct (0 <? curBit s); [|congruence]. cbn [buf].
      destruct (nthZ (buf s) (curByte s + 1)); congruence. }
    subst s1. splits; auto.
Qed.
Lemma total_check : forall pat n, exact_pat pat n ->
  total (BitStream_checkBitPatternPresent pat n) (fun r => r = 0 \/ r = 1 \/ r = 2).
Proof.
  intros pat n HP s Hs. pose proof (exact_len _ _ HP) as HL. destruct HP as [_ [tl HP]].
  destruct (wfs_at s Hs) as (pre & rest & HA).
  destruct (checkBitPattern_ok _ pat tl s pre rest (wfs_wfp s Hs) HP HA) as (r & s1 & E & H0 & H1). rewrite HL in E, H0, H1.
  exists r, s1. destruct (Z.ltb_spec (8 * count s) (pos s + n)).
  - destruct (H0 ltac:(lia)) as [-> ->]. splits; auto. lia.
  - destruct (H1 ltac:(lia)) as [H2 H3].
    destruct (list_eq_dec Bool.bool_dec (firstn (length (take_bits n pat)) rest) (take_bits n pat)) as [D|D].
    + destruct (H2 D) as (-> & HA2 & HB & HC). destruct HA as (_ & _ & A3 & _). destruct HA2 as (_ & _ & A3' & A4).
      rewrite app_length in A3'. splits; auto; try lia. eapply wfs_step; eauto; lia.
    + destruct (H3 D) as [-> ->]. splits; auto. lia.
Qed.

(** ** Integers *)
Section Wrap.
Variable c : cfg.
Hypothesis Hovf : ovf_wrap c = true.
Hypothesis Hshl : shl_wrap c = true.
Hypothesis Hnd : ndebug c = true.

Lemma safe_narrow_u : forall w f n, 0 <= n -> 0 <= w -> safe f (fun v => 0 <= v < 2 ^ n) ->
  safe (narrow_u w f) (fun v => 0 <= v <= 2 ^ Z.min n w - 1).
Proof.
  intros w f n Hn Hw H. unfold narrow_u. eapply safe_bindo; [exact H|]. intros v Hv. cbv beta in Hv. apply safe_ret_some.
  assert (0 < 2 ^ w) by (apply Z.pow_pos_nonneg; lia). pose proof (Z.mod_pos_bound v (2 ^ w) ltac:(lia)).
  destruct (Z.min_spec n w) as [[L ->]|[L ->]]; [|clear - H1; lia].
  rewrite Z.mod_small; [clear - Hv; lia|]. assert (2 ^ n <= 2 ^ w) by (apply Z.pow_le_mono_r; lia). clear - Hv H2; lia.
Qed.
Lemma sN_range : forall w v, 1 <= w -> - 2 ^ (w - 1) <= sN w v <= 2 ^ (w - 1) - 1.
Proof.
  intros w v Hw. unfold sN. assert (E : 2 ^ w = 2 * 2 ^ (w - 1)) by (rewrite <- Z.pow_succ_r by lia; f_equal; lia).
  assert (0 < 2 ^ (w - 1)) by (apply Z.pow_pos_nonneg; lia). pose proof (Z.mod_pos_bound v (2 ^ w) ltac:(lia)) as Hm.
  cbv zeta. destruct (_ <? _) eqn:L; revert L Hm; generalize (v mod 2 ^ w); rewrite E; intros; clear - H L Hm; lia.
Qed.
Lemma safe_narrow_s : forall w f (P : Z -> Prop), 1 <= w -> safe f P ->
  safe (narrow_s w f) (fun v => - 2 ^ (w - 1) <= v <= 2 ^ (w - 1) - 1).
Proof.
  intros w f P Hw H. unfold narrow_s. eapply safe_bindo; [exact H|]. intros v _. apply safe_ret_some.
  pose proof (sN_range w v ltac:(lia)). lia.
Qed.
Lemma safe_uside : forall k w n, w = 8 \/ w = 16 \/ w = 32 \/ w = 64 -> 0 <= n <= 64 -> k_signed k = false ->
  safe (k_dec64 c k w) (fun v => 0 <= v < 2 ^ n) ->
  safe (if w =? 64 then k_dec64 c k w else if k_signed k then narrow_s w (k_dec64 c k w) else narrow_u w (k_dec64 c k w))
    (fun v => 0 <= v <= 2 ^ Z.min n w - 1).
Proof.
  intros k w n W N S H. rewrite S. destruct (Z.eqb_spec w 64).
  - subst. replace (Z.min n 64) with n by lia. eapply safe_weaken; [|exact H]. cbv beta. intros; lia.
  - apply safe_narrow_u; auto; lia.
Qed.
Lemma safe_sside : forall k w, w = 8 \/ w = 16 \/ w = 32 \/ w = 64 -> k_signed k = true ->
  safe (k_dec64 c k w) is_s64 ->
  safe (if w =? 64 then k_dec64 c k w else if k_signed k then narrow_s w (k_dec64 c k w) else narrow_u w (k_dec64 c k w))
    (fun v => - 2 ^ (w - 1) <= v <= 2 ^ (w - 1) - 1).
Proof.
  intros k w W S H. rewrite S. destruct (Z.eqb_spec w 64).
  - subst. eapply safe_weaken; [|exact H]. unfold is_s64, two63. intros; lia.
  - eapply safe_narrow_s; eauto. lia.
Qed.
Lemma twos_s64 : forall f k, 1 <= k <= 8 -> safe f (fun v => - 2 ^ (8 * k - 1) <= v < 2 ^ (8 * k - 1)) -> safe f is_s64.
Proof.
  intros f k Hk H. eapply safe_weaken; [|exact H]. cbv beta. intros v Hv.
  assert (2 ^ (8 * k - 1) <= 2 ^ 63) by (apply Z.pow_le_mono_r; lia). unfold is_s64, two63. lia.
Qed.
Lemma safe_k : forall k w, wf_codec k w -> safe (k_dec c k w) (within (Some (limits k w))).
Proof.
  intros k w [W Hk].
  assert (U64 : forall f, safe f is_u64 -> safe f (fun v => 0 <= v < 2 ^ 64)) by (intros f H; exact H).
  assert (M64 : Z.min 64 w = Z.min w w) by lia.
  destruct k; cbn [wf_codec k_dec limits within] in *; cbv zeta;
    try (eapply safe_sside; auto; cbn [k_dec64]);
    try (rewrite <- M64; eapply safe_uside; auto; try lia; cbn [k_dec64]; apply U64).
  - cbn [k_dec64]. eapply safe_yields; [apply (safe_int c Hovf Hshl (INoExt (Concrete a b)) true w)|].
    + cbn [wf_int]. unfold in_class. splits; try lia.
    + eapply yields_weaken; [|apply yields_int; cbn [wf_int]; unfold in_class; splits; lia].
      intros z [_ Hz]. exact Hz.
  - eapply safe_uside; auto; try lia. cbn [k_dec64]. apply safe_DecodeNonNeg. lia.
  - eapply safe_uside; auto; try lia. cbn [k_dec64]. exact safe_U8.
  - eapply safe_uside; auto; try lia. cbn [k_dec64]. apply safe_BE. lia.
  - eapply safe_uside; auto; try lia. cbn [k_dec64]. apply safe_LE. lia.
  - exact safe_VarU.
  - apply safe_Twos; auto; lia.
  - eapply safe_weaken; [|apply safe_I8]. cbv beta. unfold is_s64, two63. intros; lia.
  - eapply twos_s64; [exact Hk|]. apply safe_IN_BE; auto.
  - eapply twos_s64; [exact Hk|]. apply safe_IN_LE; auto.
  - apply safe_VarS.
  - apply safe_BCD.
  - apply safe_BCD_Var.
  - apply safe_BCD_Null.
  - apply safe_ASCII_S; auto.
  - apply safe_ASCII_VarS; auto.
  - apply safe_ASCII_NullS; auto; lia.
  - apply safe_ASCII_U; auto.
  - apply safe_ASCII_NullU; lia.
Qed.

(** ** Strings *)
Lemma until0_no0 : forall l, ~ In 0 (until0 l).
Proof. induction l as [|x l IH]; cbn [until0]; [auto|]. destruct (Z.eqb_spec x 0); [auto|]. intros [H|H]; auto. Qed.
Lemma until0_len : forall l x, (length (until0 (l ++ 0%Z :: x)) <= length l)%nat.
Proof.
  induction l as [|y l IH]; intros x; cbn [app until0]; [cbn; lia|]. destruct (y =? 0); cbn [length]; [lia|]. specialize (IH x). lia.
Qed.
Lemma until0_stored : forall l (max : nat) dst, (length l <= max)%nat -> (length (until0 (stored l max dst)) <= max)%nat.
Proof.
  intros l max dst H. unfold stored. replace (S max - length l)%nat with (S (max - length l)) by lia. cbn [repeat app].
  etransitivity; [apply until0_len|lia].
Qed.

Definition env_ok (s : scope) (e : env) : Prop := forall d k, s d = Some k -> exists v, lookup d e = Some v /\ of_kind k v.
Lemma safe_ext_int : forall {B} (g : Z -> M (option B)) P s e d r, env_ok s e -> s d = Some (DInt r) ->
  (forall x, within r x -> safe (g x) P) -> safe (let* x := ext_int d e in g x) P.
Proof.
  intros B g P s e d r HE HS HG. destruct (HE _ _ HS) as (v & L & K). unfold ext_int. rewrite L.
  destruct v; cbn [of_kind] in K; try contradiction. eapply safe_pure_l; [intros; reflexivity|auto].
Qed.
Lemma safe_str : forall s e k min max, wf_size min max -> wf_str k -> sturdy s (AStr k min max) -> env_ok s e ->
  safe (str_dec c k min max e) (ashape (AStr k min max)).
Proof.
  intros s e k min max [W1 W2] WK HS HE. unfold str_dec. cbv zeta.
  assert (EM : max = Z.of_nat (Z.to_nat max)) by lia.
  set (dst := repeat 0 (S (Z.to_nat max))).
  assert (HL : (Z.to_nat max < length dst)%nat) by (unfold dst; rewrite repeat_length; lia).
  eapply safe_bindo with (P := fun d => exists l, (length l <= Z.to_nat max)%nat /\ d = stored l (Z.to_nat max) dst).
  2:{ intros d (l & L & ->). apply safe_ret_some. cbn [ashape]. split; [|apply until0_no0].
      pose proof (until0_stored l (Z.to_nat max) dst L). lia. }
  destruct k as [|p|d|set d|d]; cbn [sturdy wf_str] in *.
  - destruct (Z.eqb_spec min max).
    + unfold Acn_Dec_String_Ascii_FixSize. rewrite EM at 1.
      eapply safe_weaken; [|apply safe_Ascii_private; [lia|exact HL]]. intros x (l & L1 & _ & ->). exists l. split; [lia|auto].
    + rewrite EM at 1. eapply safe_weaken; [|apply safe_Ascii_Internal; try lia; exact HL].
      intros x (l & L1 & _ & ->). exists l. split; [lia|auto].
  - contradiction.
  - destruct HS as [r HS]. eapply safe_ext_int; eauto. intros x _. rewrite EM at 1.
    eapply safe_weaken; [|apply safe_Ascii_External; exact HL]. intros y (l & L1 & _ & ->). exists l. auto.
  - destruct HS as [HN [r HS]]. eapply safe_ext_int; eauto. intros x _. rewrite EM at 1.
    eapply safe_weaken; [|apply safe_CharIndex_External; try exact HL; auto; destruct set; [congruence|cbn; lia]].
    intros y (l & L1 & _ & ->). exists l. auto.
  - destruct HS as [r HS]. eapply safe_ext_int; eauto. intros x _. unfold Acn_Dec_IA5String_CharIndex_External_Field_Determinant.
    rewrite EM at 1. change 128 with (Z.of_nat (length ia5_set)).
    eapply safe_weaken; [|apply safe_CharIndex_private; [cbn; lia|cbn; lia|destruct (Z.leb_spec x max); lia|exact HL]].
    intros y (l & L1 & _ & ->). exists l. destruct (Z.leb_spec x max); split; auto; lia.
Qed.

(** ** Octet strings and bit strings *)
Lemma safe_items_P : forall {A} (f : bool -> M (option A)) P cap, safe (f true) P -> forall k i, i + Z.of_nat k <= cap ->
  safe (dec_items f cap k i) (fun l => length l = k /\ Forall P l).
Proof.
  intros A f P cap Hf k. induction k; intros i Hi; cbn [dec_items]; [apply safe_ret_some; auto|].
  destruct (Z.leb_spec cap i); [lia|]. eapply safe_bindo; [exact Hf|]. intros x Hx.
  eapply safe_bindo; [apply IHk; lia|]. intros l [L1 L2]. apply safe_ret_some. cbn [length]. auto.
Qed.
Definition oct_shape (max : Z) (l : list Z) : Prop := Z.of_nat (length l) <= max /\ Forall (fun b => 0 <= b < 256) l.
Lemma safe_octets_in : forall max n, 0 <= n <= max ->
  safe (let? d := BitStream_DecodeOctetString_no_length n in if max <? n then ub else ret (Some d)) (oct_shape max).
Proof.
  intros max n H. eapply safe_bindo; [apply safe_DecodeOctets; lia|]. intros d [D1 D2].
  destruct (Z.ltb_spec max n); [lia|]. apply safe_ret_some. split; [lia|exact D2].
Qed.
Lemma safe_octets_fix : forall max, 0 <= max -> safe (BitStream_DecodeOctetString_no_length max) (oct_shape max).
Proof. intros max H. eapply safe_weaken; [|apply safe_DecodeOctets; lia]. intros d [D1 D2]. split; [lia|exact D2]. Qed.
Lemma safe_aoct : forall min max, wf_size min max -> safe (aoct_dec c min max) (oct_shape max).
Proof.
  intros min max [Hw1 Hw2]. unfold aoct_dec.
  destruct (Z.eqb_spec min max); [apply safe_octets_fix; lia|].
  intros s Hs.
  destruct (safe_constr c Hovf min max ltac:(unfold is_s64, two63; lia) ltac:(unfold is_s64, two63; lia) ltac:(lia) s Hs)
    as (r & s1 & E & H1 & H2 & H3 & H4 & H5).
  unfold bind. rewrite E. destruct r as [k|].
  - destruct H5 as [H5 H6]. pose proof (wfs_step s s1 Hs H1 H2 H3 H4 H5) as Hs1.
    destruct (safe_octets_in max k ltac:(lia) s1 Hs1) as (r & s2 & E2 & G1 & G2 & G3 & G4 & G5). exists r, s2. splits; auto; try congruence; lia.
  - destruct Hs as (B1 & B2 & B3 & B4 & B5).
    destruct (DecodeOctets_0 c s1) as (r & s2 & E2 & G1 & G2 & G3 & G4 & G5).
    + congruence.
    + unfold pos in *. lia.
    + auto.
    + congruence.
    + unfold bindo, bind. rewrite E2. destruct G5 as [[-> G5]| ->].
      * destruct (Z.ltb_spec max 0); [lia|]. unfold ret. eexists _, _. splits; try reflexivity; try congruence; try lia.
        split; [lia|]. split; [cbn; lia|constructor].
      * unfold ret. eexists _, _. splits; try reflexivity; try congruence; lia.
Qed.
Lemma safe_bits_P : forall max len, 0 <= len <= max -> safe (read_bits_in max 0 len) (fun l => Z.of_nat (length l) <= max).
Proof.
  intros max len H. unfold read_bits_in. eapply safe_bindo; [apply safe_ReadBits; lia|]. intros d [H1 H2].
  change (Z.quot 0 8) with 0. destruct (Z.ltb_spec ((max + 7) / 8) (0 + Z.of_nat (length d))); [lia|]. apply safe_ret_some.
  unfold take_bits. rewrite firstn_length. lia.
Qed.
Lemma safe_abit : forall min max, wf_size min max -> safe (abit_dec c min max) (fun l => Z.of_nat (length l) <= max).
Proof.
  intros min max [Hw1 Hw2]. unfold abit_dec. destruct (Z.eqb_spec min max); [apply safe_bits_P; lia|].
  eapply safe_bindo; [apply safe_constr; auto; unfold is_s64, two63; lia|]. intros n0 Hn. cbv beta in Hn. apply safe_bits_P. lia.
Qed.
Lemma ext_check_tested : forall lo hi x, ext_check lo hi x = true -> tested lo hi x.
Proof. intros [a|] [b|] x; unfold ext_check, tested; intros; split; auto; lia. Qed.
Lemma safe_oct_ext : forall s e d lo hi min max, wf_szkind (SzExt d lo hi) min max -> length_ok s (SzExt d lo hi) false min max -> env_ok s e ->
  safe (oct_ext_dec d lo hi min max e) (ashape (AOct (SzExt d lo hi) min max)).
Proof.
  intros s e d lo hi min max [[W1 W2] _] (r & HS & HL) HE. unfold oct_ext_dec. eapply safe_ext_int; eauto. intros x Hx.
  destruct (Z.eqb_spec min max) as [EQ|NE].
  - destruct (ext_check lo (Some max) x); [|apply safe_ret_none].
    eapply safe_bindo; [apply safe_octets_fix; lia|]. intros l Hl. apply safe_ret_some. exact Hl.
  - destruct HL as [HL|HL]; [lia|]. destruct (ext_check lo hi x) eqn:E; [|apply safe_ret_none].
    specialize (HL x Hx (ext_check_tested _ _ _ E)). rewrite s32_id by lia. cbv zeta. replace (x <? 0) with false by lia.
    apply safe_ext with (f := let? l := (let? d := BitStream_DecodeOctetString_no_length x in if max <? x then ub else ret (Some d)) in
      ret (Some (VOct l))).
    { intros st. unfold bindo, bind. destruct (BitStream_DecodeOctetString_no_length x st) as [[[l|] s1]| | |]; auto. destruct (max <? x); auto. }
    eapply safe_bindo; [apply safe_octets_in; lia|]. intros l Hl. apply safe_ret_some. exact Hl.
Qed.
Lemma safe_bit_ext : forall s e d lo hi min max, wf_szkind (SzExt d lo hi) min max -> length_ok s (SzExt d lo hi) false min max -> env_ok s e ->
  safe (bit_ext_dec d lo hi min max e) (ashape (ABit (SzExt d lo hi) min max)).
Proof.
  intros s e d lo hi min max [[W1 W2] _] (r & HS & HL) HE. unfold bit_ext_dec. eapply safe_ext_int; eauto. intros x Hx.
  destruct (Z.eqb_spec min max) as [EQ|NE].
  - destruct (ext_check lo (Some max) x); [|apply safe_ret_none].
    eapply safe_bindo; [apply safe_bits_P; lia|]. intros l Hl. apply safe_ret_some. exact Hl.
  - destruct HL as [HL|HL]; [lia|]. destruct (ext_check lo hi x) eqn:E; [|apply safe_ret_none].
    specialize (HL x Hx (ext_check_tested _ _ _ E)). rewrite s32_id by lia. cbv zeta. replace (x <? 0) with false by lia.
    eapply safe_bindo; [apply safe_bits_P; lia|]. intros l Hl. apply safe_ret_some. exact Hl.
Qed.

(** ** Terminators *)
Lemma safe_null_loop : forall {A} (f : M (option A)) after P pat n, exact_pat pat n -> safe f P -> forall k chk,
  safe (null_loop f after pat n k chk) (fun p => (length (snd p) <= k)%nat /\ Forall P (snd p)).
Proof.
  intros A f after P pat n HP Hf. induction k; intros chk; cbn [null_loop]; [apply safe_ret_some; cbn; auto|].
  eapply safe_total; [apply total_check; eauto|]. intros r _. destruct (r =? 1).
  - eapply safe_bindo; [exact Hf|]. intros x Hx. eapply safe_bindo; [apply IHk|]. intros [z l] [L1 L2]. apply safe_ret_some.
    cbn [snd fst length] in *. split; [lia|auto].
  - apply safe_ret_some. cbn. split; [lia|auto].
Qed.
Lemma safe_null_dec : forall {A} (f : M (option A)) after P (Q : value -> Prop) pat n max mk, exact_pat pat n -> 1 <= max -> safe f P ->
  (forall l, Z.of_nat (length l) <= max -> Forall P l -> Q (mk l)) -> Q VJunk ->
  safe (null_dec f after pat n max mk) Q.
Proof.
  intros A f after P Q pat n max mk HP HM Hf HQ HJ. unfold null_dec.
  eapply safe_bindo; [apply (safe_null_loop f after P pat n HP Hf)|]. intros [z l] [L1 L2]. cbn [fst snd] in *.
  eapply safe_total with (P := fun _ => True).
  - destruct (_ && _); [eapply total_weaken; [|apply total_check; auto]; auto|apply total_ret; auto].
  - intros chk _. destruct (chk =? 0); [apply safe_ret_none|]. destruct (chk =? 2); apply safe_ret_some; auto.
    apply HQ; auto. lia.
Qed.


Lemma check_1 : forall pat n s s', exact_pat pat n -> wfs s -> BitStream_checkBitPatternPresent pat n s = Ok (1, s') ->
  s' = s /\ pos s < 8 * count s.
Proof.
  intros pat n s s' HP Hs EX. pose proof (exact_len _ _ HP) as HL. destruct HP as [_ [tl HP]].
  destruct (wfs_at s Hs) as (pre & rest & HA).
  destruct (checkBitPattern_ok _ pat tl s pre rest (wfs_wfp s Hs) HP HA) as (r & s1 & E & H0 & H1). rewrite HL in E, H0, H1.
  rewrite E in EX. injection EX as -> ->.
  destruct (Z.ltb_spec (8 * count s) (pos s + n)); [destruct (H0 ltac:(lia)); discriminate|].
  destruct (H1 ltac:(lia)) as [H2 H3].
  destruct (list_eq_dec Bool.bool_dec (firstn (length (take_bits n pat)) rest) (take_bits n pat)) as [D|D].
  - destruct (H2 D); discriminate.
  - destruct (H3 D) as [_ ->]. split; auto. destruct (take_bits n pat) eqn:ET; [elim D; reflexivity|]. cbn [length] in HL. lia.
Qed.
Lemma readbits_stay : forall pat n, exact_pat pat n -> forall k chk read t s r s', wfs s ->
  readbits_loop c k pat n chk read t s = Ok (r, s') ->
  wfs s' /\ snd (fst r) <= read + Z.of_nat k.
Proof.
  intros pat n HP. induction k; intros chk read t s r s' Hs; cbn [readbits_loop].
  - unfold ret. intros [= <- <-]. cbn. split; auto. lia.
  - unfold bind at 1. destruct (total_check pat n HP s Hs) as (q & s1 & E & W1 & B1 & C1 & L1 & _). rewrite E.
    destruct (Z.eqb_spec q 1) as [->|N].
    + destruct (check_1 _ _ _ _ HP Hs E) as [-> HC]. destruct (ReadBit_run s Hs) as [b EB]. unfold bind at 1. rewrite EB. cbn [fst snd].
      replace (pos s + 1 <=? 8 * count s) with true by lia. unfold bind at 1.
      destruct (on t _ _) as [[t' s2]| | |] eqn:EO; try discriminate. intros EX.
      assert (s2 = mkbs (buf s) (count s) ((pos s + 1) / 8) ((pos s + 1) mod 8)).
      { revert EO. unfold on, lift. destruct (BitStream_AppendBit c b t) as [[? ?]| | |]; try discriminate. intros [= <- <-]. reflexivity. }
      subst s2. apply IHk in EX. { destruct EX as [X1 X2]. split; auto. lia. }
      destruct Hs as (B & P1 & P2 & P3 & P4). unfold wfs, pos in *. cbn [buf count curByte curBit]. splits; auto; lia.
    + unfold ret. intros [= <- <-]. cbn. split; auto. lia.
Qed.
Lemma safe_bit_null : forall pat n min max, wf_szkind (SzNull pat n) min max ->
  safe (let? p := BitStream_ReadBits_nullterminated c pat n (repeat 0 (Z.to_nat ((max + 7) / 8))) max in
        ret (Some (VBit (take_bits (fst p) (snd p))))) (ashape (ABit (SzNull pat n) min max)).
Proof.
  intros pat n min max [[W1 W2] [HP HM]].
  eapply safe_bindo with (P := fun p => fst p <= max).
  2:{ intros [j d] Hj. apply safe_ret_some. cbn [fst snd ashape] in *. unfold take_bits. rewrite firstn_length. lia. }
  intros s Hs. pose proof (exact_len _ _ HP) as HL. destruct (proj2 HP) as [tl HE].
  destruct (wfs_at s Hs) as (pre & rest & HA). set (dst := repeat 0 (Z.to_nat ((max + 7) / 8))).
  destruct (ReadBits_nullterminated_ok c (take_bits n pat) tl dst max s pre rest (wfs_wfp s Hs) HA) as (r & s' & E & B1 & C1 & L1 & _); auto.
  { unfold dst. clear. induction (Z.to_nat _); cbn [repeat]; constructor; auto. unfold is_byte. lia. }
  { unfold dst. rewrite repeat_length. lia. }
  rewrite <- HE, HL in E. exists r, s'.
  assert (HW : wfs s' /\ match r with Some p => fst p <= max | None => True end).
  { revert E. unfold BitStream_ReadBits_nullterminated. unfold bind at 1. unfold lift.
    destruct (BitStream_Init _ _) as [t| | |]; try discriminate. unfold bind at 1.
    destruct (readbits_loop c (Z.to_nat max) pat n 0 0 t s) as [[[[[ok chk] rd] t'] s1]| | |] eqn:EL; try discriminate.
    apply (readbits_stay pat n HP) in EL; auto. destruct EL as [X1 X2]. cbn [fst snd] in X2. unfold bind.
    destruct (ok && (rd =? max) && (chk =? 1)).
    - destruct (total_check pat n HP s1 X1) as (q & s2 & E & Y1 & Y2 & Y3 & Y4 & _). rewrite E. unfold ret. intros [= <- <-].
      split; auto. destruct (ok && (q =? 2)); cbn [fst]; auto. lia.
    - unfold ret. intros [= <- <-]. split; auto. destruct (ok && (chk =? 2)); cbn [fst]; auto. lia. }
  destruct HW as [(Q1 & Q2 & Q3 & Q4 & Q5) HW]. splits; auto; try lia. destruct r; auto.
Qed.

(** ** REAL *)
Definition stay {A} (f : M (option A)) : Prop := forall s r s', wfs s -> f s = Ok (r, s') -> wfs s'.
Lemma stay_bindo : forall {A B} (f : M (option A)) (g : A -> M (option B)), stay f -> (forall a, stay (g a)) -> stay (bindo f g).
Proof.
  intros A B f g HF HG s r s' Hs. unfold bindo, bind. destruct (f s) as [[[a|] s1]| | |] eqn:E; try discriminate; intros EX.
  - eapply HG; [|exact EX]. eapply HF; eauto.
  - unfold ret in EX. injection EX as <- <-. eapply HF; eauto.
Qed.
Lemma stay_lift : forall {A B} (o : outcome A) (g : A -> M (option B)), (forall a, stay (g a)) -> stay (let* x := lift o in g x).
Proof. intros A B o g HG s r s' Hs. unfold bind, lift. destruct o; try discriminate. intros; eapply HG; eauto. Qed.
Lemma stay_ret : forall {A} (o : option A), stay (ret o).
Proof. intros A o s r s' Hs. unfold ret. intros [= <- <-]. auto. Qed.
Lemma stay_ReadByte : stay BitStream_ReadByte.
Proof. intros s r s' Hs E. destruct (total_ReadByte s Hs) as (a & s1 & E1 & W & _). rewrite E in E1. injection E1 as <- <-. auto. Qed.
Lemma stay_get_up : forall k b i, stay (get_up b i k).
Proof. induction k; intros; cbn [get_up]; [apply stay_ret|]. apply stay_bindo; [apply stay_ReadByte|]. intros. apply stay_lift. auto. Qed.
Lemma stay_get_down : forall k b, stay (get_down b k).
Proof. induction k; intros; cbn [get_down]; [apply stay_ret|]. apply stay_bindo; [apply stay_ReadByte|]. intros. apply stay_lift. auto. Qed.
Lemma stay_le : forall h k, stay (Acn_dec_real_little_endian h k).
Proof.
  intros. unfold Acn_dec_real_little_endian. cbv zeta. apply stay_bindo; [|intros; apply stay_ret].
  destruct (RequiresReverse h); [apply stay_get_up|apply stay_get_down].
Qed.
Lemma total_safe : forall {A} (f : M (option A)) P, safe f P -> stay f ->
  total f (fun o => match o with Some a => P a | None => True end).
Proof.
  intros A f P HS HT s Hs. destruct (HS s Hs) as (r & s1 & E & B1 & C1 & L1 & K & R). exists r, s1. splits; auto.
  - eapply HT; eauto.
  - destruct r; tauto.
Qed.
Lemma safe_real : forall h be d64 fp32, safe (real_dec h be d64 fp32) (ashape (AReal be d64 fp32)).
Proof.
  intros h be d64 fp32. unfold real_dec. destruct d64.
  - eapply safe_bindo with (P := any).
    + destruct be; [unfold Acn_Dec_Real_IEEE754_64_big_endian|unfold Acn_Dec_Real_IEEE754_64_little_endian];
        (eapply safe_bindo; [first [apply safe_real_be|apply safe_real_le]|]); intros; apply safe_ret_some; exact I.
    + intros; apply safe_ret_some. exact I.
  - destruct be.
    + eapply safe_bindo with (P := any).
      * destruct fp32; [unfold Acn_Dec_Real_IEEE754_32_big_endian_fp32|unfold Acn_Dec_Real_IEEE754_32_big_endian];
          (eapply safe_bindo; [apply safe_real_be|]); intros; apply safe_ret_some; exact I.
      * intros; apply safe_ret_some. exact I.
    + eapply safe_total with (P := fun _ => True).
      * eapply total_weaken; [|apply (total_safe _ any)]; auto.
        { destruct fp32; [unfold Acn_Dec_Real_IEEE754_32_little_endian_fp32|unfold Acn_Dec_Real_IEEE754_32_little_endian];
            (eapply safe_bindo; [apply safe_real_le|]); intros; apply safe_ret_some; exact I. }
        { destruct fp32; [unfold Acn_Dec_Real_IEEE754_32_little_endian_fp32|unfold Acn_Dec_Real_IEEE754_32_little_endian];
            (apply stay_bindo; [apply stay_le|intros; apply stay_ret]). }
      * intros [x|] _; apply safe_ret_some; cbn [ashape]; auto.
Qed.

(** ** Presence, choices, alignment *)
Fixpoint nflags (fs : afields) : nat :=
  match fs with GNil => O | GAsn _ _ fs => S (nflags fs) | GAcn _ _ fs | GPad _ fs => nflags fs end.
Lemma safe_apresence : forall fs, safe (adec_presence fs) (fun es => length es = nflags fs).
Proof.
  assert (HX : forall fs, safe (adec_presence fs) (fun es => length es = nflags fs) ->
    safe (let* b := BitStream_ReadBit in if fst b then let? es := adec_presence fs in ret (Some (snd b :: es)) else ret None)
      (fun es => length es = S (nflags fs))).
  { intros fs IH. apply (safe_ReadBit (fun b => let? es := adec_presence fs in ret (Some (b :: es)))). intros b.
    eapply safe_bindo; [exact IH|]. intros es L; apply safe_ret_some. cbn [length]. auto. }
  induction fs as [|o t fs IH|d t fs IH|t fs IH]; cbn [adec_presence nflags]; auto; [apply safe_ret_some; auto|].
  assert (HY : safe (let? es := adec_presence fs in ret (Some (true :: es))) (fun es => length es = S (nflags fs))).
  { eapply safe_bindo; [exact IH|]. intros es L; apply safe_ret_some. cbn [length]. auto. }
  destruct o as [| | |[|] def]; auto.
Qed.
Lemma find_item_bound : forall zs z k i, find_item z zs k = Some i -> k <= i < k + Z.of_nat (length zs).
Proof.
  induction zs as [|x zs IH]; intros z k i; cbn [find_item length]; [discriminate|].
  destruct (x =? z); [intros [= <-]; lia|]. intros H. apply IH in H. lia.
Qed.
Lemma conds_ok : forall s e l, env_ok s e -> Forall (fun p => s (fst p) <> None) l -> exists b, conds_hold e l = Ok b.
Proof.
  intros s e l HE. induction 1 as [|p l Hp HF IH]; cbn [conds_hold]; [eauto|]. unfold cond_holds.
  destruct (s (fst p)) eqn:E; [|congruence]. destruct (HE _ _ E) as (v & L & _). rewrite L. destruct (veqb v (snd p)); eauto.
Qed.
Lemma select_ok : forall s e cs, env_ok s e -> Forall (Forall (fun p => s (fst p) <> None)) cs -> forall i,
  exists o, select e cs i = Ok o /\ match o with Some j => (j < i + length cs)%nat | None => True end.
Proof.
  intros s e cs HE HF.
  revert HF. induction cs as [|l cs IH]; intros HF i; cbn [select length]; [exists None; auto|]. pose proof (Forall_inv HF) as Hl. specialize (IH (Forall_inv_tail HF)).
  destruct (conds_ok s e l HE Hl) as [[] E]; rewrite E; [exists (Some i); split; auto; lia|].
  destruct (IH (S i)) as (o & E2 & H). exists o. split; auto. destruct o; auto. lia.
Qed.
Lemma total_align8 : total (align_to c 8) (fun _ => True).
Proof.
  intros s (B & P1 & P2 & P3 & P4). unfold align_to. change (8 =? 8) with true. cbv iota. unfold Acn_AlignToNextByte, check_pre, check_stream, massert.
  rewrite Hnd. run. rewrite Bool.orb_true_r. destruct (Z.eqb_spec (curBit s) 0); cbn [negb]; run.
  - eexists _, _. splits; try reflexivity; auto. unfold wfs. splits; auto; lia.
  - rewrite Bool.orb_true_r. eexists _, _. splits; try reflexivity; auto; unfold wfs, pos in *; cbn [buf count curByte curBit]; splits; auto; lia.
Qed.
Lemma ashape_kind : forall t v k, ashape t v -> kind_of t = Some k -> of_kind k v.
Proof.
  fix IH 1. intros t v k. destruct t; cbn [ashape kind_of]; try (intros _ HH; discriminate HH).
  - destruct t; try (intros _ HH; discriminate HH); destruct v; cbn [shape]; try contradiction; try (intros _ [= <-]; exact I).
    intros [_ H]. destruct i as [[]| |]; intros [= <-]; cbn; auto.
  - destruct v; try contradiction. intros _ [= <-]. exact I.
  - destruct v; try contradiction. destruct mf; intros H [= <-]; [exact I|exact (H eq_refl)].
  - destruct v; try contradiction. intros _ [= <-]. exact I.
  - destruct v; try contradiction. intros _ [= <-]. exact I.
  - destruct v; try contradiction. intros _ [= <-]. exact I.
  - intros [H _]. apply IH; auto.
  - apply IH.
Qed.
Lemma env_add : forall s e d t v, env_ok s e -> ashape t v -> env_ok (add d (kind_of t) s) ((d, v) :: e).
Proof.
  intros s e d t v HE HA x k. unfold add. cbn [lookup]. destruct (Z.eqb_spec x d).
  - intros HK. exists v. split; auto. eapply ashape_kind; eauto.
  - apply HE.
Qed.

Lemma item_of_In : forall z items x, item_of z items = Some x -> In x (map fst items).
Proof.
  induction items as [|[a b] items IH]; intros x; cbn [item_of map fst]; [discriminate|].
  destruct (b =? z); [intros [= ->]; left; auto|right; auto].
Qed.
Theorem acn_safe : forall h,
  (forall t, wfa t -> forall s e, sturdy s t -> env_ok s e -> safe (adec c h t e) (ashape t)) /\
  (forall fs, wfa_fields fs -> forall s e es, sturdy_fields s fs -> env_ok s e -> length es = nflags fs ->
     safe (adec_fields c h fs es e) (ashape_fields fs)) /\
  (forall cs, wfa_alts cs -> forall s e i, sturdy_alts s cs -> env_ok s e -> (i < aalts_len cs)%nat ->
     safe (adec_alt c h cs i e) (ashape_alt cs i)).
Proof.
  intros h. apply aty_mutind; cbn [wfa wfa_fields wfa_alts sturdy sturdy_fields sturdy_alts].
  - intros t W s e G _. cbn [adec]. apply safe_uper; auto.
  - intros k tp fp n (W1 & W2 & _) s e _ _. cbn [adec]. destruct W1 as [_ W1], W2 as [_ W2].
    destruct k; (eapply safe_bindo; [first [apply safe_ReadBitPattern; lia|apply safe_TrueFalse; lia]|]); intros; apply safe_ret_some; exact I.
  - intros [[p n]|] skip W s e _ _; cbn [adec]; [|apply safe_ret_some; exact I]. destruct W as [_ W]. destruct skip.
    + eapply safe_bindo; [apply safe_ReadBitPattern_ignore; lia|]. intros; apply safe_ret_some; exact I.
    + eapply safe_bindo; [apply safe_ReadBitPattern; lia|]. intros [] _; [apply safe_ret_some; exact I|apply safe_ret_none].
  - intros k w mf [W _] s e _ _. cbn [adec]. eapply safe_bindo; [apply safe_k; auto|]. intros z Hz. apply safe_ret_some. cbn [ashape].
    intros ->. exact Hz.
  - intros items k w [W _] s e _ _. cbn [adec]. eapply safe_bindo; [apply safe_k; auto|]. intros z Hz.
    destruct (item_of z items) eqn:E; [|apply safe_ret_none]. apply safe_ret_some. cbn [ashape]. eapply item_of_In; eauto.
  - intros arr cnt last vals k w (W & WS & -> & -> & WL) s e _ _. cbn [adec]. eapply safe_bindo; [apply safe_k; auto|]. intros z Hz.
    assert (HI : forall i, safe (if (0 <=? i) && (i <=? Z.of_nat (length arr) - 1) then let* x := lift (nthZ arr i) in ret (Some (VEnum x)) else ret None)
      (ashape (AEnumEff arr (Z.of_nat (length arr)) (Z.of_nat (length arr) - 1) vals k w))).
    { intros i. destruct (_ && _) eqn:E; [|apply safe_ret_none]. destruct (nthZ_some arr i ltac:(lia)) as [x Hx].
      eapply safe_lift; [exact Hx|]. apply safe_ret_some. cbn [ashape]. eapply nthZ_In; eauto. }
    destruct vals.
    + destruct (binarySearch_ok arr z WS) as (r & R & _). eapply safe_lift; [exact R|apply HI].
    + eapply safe_pure_l; [intros; reflexivity|apply HI].
  - intros be d64 fp32 _ s e _ _. cbn [adec]. apply safe_real.
  - intros k min max [W1 W2] s e HS HE. cbn [adec]. eapply safe_str; eauto.
  - intros sz min max W s e HS HE. cbn [adec]. destruct sz as [| |d lo hi|pat n].
    + eapply safe_bindo; [apply safe_aoct; apply W|]. intros l Hl. apply safe_ret_some. exact Hl.
    + eapply safe_bindo; [apply safe_aoct; apply W|]. intros l Hl. apply safe_ret_some. exact Hl.
    + eapply safe_oct_ext; eauto.
    + destruct W as (W1 & W2 & W3). eapply safe_null_dec with (P := is_byte); auto; try exact I. apply safe_ReadByte.
      intros l L F. cbn [ashape]. auto.
  - intros sz min max W s e HS HE. cbn [adec]. destruct sz as [| |d lo hi|pat n].
    + eapply safe_bindo; [apply safe_abit; apply W|]. intros l Hl. apply safe_ret_some. exact Hl.
    + eapply safe_bindo; [apply safe_abit; apply W|]. intros l Hl. apply safe_ret_some. exact Hl.
    + eapply safe_bit_ext; eauto.
    + apply safe_bit_null; auto.
  - intros t IH sz min max [W Wt] s e [HL HS] HE. specialize (IH Wt s e HS HE). destruct W as [[W1 W2] W3]. cbn [adec].
    assert (HI : forall k, Z.of_nat k <= max -> safe (dec_items (fun _ : bool => adec c h t e) max k 0) (fun l => length l = k /\ Forall (ashape t) l)).
    { intros k Hk. apply safe_items_P; auto. }
    destruct sz as [| |d lo hi|pat n].
    + eapply safe_bindo; [apply HI; lia|]. intros l [L F]. apply safe_ret_some. cbn [ashape]. split; auto. lia.
    + eapply safe_bindo; [apply safe_constr; auto; unfold is_s64, two63; lia|]. intros n Hn. cbv beta in Hn.
      eapply safe_bindo; [apply HI; lia|]. intros l [L F]. apply safe_ret_some. cbn [ashape]. split; auto. lia.
    + destruct HL as (r & HD & HL). eapply safe_ext_int; eauto. intros x Hx.
      destruct (ext_check lo (Some max) x) eqn:E; [|apply safe_ret_none]. cbv zeta.
      set (n := if min =? max then max else s32 x).
      assert (Hn : n <= max).
      { unfold n. destruct (Z.eqb_spec min max); [lia|]. destruct HL as [HL|HL]; [lia|].
        pose proof (ext_check_tested _ _ _ E) as [T1 T2]. specialize (HL x Hx (conj T1 T2)). rewrite s32_id by lia. exact T2. }
      eapply safe_bindo; [apply HI; lia|]. intros l [L F]. apply safe_ret_some.
      destruct (n <? 0); cbn [ashape]; auto. split; auto. lia.
    + destruct W3 as [W3 W4]. eapply safe_null_dec; eauto; try exact I. intros l L F. cbn [ashape]. auto.
  - intros fs IH W s e HS HE. cbn [adec]. eapply safe_bindo; [apply safe_apresence|]. intros es L. cbv beta in L.
    eapply safe_bindo; [eapply IH; eauto|]. intros l Hl. apply safe_ret_some. exact Hl.
  - intros k cs IH [W Wc] s e [HK HS] HE. cbn [adec]. destruct W as (W1 & W2 & W3).
    eapply safe_bindo with (P := fun i => (i < aalts_len cs)%nat).
    2:{ intros i Hi. eapply safe_bindo; [eapply IH; eauto|]. intros v Hv. apply safe_ret_some. exact Hv. }
    destruct k as [|d zs|conds]; cbn [choice_ok] in HK.
    + eapply safe_bindo; [apply safe_constr; auto; unfold is_s64, two63; lia|]. intros i Hi. cbv beta in Hi.
      destruct (_ && _) eqn:E; [apply safe_ret_some; lia|apply safe_ret_none].
    + destruct (HE _ _ HK) as (v & L & K). rewrite L. destruct v; cbn [of_kind] in K; try contradiction.
      destruct (find_item _ _ _) eqn:E; cbn [option_map]; [|apply safe_ret_none]. apply safe_ret_some.
      apply find_item_bound in E. destruct W3 as [W3 _]. lia.
    + destruct (select_ok s e conds HE HK 0) as (o & E & Ho). rewrite E.
      change (lift (Ok o)) with (@ret (option nat) o). destruct o; [apply safe_ret_some|apply safe_ret_none].
      destruct W3 as [W3 _]. lia.
  - intros ok t IH W s e HS HE. cbn [adec]. eapply safe_bindo; [eapply IH; eauto|]. intros v Hv.
    destruct (ok v) eqn:E; [apply safe_ret_some; cbn [ashape]; auto|apply safe_ret_none].
  - intros n t IH [_ W] s e [-> HS] HE. cbn [adec]. eapply safe_total; [apply total_align8|]. intros _ _. eapply IH; eauto.
  - intros _ s e [|] _ _ L; [|discriminate]. cbn [adec_fields]. apply safe_ret_some. exact I.
  - intros o t IHt fs IHf [Wt Wf] s e es (HO & HS & HF) HE L. destruct es as [|b es]; [discriminate|]. cbn [nflags length] in L.
    cbn [adec_fields].
    set (Q := fun p : bool * option value => match o, fst p, snd p with
       | OAbsent, false, None => True
       | OAbsent, _, _ => False
       | _, true, Some v => ashape t v
       | OOptional _ def, false, ov => ov = def
       | _, _, _ => False
       end).
    eapply safe_bindo with (P := Q).
    2:{ intros [x ov] HQ. eapply safe_bindo; [eapply IHf; eauto|]. intros l Hl. apply safe_ret_some. cbn [ashape_fields]. split; auto. }
    assert (HT : o <> OAbsent -> safe (let? v := adec c h t e in ret (Some (true, Some v))) Q).
    { intros N. destruct HS as [HS|HS]; [congruence|]. eapply safe_bindo; [eapply IHt; eauto|]. intros v Hv. apply safe_ret_some.
      unfold Q. cbn [fst snd]. destruct o; auto. }
    destruct o as [| | |k def]; try (apply HT; congruence).
    + apply safe_ret_some. exact I.
    + destruct k as [|d].
      * eapply safe_pure_l; [intros; reflexivity|]. destruct b; [apply HT; congruence|]. apply safe_ret_some. unfold Q. reflexivity.
      * destruct (HE _ _ HO) as (v & LV & K). rewrite LV. destruct v; cbn [of_kind] in K; try contradiction.
        eapply safe_pure_l; [intros; reflexivity|]. destruct b0; [apply HT; congruence|]. apply safe_ret_some. unfold Q. reflexivity.
  - intros d t IHt fs IHf (Wt & Wf & _) s e es [HS HF] HE L. cbn [adec_fields].
    eapply safe_bindo; [eapply IHt; eauto|]. intros v Hv. eapply safe_weaken; [|eapply IHf; eauto; eapply env_add; eauto].
    intros; auto.
  - intros t IHt fs IHf [Wt Wf] s e es [HS HF] HE L. cbn [adec_fields].
    eapply safe_bindo; [eapply IHt; eauto|]. intros v Hv. eapply safe_weaken; [|eapply IHf; eauto]. intros; auto.
  - intros _ s e i _ _ Hi. cbn [aalts_len] in Hi. lia.
  - intros t IHt cs IHc [Wt Wc] s e [|i] [HS HF] HE Hi; cbn [adec_alt]; [eapply IHt; eauto|].
    cbn [aalts_len] in Hi. eapply safe_weaken; [|eapply IHc; eauto; lia]. intros; auto.
Qed.
End Wrap.
