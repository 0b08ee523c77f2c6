(** Leaves of the generated ACN code: alignment, enumerated, REAL, strings. *)
From Verif Require Import Base Bits BitStream Ints Octets Misc StrSpec Contracts Parse RealSpec RealC UperTypes UperSpec UperWf Uper
  Acn AcnStr AcnReal AcnSpec AcnGen AcnGenSpec.
From Verif Require Import BitsProofs BitStreamProofs BitStreamProofs2 BitStreamProofs3 IntsProofs OctetsProofs OctetsProofs2 RealProofs FloatProofs AcnProofs4 AcnProofs7
  UperProofs1 UperProofs2 UperProofs3 Properties2Proofs Properties6 AcnGenProofs1.
From Coq Require Import ZifyBool ZifyNat Sorting.Sorted.

(** ** Alignment *)
Lemma align_ge : forall n p, 0 < n -> p <= align n p.
Proof. intros. pose proof (C22_least n p H). lia. Qed.
Lemma align_to_ok : forall c n s, (n = 8 \/ n = 16 \/ n = 32) -> inside s -> align n (pos s) <= 8 * count s ->
  exists s', align_to c n s = Ok (tt, s') /\ pos s' = align n (pos s) /\ buf s' = buf s /\ count s' = count s /\ curBit s' = 0.
Proof.
  intros c n s HN HI HA. destruct (C22_align c s HI) as (A & B & C).
  unfold align_to. destruct HN as [->|[->| ->]]; cbn [Z.eqb Pos.eqb]; auto.
Qed.
Lemma writesAt_align : forall c n p, (n = 8 \/ n = 16 \/ n = 32) ->
  writesAt p (align_to c n) tt (zeros (Z.to_nat (align n p - p))).
Proof.
  intros c n p HN s pre m tl HP (A1 & A2 & A3 & A4) HC HL. unfold blen in HP. rewrite len_zeros in *.
  pose proof (align_ge n p ltac:(lia)) as HG.
  destruct (align_to_ok c n s HN) as (s' & E & P & B & C & K).
  - unfold inside, pos in *. lia.
  - rewrite <- A3, HP. lia.
  - exists s'. split; [exact E|]. split; [|exact C]. unfold at_. rewrite B. refine (conj A1 (conj _ (conj _ _))).
    + rewrite A2, <- app_assoc. f_equal. rewrite app_assoc. f_equal. rewrite <- zeros_app. f_equal. lia.
    + rewrite app_length, len_zeros. rewrite P, <- A3, HP. lia.
    + lia.
Qed.
Lemma readsAt_align : forall c n p bs, (n = 8 \/ n = 16 \/ n = 32) -> blen bs = align n p - p ->
  readsAt p (align_to c n) tt bs.
Proof.
  intros c n p bs HN HB s pre rest HP HW (A1 & A2 & A3 & A4) HC. unfold blen in *.
  destruct (align_to_ok c n s HN) as (s' & E & P & B & C & K).
  - unfold inside, pos in *. lia.
  - rewrite <- A3, HP. lia.
  - exists s'. split; [exact E|]. split; [|auto]. unfold at_. rewrite B. refine (conj A1 (conj _ (conj _ _))).
    + now rewrite A2, <- app_assoc.
    + rewrite app_length. rewrite P, <- A3, HP. lia.
    + lia.
Qed.

(** ** ENUMERATED *)
Lemma code_of_ok : forall items z z', NoDup (map fst items) -> In (z, z') items -> code_of z items = Some z'.
Proof.
  induction items as [|[x k] t IH]; intros z z' HN HI; [contradiction|].
  cbn [map fst] in HN. inversion HN; subst. cbn [code_of]. destruct HI as [HI|HI].
  - inversion HI; subst. now rewrite Z.eqb_refl.
  - destruct (x =? z) eqn:E; [|auto]. apply Z.eqb_eq in E. subst. exfalso. apply H1. apply (in_map fst) in HI. exact HI.
Qed.
Lemma item_of_ok : forall items z z', NoDup (map snd items) -> In (z, z') items -> item_of z' items = Some z.
Proof.
  induction items as [|[x k] t IH]; intros z z' HN HI; [contradiction|].
  cbn [map snd] in HN. inversion HN; subst. cbn [item_of]. destruct HI as [HI|HI].
  - inversion HI; subst. now rewrite Z.eqb_refl.
  - destruct (k =? z') eqn:E; [|auto]. apply Z.eqb_eq in E. subst. exfalso. apply H1. apply (in_map snd) in HI. exact HI.
Qed.

(** ** REAL *)
Definition real_enc (h be d64 fp32 : bool) (x : spec_float) : M unit :=
  if d64 then if be then Acn_Enc_Real_IEEE754_64_big_endian h x else Acn_Enc_Real_IEEE754_64_little_endian h x
  else let x := if fp32 then float_to_double x else x in
       if be then Acn_Enc_Real_IEEE754_32_big_endian h x else Acn_Enc_Real_IEEE754_32_little_endian h x.
Lemma writes_real : forall h be d64 fp32 x bs, real_encodes be d64 fp32 x bs ->
  writes (real_enc h be d64 fp32 x) tt bs.
Proof.
  intros h be d64 fp32 x bs [u H]. unfold real_enc. destruct d64; destruct H as (H1 & H2 & H3 & ->).
  - subst x. destruct (C24_double_pattern h u H1 H3) as (_ & A & B).
    destruct be; apply overwrites_writes; auto.
  - destruct (ieee_float u H1) as [D E].
    assert (T : to_float (if fp32 then float_to_double x else x) = ieee_value 23 8 u).
    { destruct fp32; [|congruence]. rewrite <- H2. apply to_float_inv. exact D. }
    unfold Acn_Enc_Real_IEEE754_32_big_endian, Acn_Enc_Real_IEEE754_32_little_endian. rewrite T.
    pose proof (overwrites_real_be h 4 (float_bits (ieee_value 23 8 u))) as W1.
    pose proof (overwrites_real_le h 4 (float_bits (ieee_value 23 8 u))) as W2.
    rewrite (E H3) in W1 at 2. rewrite (E H3) in W2 at 2.
    destruct be; apply overwrites_writes; [exact W1|exact W2].
Qed.
Lemma reads_real : forall h be d64 fp32 x bs, (d64 = true -> fp32 = false) -> real_encodes be d64 fp32 x bs ->
  reads (real_dec h be d64 fp32) (Some (anorm (AReal be d64 fp32) (VReal x))) bs.
Proof.
  intros h be d64 fp32 x bs HD [u H]. unfold real_dec. destruct d64; destruct H as (H1 & H2 & H3 & ->).
  - rewrite (HD eq_refl). cbn [anorm]. subst x. destruct be.
    + eapply reads_thenM; [|apply reads_ret]. eapply reads_thenM; [apply reads_real_be; exact H1|]. apply reads_ret.
    + eapply reads_thenM; [|apply reads_ret]. eapply reads_thenM; [apply reads_real_le; exact H1|]. apply reads_ret.
  - assert (X : anorm (AReal be false fp32) (VReal x) = VReal (if fp32 then ieee_value 23 8 u else float_to_double (ieee_value 23 8 u))).
    { rewrite H2. destruct fp32; reflexivity. }
    rewrite X. destruct be.
    + eapply reads_thenM; [|apply reads_ret]. destruct fp32; (eapply reads_thenM; [apply reads_real_be; exact H1|apply reads_ret]).
    + rewrite <- (app_nil_r (bits_of_bytes _)). destruct fp32;
      (eapply reads_bind; [eapply reads_thenM; [apply reads_real_le; exact H1|apply reads_ret]|apply reads_ret]).
Qed.

(** ** Strings *)
Lemma until0_app : forall l t, Forall (fun ch => 0 < ch < 256) l -> until0 (l ++ 0 :: t) = l.
Proof.
  induction l as [|x l IH]; intros t H; cbn [app until0]; [reflexivity|].
  inversion H; subst. destruct (x =? 0) eqn:E; [lia|]. now rewrite IH.
Qed.
Lemma until0_stored : forall l max dst, Forall (fun ch => 0 < ch < 256) l -> (length l <= max)%nat -> until0 (stored l max dst) = l.
Proof.
  intros l max dst H HL. unfold stored. replace (S max - length l)%nat with (S (max - length l)) by lia. cbn [repeat].
  change ((0 :: ?a) ++ ?b) with (0 :: (a ++ b)). apply until0_app; auto.
Qed.
Lemma str_mem_c : forall l max, Forall (fun ch => 0 < ch < 256) l -> Z.of_nat (length l) <= max -> c_string (str_mem max l) l.
Proof.
  intros l max H HL. unfold c_string, str_mem. replace (S (Z.to_nat max) - length l)%nat with (S (Z.to_nat max - length l)) by lia.
  cbn [repeat]. exists (repeat 0 (Z.to_nat max - length l)). split; [reflexivity|].
  eapply Forall_impl; [|exact H]. cbv beta. intros; lia.
Qed.
Lemma pos_bytes : forall l, Forall (fun ch => 0 < ch < 256) l -> Forall is_byte l.
Proof. intros l H. eapply Forall_impl; [|exact H]. unfold is_byte. cbv beta. intros; lia. Qed.

Lemma writes_astr : forall c k min max e l bs, wf_size min max -> wf_str k -> str_encodes k min max e l bs ->
  writes (str_enc c k min max l) tt bs.
Proof.
  intros c k min max e l bs [HW HW2] HK (HZ & HF & HE). unfold size_in in HZ.
  assert (exists m, max = Z.of_nat m) as [m ->] by (exists (Z.to_nat max); lia).
  pose proof (str_mem_c l (Z.of_nat m) HF ltac:(lia)) as HM. pose proof (pos_bytes l HF) as HB.
  pose (dst := repeat 0 (S m)).
  assert (HD : (m < length dst)%nat) by (unfold dst; rewrite repeat_length; lia).
  unfold str_enc. destruct k; cbn [wf_str] in HK.
  - subst bs. destruct (min =? Z.of_nat m) eqn:E.
    + replace (crange min (Z.of_nat m)) with O by (replace (Z.of_nat m) with min by lia; now rewrite crange_same). cbn [Zbits app].
      assert (m = length l) as -> by lia. unfold str_mem.
      apply (C20_ascii_fixed c l _ (repeat 0 (S (length l)))); auto.
    + eapply (C20_ascii_internal c _ l min m dst); auto; lia.
  - destruct HK as [K1 K2], HE as [T ->]. rewrite <- (app_nil_r p) at 1.
    apply (C20_terminated_mult c _ l m p [] dst); auto; lia.
  - destruct HE as [_ ->]. apply (C20_ascii_external c _ l m dst); auto; lia.
  - destruct HE as (_ & HC & ->). apply (C20_index_external c set _ l m dst); auto; lia.
  - destruct HE as (_ & HC & ->). eapply (C20_IA5 c _ l min m dst); auto; try lia.
    rewrite Forall_forall in *. intros x Hx. pose proof (HF x Hx). pose proof (HC x Hx). cbv beta in *. lia.
Qed.

Lemma has_lookup : forall d x e, has d x e <-> lookup d e = Some x.
Proof.
  intros d x e. split.
  - induction 1; cbn [lookup]; [now rewrite Z.eqb_refl|]. destruct (d =? d') eqn:E; [lia|auto].
  - induction e as [|[d' y] e IH]; cbn [lookup]; [discriminate|]. destruct (d =? d') eqn:E; intros H.
    + apply Z.eqb_eq in E. inversion H; subst. constructor.
    + constructor; [lia|auto].
Qed.
Lemma reads_ext_int : forall A d z e (f : Z -> M A) a bs, has d (VInt z) e -> reads (f z) a bs ->
  reads (let* x := ext_int d e in f x) a bs.
Proof.
  intros A d z e f a bs H HR. apply has_lookup in H. unfold ext_int. rewrite H. exact HR.
Qed.
Lemma reads_astr : forall c k min max e l bs, wf_size min max -> wf_str k -> str_encodes k min max e l bs ->
  reads (str_dec c k min max e) (Some (VStr l)) bs.
Proof.
  intros c k min max e l bs [HW HW2] HK (HZ & HF & HE). unfold size_in in HZ.
  assert (exists m, max = Z.of_nat m) as [m ->] by (exists (Z.to_nat max); lia).
  pose proof (str_mem_c l (Z.of_nat m) HF ltac:(lia)) as HM. pose proof (pos_bytes l HF) as HB.
  unfold str_dec. rewrite Nat2Z.id. set (dst := repeat 0 (S m)).
  assert (HD : (m < length dst)%nat) by (unfold dst; rewrite repeat_length; lia).
  assert (EU : until0 (stored l m dst) = l) by (apply until0_stored; auto; lia).
  rewrite <- EU at 1. eapply reads_thenM with (a := stored l m dst); [|apply reads_ret].
  destruct k; cbn [wf_str] in HK.
  - subst bs. destruct (min =? Z.of_nat m) eqn:E.
    + replace (crange min (Z.of_nat m)) with O by (replace (Z.of_nat m) with min by lia; now rewrite crange_same). cbn [Zbits app].
      assert (m = length l) as E2 by lia. clearbody dst. subst m.
      apply (C20_ascii_fixed c l [] dst); auto.
    + eapply (C20_ascii_internal c _ l min m dst); eauto; lia.
  - destruct HK as [K1 K2], HE as [T ->].
    eapply (C20_terminated_mult c _ l m p [] dst); eauto; lia.
  - destruct HE as [HH ->]. eapply reads_ext_int; [exact HH|].
    eapply (C20_ascii_external c _ l m dst); eauto; lia.
  - destruct HE as (HH & HC & ->). eapply reads_ext_int; [exact HH|].
    eapply (C20_index_external c set _ l m dst); eauto; lia.
  - destruct HE as (HH & HC & ->). eapply reads_ext_int; [exact HH|].
    eapply (C20_IA5 c _ l min m dst); eauto; try lia.
    rewrite Forall_forall in *. intros x Hx. pose proof (HF x Hx). pose proof (HC x Hx). cbv beta in *. lia.
Qed.
