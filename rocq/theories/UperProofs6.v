(** Safety of the generated decoders on arbitrary input, and dependence of the
    result on the consumed bits only. *)
From Verif Require Import Base Bits BitStream BitsProofs BitStreamProofs BitStreamProofs3 Ints IntsProofs SafeProofs RangeProofs
  StrSpec Octets OctetsProofs OctetsProofs2 Contracts Parse ParseProofs
  Misc Oid OidProofs RealSpec RealC RealProofs UperTypes UperSpec Uper UperWf UperProofs1 UperProofs2 UperProofs3 UperProofs4 UperSizes UperClasses UperShape UperProofs5.
From Coq Require Import ZifyBool ZifyNat Sorting.Sorted.
Ltac Zify.zify_post_hook ::= Z.div_mod_to_equations.

Definition any {A} : A -> Prop := fun _ => True.

Lemma safe_yields : forall {A} (f : M (option A)) P Q, safe f Q -> yields f P -> safe f P.
Proof.
  intros A f P Q HS HY s Hs. destruct (HS s Hs) as (r & s' & E & H1 & H2 & H3 & H4 & H5).
  exists r, s'. splits; auto; try lia. destruct r; auto. split; [apply H5|]. destruct (HY s (Some a) s' (proj1 Hs) E); auto.
Qed.
Lemma safe_any : forall {A} (f : M (option A)) P, safe f P -> safe f any.
Proof. intros. eapply safe_weaken; [|eauto]. intros; exact I. Qed.
Lemma safe_opt : forall {A} (o : option A), safe (ret o) any.
Proof. intros A [a|]; [apply safe_ret_some; exact I|apply safe_ret_none]. Qed.
Lemma safe_ReadBit : forall {B} (g : bool -> M (option B)) P, (forall b, safe (g b) P) ->
  safe (let* b := BitStream_ReadBit in if fst b then g (snd b) else ret None) P.
Proof.
  intros B g P Hg. apply safe_ext with (f := let? b := read_bit in g b).
  - intros s. unfold read_bit, bindo, bind, ret. destruct (BitStream_ReadBit s) as [[[[] b] s1]| | |]; reflexivity.
  - eapply safe_bindo; [apply safe_read_bit|]. auto.
Qed.
Lemma safe_lift : forall {A B} (o : outcome A) (g : A -> M (option B)) a P, o = Ok a -> safe (g a) P ->
  safe (let* x := lift o in g x) P.
Proof. intros A B o g a P -> H. eapply safe_pure_l; [intros; reflexivity|auto]. Qed.

Section Wrap.
Variable c : cfg.
Hypothesis Hovf : ovf_wrap c = true.
Hypothesis Hshl : shl_wrap c = true.

Lemma safe_constr : forall min max, is_s64 min -> is_s64 max -> min <= max ->
  safe (BitStream_DecodeConstraintWholeNumber c min max) (fun v => min <= v <= max).
Proof. intros. apply safe_DecodeConstraint; auto. right; auto. Qed.

Lemma safe_range64 : forall r, wf_range64 r -> safe (range_dec c r false 64 true) any.
Proof.
  intros r Hr. destruct r as [a b|a|b|]; cbn [range_dec wf_range64] in *; change (64 =? 64) with true; cbv iota.
  - destruct Hr as (H1 & H2 & H3). destruct (a =? b); [apply safe_ret_some; exact I|]. cbn [andb].
    eapply safe_any, safe_constr; auto.
  - rewrite Bool.andb_false_r. eapply safe_any, safe_DecodeSemi; auto.
  - eapply safe_any, safe_DecodeUnc; auto.
  - eapply safe_any, safe_DecodeUnc; auto.
Qed.
Lemma safe_int : forall i p w, wf_int i p w -> safe (int_dec c i p w) any.
Proof.
  intros i p w Hw.
  assert (HX : forall r, w = 64 /\ p = false /\ wf_range64 r ->
    safe (let* b := BitStream_ReadBit in
      if fst b then if snd b then BitStream_DecodeUnConstraintWholeNumber c else range_dec c r p w true else ret None) any).
  { intros r (-> & -> & Hr).
    apply (safe_ReadBit (fun b => if b then BitStream_DecodeUnConstraintWholeNumber c else range_dec c r false 64 true)).
    intros []; [eapply safe_any, safe_DecodeUnc; auto|apply safe_range64; auto]. }
  destruct i as [r|r|r isr]; cbn [int_dec wf_int] in *; [|apply HX; auto|apply HX; auto].
  destruct r as [a b|a|b|]; cbn [range_dec negb].
  - destruct Hw as (Hw & Hab & Ha & Hb). rewrite Bool.andb_true_r.
    destruct (Z.eqb_spec a b) as [<-|Hne]; [apply safe_ret_some; exact I|].
    destruct p; unfold in_class in Ha, Hb.
    + destruct (Z.eqb_spec w 64).
      * subst. eapply safe_any, safe_DecodeConstraintPos; unfold two64; lia.
      * eapply safe_any, safe_DecodeConstraintUIntN; lia.
    + destruct (Z.eqb_spec w 64).
      * subst. eapply safe_any, safe_constr; unfold is_s64, two63; lia.
      * eapply safe_any, safe_DecodeConstraintIntN; lia.
  - destruct Hw as (-> & -> & Ha). rewrite Bool.andb_true_r. destruct (0 <=? a) eqn:E.
    + eapply safe_any, safe_DecodeSemiPos.
    + eapply safe_any, safe_DecodeSemi; auto.
  - eapply safe_any, safe_DecodeUnc; auto.
  - eapply safe_any, safe_DecodeUnc; auto.
Qed.

Lemma nthZ_some : forall (l : list Z) i, 0 <= i < Z.of_nat (length l) -> exists v, nthZ l i = Ok v.
Proof.
  intros l i Hi. unfold nthZ. destruct (i <? 0) eqn:E; [lia|].
  destruct (nth_error l (Z.to_nat i)) eqn:E1; [eauto|]. apply nth_error_None in E1. lia.
Qed.
Lemma safe_enum : forall items eff, wf_enum items eff -> safe (enum_dec c items eff) any.
Proof.
  intros items eff (Hn & Hd & HL & He). unfold enum_dec.
  assert (0 < Z.of_nat (length items)) by (destruct items; [congruence|cbn [length]; lia]).
  eapply safe_bindo; [apply safe_constr; unfold is_s64, two63; lia|]. intros i Hi. cbv beta in Hi |- *.
  destruct eff as [arr|]; [|apply safe_opt].
  destruct He as (_ & He & _).
  destruct (_ && _); [|apply safe_ret_none]. destruct (nthZ_some arr i ltac:(lia)) as [v Hv].
  eapply safe_lift; [exact Hv|]. apply safe_ret_some. exact I.
Qed.

Lemma safe_items : forall {A} (f : bool -> M (option A)) cap, safe (f true) any -> forall k i, i + Z.of_nat k <= cap ->
  safe (dec_items f cap k i) any.
Proof.
  intros A f cap Hf k. induction k; intros i Hi; cbn [dec_items]; [apply safe_ret_some; exact I|].
  destruct (Z.leb_spec cap i); [lia|]. eapply safe_bindo; [exact Hf|]. intros x _.
  eapply safe_bindo; [apply IHk; lia|]. intros l _. apply safe_ret_some. exact I.
Qed.
Lemma frag_fuel_enough_z : forall n, 0 <= n -> (n - 0) / 16384 < Z.of_nat (frag_fuel n).
Proof. intros. unfold frag_fuel. lia. Qed.

Lemma safe_sized : forall {A} (f : bool -> M (option A)) junk min max, wf_size min max ->
  (max <? 65536) || negb (min =? max) = true -> safe (f true) any -> safe (sized_dec c f junk min max true) any.
Proof.
  intros A f junk min max [Hw Hw2] Hg Hf. unfold sized_dec.
  destruct (Z.ltb_spec max 65536).
  - destruct (Z.eqb_spec min max); [apply safe_items; auto; lia|].
    eapply safe_bindo; [apply safe_constr; unfold is_s64, two63; lia|]. intros n0 Hn. cbv beta in Hn |- *. apply safe_items; auto. lia.
  - destruct (Z.eqb_spec min max); [cbn in Hg; discriminate|].
    eapply safe_bindo; [apply safe_len255|]. intros h Hh. cbv beta in Hh |- *.
    eapply safe_bindo; [apply safe_dec_frag with (Inv := any)|].
    + intros a o len _ Ho Hl Hm _. eapply safe_bindo; [apply safe_items; auto; lia|]. intros l _. apply safe_ret_some. exact I.
    + exact I.
    + lia.
    + reflexivity.
    + apply frag_fuel_enough_z. lia.
    + lia.
    + intros p _. apply safe_ret_some. exact I.
Qed.
Lemma safe_char : forall a, wf_alpha a -> safe (char_dec c a true) any.
Proof.
  intros [l|] Ha; cbn [char_dec wf_alpha] in *.
  - destruct Ha as (H1 & H2 & H3). assert (0 < Z.of_nat (length l)) by (destruct l; [congruence|cbn [length]; lia]).
    eapply safe_bindo; [apply safe_constr; unfold is_s64, two63; lia|]. intros i Hi. cbv beta in Hi |- *.
    destruct (_ || _); [apply safe_ret_none|]. destruct (nthZ_some l i ltac:(lia)) as [v Hv].
    eapply safe_lift; [exact Hv|]. apply safe_ret_some. exact I.
  - eapply safe_any, safe_constr; unfold is_s64, two63; lia.
Qed.

Lemma DecodeOctets_0 : forall s, Forall is_byte (buf s) -> 0 <= pos s -> 0 <= curBit s < 8 -> count s < Z.of_nat (length (buf s)) ->
  exists r s', BitStream_DecodeOctetString_no_length 0 s = Ok (r, s') /\ buf s' = buf s /\ count s' = count s /\
    pos s' = pos s /\ curBit s' = curBit s /\ (r = Some [] /\ pos s <= 8 * count s \/ r = None).
Proof.
  intros s HB Hp Hc Hl. unfold BitStream_DecodeOctetString_no_length, BitStream_ReadByteArray, rd_many, pos in *. run.
  destruct (Z.eqb_spec (curBit s) 0).
  - destruct (Z.leb_spec (curByte s + 0) (count s)); run.
    + destruct (_ || _) eqn:E; [lia|]. run. change (Z.to_nat 0) with O. cbn [firstn].
      eexists _, _. splits; try reflexivity; cbn [buf count curByte curBit]; try lia. left. split; [auto|lia].
    + eexists _, _. splits; try reflexivity; try lia. auto.
  - destruct (Z.ltb_spec (count s * 8) ((curByte s + 0) * 8 + curBit s)).
    + eexists _, _. splits; try reflexivity; try lia. auto.
    + change (Z.to_nat 0) with O. cbn [read_loop]. run.
      eexists _, _. splits; try reflexivity; cbn [buf count curByte curBit]; try lia. left. split; [auto|lia].
Qed.
Lemma safe_octet : forall min max, wf_size min max -> (max <? 65536) || negb (min =? max) = true ->
  safe (octet_dec c min max true) any.
Proof.
  intros min max Hw Hg. pose proof Hw as [Hw1 Hw2]. unfold octet_dec.
  destruct (Z.ltb_spec max 65536); [|apply safe_sized; auto; [apply Bool.orb_true_iff; auto|]; eapply safe_any, safe_ReadByte].
  destruct (Z.eqb_spec min max); [eapply safe_any, safe_DecodeOctets; lia|].
  intros s Hs.
  destruct (safe_constr min max ltac:(unfold is_s64, two63; lia) ltac:(unfold is_s64, two63; lia) ltac:(lia) s Hs)
    as (r & s1 & E & H1 & H2 & H3 & H4 & H5).
  unfold bind. rewrite E. destruct r as [k|].
  - destruct H5 as [H5 H6]. pose proof (wfs_step s s1 Hs H1 H2 H3 H4 H5) as Hs1.
    assert (HS : safe (let? d := BitStream_DecodeOctetString_no_length k in if max <? k then ub else ret (Some d)) any).
    { eapply safe_bindo; [apply safe_DecodeOctets; lia|]. intros d _. destruct (Z.ltb_spec max k); [lia|]. apply safe_ret_some. exact I. }
    destruct (HS s1 Hs1) as (r & s2 & E2 & G1 & G2 & G3 & G4 & G5). exists r, s2. splits; auto; try congruence; lia.
  - destruct Hs as (B1 & B2 & B3 & B4 & B5).
    destruct (DecodeOctets_0 s1) as (r & s2 & E2 & G1 & G2 & G3 & G4 & G5).
    + congruence.
    + unfold pos in *. lia.
    + auto.
    + congruence.
    + unfold bindo, bind. rewrite E2. destruct G5 as [[-> G5]| ->].
      * destruct (Z.ltb_spec max 0); [lia|]. unfold ret. eexists _, _. splits; try reflexivity; try congruence; try lia.
        split; [lia|exact I].
      * unfold ret. eexists _, _. splits; try reflexivity; try congruence; lia.
Qed.

Lemma safe_bits_in : forall max off len, 0 <= off -> off mod 8 = 0 -> 0 <= len -> off + len <= max ->
  safe (read_bits_in max off len) any.
Proof.
  intros max off len Ho Hm Hl HM. unfold read_bits_in. eapply safe_bindo; [apply safe_ReadBits; auto|].
  intros d [H1 H2]. cbv beta in H1 |- *. rewrite Z.quot_div_nonneg by lia.
  destruct (Z.ltb_spec ((max + 7) / 8) (off / 8 + Z.of_nat (length d))); [lia|]. apply safe_ret_some. exact I.
Qed.
Lemma safe_blk : forall {A B} (g : M (option A)) (f : A -> B) (d : B) (k : B -> M (option B)),
  safe g any -> (forall b, safe (k b) any) ->
  safe (let* p := (let* o := g in ret (match o with Some l => (f l, true) | None => (d, false) end)) in
        if snd p then k (fst p) else ret None) any.
Proof.
  intros A B g f d k Hg Hk. apply safe_ext with (f := let? l := g in k (f l)).
  - intros s. unfold bindo, bind, ret. destruct (g s) as [[[l|] s1]| | |]; reflexivity.
  - eapply safe_bindo; [exact Hg|]. intros; apply Hk.
Qed.
Definition bit_blk (max : Z) : list bool -> Z -> Z -> M (list bool * bool) :=
  fun a off len =>
    let* o := read_bits_in max off len in
    ret (match o with Some l => (a ++ l, true) | None => (a, false) end).
Lemma safe_bit_64K : forall max k a off, 0 <= off -> off mod 8 = 0 -> off + Z.of_nat k * 65536 <= max ->
  safe (dec_64K c (bit_blk max) k a off) any.
Proof.
  intros max. induction k; intros a off Ho Hm Hk; cbn [dec_64K]; [apply safe_ret_some; exact I|].
  eapply safe_bindo; [apply safe_len255|]. intros h Hh. destruct (h =? 196); [|apply safe_ret_none].
  apply (safe_blk (read_bits_in max off 65536) (fun l => a ++ l) a (fun b => dec_64K c (bit_blk max) k b (off + 65536))). { apply safe_bits_in; lia. }
  intros b. apply IHk; lia.
Qed.
Lemma safe_bit_small : forall max ps a off rem, 0 <= off -> off mod 8 = 0 -> Forall (fun p => 0 <= snd p /\ snd p mod 8 = 0) ps -> 0 <= rem ->
  off + parts_total ps + rem <= max ->
  safe (dec_small c (bit_blk max) ps a off rem) any.
Proof.
  intros max. induction ps as [|[id bs] ps IH]; intros a off rem Ho Hm HF Hr Ht; cbn [dec_small].
  - change (parts_total []) with 0 in Ht. destruct (rem =? 0); [apply safe_ret_some; exact I|].
    eapply safe_bindo with (P := any).
    { destruct (rem <=? 127); eapply safe_any, safe_constr; unfold is_s64, two63; lia. }
    intros h _. destruct (if rem <=? 127 then _ else _); [|apply safe_ret_none].
    apply safe_ext with (f := let? l := read_bits_in max off rem in ret (Some (a ++ l))).
    { intros s. unfold bit_blk, bindo, bind, ret. destruct (read_bits_in max off rem s) as [[[l|] s1]| | |]; reflexivity. }
    eapply safe_bindo; [apply safe_bits_in; lia|]. intros; apply safe_ret_some; exact I.
  - pose proof (Forall_inv HF) as Hbs. cbn [snd] in Hbs. unfold parts_total in Ht. cbn [fold_right snd] in Ht.
    fold (parts_total ps) in Ht.
    assert (0 <= parts_total ps).
    { clear - HF. apply Forall_inv_tail in HF. unfold parts_total. induction HF as [|p l Hp]; cbn [fold_right]; lia. }
    eapply safe_bindo; [apply safe_len255|]. intros h Hh. destruct (h =? id); [|apply safe_ret_none].
    apply (safe_blk (read_bits_in max off bs) (fun l => a ++ l) a (fun b => dec_small c (bit_blk max) ps b (off + bs) rem)). { apply safe_bits_in; lia. }
    intros b. apply IH; try lia. eapply Forall_inv_tail; eauto.
Qed.
Lemma small_parts_8 : forall m, 0 <= m < 65536 -> Forall (fun p => 0 <= snd p /\ snd p mod 8 = 0) (small_parts m).
Proof.
  intros m Hm. unfold small_parts.
  destruct (Z.leb_spec 49152 m).
  - destruct (Z.leb_spec 32768 (m - 49152)); [lia|]. destruct (Z.leb_spec 16384 (m - 49152)); [lia|].
    cbn [app]. repeat constructor; cbn; lia.
  - destruct (Z.leb_spec 32768 m).
    + destruct (Z.leb_spec 16384 (m - 32768)); [lia|]. cbn [app]. repeat constructor; cbn; lia.
    + destruct (Z.leb_spec 16384 m); cbn [app]; repeat constructor; cbn; lia.
Qed.
Lemma safe_bit : forall min max, wf_size min max -> safe (bit_dec c min max true) any.
Proof.
  intros min max [Hw1 Hw2]. unfold bit_dec.
  destruct (Z.ltb_spec max 65536).
  - destruct (Z.eqb_spec min max); [apply safe_bits_in; lia|].
    eapply safe_bindo; [apply safe_constr; unfold is_s64, two63; lia|]. intros n0 Hn. cbv beta in Hn |- *. apply safe_bits_in; lia.
  - destruct (Z.eqb_spec min max).
    + unfold dec_fixed. fold (bit_blk max). eapply safe_bindo; [apply safe_bit_64K; lia|]. intros a' _.
      destruct (small_parts_facts (max mod 65536) ltac:(lia)) as [H1 H2].
      apply safe_bit_small; try lia. apply small_parts_8; lia.
    + eapply safe_bindo; [apply safe_len255|]. intros h Hh. cbv beta in Hh |- *.
      eapply safe_bindo; [apply safe_dec_frag with (Inv := any)|].
      * intros a o len _ Ho Hl HM Hm. eapply safe_bindo; [apply safe_bits_in; lia|]. intros l _. apply safe_ret_some. exact I.
      * exact I.
      * lia.
      * reflexivity.
      * apply frag_fuel_enough_z. lia.
      * lia.
      * intros p _. apply safe_ret_some. exact I.
Qed.
Lemma safe_presence : forall fs, safe (dec_presence fs) any.
Proof.
  assert (HX : forall fs, safe (dec_presence fs) any ->
    safe (let* b := BitStream_ReadBit in if fst b then let? es := dec_presence fs in ret (Some (snd b :: es)) else ret None) any).
  { intros fs IH. apply (safe_ReadBit (fun b => let? es := dec_presence fs in ret (Some (b :: es)))). intros b.
    eapply safe_bindo; [exact IH|]. intros; apply safe_ret_some; exact I. }
  induction fs as [|o t fs IH]; cbn [dec_presence]; [apply safe_ret_some; exact I|].
  destruct o; try (apply HX; auto). eapply safe_bindo; [exact IH|]. intros; apply safe_ret_some; exact I.
Qed.

Lemma safe_ok :
  (forall t, wft t -> guarded t = true -> safe (dec c t true) any) /\
  (forall fs, wf_fields fs -> guarded_fields fs = true -> forall es, flags_ok fs es -> safe (dec_fields c fs es true) any) /\
  (forall cs, wf_alts cs -> guarded_alts cs = true -> forall i, (i < alts_len cs)%nat -> safe (dec_alt c cs i true) any).
Proof.
  apply ty_mutind; cbn [wft wf_fields wf_alts guarded guarded_fields guarded_alts].
  - intros _ _. cbn [dec]. apply safe_ext with (f := let* b := BitStream_ReadBit in if fst b then ret (Some (VBool (snd b))) else ret None).
    + intros s. unfold bind. destruct (BitStream_ReadBit s) as [[[[] b] s1]| | |]; reflexivity.
    + apply (safe_ReadBit (fun b => ret (Some (VBool b)))). intros; apply safe_ret_some; exact I.
  - intros _ _. cbn [dec]. apply safe_opt.
  - intros i p w Hw _. cbn [dec]. eapply safe_bindo; [apply safe_int; eauto|]. intros; apply safe_ret_some; exact I.
  - intros items eff Hw _. cbn [dec]. apply safe_enum; auto.
  - intros rel _ _. cbn [dec]. eapply safe_bindo with (P := any).
    + destruct rel; eapply safe_any; [apply safe_RelativeOID|apply safe_ObjectIdentifier].
    + intros; apply safe_ret_some; exact I.
  - intros f _ _. cbn [dec]. eapply safe_bindo with (P := any).
    + destruct f; eapply safe_any; [|apply safe_DecodeReal; auto].
      unfold BitStream_DecodeReal_fp32. eapply safe_bindo with (P := is_double) (Q := any); [apply safe_DecodeReal; auto|]. intros; apply safe_ret_some; exact I.
    + intros; apply safe_ret_some; exact I.
  - intros a min max [Ha Hs] Hg. cbn [dec]. eapply safe_bindo; [apply safe_sized; auto; apply safe_char; auto|]. intros; apply safe_ret_some; exact I.
  - intros min max Hs Hg. cbn [dec]. eapply safe_bindo; [apply safe_octet; auto|]. intros; apply safe_ret_some; exact I.
  - intros min max Hs Hg. cbn [dec]. eapply safe_bindo; [apply safe_bit; auto|]. intros; apply safe_ret_some; exact I.
  - intros t IH min max [Hs Ht] Hg. apply andb_prop in Hg. destruct Hg as [Hg1 Hg2]. cbn [dec].
    eapply safe_bindo; [apply safe_sized; auto|]. intros; apply safe_ret_some; exact I.
  - intros fs IH Hw Hg. cbn [dec]. destruct (has_presence fs).
    + eapply safe_bindo; [eapply safe_yields; [apply safe_presence|apply yields_presence]|]. intros es He. cbv beta.
      eapply safe_bindo; [apply IH; auto|]. intros; apply safe_ret_some; exact I.
    + eapply safe_bindo; [apply IH; auto; apply flags_all|]. intros; apply safe_ret_some; exact I.
  - intros cs IH (Hn & HL & Hw) Hg. cbn [dec].
    assert (0 < Z.of_nat (alts_len cs)) by (destruct cs; [congruence|cbn [alts_len]; lia]).
    eapply safe_bindo; [apply safe_constr; unfold is_s64, two63; lia|]. intros i Hi. cbv beta in Hi |- *.
    destruct (_ && _); [|apply safe_ret_none].
    eapply safe_bindo; [apply IH; auto; lia|]. intros; apply safe_ret_some; exact I.
  - intros ok t IH Hw Hg. cbn [dec]. eapply safe_bindo; [apply IH; auto|]. intros; apply safe_opt.
  - intros; discriminate.
  - intros _ _ es He. destruct es; [|contradiction]. cbn [dec_fields]. apply safe_opt.
  - intros o t IHt fs IHf (Ht & Hf & Hd) Hg es He. apply andb_prop in Hg. destruct Hg as [Hg1 Hg2].
    destruct es as [|e es]; [contradiction|].
    cbn [flags_ok] in He. destruct He as [He1 He2]. cbn [dec_fields]. destruct (silent t) eqn:Es.
    + eapply safe_bindo; [apply IHt; auto|]. intros v _. eapply safe_bindo; [apply IHf; auto|]. intros; apply safe_ret_some; exact I.
    + destruct e.
      * eapply safe_bindo; [apply IHt; auto|]. intros v _. eapply safe_bindo; [apply IHf; auto|]. intros; apply safe_ret_some; exact I.
      * eapply safe_bindo; [apply IHf; auto|]. intros; apply safe_ret_some; exact I.
  - intros _ _ i Hi. cbn [alts_len] in Hi. lia.
  - intros t IHt cs IHc (Ht & Hc) Hg [|i] Hi; apply andb_prop in Hg; destruct Hg as [Hg1 Hg2]; cbn [dec_alt]; auto.
    cbn [alts_len] in Hi. apply IHc; auto. lia.
Qed.

Lemma safe_uper : forall t, wft t -> guarded t = true -> safe (dec c t true) (shape t).
Proof. intros t H G. eapply safe_yields; [apply safe_ok; auto|]. apply shape_ok; auto. Qed.
End Wrap.
