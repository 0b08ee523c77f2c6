(** The generated uPER decoders accept only encodings of values of the type. *)
From Verif Require Import Base Bits BitStream BitsProofs BitStreamProofs BitStreamProofs3 Ints IntsProofs SafeProofs RangeProofs
  StrSpec Octets OctetsProofs OctetsProofs2 Contracts Parse ParseProofs
  Misc Oid OidProofs RealSpec RealC RealProofs UperTypes UperSpec Uper UperWf UperProofs1 UperProofs2 UperProofs3 UperProofs4
  UperSizes UperClasses UperShape UperProofs5 UperProofs6 UperProofs7 UperProofs8 UperCanon Properties2Proofs.
From Coq Require Import ZifyBool ZifyNat Sorting.Sorted.
Ltac Zify.zify_post_hook ::= Z.div_mod_to_equations.

(** The bits read are the encoding of the value returned, which is a value of the type. *)
Definition enc_of (t : ty) (v : value) (bs : list bool) : Prop := valid t v /\ settled t v /\ bs = ubits false t v.

Lemma parses_ReadBit_P : forall {B} (g : bool -> M (option B)) Q, (forall b, parses (g b) (fun v bs => Q v (b :: bs))) ->
  parses (let* b := BitStream_ReadBit in if fst b then g (snd b) else ret None) Q.
Proof.
  intros B g Q Hg. apply parses_ext with (f := let? b := read_bit in g b).
  - intros s. unfold read_bit, bindo, bind, ret. destruct (BitStream_ReadBit s) as [[[[] b] s1]| | |]; reflexivity.
  - eapply parses_bindo; [apply parses_read_bit|]. intros b bs ->. exact (Hg b).
Qed.
Lemma parses_retf : forall {A B} (f : M (option A)) (g : A -> option B) P (Q : B -> list bool -> Prop), parses f P ->
  (forall a bs b, P a bs -> g a = Some b -> Q b bs) -> parses (let? x := f in ret (g x)) Q.
Proof.
  intros A B f g P Q HP HQ. eapply parses_bindo; [exact HP|]. intros a bs Ha. destruct (g a) as [b|] eqn:E; [|apply parses_none].
  apply parses_ret. rewrite app_nil_r. eauto.
Qed.
Lemma nthZ_ok : forall l i v, nthZ l i = Ok v -> 0 <= i < Z.of_nat (length l) /\ nth (Z.to_nat i) l 0 = v.
Proof.
  intros l i v H. unfold nthZ in H. destruct (i <? 0) eqn:E; [discriminate|].
  destruct (nth_error l (Z.to_nat i)) eqn:EN; inversion H; subst. pose proof (nth_error_Some l (Z.to_nat i)). rewrite EN in H0.
  split; [assert (Z.to_nat i < length l)%nat by (apply H0; discriminate); lia|]. apply nth_error_nth; auto.
Qed.

Section Wrap.
Variable c : cfg.
Hypothesis Hovf : ovf_wrap c = true.

Lemma canon_int : forall a b p w, wf_int (INoExt (Concrete a b)) p w ->
  parses (int_dec c (INoExt (Concrete a b)) p w)
    (fun v bs => in_class p w v /\ a <= v <= b /\ bs = Zbits (crange a b) (v - a)).
Proof.
  intros a b p w (Hw & Hab & Ha & Hb). cbn [int_dec range_dec negb]. rewrite Bool.andb_true_r.
  destruct (Z.eqb_spec a b) as [<-|Hne].
  { apply parses_ret. splits; auto; try lia. rewrite Z.sub_diag, crange_same. reflexivity. }
  assert (HI : forall v, a <= v <= b -> in_class p w v).
  { intros v Hv. unfold in_class in *. destruct p; lia. }
  unfold BitStream_DecodeConstraintWholeNumberIntN, BitStream_DecodeConstraintPosWholeNumberUIntN.
  destruct p; unfold in_class in Ha, Hb.
  - assert (HP : parses (BitStream_DecodeConstraintPosWholeNumber c a b) (fun v bs => a <= v <= b /\ bs = Zbits (crange a b) (v - a))).
    { apply parses_DecodeConstraintPos; unfold two64; destruct Hw as [->|[->|[->| ->]]]; lia. }
    destruct (w =? 64).
    + eapply parses_weaken; [|exact HP]. cbv beta. intros v bs [H1 ->]. auto.
    + eapply (parses_retf _ (fun bv => Some (bv mod 2 ^ w))); [exact HP|]. cbv beta. intros v bs v' [H1 ->] E. inversion E; subst v'.
      rewrite Z.mod_small by lia. auto.
  - assert (HP : parses (BitStream_DecodeConstraintWholeNumber c a b) (fun v bs => a <= v <= b /\ bs = Zbits (crange a b) (v - a))).
    { apply parses_constr; auto; unfold is_s64, two63; destruct Hw as [->|[->|[->| ->]]]; lia. }
    destruct (w =? 64).
    + eapply parses_weaken; [|exact HP]. cbv beta. intros v bs [H1 ->]. auto.
    + eapply (parses_retf _ (fun bv => Some (sN w bv))); [exact HP|]. cbv beta. intros v bs v' [H1 ->] E. inversion E; subst v'.
      rewrite sN_id by (destruct Hw as [->|[->|[->| ->]]]; lia). auto.
Qed.
Lemma canon_enum : forall items eff, wf_enum items eff -> parses (enum_dec c items eff) (enc_of (TEnum items eff)).
Proof.
  intros items eff (Hn & Hd & HL & He). unfold enum_dec.
  assert (0 < Z.of_nat (length items)) by (destruct items; [congruence|cbn [length]; lia]).
  eapply parses_bindo; [apply parses_constr; auto; unfold is_s64, two63; lia|]. intros i bs [Hi ->]. rewrite Z.sub_0_r.
  destruct eff as [arr|].
  - destruct (_ && _); [|apply parses_none]. apply parses_lift. intros v Hv. apply parses_ret. rewrite app_nil_r.
    destruct He as (HS & HA & HE). destruct (nthZ_ok _ _ _ Hv) as [H1 H2].
    unfold enc_of. cbn [valid settled ubits]. splits; auto.
    + apply HE. subst v. apply nth_In. lia.
    + f_equal. apply index_of_nth; auto. clear - HS. induction HS; constructor; auto.
      intros HI. rewrite Forall_forall in H. specialize (H _ HI). lia.
  - destruct (i <? 0) eqn:E0; [apply parses_none|]. destruct (nth_error items (Z.to_nat i)) as [v|] eqn:EN; [|apply parses_none].
    apply parses_ret. rewrite app_nil_r. unfold enc_of. cbn [valid settled ubits]. splits; auto.
    + eapply nth_error_In; eauto.
    + f_equal. apply index_of_nth; auto; [lia|]. apply nth_error_nth; auto.
Qed.
Lemma canon_items : forall {A} (f : bool -> M (option A)) cap (V : A -> Prop) (w : A -> list bool),
  parses (f true) (fun v bs => V v /\ bs = w v) -> forall k i,
  parses (dec_items f cap k i) (fun l bs => length l = k /\ Forall V l /\ bs = concat (map w l)).
Proof.
  intros A f cap V w Hf k. induction k; intros i; cbn [dec_items].
  { apply parses_ret. splits; auto. }
  destruct (cap <=? i); [apply parses_ub|]. eapply parses_bindo; [exact Hf|]. intros x bs1 [H1 ->].
  eapply parses_bindo; [apply IHk|]. intros l bs2 (H2 & H3 & ->). apply parses_ret. rewrite app_nil_r.
  cbn [length map concat]. splits; auto.
Qed.
Lemma canon_sized : forall {A} (f : bool -> M (option A)) junk min max (V : A -> Prop) (w : A -> list bool), wf_size min max ->
  max < 65536 -> parses (f true) (fun v bs => V v /\ bs = w v) ->
  parses (sized_dec c f junk min max true) (fun l bs => size_in min max (length l) /\ Forall V l /\ bs = usized false min max (map w l)).
Proof.
  intros A f junk min max V w [Hw Hw2] Hg Hf. unfold sized_dec, usized, sized, size_in.
  replace (max <? 65536) with true by lia. replace (negb false && (min =? max) && (65536 <=? max)) with false by lia.
  destruct (Z.eqb_spec min max).
  - eapply parses_weaken; [|apply canon_items; eauto]. cbv beta. intros l bs (H1 & H2 & ->). rewrite map_length.
    splits; auto; try lia. subst min. replace (Z.of_nat (length l) - max) with 0 by lia. now rewrite crange_same.
  - eapply parses_bindo; [apply parses_constr; auto; unfold is_s64, two63; lia|]. intros n0 bs [Hn ->].
    eapply parses_weaken; [|apply canon_items; eauto]. cbv beta. intros l bs (H1 & H2 & ->). rewrite map_length.
    splits; auto; try lia. now replace (Z.of_nat (length l)) with n0 by lia.
Qed.
Lemma canon_char : forall a, wf_alpha a -> parses (char_dec c a true) (fun ch bs => in_alpha a ch /\ bs = char_bits false a ch).
Proof.
  intros [l|] Ha; cbn [char_dec wf_alpha in_alpha char_bits] in *.
  - destruct Ha as (H1 & H2 & H3). assert (0 < Z.of_nat (length l)) by (destruct l; [congruence|cbn [length]; lia]).
    eapply parses_bindo; [apply parses_constr; auto; unfold is_s64, two63; lia|]. intros i bs [Hi ->]. rewrite Z.sub_0_r.
    destruct (_ || _); [apply parses_none|]. apply parses_lift. intros ch Hc. destruct (nthZ_ok _ _ _ Hc) as [X1 X2].
    apply parses_ret. rewrite app_nil_r. split; [subst ch; apply nth_In; lia|]. f_equal. apply index_of_nth; auto.
  - eapply parses_weaken; [|apply parses_constr; auto; unfold is_s64, two63; lia]. cbv beta. intros v bs [Hv ->].
    rewrite Z.sub_0_r. auto.
Qed.
Lemma canon_bits_in : forall max n, 0 <= n -> parses (read_bits_in max 0 n) (fun l bs => Z.of_nat (length l) = n /\ bs = l).
Proof.
  intros max n Hn. unfold read_bits_in. eapply parses_bindo; [apply parses_ReadBits; auto|].
  intros d bs [H1 ->]. destruct (_ <? _); [apply parses_ub|]. apply parses_ret. rewrite app_nil_r.
  assert (take_bits n (pack bs) = bs) as ->; [|auto].
  unfold take_bits. replace (Z.to_nat n) with (length bs) by lia. rewrite (proj1 (bits_of_pack _ bs (le_n _))).
  rewrite firstn_app, Nat.sub_diag, firstn_all. cbn [firstn]. apply app_nil_r.
Qed.
Lemma canon_presence : forall fs, canonical_fields fs = true ->
  parses (dec_presence fs) (fun es bs => forall l, map fst l = es -> presence_bits fs l = bs).
Proof.
  assert (HX : forall fs o t, match o with Optional | Default _ => True | _ => False end ->
    parses (dec_presence fs) (fun es bs => forall l, map fst l = es -> presence_bits fs l = bs) ->
    parses (let* b := BitStream_ReadBit in if fst b then let? es := dec_presence fs in ret (Some (snd b :: es)) else ret None)
      (fun es bs => forall l, map fst l = es -> presence_bits (FCons o t fs) l = bs)).
  { intros fs o t Ho IH. apply (parses_ReadBit_P (fun b => let? es := dec_presence fs in ret (Some (b :: es)))). intros b.
    eapply parses_bindo; [exact IH|]. intros es bs H. apply parses_ret. intros [|[e v] l] El; inversion El; subst.
    cbn [presence_bits]. rewrite (H l eq_refl), app_nil_r. destruct o; try contradiction; reflexivity. }
  induction fs as [|o t fs IH]; intros Hc; cbn [dec_presence canonical_fields] in *.
  - apply parses_ret. intros l _. destruct l; reflexivity.
  - apply andb_prop in Hc. destruct Hc as [Hc Hc3]. apply andb_prop in Hc. destruct Hc as [Hc1 Hc2].
    destruct o; try discriminate; try (apply HX; auto; fail).
    eapply parses_bindo; [apply IH; auto|]. intros es bs H. apply parses_ret. rewrite app_nil_r.
    intros [|[e v] l] El; inversion El; subst. cbn [presence_bits presence app]. apply H; auto.
Qed.
Lemma presence_none : forall fs l, has_presence fs = false -> presence_bits fs l = [].
Proof.
  induction fs as [|o t fs IH]; intros [|[e v] l] H; try reflexivity. cbn [presence_bits has_presence] in *.
  destruct o; try discriminate. cbn. auto.
Qed.


(** The list of flags as dec_presence returns it: TRUE for mandatory components. *)
Fixpoint flags (fs : fields) (es : list bool) : Prop :=
  match fs, es with
  | FNil, [] => True
  | FCons o _ fs, e :: es => (o = Mandatory -> e = true) /\ flags fs es
  | _, _ => False
  end.
Lemma flags_presence : forall fs, parses (dec_presence fs) (fun es _ => flags fs es).
Proof.
  assert (HX : forall fs o t, o <> Mandatory -> parses (dec_presence fs) (fun es _ => flags fs es) ->
    parses (let* b := BitStream_ReadBit in if fst b then let? es := dec_presence fs in ret (Some (snd b :: es)) else ret None)
     (fun es _ => flags (FCons o t fs) es)).
  { intros fs o t Ho IH. apply (parses_ReadBit_P (fun b => let? es := dec_presence fs in ret (Some (b :: es)))). intros b.
    eapply parses_bindo; [exact IH|]. intros es bs H. apply parses_ret. cbn. split; auto. }
  induction fs as [|o t fs IH]; cbn [dec_presence]; [apply parses_ret; exact I|].
  destruct o; try (apply HX; auto; discriminate). eapply parses_bindo; [exact IH|]. intros es bs H. apply parses_ret. cbn. auto.
Qed.
Lemma flags_repeat : forall fs, flags fs (repeat true (fields_len fs)).
Proof. induction fs; cbn; auto. Qed.

Lemma parses_and : forall {A} (f : M (option A)) P Q, parses f P -> parses f (fun a _ => Q a) -> parses f (fun a bs => P a bs /\ Q a).
Proof.
  intros A f P Q HP HQ s a s' HW E. destruct (HP s a s' HW E) as (pre & bs & rest & X1 & X2 & X3 & X4 & X5).
  destruct (HQ s a s' HW E) as (pre' & bs' & rest' & _ & _ & _ & Y & _). exists pre, bs, rest. splits; auto.
Qed.

Lemma canon_ok :
  (forall t, wft t -> canonical t = true -> parses (dec c t true) (enc_of t)) /\
  (forall fs, wf_fields fs -> canonical_fields fs = true -> forall es, flags fs es -> parses (dec_fields c fs es true)
     (fun l bs => map fst l = es /\ valid_fields fs l /\ settled_fields fs l /\ bs = fields_bits false fs l)) /\
  (forall cs, wf_alts cs -> canonical_alts cs = true -> forall i, parses (dec_alt c cs i true)
     (fun v bs => valid_alt cs i v /\ settled_alt cs i v /\ bs = alt_bits false cs i v)).
Proof.
  apply ty_mutind; cbn [wft wf_fields wf_alts canonical canonical_fields canonical_alts].
  - intros _ _. cbn [dec]. apply parses_ext with (f := let* b := BitStream_ReadBit in if fst b then ret (Some (VBool (snd b))) else ret None).
    + intros s. unfold bind. destruct (BitStream_ReadBit s) as [[[[] b] s1]| | |]; reflexivity.
    + apply (parses_ReadBit_P (fun b => ret (Some (VBool b)))). intros b. apply parses_ret. repeat split.
  - intros _ _. cbn [dec]. apply parses_ret. repeat split.
  - intros i p w Hw Hs. destruct i as [[a b| | |]| |]; try discriminate. cbn [dec].
    eapply (parses_retf _ (fun z => Some (VInt z))); [apply canon_int; eauto|]. cbv beta. intros z bs v (H1 & H2 & ->) E. inversion E; subst v.
    unfold enc_of. cbn [valid settled ubits int_bits range_bits valid_int in_range]. auto.
  - intros items eff Hw _. cbn [dec]. apply canon_enum; auto.
  - discriminate.
  - discriminate.
  - intros a min max [Ha Hs] Hg. cbn [dec]. apply andb_prop in Hg. destruct Hg as [Hg1 Hg2].
    eapply (parses_retf _ (fun l => Some (VStr l))); [apply canon_sized; [exact Hs|lia|apply canon_char; auto]|].
    cbv beta. intros l bs v (H1 & H2 & ->) E. inversion E; subst v. unfold enc_of. cbn [valid settled ubits]. splits; auto.
    intros Hne. destruct (Z.eqb_spec min max); [contradiction|]. destruct a as [al|]; [|discriminate]. cbn [orb no_nul in_alpha] in *.
    eapply Forall_impl; [|exact H2]. cbv beta. intros ch Hc ->.
    assert (HE : existsb (Z.eqb 0) al = true) by (apply existsb_exists; exists 0; auto). rewrite HE in Hg2. discriminate.
  - intros min max Hs Hg. apply andb_prop in Hg. destruct Hg as [Hg1 Hg2]. cbn [dec]; unfold octet_dec. rewrite Hg1, Hg2.
    destruct Hs as [Hs1 Hs2].
    eapply (parses_retf _ (fun l => Some (VOct l))); [apply parses_DecodeOctets; lia|].
    cbv beta. intros l bs v (H1 & H2 & ->) E. inversion E; subst v. unfold enc_of. cbn [valid settled ubits]. unfold size_in. splits; auto; try lia.
    unfold usized, sized. rewrite Hg1. replace (negb false && (min =? max) && (65536 <=? max)) with false by lia. unfold octets at 1. rewrite map_length.
    assert (min = max) by lia. subst min. replace (Z.of_nat (length l) - max) with 0 by lia. rewrite crange_same, concat_octets. reflexivity.
  - intros min max [Hs1 Hs2] Hg. cbn [dec]; unfold bit_dec. rewrite Hg.
    eapply (parses_retf _ (fun l => Some (VBit l))) with (P := fun l bs => size_in min max (length l) /\ bs = usized false min max (single_bits l)).
    + unfold usized, sized, size_in. rewrite Hg. replace (negb false && (min =? max) && (65536 <=? max)) with false by lia.
      destruct (Z.eqb_spec min max).
      * eapply parses_weaken; [|apply canon_bits_in; lia]. cbv beta. intros l bs [H1 ->]. rewrite concat_single. unfold single_bits. rewrite map_length.
        split; [lia|]. subst min. replace (Z.of_nat (length l) - max) with 0 by lia. now rewrite crange_same.
      * eapply parses_bindo; [apply parses_constr; auto; unfold is_s64, two63; lia|]. intros n0 bs [Hn ->].
        eapply parses_weaken; [|apply canon_bits_in; lia]. cbv beta. intros l bs [H1 ->]. rewrite concat_single. unfold single_bits. rewrite map_length.
        split; [lia|]. now replace (Z.of_nat (length l)) with n0 by lia.
    + cbv beta. intros l bs v (H1 & ->) E. inversion E; subst v. unfold enc_of. cbn [valid settled ubits]. auto.
  - intros t IH min max [Hs Ht] Hg. apply andb_prop in Hg. destruct Hg as [Hg1 Hg2]. cbn [dec].
    eapply (parses_retf _ (fun l => Some (VSeqOf l))); [apply canon_sized with (V := fun v => valid t v /\ settled t v) (w := ubits false t); [exact Hs|lia|]|].
    + eapply parses_weaken; [|apply IH; auto]. cbv beta. intros v bs (H1 & H2 & ->). auto.
    + cbv beta. intros l bs v (H1 & H2 & ->) E. inversion E; subst v. unfold enc_of. cbn [valid settled ubits]. splits; auto;
        (eapply Forall_impl; [|exact H2]); cbv beta; tauto.
  - intros fs IH Hw Hg. cbn [dec]. unfold enc_of. destruct (has_presence fs) eqn:EP.
    + eapply parses_bindo; [eapply parses_and; [apply canon_presence; auto|apply flags_presence]|]. intros es bs [H1 H2].
      eapply parses_bindo; [apply IH; auto|]. intros l bs' (L1 & L2 & L3 & ->). apply parses_ret. rewrite app_nil_r.
      cbn [valid settled ubits]. splits; auto. now rewrite (H1 l L1).
    + eapply parses_bindo; [apply IH; auto; apply flags_repeat|]. intros l bs' (L1 & L2 & L3 & ->). apply parses_ret. rewrite app_nil_r.
      cbn [valid settled ubits]. splits; auto. now rewrite presence_none.
  - intros cs IH (Hn & HL & Hw) Hg. cbn [dec].
    assert (0 < Z.of_nat (alts_len cs)) by (destruct cs; [congruence|cbn [alts_len]; lia]).
    eapply parses_bindo; [apply parses_constr; auto; unfold is_s64, two63; lia|]. intros i ? [Hi ->]. rewrite Z.sub_0_r.
    destruct (_ && _); [|apply parses_none].
    eapply parses_bindo; [apply IH; auto|]. intros v bs' (V1 & V2 & ->). apply parses_ret. rewrite app_nil_r.
    unfold enc_of. cbn [valid settled ubits]. splits; auto. now rewrite Z2Nat.id by lia.
  - intros ok t IH Hw Hg. cbn [dec]. eapply (parses_retf _ (fun v => if ok v then Some v else None)); [apply IH; auto|].
    intros v bs v' (V1 & V2 & ->) E. destruct (ok v) eqn:EO; inversion E; subst v'.
    unfold enc_of. cbn [valid settled ubits]. splits; auto. now rewrite (proj1 settled_ok t v V1 V2).
  - discriminate.
  - intros _ _ es He. destruct es; cbn [dec_fields]; [|apply parses_ub]. apply parses_ret. repeat split.
  - intros o t IHt fs IHf (Ht & Hf & Hd) Hg es He. apply andb_prop in Hg. destruct Hg as [Hg Hg3]. apply andb_prop in Hg. destruct Hg as [Hg1 Hg2].
    destruct es as [|e es]; cbn [dec_fields]; [apply parses_ub|]. cbn [flags] in He. destruct He as [He1 He2]. destruct (silent t) eqn:Es.
    + eapply parses_bindo; [apply IHt; auto|]. intros v bs1 (V1 & V2 & ->).
      eapply parses_bindo; [apply IHf; eauto|]. intros l bs2 (L1 & L2 & L3 & ->). apply parses_ret. rewrite app_nil_r.
      cbn [map fst valid_fields settled_fields fields_bits]. destruct e.
      * splits; auto; try congruence. destruct o; auto; discriminate.
      * assert (ubits false t v = []) as ->.
        { apply silent_ubits_t; auto. }
        splits; auto; try congruence; destruct o; auto; try discriminate; try (specialize (He1 eq_refl); discriminate).
    + destruct e.
      * eapply parses_bindo; [apply IHt; auto|]. intros v bs1 (V1 & V2 & ->).
        eapply parses_bindo; [apply IHf; eauto|]. intros l bs2 (L1 & L2 & L3 & ->). apply parses_ret. rewrite app_nil_r.
        cbn [map fst valid_fields settled_fields fields_bits]. splits; auto; try congruence. destruct o; auto; discriminate.
      * eapply parses_bindo; [apply IHf; eauto|]. intros l bs2 (L1 & L2 & L3 & ->). apply parses_ret. rewrite app_nil_r.
        cbn [map fst valid_fields settled_fields fields_bits].
        splits; auto; try congruence; destruct o; auto; try discriminate; try (specialize (He1 eq_refl); discriminate).
  - intros _ _ i. cbn [dec_alt]. apply parses_ub.
  - intros t IHt cs IHc (Ht & Hc) Hg [|i]; apply andb_prop in Hg; destruct Hg as [Hg1 Hg2]; cbn [dec_alt valid_alt settled_alt alt_bits]; auto.
Qed.
Lemma canon_uper : forall t, wft t -> canonical t = true -> parses (dec c t true) (enc_of t).
Proof. apply canon_ok. Qed.
End Wrap.
