(** The generated decoders as prefix parsers: a successful result depends on the
    consumed bits only, and these lie inside the declared data. *)
From Verif Require Import Base Bits BitStream BitsProofs BitStreamProofs BitStreamProofs3 Ints IntsProofs SafeProofs RangeProofs
  StrSpec Octets OctetsProofs OctetsProofs2 Contracts Parse ParseProofs
  Misc Oid OidProofs RealSpec RealC RealProofs UperTypes UperSpec Uper UperWf UperProofs1 UperProofs2 UperProofs3 UperProofs4 UperSizes UperClasses UperShape UperProofs5 UperProofs6.
From Coq Require Import ZifyBool ZifyNat Sorting.Sorted.
Ltac Zify.zify_post_hook ::= Z.div_mod_to_equations.

Definition any2 {A} : A -> list bool -> Prop := fun _ _ => True.

Lemma parses_any : forall {A} (f : M (option A)) P, parses f P -> parses f any2.
Proof. intros. eapply parses_weaken; [|eauto]. intros; exact I. Qed.
Lemma parses_then : forall {A B} (f : M (option A)) (g : A -> M (option B)) P,
  parses f P -> (forall a bs, P a bs -> parses (g a) any2) -> parses (let? x := f in g x) any2.
Proof. intros A B f g P H1 H2. eapply parses_bindo; [exact H1|]. intros a bs H. eapply parses_weaken; [|eapply H2; eauto]. intros; exact I. Qed.
Lemma parses_some : forall {A} (a : A), parses (ret (Some a)) any2.
Proof. intros. apply parses_ret. exact I. Qed.
Lemma parses_opt : forall {A} (o : option A), parses (ret o) any2.
Proof. intros A [a|]; [apply parses_some|apply parses_none]. Qed.
Lemma parses_ReadBit : forall {B} (g : bool -> M (option B)), (forall b, parses (g b) any2) ->
  parses (let* b := BitStream_ReadBit in if fst b then g (snd b) else ret None) any2.
Proof.
  intros B g Hg. apply parses_ext with (f := let? b := read_bit in g b).
  - intros s. unfold read_bit, bindo, bind, ret. destruct (BitStream_ReadBit s) as [[[[] b] s1]| | |]; reflexivity.
  - eapply parses_then; [apply parses_read_bit|]. auto.
Qed.

Section Wrap.
Variable c : cfg.
Hypothesis Hovf : ovf_wrap c = true.

Lemma parses_constr : forall min max, is_s64 min -> is_s64 max ->
  parses (BitStream_DecodeConstraintWholeNumber c min max) (fun v bs => min <= v <= max /\ bs = Zbits (crange min max) (v - min)).
Proof. intros. apply parses_DecodeConstraint; auto. right; auto. Qed.

Lemma parses_int : forall i p w, wf_int i p w -> strict_int i = true -> parses (int_dec c i p w) any2.
Proof.
  intros i p w Hw Hs. destruct i as [r|r|r isr]; try discriminate.
  destruct r as [a b|a|b|]; try discriminate; cbn [int_dec range_dec negb wf_int] in *.
  - destruct Hw as (Hw & Hab & Ha & Hb). rewrite Bool.andb_true_r.
    destruct (Z.eqb_spec a b) as [<-|Hne]; [apply parses_some|].
    unfold BitStream_DecodeConstraintWholeNumberIntN, BitStream_DecodeConstraintPosWholeNumberUIntN.
    destruct p; unfold in_class in Ha, Hb.
    + assert (HP : parses (BitStream_DecodeConstraintPosWholeNumber c a b) any2).
      { eapply parses_any, parses_DecodeConstraintPos; unfold two64; destruct Hw as [->|[->|[->| ->]]]; lia. }
      destruct (w =? 64); [auto|]. eapply parses_then; [exact HP|]. intros; apply parses_some.
    + assert (HP : parses (BitStream_DecodeConstraintWholeNumber c a b) any2).
      { eapply parses_any, parses_constr; unfold is_s64, two63; destruct Hw as [->|[->|[->| ->]]]; lia. }
      destruct (w =? 64); [auto|]. eapply parses_then; [exact HP|]. intros; apply parses_some.
  - destruct (_ && _); eapply parses_any; [apply parses_DecodeSemiPos|apply parses_DecodeSemi].
Qed.
Lemma parses_enum : forall items eff, wf_enum items eff -> parses (enum_dec c items eff) any2.
Proof.
  intros items eff (Hn & Hd & HL & He). unfold enum_dec.
  assert (0 < Z.of_nat (length items)) by (destruct items; [congruence|cbn [length]; lia]).
  eapply parses_then; [apply parses_constr; unfold is_s64, two63; lia|]. intros i bs Hi. cbv beta in Hi |- *.
  destruct eff as [arr|]; [|apply parses_opt].
  destruct (_ && _); [|apply parses_none]. apply parses_lift. intros; apply parses_some.
Qed.
Lemma parses_items : forall {A} (f : bool -> M (option A)) cap, parses (f true) any2 -> forall k i,
  parses (dec_items f cap k i) any2.
Proof.
  intros A f cap Hf k. induction k; intros i; cbn [dec_items]; [apply parses_some|].
  destruct (cap <=? i); [apply parses_ub|]. eapply parses_then; [exact Hf|]. intros x ? _.
  eapply parses_then; [apply IHk|]. intros l ? _. apply parses_some.
Qed.
Lemma parses_frag : forall {A} (blk : A -> Z -> Z -> M (option A)) min max fuel a off h, 0 <= h ->
  (forall a o len, 0 <= len -> parses (blk a o len) any2) ->
  parses (dec_frag c blk min max fuel a off h) any2.
Proof.
  intros A blk min max fuel a off h Hh Hb. eapply parses_any, (parses_dec_frag c blk min max fuel 0); auto.
  intros a' o len Hl. eapply parses_weaken; [|apply Hb; auto]. cbv beta. intros; lia.
Qed.
Lemma parses_sized : forall {A} (f : bool -> M (option A)) junk min max, wf_size min max ->
  (max <? 65536) || negb (min =? max) = true -> parses (f true) any2 -> parses (sized_dec c f junk min max true) any2.
Proof.
  intros A f junk min max [Hw Hw2] Hg Hf. unfold sized_dec.
  destruct (Z.ltb_spec max 65536).
  - destruct (Z.eqb_spec min max); [apply parses_items; auto|].
    eapply parses_then; [apply parses_constr; unfold is_s64, two63; lia|]. intros. apply parses_items; auto.
  - destruct (Z.eqb_spec min max); [cbn in Hg; discriminate|].
    eapply parses_then; [apply parses_u8|]. intros h bs Hh. cbv beta in Hh |- *.
    eapply parses_then; [apply parses_frag; [lia|]|].
    + intros a o len Hl. eapply parses_then; [apply parses_items; auto|]. intros; apply parses_some.
    + intros; apply parses_some.
Qed.
Lemma parses_char : forall a, wf_alpha a -> parses (char_dec c a true) any2.
Proof.
  intros [l|] Ha; cbn [char_dec wf_alpha] in *.
  - destruct Ha as (H1 & H2 & H3). assert (0 < Z.of_nat (length l)) by (destruct l; [congruence|cbn [length]; lia]).
    eapply parses_then; [apply parses_constr; unfold is_s64, two63; lia|]. intros i bs Hi. cbv beta in Hi |- *.
    destruct (_ || _); [apply parses_none|]. apply parses_lift. intros; apply parses_some.
  - eapply parses_any, parses_constr; unfold is_s64, two63; lia.
Qed.
Lemma parses_octet : forall min max, wf_size min max ->
  (if max <? 65536 then min =? max else negb (min =? max)) = true -> parses (octet_dec c min max true) any2.
Proof.
  intros min max Hw Hg. unfold octet_dec. pose proof Hw as [Hw1 Hw2].
  destruct (Z.ltb_spec max 65536).
  - rewrite Hg. eapply parses_any, parses_DecodeOctets; lia.
  - apply parses_sized; auto.
    + rewrite Hg. apply Bool.orb_true_r.
    + eapply parses_any, parses_ReadByte.
Qed.
Lemma parses_bits_in : forall max off len, 0 <= len -> parses (read_bits_in max off len) any2.
Proof.
  intros max off len Hl. unfold read_bits_in. eapply parses_then; [apply parses_ReadBits; auto|].
  intros d bs _. destruct (_ <? _); [apply parses_ub|apply parses_some].
Qed.
Lemma parses_blk : forall {A B} (g : M (option A)) (f : A -> B) (d : B) (k : B -> M (option B)),
  parses g any2 -> (forall b, parses (k b) any2) ->
  parses (let* p := (let* o := g in ret (match o with Some l => (f l, true) | None => (d, false) end)) in
        if snd p then k (fst p) else ret None) any2.
Proof.
  intros A B g f d k Hg Hk. apply parses_ext with (f := let? l := g in k (f l)).
  - intros s. unfold bindo, bind, ret. destruct (g s) as [[[l|] s1]| | |]; reflexivity.
  - eapply parses_then; [exact Hg|]. intros; apply Hk.
Qed.
Lemma parses_bit_64K : forall max k a off, parses (dec_64K c (bit_blk max) k a off) any2.
Proof.
  intros max. induction k; intros a off; cbn [dec_64K]; [apply parses_some|].
  eapply parses_then; [apply parses_u8|]. intros h bs Hh. destruct (h =? 196); [|apply parses_none].
  apply (parses_blk (read_bits_in max off 65536) (fun l => a ++ l) a (fun b => dec_64K c (bit_blk max) k b (off + 65536))).
  { apply parses_bits_in; lia. }
  intros b. apply IHk; lia.
Qed.
Lemma parses_bit_small : forall max ps a off rem, Forall (fun p => 0 <= snd p) ps -> 0 <= rem ->
  parses (dec_small c (bit_blk max) ps a off rem) any2.
Proof.
  intros max. induction ps as [|[id bs] ps IH]; intros a off rem HF Hr; cbn [dec_small].
  - destruct (rem =? 0); [apply parses_some|].
    eapply parses_then with (P := any2).
    { destruct (rem <=? 127); eapply parses_any, parses_constr; unfold is_s64, two63; lia. }
    intros h ? _. destruct (if rem <=? 127 then _ else _); [|apply parses_none].
    apply parses_ext with (f := let? l := read_bits_in max off rem in ret (Some (a ++ l))).
    { intros s. unfold bit_blk, bindo, bind, ret. destruct (read_bits_in max off rem s) as [[[l|] s1]| | |]; reflexivity. }
    eapply parses_then; [apply parses_bits_in; lia|]. intros; apply parses_some.
  - pose proof (Forall_inv HF) as Hbs. cbn [snd] in Hbs.
    eapply parses_then; [apply parses_u8|]. intros h ? Hh. destruct (h =? id); [|apply parses_none].
    apply (parses_blk (read_bits_in max off bs) (fun l => a ++ l) a (fun b => dec_small c (bit_blk max) ps b (off + bs) rem)).
    { apply parses_bits_in; lia. }
    intros b. apply IH; try lia. eapply Forall_inv_tail; eauto.
Qed.
Lemma parses_bit : forall min max, wf_size min max -> parses (bit_dec c min max true) any2.
Proof.
  intros min max [Hw1 Hw2]. unfold bit_dec.
  destruct (Z.ltb_spec max 65536).
  - destruct (Z.eqb_spec min max); [apply parses_bits_in; lia|].
    eapply parses_then; [apply parses_constr; unfold is_s64, two63; lia|]. intros n0 ? Hn. cbv beta in Hn |- *. apply parses_bits_in; lia.
  - destruct (Z.eqb_spec min max).
    + unfold dec_fixed. fold (bit_blk max). eapply parses_then; [apply parses_bit_64K|]. intros a' ? _.
      destruct (small_parts_facts (max mod 65536) ltac:(lia)) as [H1 H2].
      apply parses_bit_small; [exact H1|exact H2].
    + eapply parses_then; [apply parses_u8|]. intros h ? Hh. cbv beta in Hh |- *.
      eapply parses_then; [apply parses_frag; [lia|]|].
      * intros a o len Hl. eapply parses_then; [apply parses_bits_in; lia|]. intros l ? _. apply parses_some.
      * intros; apply parses_some.
Qed.
Lemma parses_presence : forall fs, parses (dec_presence fs) any2.
Proof.
  assert (HX : forall fs, parses (dec_presence fs) any2 ->
    parses (let* b := BitStream_ReadBit in if fst b then let? es := dec_presence fs in ret (Some (snd b :: es)) else ret None) any2).
  { intros fs IH. apply (parses_ReadBit (fun b => let? es := dec_presence fs in ret (Some (b :: es)))). intros b.
    eapply parses_then; [exact IH|]. intros; apply parses_some. }
  induction fs as [|o t fs IH]; cbn [dec_presence]; [apply parses_some|].
  destruct o; try (apply HX; auto). eapply parses_then; [exact IH|]. intros; apply parses_some.
Qed.

Lemma parses_ok :
  (forall t, wft t -> strict t = true -> parses (dec c t true) any2) /\
  (forall fs, wf_fields fs -> strict_fields fs = true -> forall es, parses (dec_fields c fs es true) any2) /\
  (forall cs, wf_alts cs -> strict_alts cs = true -> forall i, parses (dec_alt c cs i true) any2).
Proof.
  apply ty_mutind; cbn [wft wf_fields wf_alts strict strict_fields strict_alts].
  - intros _ _. cbn [dec]. apply parses_ext with (f := let* b := BitStream_ReadBit in if fst b then ret (Some (VBool (snd b))) else ret None).
    + intros s. unfold bind. destruct (BitStream_ReadBit s) as [[[[] b] s1]| | |]; reflexivity.
    + apply (parses_ReadBit (fun b => ret (Some (VBool b)))). intros; apply parses_some.
  - intros _ _. cbn [dec]. apply parses_opt.
  - intros i p w Hw Hs. cbn [dec]. eapply parses_then; [apply parses_int; eauto|]. intros; apply parses_some.
  - intros items eff Hw _. cbn [dec]. apply parses_enum; auto.
  - intros rel _ _. cbn [dec]. eapply parses_then with (P := any2).
    + destruct rel; eapply parses_any; [apply parses_RelativeOID|apply parses_ObjectIdentifier].
    + intros; apply parses_some.
  - intros f _ Hf. discriminate.
  - intros a min max [Ha Hs] Hg. cbn [dec]. eapply parses_then; [apply parses_sized; auto; apply parses_char; auto|]. intros; apply parses_some.
  - intros min max Hs Hg. cbn [dec]. eapply parses_then; [apply parses_octet; auto|]. intros; apply parses_some.
  - intros min max Hs Hg. cbn [dec]. eapply parses_then; [apply parses_bit; auto|]. intros; apply parses_some.
  - intros t IH min max [Hs Ht] Hg. apply andb_prop in Hg. destruct Hg as [Hg1 Hg2]. cbn [dec].
    eapply parses_then; [apply parses_sized; auto|]. intros; apply parses_some.
  - intros fs IH Hw Hg. cbn [dec]. destruct (has_presence fs).
    + eapply parses_then; [apply parses_presence|]. intros es ? _.
      eapply parses_then; [apply IH; auto|]. intros; apply parses_some.
    + eapply parses_then; [apply IH; auto|]. intros; apply parses_some.
  - intros cs IH (Hn & HL & Hw) Hg. cbn [dec].
    assert (0 < Z.of_nat (alts_len cs)) by (destruct cs; [congruence|cbn [alts_len]; lia]).
    eapply parses_then; [apply parses_constr; unfold is_s64, two63; lia|]. intros i ? Hi. cbv beta in Hi |- *.
    destruct (_ && _); [|apply parses_none].
    eapply parses_then; [apply IH; auto|]. intros; apply parses_some.
  - intros ok t IH Hw Hg. cbn [dec]. eapply parses_then; [apply IH; auto|]. intros; apply parses_opt.
  - intros bits min max req t IH [[Hw1 Hw2] Ht] ->. cbn [dec].
    eapply parses_then; [apply parses_DecodeBitString; unfold is_s64, two63; lia|]. intros p ? _.
    unfold run_on. apply parses_lift. intros [o s] _. apply parses_opt.
  - intros _ _ es. destruct es; cbn [dec_fields]; [apply parses_opt|apply parses_ub].
  - intros o t IHt fs IHf (Ht & Hf & Hd) Hg es. apply andb_prop in Hg. destruct Hg as [Hg1 Hg2].
    destruct es as [|e es]; cbn [dec_fields]; [apply parses_ub|]. destruct (silent t) eqn:Es.
    + eapply parses_then; [apply IHt; auto|]. intros v ? _. eapply parses_then; [apply IHf; auto|]. intros; apply parses_some.
    + destruct e.
      * eapply parses_then; [apply IHt; auto|]. intros v ? _. eapply parses_then; [apply IHf; auto|]. intros; apply parses_some.
      * eapply parses_then; [apply IHf; auto|]. intros; apply parses_some.
  - intros _ _ i. cbn [dec_alt]. apply parses_ub.
  - intros t IHt cs IHc (Ht & Hc) Hg [|i]; apply andb_prop in Hg; destruct Hg as [Hg1 Hg2]; cbn [dec_alt]; auto.
Qed.
Lemma parses_uper : forall t, wft t -> strict t = true -> parses (dec c t true) any2.
Proof. apply parses_ok. Qed.
End Wrap.
