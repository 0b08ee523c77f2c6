(** C59: the generated ACN decoders accept only encodings. Statements only; the proofs are in
    AcnCanonProofs*.v and Properties18Proofs.v. *)
From Verif Require Import Base Bits BitStream Contracts Parse RealSpec UperTypes UperSpec UperWf UperCanon AcnGen AcnGenSpec AcnGenShape AcnCanon.
From Verif Require Properties18Proofs.
From Coq Require Import Sorting.Sorted.

Definition no_scope : scope := fun _ => None.
(** A message with a length, a presence flag and a selector as ACN fields. *)
Definition ex_type : aty :=
  ASeq (GAcn 1 (AInt (KUper 0 7) 8 None)
       (GAcn 2 (ABool BTrue [0x80] [0x00] 1)
       (GAcn 3 (AEnum [(0, 5); (1, 9)] (KPosLE 2) 32)
       (GPad (ANull (Some ([0xA0], 3)) false)
       (GAsn OMandatory (AOct (SzExt 1 (Some 1) (Some 5)) 1 5)
       (GAsn (OOptional (PDet 2) None) (AInt (KTwosLE 2) 16 (Some (fun z => z + 1, fun z => z - 1)))
       (GAsn OMandatory (AChoice (CEnum 3 [0; 1]) (HCons (AReal true false true) (HCons (AStr (SNull [0]) 1 4) HNil)))
       (GAsn (OOptional PBit (Some (VInt 7))) (AInt (KUText 2) 64 None)
       (GAsn OMandatory (ASeqOf (AUper (TInt (INoExt (Concrete 0 3)) true 8)) (SzNull [0xFF] 8) 1 3)
        GNil))))))))).
Definition ex_value : value :=
  VSeq [(true, Some (VOct [1; 2; 3]));
        (true, Some (VInt (-2)));
        (true, Some (VChoice 1 (VStr [72; 105])));
        (false, Some (VInt 7));
        (true, Some (VSeqOf [VInt 1; VInt 2]))].
Definition ex_bits : list bool :=
  [false] ++ [false; true; true] ++ [true] ++ bits_of_bytes [9; 0] ++ [true; false; true] ++ bits_of_bytes [1; 2; 3] ++
  bits_of_bytes [0xFF; 0xFF] ++ bits_of_bytes [72; 105; 0] ++ [false; true; true; false] ++ bits_of_bytes [0xFF].

(** * C59 *)
(** Whatever bits are offered: when a decoder returns a value and its minimal sizes are right,
    the bits consumed encode it, in the sense of C51. *)
Theorem C59_only : forall c h t, ovf_wrap c = true -> shl_wrap c = true -> wfa t -> exact no_scope t -> forall s v s', wfp s ->
  adec c h t [] s = Ok (Some v, s') -> whole t v = true -> encodes c false t [] v (pos s) (taken s s') /\ anorm t v = v.
Proof. intros c h t H1 H2 H3 H4. exact (Properties18Proofs.only c H1 H2 h t H3 H4). Qed.
(** So the encoder, given the value decoded, writes the bits that were consumed, provided each
    determinant has a consumer. *)
Theorem C59_reencode : forall c h t, ovf_wrap c = true -> shl_wrap c = true -> wfa t -> exact no_scope t -> forall s v s', wfp s ->
  adec c h t [] s = Ok (Some v, s') -> whole t v = true -> served t v -> writesAt (pos s) (aenc c h t v) true (taken s s').
Proof. intros c h t H1 H2 H3 H4. exact (Properties18Proofs.reencode c H1 H2 h t H3 H4). Qed.
(** No value has two forms that are accepted. *)
Theorem C59_one_form : forall c h t, ovf_wrap c = true -> shl_wrap c = true -> wfa t -> exact no_scope t -> forall s1 s2 v s1' s2', wfp s1 -> wfp s2 ->
  pos s1 = pos s2 -> adec c h t [] s1 = Ok (Some v, s1') -> adec c h t [] s2 = Ok (Some v, s2') -> whole t v = true -> served t v ->
  taken s1 s1' = taken s2 s2'.
Proof. intros c h t H1 H2 H3 H4. exact (Properties18Proofs.one_form c H1 H2 h t H3 H4). Qed.
(** With C51: a decoder returns a value of permitted size exactly when an encoding of it is next
    in the declared data. *)
Theorem C59_exact : forall c h t, ovf_wrap c = true -> shl_wrap c = true -> wfa t -> exact no_scope t -> forall s v, wfp s ->
  (exists s', adec c h t [] s = Ok (Some v, s') /\ whole t v = true) <->
  (whole t v = true /\ anorm t v = v /\ exists bs rest, encodes c false t [] v (pos s) bs /\
     bits_of_bytes (buf s) = firstn (Z.to_nat (pos s)) (bits_of_bytes (buf s)) ++ bs ++ rest /\ pos s + Z.of_nat (length bs) <= 8 * count s).
Proof. intros c h t H1 H2 H3 H4. exact (Properties18Proofs.accepted_iff c H1 H2 h t H3 H4). Qed.

Ltac wf_tac := cbv [wfa wfa_fields wfa_alts ex_type aalts_len length wf_codec wf_szkind wf_pat exact_pat wf_size wf_str wf_choice binds_fields binds wf_int];
    repeat split; try reflexivity; try (vm_compute; congruence); try (vm_compute; intuition congruence); try congruence;
    try (repeat constructor; vm_compute; intuition congruence);
    try (vm_compute; auto 10; fail);
    try (exists []; reflexivity).
Definition ex_bytes (bs : list bool) : list Z := pack (zeros 3 ++ bs).
Definition result (t : aty) (bytes : list Z) (k : Z) : option (option value) :=
  match adec wrapv true t [] (mkbs bytes (Z.of_nat (length bytes)) 0 k) with Ok (r, _) => Some r | _ => None end.
(** One bit of the message changed: another value, or none. *)
Definition flip (i : nat) (l : list bool) : list bool := firstn i l ++ match skipn i l with b :: r => negb b :: r | [] => [] end.
Example C59_example : wfa ex_type /\ exact no_scope ex_type /\ served ex_type ex_value /\ whole ex_type ex_value = true /\
  result ex_type (ex_bytes ex_bits) 3 = Some (Some ex_value) /\
  (exists s', adec wrapv true ex_type [] (mkbs (ex_bytes ex_bits) 14 0 3) = Ok (Some ex_value, s') /\
    taken (mkbs (ex_bytes ex_bits) 14 0 3) s' = ex_bits) /\
  forallb (fun i => match result ex_type (ex_bytes (flip i ex_bits) ++ [0xFF; 0xFF; 0xFF; 0xFF]) 3 with
                    | Some (Some (VSeq [(true, Some (VOct [1; 2; 3])); (true, Some (VInt (-2)));
                                        (true, Some (VChoice 1 (VStr [72; 105]))); (false, Some (VInt 7)); (true, Some (VSeqOf [VInt 1; VInt 2]))])) => false
                    | _ => true end) (seq 0 (length ex_bits)) = true.
Proof.
  split; [wf_tac|]. split; [|split; [|split; [reflexivity|split; [vm_compute; reflexivity|split; [eexists; vm_compute; split; reflexivity|vm_compute; reflexivity]]]]].
  - cbv [exact exact_fields exact_alts ex_type exact_codec exact_length scalar blank canonical choice_ok orb].
    repeat split; auto; try (change (2 ^ 64) with 18446744073709551616; lia).
    + right. split; [|exact I]. exists (Some (0, 7)). split; [reflexivity|]. unfold within, tested. cbn. lia.
    + right. split; [lia|]. intros z. lia.
  - cbn. repeat split; auto. all: try (left; reflexivity). all: eauto 12.
Qed.

(** ** False outside the class *)
Ltac pfx l n b := split; [wf_tac|]; eexists (mkbs l n 0 b), _, _; split; [unfold wfp, inside; cbn; repeat split; try (repeat constructor; unfold is_byte; lia); try lia|
  split; [vm_compute; reflexivity|split; [reflexivity|]]].
Ltac more l n b := pfx l n b; intros H; vm_compute in H; decompose [ex and] H; try discriminate; try congruence.
(** align-to-next byte: the padding is not looked at *)
Theorem C59_padding_refuted : accepts_more wrapv true (AAlign 8 (AInt KPos8 64 None)).
Proof. more [0xFF; 5] 2 3. Qed.
(** true-value '11111111'B, no false-value: 01010101 is FALSE *)
Theorem C59_boolean_refuted : accepts_more wrapv true (ABool BTrue [0xFF] [0x00] 8).
Proof. more [0x55] 1 0. Qed.
(** NULL with save-position: the pattern is skipped *)
Theorem C59_null_refuted : accepts_more wrapv true (ANull (Some ([0xA0], 3)) true).
Proof. more [0x00] 1 0. Qed.
(** BCD, one digit: the digit 12 *)
Theorem C59_bcd_refuted : accepts_more wrapv true (AInt (KBcd 1) 64 None).
Proof. more [0xC0] 1 0. Qed.
(** ASCII, two characters: "-0" *)
Theorem C59_text_refuted : accepts_more wrapv true (AInt (KText 2) 64 None).
Proof. more [45; 48] 2 0. Qed.
(** Unsigned ASCII, 20 digits: 18446744073709551617 is taken for 1 *)
Theorem C59_wrap_refuted : accepts_more wrapv true (AInt (KUText 20) 64 None).
Proof. more [49; 56; 52; 52; 54; 55; 52; 52; 48; 55; 51; 55; 48; 57; 53; 53; 49; 54; 49; 55] 20 0. Qed.
(** 16 bits read into a variable of 8: 261 is taken for 5 *)
Theorem C59_narrow_refuted : accepts_more wrapv true (AInt (KPos 16) 8 None).
Proof. more [1; 5] 2 0. Qed.
(** Length in one octet: a leading zero octet *)
Theorem C59_leading_refuted : accepts_more wrapv true (AInt KPosVar 64 None) /\ accepts_more wrapv true (AInt KTwosVar 64 None).
Proof. split; more [2; 0; 5] 3 0. Qed.
(** IA5String (SIZE(0..3)): the characters NUL and "A" *)
Theorem C59_nul_refuted : accepts_more wrapv true (AStr SAscii 0 3).
Proof. more [0x80; 0x10; 0x40] 3 0. Qed.
(** OCTET STRING (SIZE(1..5)): length 8 is taken for 0 *)
Theorem C59_octets_refuted : accepts_more wrapv true (AOct SzEmbedded 1 5).
Proof. more [0xE0] 1 0. Qed.
(** SEQUENCE (SIZE(2..4)) OF, the size in an ACN field that is not tested against 2 *)
Theorem C59_length_refuted : accepts_more wrapv true
  (ASeq (GAcn 1 (AInt KPos8 8 None) (GAsn OMandatory (ASeqOf (AUper TBool) (SzExt 1 None (Some 4)) 2 4) GNil))).
Proof.
  pfx [1; 0x80] 2 0. intros (bs2 & _ & x & b1 & b2 & _ & _ & _ & (b3 & b4 & _ & (lead & bss & trail & [HS _] & _) & _) & _).
  unfold size_in in HS. cbn in HS. lia.
Qed.
(** [whole] is needed: NaN, and a string that is too short *)
Definition accepts_poor (c : cfg) (h : bool) (t : aty) : Prop :=
  wfa t /\ exact no_scope t /\ exists s v s', wfp s /\ adec c h t [] s = Ok (Some v, s') /\ ~ encodes c false t [] v (pos s) (taken s s').
Theorem C59_nan_refuted : accepts_poor wrapv true (AReal true true false).
Proof.
  split; [wf_tac|split; [exact I|]]. eexists (mkbs [0x7F; 0xF8; 0; 0; 0; 0; 0; 1] 8 0 0), _, _. split; [unfold wfp, inside; cbn; repeat split; try (repeat constructor; unfold is_byte; lia); try lia|].
  split; [vm_compute; reflexivity|]. intros (u & _ & _ & H & _). congruence.
Qed.
Theorem C59_short_refuted : accepts_poor wrapv true (AStr (SNull [0]) 2 4).
Proof.
  split; [wf_tac|split; [reflexivity|]]. eexists (mkbs [65; 0] 2 0 0), _, _. split; [unfold wfp, inside; cbn; repeat split; try (repeat constructor; unfold is_byte; lia); try lia|].
  split; [vm_compute; reflexivity|]. intros [H _]. vm_compute in H. destruct H. congruence.
Qed.
(** [served] is needed: a length whose only consumer is absent *)
Theorem C59_unused_refuted : let t := ASeq (GAcn 1 (AInt KPos8 8 None) (GAsn (OOptional PBit None) (AOct (SzExt 1 (Some 0) (Some 255)) 0 255) GNil)) in
  wfa t /\ exact no_scope t /\ exists s1 s2 v s1' s2', wfp s1 /\ wfp s2 /\ pos s1 = pos s2 /\
    adec wrapv true t [] s1 = Ok (Some v, s1') /\ adec wrapv true t [] s2 = Ok (Some v, s2') /\ whole t v = true /\ taken s1 s1' <> taken s2 s2'.
Proof.
  cbv zeta. split; [wf_tac|split].
  - cbn. repeat split; auto. right. split; auto. exists (Some (0, 255)). split; [reflexivity|]. unfold within. lia.
  - eexists (mkbs [0x01; 0x80] 2 0 0), (mkbs [0x02; 0x00] 2 0 0), _, _, _.
    split; [unfold wfp, inside; cbn; repeat split; try (repeat constructor; unfold is_byte; lia); try lia|].
    split; [unfold wfp, inside; cbn; repeat split; try (repeat constructor; unfold is_byte; lia); try lia|].
    split; [reflexivity|]. split; [vm_compute; reflexivity|]. split; [vm_compute; reflexivity|]. split; [reflexivity|]. vm_compute. congruence.
Qed.

(** * Assumptions of all theorems above *)
Definition theorems18 := (
  @C59_only, @C59_reencode, @C59_one_form, @C59_exact, @C59_padding_refuted, @C59_boolean_refuted,
  @C59_null_refuted, @C59_bcd_refuted, @C59_text_refuted, @C59_wrap_refuted, @C59_narrow_refuted,
  @C59_leading_refuted, @C59_nul_refuted, @C59_octets_refuted, @C59_length_refuted, @C59_nan_refuted,
  @C59_short_refuted, @C59_unused_refuted).
Print Assumptions theorems18.
