(** C58: the generated uPER decoders accept only encodings. Statements only; the proofs are in
    UperCanonProofs.v and Properties17Proofs.v. *)
From Verif Require Import Base Bits Contracts Parse UperTypes UperSpec Uper UperWf UperCanon.
From Verif Require UperCanonProofs Properties17Proofs.
From Coq Require Import Sorting.Sorted.

Ltac parts :=
  match goal with
  | |- _ /\ _ => split; parts
  | |- Forall _ _ => constructor; parts
  | |- StronglySorted _ _ => constructor; parts
  | |- NoDup _ => constructor; cbn; parts
  | |- True => exact I
  | |- is_s64 _ => unfold is_s64, two63; lia
  | |- _ => try lia
  end.

(** TestType ::= SEQUENCE { n INTEGER (-1..6), l SEQUENCE (SIZE(0..4)) OF CHOICE { BOOLEAN, NULL, IA5String
    (SIZE(0..3)) (FROM ("A".."C")) } OPTIONAL, e ENUMERATED { 5, 7, 9 } DEFAULT 7, o OCTET STRING (SIZE(1)),
    b BIT STRING (SIZE(0..5)) } *)
Definition ex_type : ty :=
  TRef (fun v => match v with VSeq ((_, Some (VInt z)) :: _) => negb (z =? 3) | _ => false end)
    (TSeq (FCons Mandatory (TInt (INoExt (Concrete (-1) 6)) false 8)
          (FCons Optional (TSeqOf (TChoice (ACons TBool (ACons TNull (ACons (TStr (Some [65; 66; 67]) 0 3) ANil)))) 0 4)
          (FCons (Default (VEnum 7)) (TEnum [5; 7; 9] (Some [5; 7; 9]))
          (FCons Mandatory (TOct 1 1)
          (FCons Mandatory (TBit 0 5)
           FNil)))))).
Definition ex_value : value :=
  VSeq [(true, Some (VInt 4));
        (true, Some (VSeqOf [VChoice 2 (VStr [67; 65]); VChoice 0 (VBool true); VChoice 1 VNull]));
        (false, Some (VEnum 7));
        (true, Some (VOct [0xA5]));
        (true, Some (VBit [true; false; true]))].
Definition ex_bytes : list Z := [0xAB; 0xA8; 0x2D; 0x2B; 0xA0].

(** * C58 *)
(** Whatever bits are offered: what a decoder returns is a value of the type, with absent
    components set to their default, and the bits consumed are its encoding. *)
Theorem C58_only : forall c t, ovf_wrap c = true -> wft t -> canonical t = true -> forall s v s', wfp s -> dec c t true s = Ok (Some v, s') ->
  valid t v /\ settled t v /\ taken s s' = ubits false t v.
Proof. exact Properties17Proofs.only. Qed.
(** So the encoder, given the value decoded, writes the bits that were consumed. *)
Theorem C58_reencode : forall c t, ovf_wrap c = true -> wft t -> canonical t = true -> forall s v s', wfp s -> dec c t true s = Ok (Some v, s') ->
  writes (enc c t true v) true (taken s s').
Proof. exact Properties17Proofs.reencode. Qed.
(** No value has two forms that are accepted. *)
Theorem C58_one_form : forall c t, ovf_wrap c = true -> wft t -> canonical t = true -> forall s1 s2 v s1' s2', wfp s1 -> wfp s2 ->
  dec c t true s1 = Ok (Some v, s1') -> dec c t true s2 = Ok (Some v, s2') -> taken s1 s1' = taken s2 s2'.
Proof. exact Properties17Proofs.one_form. Qed.
(** With C30: a decoder returns a value exactly when its encoding is next in the declared data. *)
Theorem C58_exact : forall c t, ovf_wrap c = true -> wft t -> canonical t = true -> forall s v, wfp s ->
  (exists s', dec c t true s = Ok (Some v, s')) <->
  (valid t v /\ settled t v /\ exists rest, bits_of_bytes (buf s) = firstn (Z.to_nat (pos s)) (bits_of_bytes (buf s)) ++ ubits false t v ++ rest /\
     pos s + Z.of_nat (length (ubits false t v)) <= 8 * count s).
Proof. exact Properties17Proofs.accepted_iff. Qed.
Example C58_example : wft ex_type /\ canonical ex_type = true /\
  (exists s', dec wrapv ex_type true (mkbs ex_bytes 5 0 0) = Ok (Some ex_value, s') /\
    taken (mkbs ex_bytes 5 0 0) s' = ubits false ex_type ex_value) /\
  (exists s', dec wrapv ex_type true (mkbs [0x25; 0x2B; 0xA0] 3 0 0) = Ok (None, s')) /\   (* n = 3 *)
  (exists s', dec wrapv ex_type true (mkbs [0x6E; 0x2B; 0xA0] 3 0 0) = Ok (None, s')).   (* enumerator 3 *)
Proof.
  split; [|split; [reflexivity|]].
  - cbv [ex_type wft wf_fields wf_alts alts_len length Z.of_nat Pos.of_succ_nat Pos.succ wf_int wf_size wf_enum in_class wf_alpha].
    parts. all: cbn; try lia; try congruence; intuition congruence.
  - split; [|split]; eexists; [split|..]; vm_compute; reflexivity.
Qed.

(** ** False outside the class *)
Ltac more l n := eexists (mkbs l n 0 0), _, _; split; [unfold wfp, inside, is_byte; cbn; parts|split; [vm_compute; reflexivity|
    first [intros [_ H]; vm_compute in H; discriminate H|intros [H _]; revert H; vm_compute; intuition congruence]]].
(** IA5String (SIZE(0..5)): the characters NUL and "A" *)
Theorem C58_nul_refuted : accepts_more wrapv (TStr None 0 5).
Proof. split; [cbn; unfold wf_size; lia|]. 
  eexists (mkbs [0x40; 0x20; 0x80] 3 0 0), _, _. split; [unfold wfp, inside, is_byte; cbn; parts|split; [vm_compute; reflexivity|]].
  intros [(_ & _ & H) _]. specialize (H ltac:(discriminate)). inversion H. congruence.
Qed.
(** OCTET STRING (SIZE(1..5)): length 8 *)
Theorem C58_octets_refuted : accepts_more wrapv (TOct 1 5).
Proof. split; [cbn; unfold wf_size; lia|]. more [0xE0] 1. Qed.
(** INTEGER (0..MAX): a leading zero octet *)
Theorem C58_semi_refuted : accepts_more wrapv (TInt (INoExt (PosInf 0)) true 64).
Proof. split; [cbn; lia|]. more [2; 0; 5] 3. Qed.
(** INTEGER: the same *)
Theorem C58_integer_refuted : accepts_more wrapv (TInt (INoExt Full) false 64).
Proof. split; [cbn; lia|]. more [2; 0; 5] 3. Qed.
(** INTEGER (0..3, ..., 10): a value of the root in the form for the extension *)
Theorem C58_extension_refuted : accepts_more wrapv (TInt (IExt2 (Concrete 0 3) (fun z => (0 <=? z) && (z <=? 3))) false 64).
Proof. split; [cbn; unfold is_s64, two63; lia|]. more [0x80; 0x81; 0] 3. Qed.
(** RELATIVE-OID: a subidentifier with leading zeros *)
Theorem C58_oid_refuted : accepts_more wrapv (TOid true).
Proof. split; [exact I|]. more [2; 0x80; 5] 3. Qed.
(** REAL: the value 1, its exponent in two octets *)
Theorem C58_real_refuted : accepts_more wrapv (TReal false).
Proof. split; [exact I|]. more [4; 0x81; 0; 0; 1] 5. Qed.
(** OCTET STRING (SIZE(0..65536)): one octet, length in two octets *)
Theorem C58_length_refuted : accepts_more wrapv (TOct 0 65536).
Proof. split; [cbn; unfold wf_size; lia|]. more [0x80; 1; 7] 3. Qed.
(** WITH COMPONENTS { b ABSENT } and { b PRESENT }: the bit that says otherwise *)
Theorem C58_absent_refuted : accepts_more wrapv (TSeq (FCons AlwaysAbsent TBool FNil)).
Proof. split; [cbn; auto|]. more [0xC0] 1. Qed.
Theorem C58_present_refuted : accepts_more wrapv (TSeq (FCons AlwaysPresent TBool FNil)).
Proof. split; [cbn; auto|]. more [0x00] 1. Qed.
(** OCTET STRING (CONTAINING BOOLEAN): the bits after the contained value are not looked at *)
Theorem C58_containing_refuted : accepts_more wrapv (TCont false 1 1 1 (TRef (fun _ => true) TBool)).
Proof. split; [cbn; unfold wf_size; lia|]. more [0xFF] 1. Qed.

(** * Assumptions of all theorems above *)
Definition theorems17 := (
  @C58_only, @C58_reencode, @C58_one_form, @C58_exact, @C58_nul_refuted, @C58_octets_refuted,
  @C58_semi_refuted, @C58_integer_refuted, @C58_extension_refuted, @C58_oid_refuted, @C58_real_refuted,
  @C58_length_refuted, @C58_absent_refuted, @C58_present_refuted, @C58_containing_refuted).
Print Assumptions theorems17.
