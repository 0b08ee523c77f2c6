(** C54: the generated ACN decoders on any input. Statements only. *)
From Verif Require Import Base Bits StrSpec BitStream Ints Octets Misc Contracts RealSpec RealC UperTypes UperSpec Uper UperWf UperSizes UperClasses
  Acn AcnStr AcnReal AcnSpec AcnGen AcnGenSpec UperShape AcnGenShape.
From Verif Require Properties13Proofs.
From Coq Require Import Sorting.Sorted.

Ltac run :=
  lazymatch goal with
  | |- _ /\ _ => split; [run|run]
  | |- _ => vm_compute; first [reflexivity | discriminate | split; run | idtac]
  end.
Ltac wf := cbn; unfold wf_codec, wf_size, exact_pat, wf_pat; repeat split; auto; try lia; try discriminate;
  try (repeat constructor; unfold is_byte; lia); try (repeat constructor; cbn; lia); try (cbn; lia); try (eexists; reflexivity).

(** No determinant in scope. *)
Definition nothing : scope := fun _ => None.

(** Lengths, presence and choice told by ACN fields; a terminated list; alignment. *)
Definition ex_sturdy : aty :=
  ASeq (GAcn 1 (AInt KPos8 64 None)
       (GAcn 2 (ABool BTrue [0x80] [0x00] 1)
       (GAcn 3 (AEnum [(0, 5); (1, 9)] (KPosLE 2) 32)
       (GAsn OMandatory (AOct (SzExt 1 None (Some 5)) 0 5)
       (GAsn (OOptional (PDet 2) None) (AAlign 8 (AInt (KTwosLE 2) 16 None))
       (GAsn OMandatory (AChoice (CEnum 3 [0; 1]) (HCons (AReal false false true) (HCons (AStr SAscii 0 4) HNil)))
       (GAsn (OOptional PBit (Some (VInt 7))) (AInt (KTextNull [0]) 64 None)
       (GAsn OMandatory (ASeqOf (AUper (TInt (INoExt (Concrete 0 3)) true 8)) (SzNull [0xFF] 8) 0 3)
        GNil)))))))).

(** * C54 *)
(** Asserts disabled and wrapping arithmetic; with any determinants in scope. The
    result is what the C type can hold; see AcnGenShape.v for [sturdy] and [ashape]. *)
Theorem C54_safe : forall c h t s e, ovf_wrap c = true -> shl_wrap c = true -> ndebug c = true -> wfa t -> sturdy s t ->
  (forall d k, s d = Some k -> exists v, lookup d e = Some v /\ of_kind k v) ->
  safe (adec c h t e) (ashape t).
Proof. exact Properties13Proofs.decoder_safe. Qed.
Theorem C54_type_assignment : forall c h t ok, ovf_wrap c = true -> shl_wrap c = true -> ndebug c = true -> wfa t -> sturdy nothing t ->
  safe (ACN_Decode c h t ok) (fun v => ashape t v /\ ok v = true).
Proof. exact Properties13Proofs.assignment_safe. Qed.
Example C54_example : wfa ex_sturdy /\ sturdy nothing ex_sturdy /\
  exists s, adec (mkcfg true true true) true ex_sturdy [] (mkbs [0x01; 0x04; 0x80; 0x09; 0xFF; 0; 0; 0] 7 0 0) = Ok (None, s).
Proof.
  split; [|split].
  - wf.
  - cbn. repeat (split; [solve [auto | right; auto]|]). cbn. repeat split; auto.
    right. exists (Some (0, 255)). split; [reflexivity|]. right. intros x [H1 _] [_ H2]. lia.
  - eexists. vm_compute. reflexivity.
Qed.

(** With asserts a character that is not a digit ends the program. *)
Theorem C54_assert_refuted : wfa (AInt (KUText 2) 64 None) /\ sturdy nothing (AInt (KUText 2) 64 None) /\
  adec (mkcfg false true true) true (AInt (KUText 2) 64 None) [] (mkbs [49; 120; 0] 2 0 0) = Abort.
Proof. split; [wf|split; [exact I|reflexivity]]. Qed.
(** A length field that is a reference to INTEGER (0..5) with an encoding of 8 bits:
    the compiler leaves out the test of the upper limit, because the type allows no
    more than 5, but the decoder of the field does not check the constraint. OCTET
    STRING (SIZE (0..5)) is then filled with up to 255 octets. *)
Theorem C54_length_refuted :
  let t := ASeq (GAcn 1 (AInt KPos8 64 None) (GAsn OMandatory (AOct (SzExt 1 None None) 0 5) GNil)) in
  wfa t /\ adec (mkcfg true true true) true t [] (mkbs [6; 1; 2; 3; 4; 5; 6; 0] 7 0 0) = UB.
Proof. split; [wf|reflexivity]. Qed.
(** A negative length becomes the size of a copy. *)
Theorem C54_negative_refuted :
  let t := ASeq (GAcn 1 (AInt KTwos8 64 None) (GAsn OMandatory (AOct (SzExt 1 None (Some 5)) 0 5) GNil)) in
  wfa t /\ adec (mkcfg true true true) true t [] (mkbs [0xFF; 1; 2; 3; 4; 5; 6; 0] 7 0 0) = UB.
Proof. split; [wf|reflexivity]. Qed.
(** The number of items is tested before it is converted to int: 10 - 2^32. *)
Theorem C54_items_refuted :
  let t := ASeq (GAcn 1 (AInt (KTwosBE 8) 64 None) (GAsn OMandatory (ASeqOf (AInt KPos8 64 None) (SzExt 1 None (Some 5)) 0 5) GNil)) in
  wfa t /\ adec (mkcfg true true true) true t [] (mkbs [0xFF; 0xFF; 0xFF; 0xFF; 0; 0; 0; 10; 1; 2; 3; 4; 5; 6; 7; 0] 15 0 0) = UB.
Proof. split; [wf|reflexivity]. Qed.
(** A string of more characters than allowed before its terminator: the terminator
    of C is stored behind the array. *)
Theorem C54_string_refuted : let t := AStr (SNull [0]) 0 2 in
  wfa t /\ adec (mkcfg true true true) true t [] (mkbs [65; 66; 67; 68; 0; 0] 5 0 0) = UB.
Proof. split; [wf|reflexivity]. Qed.
(** Alignment to a word moves the cursor behind the data without a test, and the
    next bit is read there. *)
Theorem C54_alignment_refuted : let t := ASeq (GAsn OMandatory (AUper TBool) (GAsn OMandatory (AAlign 32 (AUper TBool)) GNil)) in
  wfa t /\ adec (mkcfg true true true) true t [] (mkbs [0x80; 0] 1 0 0) = UB.
Proof. split; [wf|reflexivity]. Qed.

(** * Assumptions of all theorems above *)
Definition theorems13 := (
  @C54_safe, @C54_type_assignment, @C54_assert_refuted, @C54_length_refuted, @C54_negative_refuted,
  @C54_items_refuted, @C54_string_refuted, @C54_alignment_refuted).
Print Assumptions theorems13.
