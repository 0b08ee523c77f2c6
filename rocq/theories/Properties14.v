(** C55: the generated ACN decoders as prefix parsers. Statements only. *)
From Verif Require Import Base Bits StrSpec BitStream Ints Octets Misc Contracts Parse RealSpec RealC UperTypes UperSpec Uper UperWf UperSizes UperClasses
  Acn AcnStr AcnReal AcnSpec AcnGen AcnGenSpec AcnGenParse.
From Verif Require Properties14Proofs.
From Coq Require Import Sorting.Sorted.

Ltac run :=
  lazymatch goal with
  | |- _ /\ _ => split; [run|run]
  | |- _ => vm_compute; first [reflexivity | discriminate | split; run | idtac]
  end.
Ltac wf := cbn; unfold wf_codec, wf_size, exact_pat, wf_pat; repeat split; auto; try lia; try discriminate;
  try (repeat constructor; unfold is_byte; lia); try (repeat constructor; cbn; lia); try (cbn; lia); try (eexists; reflexivity).

(** Wrapping arithmetic, asserts kept. *)
Definition wrapping : cfg := mkcfg false true true.
(** A length, a flag and an alignment; a list with a terminator. *)
Definition ex_tight : aty :=
  ASeq (GAcn 1 (AInt KPos8 64 None)
       (GAcn 2 (ABool BBoth [0x80] [0x00] 1)
       (GPad (ANull (Some ([0xA0], 3)) true)
       (GAsn OMandatory (AOct (SzExt 1 (Some 0) (Some 5)) 0 5)
       (GAsn (OOptional (PDet 2) None) (AAlign 8 (AInt (KTwosLE 2) 16 None))
       (GAsn OMandatory (AOct (SzNull [0] 8) 0 2)
        GNil)))))).
Definition ex_firm : aty :=
  ASeq (GAcn 1 (AInt KPos8 64 None)
       (GAsn OMandatory (AOct (SzExt 1 (Some 0) (Some 5)) 0 5)
       (GAsn OMandatory (AChoice CIndex (HCons (AInt KTwosVar 64 None) (HCons (AStr (SNull [0; 0]) 0 4) HNil)))
        GNil))).

(** * C55 *)
(** When the decoder succeeds it has used some bits [bs], all of them before the end
    of the data, and with the same bits at the same place of any other message it
    returns the same value and stops at the same point. Unless it left contents
    of the value unset. *)
Theorem C55_prefix : forall c h t e, ovf_wrap c = true -> shl_wrap c = true -> wfa t -> tight t ->
  prefix (adec c h t e) (fun v => clean v = true).
Proof. exact Properties14Proofs.decoder_prefix. Qed.
Theorem C55_firm : forall c h t e, ovf_wrap c = true -> shl_wrap c = true -> wfa t -> tight t -> firm t = true ->
  prefix (adec c h t e) (fun _ => True).
Proof. exact Properties14Proofs.decoder_firm. Qed.
Theorem C55_type_assignment : forall c h t ok, ovf_wrap c = true -> shl_wrap c = true -> wfa t -> tight t ->
  prefix (ACN_Decode c h t ok) (fun v => clean v = true).
Proof. exact Properties14Proofs.assignment_prefix. Qed.
Example C55_example : wfa ex_tight /\ tight ex_tight /\ firm ex_tight = false /\ wfa ex_firm /\ tight ex_firm /\ firm ex_firm = true /\
  adec wrapping true ex_tight [] (mkbs [0x01; 0xDA; 0x70; 0x34; 0x12; 0x55; 0; 99] 7 0 0) =
    Ok (Some (VSeq [(true, Some (VOct [167])); (true, Some (VInt 4660)); (true, Some (VOct [85]))]),
        mkbs [0x01; 0xDA; 0x70; 0x34; 0x12; 0x55; 0; 99] 7 7 0) /\
  adec wrapping true ex_firm [] (mkbs [0x01; 0xAA; 0xA0; 0x80; 0; 0; 0] 7 0 0) =
    Ok (Some (VSeq [(true, Some (VOct [170])); (true, Some (VChoice 1 (VStr [65])))]), mkbs [0x01; 0xAA; 0xA0; 0x80; 0; 0; 0] 7 5 1).
Proof.
  split; [wf|]. split; [cbn; repeat (split; [solve [auto]|]); auto 20|]. split; [reflexivity|].
  split; [wf|]. split; [cbn; repeat (split; [solve [auto]|]); auto 20|]. split; [reflexivity|]. split; vm_compute; reflexivity.
Qed.

(** A message cut short is rejected, or contents of the value were left unset. *)
Theorem C55_truncated : forall c st h t e v s pre bs rest w s', ovf_wrap c = true -> shl_wrap c = true -> wfa t -> tight t ->
  encodes c st t e v (blen pre) bs -> at_ s pre (bs ++ rest) -> wfp s -> 8 * count s < Z.of_nat (length pre + length bs) ->
  adec c h t e s = Ok (Some w, s') -> clean w = false.
Proof. exact Properties14Proofs.decoder_truncated. Qed.
Theorem C55_truncated_firm : forall c st h t e v s pre bs rest w s', ovf_wrap c = true -> shl_wrap c = true -> wfa t -> tight t -> firm t = true ->
  encodes c st t e v (blen pre) bs -> at_ s pre (bs ++ rest) -> wfp s -> 8 * count s < Z.of_nat (length pre + length bs) ->
  adec c h t e s <> Ok (Some w, s').
Proof. exact Properties14Proofs.decoder_truncated_firm. Qed.
(** The last octet, or part of it, is missing. *)
Example C55_truncated_example : exists s1 s2,
  adec wrapping true ex_tight [] (mkbs [0x01; 0xDA; 0x70; 0x34; 0x12; 0x55; 0; 99] 6 0 0) = Ok (None, s1) /\
  adec wrapping true ex_firm [] (mkbs [0x01; 0xAA; 0xA0; 0x80; 0; 0; 0] 5 0 0) = Ok (None, s2).
Proof. do 2 eexists. split; vm_compute; reflexivity. Qed.

(** ** Where the conditions fail *)
(** The flag of Acn_Dec_Real_IEEE754_32_little_endian is not tested: a REAL is
    accepted when there is no data at all. *)
Theorem C55_real_refuted : wfa (AReal false false true) /\ tight (AReal false false true) /\
  adec wrapping true (AReal false false true) [] (mkbs [0; 0; 0; 0] 0 0 0) = Ok (Some VJunk, mkbs [0; 0; 0; 0] 0 0 0).
Proof. split; [wf|]. split; [exact I|]. vm_compute. reflexivity. Qed.
(** Two octets and no terminator after them: accepted, with nCount not set; but
    rejected when the octet that is not consumed is missing. *)
Theorem C55_terminator_refuted : exists s, let t := AOct (SzNull [0] 8) 0 2 in wfa t /\ tight t /\
  adec wrapping true t [] (mkbs [1; 2; 3] 3 0 0) = Ok (Some VJunk, mkbs [1; 2; 3] 3 2 0) /\
  adec wrapping true t [] (mkbs [1; 2; 3] 2 0 0) = Ok (None, s).
Proof. eexists. split; [wf|]. split; [exact I|]. split; vm_compute; reflexivity. Qed.
(** A terminated list of terminated lists: the flag of the search in an item is
    taken for that of the list. The list of one item is accepted without its
    terminator, and its value is fully set. *)
Theorem C55_nested_refuted : exists s, let t := ASeqOf (AOct (SzNull [0] 8) 0 1) (SzNull [0; 255] 16) 0 1 in
  wfa t /\ ~ tight t /\
  adec wrapping true t [] (mkbs [0; 1] 2 0 0) = Ok (Some (VSeqOf [VOct []]), mkbs [0; 1] 2 1 0) /\
  adec wrapping true t [] (mkbs [0; 1] 1 0 0) = Ok (None, s).
Proof. eexists. split; [wf|]. split; [intros [_ H]; discriminate H|]. split; vm_compute; reflexivity. Qed.
(** OCTET STRING with its own length: when the length cannot be read the string is
    taken to be empty. *)
Theorem C55_octets_refuted : let t := AOct SzEmbedded 0 255 in wfa t /\ firm t = true /\ ~ tight t /\
  adec wrapping true t [] (mkbs [5] 0 0 0) = Ok (Some (VOct []), mkbs [5] 0 0 0).
Proof. split; [wf|]. split; [reflexivity|]. split; [discriminate|]. vm_compute. reflexivity. Qed.
(** A signed length field without lower limit: a negative length is accepted at a
    cursor inside an octet, and the cursor moves back; also to before the start of the buffer,
    where a following component is then read. *)
Theorem C55_negative_refuted :
  let t := fun fs => ASeq (GAcn 1 (AInt KTwos8 64 None) (GAsn OMandatory (AUper TBool) (GAsn OMandatory (AOct (SzExt 1 None (Some 5)) 0 5) fs))) in
  let more := GAsn OMandatory (AUper TBool) GNil in
  wfa (t more) /\ tight (t more) /\
  adec wrapping true (t GNil) [] (mkbs [255; 128; 0] 3 0 0) = Ok (Some (VSeq [(true, Some (VBool true)); (true, Some VJunk)]), mkbs [255; 128; 0] 3 0 1) /\
  adec wrapping true (t more) [] (mkbs [240; 128; 0] 3 0 0) = UB.
Proof. split; [wf|]. split; [cbn; auto 10|]. split; vm_compute; reflexivity. Qed.

(** * Assumptions of all theorems above *)
Definition theorems14 := (
  @C55_prefix, @C55_firm, @C55_type_assignment, @C55_truncated, @C55_truncated_firm, @C55_real_refuted,
  @C55_terminator_refuted, @C55_nested_refuted, @C55_octets_refuted, @C55_negative_refuted).
Print Assumptions theorems14.
