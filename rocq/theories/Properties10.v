(** C49, C50: generated XER codecs. Statements only; the proofs are in XerGenProofs*.v and
    Properties10Proofs.v. *)
From Coq Require Import Ascii String.
From Verif Require Import Base Bits ByteStream UperTypes XerSpec Xer XerGen XerGenSpec.
From Verif Require Properties10Proofs.

Ltac run :=
  lazymatch goal with
  | |- _ /\ _ => split; [run|run]
  | |- _ => vm_compute; first [reflexivity | discriminate | split; run | idtac]
  end.
Ltac name := split; [discriminate|split; [cbn; Lia.lia|cbn; repeat (apply Forall_cons; [unfold id_char; Lia.lia|]); apply Forall_nil]].
(** A text as bytes; a stream over a text, and one over a zeroed buffer. *)
Fixpoint txt (s : string) : list Z :=
  match s with EmptyString => [] | String c t => Z.of_nat (nat_of_ascii c) :: txt t end.
Definition over (l : list Z) : bytes_ := mkby l (Z.of_nat (List.length l)) 0 false.
Definition empty (n : nat) (w : bool) : bytes_ := mkby (repeat 0 n) (Z.of_nat n) 0 w.
Definition writes (t : xty) (tag : option (list Z)) (v : value) (n : nat) (w : bool) : option (list Z) :=
  match xenc t 0 tag v (empty n w) with Ok (Some tt, s) => Some (firstn (Z.to_nat (cur s)) (mem s)) | _ => None end.
(** The flag returned, the variable and the position; the old content of an INTEGER is 7, the
    old bytes of arrays are 9. *)
Definition reads (t : xty) (tag : option (list Z)) (l : list Z) : option (bool * value * Z) :=
  match xdec glibc 7 9 t tag (over l) with Ok (r, s) => Some (r, cur s) | _ => None end.

(** SEQUENCE { n INTEGER, b BOOLEAN OPTIONAL, e ENUMERATED { on, off } DEFAULT on,
    l SEQUENCE (SIZE(0..3)) OF CHOICE { s IA5String (SIZE(0..7)), o OCTET STRING (SIZE(2)) } } *)
Definition sample : xty :=
  XSeq (XFCons (txt "n") Mandatory (XInt false None)
       (XFCons (txt "b") Optional XBool
       (XFCons (txt "e") (Default (VEnum 0)) (XEnum [(0, txt "on"); (1, txt "off")])
       (XFCons (txt "l") Mandatory (XSeqOf 0 3 None
          (XRef (txt "C") (XCho (XACons (txt "s") (XStr false 7 8) (XACons (txt "o") (XOct 2 2) XANil)))))
        XFNil)))).
Definition sample_value : value :=
  VSeq [(true, Some (VInt (-5))); (true, Some (VBool true)); (false, Some (VEnum 0));
        (true, Some (VSeqOf [VChoice 0 (VStr (txt "abc")); VChoice 1 (VOct [1; 255])]))].
Definition sample_text : list Z := txt "<T><n>-5</n><b><true/></b><l><s>abc</s><o>01FF</o></l></T>".

(** ** C49: documents *)
(** A value has exactly one document. *)
Theorem C49_document : forall t lvl tag v, sendable t -> fits t v -> exists d, xml t lvl tag v d /\ forall d', xml t lvl tag v d' -> d' = d.
Proof. exact Properties10Proofs.document. Qed.
(** The encoder of a type writes it. *)
Theorem C49_encode : forall t lvl tag v d, 0 <= lvl -> tag_ok t tag -> sendable t -> fits t v -> xml t lvl tag v d ->
  emits (xenc t lvl tag v) tt (render d).
Proof. exact Properties10Proofs.encode. Qed.
(** The decoder reads it, with any white space between the tags. *)
Theorem C49_decode : forall L old fill t lvl tag v d txt, tag_ok t tag -> sendable t -> readable t -> fits t v -> xml t lvl tag v d ->
  unescaped d -> layout d txt ->
  forall s pre rest, bat s pre (txt ++ rest) -> Z.of_nat (List.length pre + List.length txt) <= size s ->
    xdec L old fill t tag s = Ok ((true, v), mkby (mem s) (size s) (Z.of_nat (List.length pre + List.length txt)) (ws s)).
Proof. exact Properties10Proofs.decode. Qed.
(** What is written is read back. *)
Theorem C49_round_trip : forall L old fill t lvl tag v d, 0 <= lvl -> tag_ok t tag -> sendable t -> readable t -> fits t v ->
  xml t lvl tag v d -> unescaped d ->
  forall s pre n rest, zeroed s pre n rest -> (List.length (render d (ws s)) < n)%nat ->
    exists s1 s2, xenc t lvl tag v s = Ok (Some tt, s1) /\
      mem s1 = pre ++ render d (ws s) ++ repeat 0 (n - List.length (render d (ws s))) ++ rest /\
      xdec L old fill t tag (mkby (mem s1) (size s1) (cur s) (ws s1)) = Ok ((true, v), s2) /\ mem s2 = mem s1 /\
      cur s1 = cur s2 + Z.of_nat (List.length (newline (ws s))).
Proof. exact Properties10Proofs.round_trip. Qed.
(** Two values have different documents. *)
Theorem C49_unambiguous : forall t lvl tag v v' d, tag_ok t tag -> sendable t -> readable t -> fits t v -> fits t v' ->
  xml t lvl tag v d -> xml t lvl tag v' d -> unescaped d -> v = v'.
Proof. exact Properties10Proofs.unambiguous. Qed.

Example C49_ex_type : tag_ok sample (Some (txt "T")) /\ sendable sample /\ readable sample.
Proof.
  cbn [tag_ok sendable sendable_fields sendable_alts readable readable_fields readable_alts sample field_names alt_names ref_tag untagged].
  repeat match goal with
  | |- _ /\ _ => split
  | |- NoDup _ => constructor
  | |- Forall _ _ => constructor
  | |- name_ok _ => name
  | |- True => exact I
  | |- ~ In _ _ => cbn; intuition discriminate
  | |- ?a = ?a => reflexivity
  end. all: first [cbn; Lia.lia|cbn [txt]; name].
Qed.
Example C49_ex_value : fits sample sample_value /\ exists d, xml sample 0 (Some (txt "T")) sample_value d /\ unescaped d /\ render d false = sample_text.
Proof.
  split.
  - cbn. unfold is_s64, two63, sized. repeat match goal with
    | |- _ /\ _ => split
    | |- Forall _ _ => constructor
    | |- True => exact I
    | |- ?a = ?a => reflexivity
    end; cbn; unfold is_byte, len_of, sized; cbn; try split; try Lia.lia. all: run.
  - assert (N : numeral (-5) (txt "-5")) by (exists [5]; repeat split; try discriminate; repeat constructor; discriminate).
    exists (NTree 0 (txt "T") [NText 1 (txt "n") (txt "-5"); NWrap 1 (txt "b") (txt "true");
              NTree 1 (txt "l") [NText 1 (txt "s") (txt "abc"); NText 1 (txt "o") (txt "01FF")]]).
    split; [|split; [|reflexivity]].
    + cbn [xml sample sample_value]. eexists. split; [|reflexivity].
      cbn [xml_fields]. eexists _, _. split; [cbn [xml]; eexists; split; [exact N|reflexivity]|]. split; [|reflexivity].
      eexists _, _. split; [reflexivity|]. split; [|reflexivity].
      split; [discriminate|]. eexists _, _. split; [|split; reflexivity].
      cbn [xml]. eexists. split; [|reflexivity]. repeat constructor.
    + cbn. repeat (split || constructor); discriminate.
Qed.
Example C49_ex_run : writes sample (Some (txt "T")) sample_value 100 false = Some sample_text /\
  reads sample (Some (txt "T")) sample_text = Some (true, sample_value, 58) /\
  reads sample (Some (txt "T")) (txt " <T> <n>-5</n> <b> <true/> </b> <l> <s>abc</s> <o>01FF</o> </l> </T>") = Some (true, sample_value, 68).
Proof. run. Qed.

(** Failures are reported: of an alternative of a CHOICE without a tag, of an item, of a
    component, and a missing component. *)
Example C49_ex_failure :
  reads (XCho (XACons (txt "n") XNull XANil)) None (txt "<n>1</m>") = Some (false, VChoice 0 VJunk, 7) /\
  reads (XSeqOf 0 3 (Some (txt "n")) XNull) (Some (txt "l")) (txt "<l><n>1</m></l>") = Some (false, VJunk, 10) /\
  reads (XSeq (XFCons (txt "n") Optional XNull XFNil)) (Some (txt "l")) (txt "<l><n>1</m></l>") = Some (false, VJunk, 10) /\
  reads (XSeq (XFCons (txt "n") Mandatory XNull XFNil)) (Some (txt "l")) (txt "<l></l>") = Some (false, VJunk, 3).
Proof. run. Qed.

(** ** C49: any bytes *)
(** The decoder of a tame type, compiled against glibc, ends without undefined behaviour on any
    bytes that hold no attribute. *)
Theorem C49_safe : forall old fill t tag, tame t -> harmless (no_attributes true) (xdec glibc old fill t tag) (fun _ => True).
Proof. exact Properties10Proofs.safe. Qed.
Example C49_ex_safe : tame sample /\ reads sample (Some (txt "T")) (txt "<T><n>1</n><x/></T>") = Some (false, VJunk, 11) /\
  tame (XBit 0 2041).
Proof. split; [cbn; intuition Lia.lia|]. split; [run|cbn; Lia.lia]. Qed.

(** ** C49: what fails *)
(** The check of an INTEGER replaces the result of the decoder: any text is taken for the
    value that was in the variable. *)
Theorem C49_integer_refuted : exists t l, reads t (Some (txt "n")) l = Some (true, VInt 7, 7) /\ ~ In 55 l.
Proof. exists (XInt false (Some (fun z => z <=? 10))), (txt "garbage"). split; [run|cbn; intuition discriminate]. Qed.
(** An unknown name of an ENUMERATED is accepted and the variable left as it was. *)
Theorem C49_enumerated_refuted : reads (XEnum [(0, txt "on"); (1, txt "off")]) (Some (txt "e")) (txt "<e><maybe/></e>") = Some (true, VJunk, 15).
Proof. run. Qed.
(** So is a CHOICE without an alternative, and in a list any text at all. *)
Theorem C49_choice_refuted : exists t, t = XRef (txt "C") (XCho (XACons (txt "n") XNull XANil)) /\
  reads t (Some (txt "c")) (txt "<c></c>") = Some (true, VJunk, 7) /\ reads t None (txt "<zzz/>") = Some (true, VJunk, 0).
Proof. eexists. split; [reflexivity|]. run. Qed.
(** A SEQUENCE OF of a fixed size is accepted with fewer items. *)
Theorem C49_items_refuted : reads (XSeqOf 2 2 (Some (txt "i")) (XInt false None)) (Some (txt "l")) (txt "<l><i>1</i></l>") =
  Some (true, VSeqOf [VInt 1; VJunk], 15).
Proof. run. Qed.
(** An OCTET STRING or BIT STRING of a fixed size is accepted with fewer or more. *)
Theorem C49_fixed_refuted : reads (XOct 2 2) (Some (txt "o")) (txt "<o>AA</o>") = Some (true, VOct [170; 9], 9) /\
  reads (XOct 2 2) (Some (txt "o")) (txt "<o>AABBCC</o>") = Some (true, VOct [170; 187], 13) /\
  reads (XBit 4 4) (Some (txt "o")) (txt "<o>1</o>") = Some (true, VBit [true; false; false; false], 8).
Proof. run. Qed.
(** One of a variable size is accepted with a length beyond its array. *)
Theorem C49_length_refuted : reads (XOct 0 2) (Some (txt "o")) (txt "<o>AABBCC</o>") = Some (true, VJunk, 13).
Proof. run. Qed.
(** A string type with a function of its own (sizeof of a pointer is 8) cannot read what it wrote. *)
Theorem C49_string_refuted : exists t v l, t = XStr false 10 8 /\ fits t v /\ writes t (Some (txt "S")) v 100 false = Some l /\
  reads t (Some (txt "S")) l = Some (false, VJunk, 11).
Proof.
  eexists _, (VStr (txt "12345678")), _. split; [reflexivity|]. split; [split; [vm_compute; discriminate|repeat constructor; discriminate]|].
  split; [vm_compute; reflexivity|run].
Qed.
(** Nor can a string with a '<', or an OBJECT IDENTIFIER, be read back. *)
Theorem C49_escape_refuted : exists t v l, t = XStr false 10 11 /\ fits t v /\ writes t (Some (txt "S")) v 100 false = Some l /\
  match reads t (Some (txt "S")) l with Some (ok, _, _) => ok = false | None => False end.
Proof.
  eexists _, (VStr (txt "a<b")), _. split; [reflexivity|]. split; [split; [vm_compute; discriminate|repeat constructor; discriminate]|].
  split; [vm_compute; reflexivity|run].
Qed.
Theorem C49_oid_refuted : exists v l, fits XOid v /\ writes XOid (Some (txt "o")) v 100 false = Some l /\
  reads XOid (Some (txt "o")) l = Some (true, VJunk, 12).
Proof.
  eexists (VOid [1; 3; 6]), _. split; [split; [cbn; Lia.lia|repeat constructor; unfold two64; Lia.lia]|]. split; [vm_compute; reflexivity|run].
Qed.
(** The decoder of a BIT STRING writes outside its array. *)
Theorem C49_bits_refuted : exists l, xdec glibc 7 9 (XBit 0 8) (Some (txt "b")) (over l) = UB.
Proof. exists (txt "<b>101010101</b>"). run. Qed.

(** ** C50: the size *)
(** Without white space the document of every value is shorter than
    <Type>_REQUIRED_BYTES_FOR_XER_ENCODING. *)
Theorem C50_required : forall t lvl tag v d, sized_ref t tag -> sendable t -> roomy t -> fits t v -> xml t lvl tag v d ->
  Z.of_nat (List.length (render d false)) < xsize t tag.
Proof. exact Properties10Proofs.required. Qed.
(** A zeroed buffer of that size is enough. *)
Theorem C50_enough : forall t lvl tag v, 0 <= lvl -> tag_ok t tag -> sized_ref t tag -> sendable t -> roomy t -> fits t v ->
  forall s pre n rest, zeroed s pre n rest -> ws s = false -> xsize t tag <= Z.of_nat n ->
    exists s', xenc t lvl tag v s = Ok (Some tt, s').
Proof. exact Properties10Proofs.enough. Qed.
Example C50_ex : roomy sample /\ sized_ref sample (Some (txt "T")) /\ xsize sample (Some (txt "T")) = 120 /\
  zeroed (empty 120 false) [] 120 [].
Proof.
  split; [|split; [exact I|run]]. cbn [roomy roomy_fields roomy_alts sample sized_ref].
  repeat match goal with
  | |- _ /\ _ => split
  | |- Forall _ _ => constructor
  | |- True => exact I
  end; run.
Qed.
(** Too small for an ENUMERATED whose last name in alphabetical order is short. *)
Theorem C50_enumerated_refuted : exists t v l, t = XEnum [(0, txt "emergency-procedure"); (1, txt "off")] /\ sendable t /\ fits t v /\
  writes t (Some (txt "e")) v 100 false = Some l /\ xsize t (Some (txt "e")) < Z.of_nat (List.length l) /\
  writes t (Some (txt "e")) v (Z.to_nat (xsize t (Some (txt "e")))) false = None.
Proof.
  eexists _, (VEnum 0), _. split; [reflexivity|]. split.
  - split; [repeat constructor; cbn; intuition discriminate|]. constructor; [name|constructor; [name|constructor]].
  - split; [cbn; auto|]. split; [vm_compute; reflexivity|run].
Qed.
(** Too small for an OBJECT IDENTIFIER with large arcs. *)
Theorem C50_oid_refuted : exists v l, fits XOid v /\ writes XOid (Some (txt "o")) v 200 false = Some l /\
  xsize XOid (Some (txt "o")) < Z.of_nat (List.length l).
Proof.
  eexists (VOid (repeat 18446744073709551615 4)), _. split; [split; [cbn; Lia.lia|repeat constructor; unfold two64; Lia.lia]|].
  split; [vm_compute; reflexivity|run].
Qed.
(** Too small for a list of a type that is another name of a CHOICE: the items get a tag that is
    not counted. *)
Theorem C50_alias_refuted : exists t v l, t = XSeqOf 1 1 None (XRef (txt "B") (XRef (txt "A") (XCho (XACons (txt "i") (XInt false None) XANil)))) /\
  fits t v /\ writes t (Some (txt "S")) v 100 false = Some l /\ xsize t (Some (txt "S")) < Z.of_nat (List.length l).
Proof.
  eexists _, (VSeqOf [VChoice 0 (VInt (-9223372036854775808))]), _. split; [reflexivity|].
  split; [cbn; unfold sized, is_s64, two63; cbn; repeat constructor; cbn; Lia.lia|]. split; [vm_compute; reflexivity|run].
Qed.
(** Too small when the stream asks for white space. *)
Theorem C50_white_refuted : exists t v l, fits t v /\ roomy t /\ writes t (Some (txt "S")) v 100 true = Some l /\ xsize t (Some (txt "S")) < Z.of_nat (List.length l).
Proof.
  eexists (XSeq (XFCons (txt "a") Mandatory XNull (XFCons (txt "b") Mandatory (XSeq (XFCons (txt "c") Mandatory XNull XFNil)) XFNil))),
    (VSeq [(true, Some VNull); (true, Some (VSeq [(true, Some VNull)]))]), _.
  split; [cbn; auto|]. split; [cbn; auto|]. split; [vm_compute; reflexivity|run].
Qed.

(** * Assumptions of all theorems above *)
Definition theorems10 := (
  @C49_document, @C49_encode, @C49_decode, @C49_round_trip, @C49_unambiguous, @C49_safe,
  @C49_integer_refuted, @C49_enumerated_refuted, @C49_choice_refuted, @C49_items_refuted,
  @C49_fixed_refuted, @C49_length_refuted, @C49_string_refuted, @C49_escape_refuted, @C49_oid_refuted,
  @C49_bits_refuted, @C50_required, @C50_enough, @C50_enumerated_refuted, @C50_oid_refuted,
  @C50_alias_refuted, @C50_white_refuted).
Print Assumptions theorems10.
