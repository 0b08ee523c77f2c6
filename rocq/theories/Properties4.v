(** C30-C35, C41, C42: the generated uPER encoders and decoders. Statements only. *)
From Verif Require Import Base Bits StrSpec BitStream Ints Octets Misc Oid Contracts Parse
  RealSpec UperTypes UperSpec Uper UperWf UperSizes UperClasses UperShape.
From Verif Require RangeProofs UperProofs3 UperProofs4 UperProofs5 UperProofs6 UperProofs7 UperProofs8 Properties4Proofs.
From Coq Require Import Sorting.Sorted.

Ltac parts :=
  match goal with
  | |- _ /\ _ => split; parts
  | |- Forall _ _ => constructor; parts
  | |- StronglySorted _ _ => constructor; parts
  | |- NoDup _ => constructor; cbn; parts
  | |- True => exact I
  | |- is_s64 _ => unfold is_s64, two63; lia
  | |- _ => try lia
  end.

(** A type with every construct, used in the examples. *)
Definition ex_type : ty :=
  TRef (fun _ => true)
    (TSeq (FCons Mandatory (TInt (INoExt (Concrete (-1) 6)) false 8)
          (FCons Optional (TSeqOf (TChoice (ACons TBool (ACons TNull (ACons (TStr (Some [65; 66; 67]) 0 3) ANil)))) 0 4)
          (FCons (Default (VEnum 7)) (TEnum [5; 7; 9] (Some [5; 7; 9]))
          (FCons Mandatory (TOct 2 5)
          (FCons Optional (TBit 3 3)
          (FCons Mandatory (TInt (IExt (Concrete 0 3)) false 64)
          (FCons Mandatory (TOid true)
          (FCons Mandatory (TCont false 1 1 1 (TRef (fun _ => true) (TInt (INoExt (Concrete 0 20)) true 8)))
          (FCons Mandatory (TReal false)
           FNil)))))))))).
Definition ex_value : value :=
  VSeq [(true, Some (VInt 4));
        (true, Some (VSeqOf [VChoice 2 (VStr [67; 65]); VChoice 0 (VBool true); VChoice 1 VNull]));
        (false, Some (VEnum 7));
        (true, Some (VOct [1; 2; 3]));
        (false, None);
        (true, Some (VInt 2));
        (true, Some (VOid [300; 4]));
        (true, Some (VInt 17));
        (true, Some (VReal (S754_finite false 4503599627370496 8)))].

(** * C30 *)
(** From any bit offset; [ubits false] is the encoding, [sides] asks that signed
    arithmetic does not overflow, or wraps, and that CONTAINING values have the
    sizes computed for them. *)
Theorem C30_encode : forall c t v, wft t -> valid t v -> sides c t v -> writes (enc c t true v) true (ubits false t v).
Proof. exact UperProofs3.writes_uper. Qed.
Theorem C30_decode : forall c t v, wft t -> valid t v -> sides c t v -> reads (dec c t true) (Some (norm t v)) (ubits false t v).
Proof. exact UperProofs3.reads_uper. Qed.
(** From Init to the receiver of the first BitStream_GetLength bytes. *)
Theorem C30_end_to_end : forall c t v mem n, wft t -> valid t v -> sides c t v ->
  Forall is_byte mem -> 0 <= n <= Z.of_nat (length mem) -> Z.of_nat (length (ubits false t v)) <= 8 * n ->
  exists s0 s1, BitStream_Init mem n = Ok s0 /\ enc c t true v s0 = Ok (true, s1) /\
    forall tail, Forall is_byte tail -> exists s2,
      dec c t true (BitStream_AttachBuffer (firstn (Z.to_nat (BitStream_GetLength s1)) (buf s1) ++ tail) (BitStream_GetLength s1))
      = Ok (Some (norm t v), s2) /\ pos s2 = pos s1.
Proof. exact Properties4Proofs.round_trip. Qed.
(** With wrapping arithmetic no condition on the value is left, the buffer
    may have the size computed by the compiler, and a value whose absent components
    hold their default value comes back unchanged. *)
Theorem C30_round_trip : forall c t v mem n, ovf_wrap c = true -> shl_wrap c = true -> wft t -> computed t -> cont_fit t ->
  valid t v -> settled t v -> Forall is_byte mem -> required_bytes t <= n <= Z.of_nat (length mem) ->
  exists s0 s1, BitStream_Init mem n = Ok s0 /\ enc c t true v s0 = Ok (true, s1) /\
    forall tail, Forall is_byte tail -> exists s2,
      dec c t true (BitStream_AttachBuffer (firstn (Z.to_nat (BitStream_GetLength s1)) (buf s1) ++ tail) (BitStream_GetLength s1))
      = Ok (Some v, s2) /\ pos s2 = pos s1.
Proof. exact Properties4Proofs.round_trip_sized. Qed.
(** The decoded value is again valid, is a fixed point, and has the same encoding. *)
Theorem C30_canonical : forall t v, valid t v ->
  norm t (norm t v) = norm t v /\ valid t (norm t v) /\ forall std, ubits std t (norm t v) = ubits std t v.
Proof. exact (proj1 UperProofs8.norm_facts). Qed.
Example C30_example : wft ex_type /\ computed ex_type /\ cont_fit ex_type /\ valid ex_type ex_value /\ settled ex_type ex_value /\
  sides iso ex_type ex_value /\ required_bytes ex_type = 358 /\
  ubits false ex_type ex_value =
    [true; false; false] ++ [true; false; true] ++
    [false; true; true] ++ [true; false] ++ [true; false] ++ [true; false] ++ [false; false] ++ [false; false] ++ [true] ++ [false; true] ++
    [false; true] ++ bits_of_bytes [1; 2; 3] ++ [false; true; false] ++ bits_of_bytes [3; 0x82; 0x2C; 4] ++
    [true; false; false; false; true; false; false; false] ++ bits_of_bytes [9; 0x80; 8; 16; 0; 0; 0; 0; 0; 0].
Proof.
  split; [|split; [|split; [|split; [|split; [|split; [|split]]]]]].
  - cbv [ex_type wft wf_fields wf_alts alts_len length Z.of_nat Pos.of_succ_nat Pos.succ wf_int wf_size wf_enum in_class wf_range64 wf_alpha].
    parts. all: cbn; try lia; congruence.
  - vm_compute. intuition congruence.
  - vm_compute. intuition congruence.
  - cbv [ex_type ex_value valid valid_fields valid_alt length Z.of_nat Pos.of_succ_nat Pos.succ size_in in_class valid_int in_range
      in_alpha valid_oid oid_arcs]. parts. all: cbn; try lia; try congruence. all: auto 10. all: try (intros _; parts). all: vm_compute; intuition congruence.
  - cbn. parts. all: auto.
  - unfold sides. cbn [leaves leaves_fields ex_type ex_value flat_map leaves_alt app]. parts; cbn [side range_side].
    + right; right; left. unfold is_s64, two63. lia.
    + right; right; left. unfold is_s64, two63. lia.
    + vm_compute. intuition congruence.
    + right; left. reflexivity.
    + right. cbn. lia.
  - vm_compute. reflexivity.
  - vm_compute. reflexivity.
Qed.
(** False for strings of variable size containing the character NUL, which
    IA5String allows: strlen stops there. *)
Theorem C30_nul_refuted : exists s1, enc iso (TStr None 0 5) true (VStr [65; 0; 66]) (mkbs (repeat 0 4) 4 0 0) = Ok (true, s1) /\ exists s2, dec iso (TStr None 0 5) true (BitStream_AttachBuffer (buf s1) (BitStream_GetLength s1)) = Ok (Some (VStr [65]), s2).
Proof. eexists. split; [vm_compute; reflexivity|]. eexists. vm_compute. reflexivity. Qed.
(** False for OCTET STRING (CONTAINING INTEGER (0..1, ...)): the minimal length is
    computed as 2 octets, the value takes 2 bits, and the encoder fails. *)
Theorem C30_containing_refuted : exists s1,
  let t := TInt (IExt (Concrete 0 1)) false 64 in
  let u := TCont false (to_byte (umin t)) (to_byte (umax t)) (required_bytes t) t in
  wft u /\ computed u /\ valid u (VInt 1) /\ enc iso u true (VInt 1) (mkbs (repeat 0 16) 16 0 0) = Ok (false, s1).
Proof.
  eexists. cbv zeta. split; [|split; [|split]].
  - vm_compute. intuition congruence.
  - vm_compute. intuition congruence.
  - vm_compute. intuition congruence.
  - vm_compute. reflexivity.
Qed.

(** * C31 *)
(** [ubits true] is X.691. *)
Theorem C31_encode : forall c t v, wft t -> conform t -> valid t v -> sides c t v -> writes (enc c t true v) true (ubits true t v).
Proof. exact Properties4Proofs.std_bits. Qed.
Theorem C31_decode : forall c t v, wft t -> conform t -> valid t v -> sides c t v ->
  reads (dec c t true) (Some (norm t v)) (ubits true t v).
Proof. exact Properties4Proofs.std_reads. Qed.
Example C31_example :
  let t := TSeq (FCons Mandatory (TEnum [4; 2] (Some [2; 4])) (FCons Optional (TSeqOf (TStr (Some [65; 66; 67]) 0 3) 70000 70000) FNil)) in
  conform t /\ conform (TStr None 65536 65537) /\ conform (TEnum [1; 5; 9] None).
Proof.
  cbv zeta. cbn [conform conform_fields conform_alpha]. parts.
  all: try (left; parts; fail); try (right; congruence); try (vm_compute; congruence).
Qed.
(** Deviations. The encoder writes [ubits false] by C30_encode; these values have
    a different X.691 encoding. Items of an ENUMERATED declared in non-ascending
    order, without the efficient mode; the efficient mode is right. *)
Theorem C31_enum_refuted : let t := TEnum [2; 1] None in
  wft t /\ valid t (VEnum 2) /\ ubits false t (VEnum 2) = [false] /\ ubits true t (VEnum 2) = [true] /\
  ubits false (TEnum [2; 1] (Some [1; 2])) (VEnum 2) = [true].
Proof. cbn [wft valid]. unfold wf_enum. parts; try reflexivity; cbn; try congruence; auto; intuition congruence. Qed.
(** A permitted alphabet all of whose characters fit in the width, here
    FROM ("0".."z") without "o": X.691 30.5.4 wants the characters themselves. *)
Theorem C31_alphabet_refuted : let l := map (fun n => 48 + Z.of_nat n) (seq 0 63) ++ map (fun n => 112 + Z.of_nat n) (seq 0 11) in
  let t := TStr (Some l) 1 1 in
  wft t /\ valid t (VStr [65]) /\ ubits false t (VStr [65]) = Zbits 7 17 /\ ubits true t (VStr [65]) = Zbits 7 65.
Proof.
  cbn [wft valid wf_alpha]. unfold wf_size, size_in. split; [split; [split; [discriminate|split]|]|split; [|split]].
  - cbn. parts; intuition lia.
  - cbn. lia.
  - lia.
  - split; [cbn; lia|]. split; [constructor; [|constructor]|congruence]. cbn. auto 60.
  - vm_compute. reflexivity.
  - vm_compute. reflexivity.
Qed.
(** OCTET STRING (SIZE (65536)): the final length of zero is missing. *)
Theorem C31_fixed_refuted : forall v, v = repeat 0 (Z.to_nat 65536) ->
  Z.of_nat (length (ubits false (TOct 65536 65536) (VOct v))) = 8 + 8 * 65536 /\
  Z.of_nat (length (ubits true (TOct 65536 65536) (VOct v))) = 16 + 8 * 65536.
Proof. exact Properties4Proofs.fixed64K. Qed.
(** CONTAINING: the length is encoded with the computed sizes as bounds, here 1..1
    and so not at all, where X.691 has a general length. *)
Theorem C31_containing_refuted : let t := TInt (INoExt (Concrete 0 20)) true 8 in let u := TCont false 1 1 1 t in
  wft u /\ computed u /\ valid u (VInt 17) /\
  ubits false u (VInt 17) = Zbits 8 0x88 /\ ubits true u (VInt 17) = Zbits 8 1 ++ Zbits 8 0x88.
Proof.
  cbv zeta. split; [|split; [|split]].
  - vm_compute. intuition congruence.
  - vm_compute. intuition congruence.
  - vm_compute. intuition congruence.
  - vm_compute. auto.
Qed.

(** REAL: the mantissa is not reduced to an odd number. *)
Theorem C31_real_refuted : let v := VReal (S754_finite false 4503599627370496 (-52)) in
  wft (TReal false) /\ valid (TReal false) v /\
  ubits false (TReal false) v = bits_of_bytes [9; 0x80; 0xCC; 16; 0; 0; 0; 0; 0; 0] /\
  ubits true (TReal false) v = bits_of_bytes [3; 0x80; 0; 1].
Proof. cbv zeta. split; [exact I|]. split; [vm_compute; intuition congruence|]. split; vm_compute; reflexivity. Qed.

(** * C32 *)
Theorem C32_max : forall t, wft t -> computed t -> forall v, valid t v -> Z.of_nat (length (ubits false t v)) <= umax t.
Proof. exact (proj1 UperProofs4.umax_ok). Qed.
Theorem C32_buffer : forall c t v mem n, wft t -> computed t -> valid t v -> sides c t v -> Forall is_byte mem ->
  required_bytes t <= n <= Z.of_nat (length mem) ->
  exists s0 s1, BitStream_Init mem n = Ok s0 /\ enc c t true v s0 = Ok (true, s1) /\ pos s1 <= umax t /\
    BitStream_GetLength s1 <= required_bytes t.
Proof. exact Properties4Proofs.buffer_suffices. Qed.
Example C32_example : wft (TOct 0 5) /\ valid (TOct 0 5) (VOct [1; 2; 3; 4; 5]) /\
  Z.of_nat (length (ubits false (TOct 0 5) (VOct [1; 2; 3; 4; 5]))) = umax (TOct 0 5).
Proof. cbn [wft valid]. unfold wf_size, size_in. parts; cbn; lia || auto. Qed.
(** False for a BIT STRING (SIZE (0..255)) narrowed to SIZE (7) by WITH COMPONENTS: the
    stored maximum is that of SIZE (7). *)
Theorem C32_bit_string_refuted : let v := VBit (repeat true 7) in
  wft (TBit 0 255) /\ valid (TBit 0 255) v /\ bit_max 0 255 7 7 = 7 /\ Z.of_nat (length (ubits false (TBit 0 255) v)) = 15.
Proof. cbn [wft valid]. unfold wf_size, size_in. parts; cbn; lia || auto. Qed.

(** * C33 *)
Theorem C33_min : forall t, wft t -> computed t -> min_exact t = true -> forall v, valid t v ->
  umin t <= Z.of_nat (length (ubits false t v)).
Proof. exact (proj1 UperProofs4.umin_ok). Qed.
Example C33_example : let t := TSeq (FCons Optional (TOct 2 5) (FCons Mandatory (TOct 2 5) FNil)) in
  let v := VSeq [(false, None); (true, Some (VOct [1; 2]))] in
  min_exact t = true /\ valid t v /\ umin t = Z.of_nat (length (ubits false t v)).
Proof. cbv zeta. cbn [valid valid_fields]. unfold size_in. parts; cbn; lia || auto. Qed.
(** False for an extensible INTEGER. *)
Theorem C33_extensible_refuted : let t := TInt (IExt (Concrete 0 1)) false 64 in
  wft t /\ valid t (VInt 1) /\ umin t = 9 /\ Z.of_nat (length (ubits false t (VInt 1))) = 2.
Proof. cbv zeta. cbn [wft valid]. unfold wf_int, wf_range64, in_class, valid_int, in_range. parts; cbn; lia || auto. Qed.
(** False for a variable size that may reach 64K. *)
Theorem C33_64K_refuted : let t := TOct 0 65536 in
  wft t /\ valid t (VOct []) /\ umin t = 17 /\ Z.of_nat (length (ubits false t (VOct []))) = 8.
Proof. cbv zeta. cbn [wft valid]. unfold wf_size, size_in. parts; cbn; lia || auto. Qed.

(** * C34 *)
(** Equal encodings, even followed by different contents, come from equal values
    (up to the contents of absent components), and no encoding is a proper
    prefix of another. *)
Theorem C34_unique : forall t v1 v2 r1 r2, wft t -> computed t -> cont_fit t -> valid t v1 -> valid t v2 ->
  ubits false t v1 ++ r1 = ubits false t v2 ++ r2 -> norm t v1 = norm t v2 /\ r1 = r2.
Proof. exact UperProofs8.uniq. Qed.
(** Values encoded one after the other are decoded one after the other. *)
Theorem C34_concatenated_encode : forall c l, Forall (fun p => wft (fst p) /\ valid (fst p) (snd p) /\ sides c (fst p) (snd p)) l ->
  writes (Properties4Proofs.enc_list c l) true (concat (map (fun p => ubits false (fst p) (snd p)) l)).
Proof. exact Properties4Proofs.list_writes. Qed.
Theorem C34_concatenated_decode : forall c l, Forall (fun p => wft (fst p) /\ valid (fst p) (snd p) /\ sides c (fst p) (snd p)) l ->
  reads (Properties4Proofs.dec_list c (map fst l)) (Some (map (fun p => norm (fst p) (snd p)) l))
    (concat (map (fun p => ubits false (fst p) (snd p)) l)).
Proof. exact Properties4Proofs.list_reads. Qed.
Example C34_example : let l := [(TOct 0 3, VOct [7]); (TBool, VBool true); (TBit 0 3, VBit [])] in
  Forall (fun p => wft (fst p) /\ valid (fst p) (snd p) /\ sides iso (fst p) (snd p)) l /\
  concat (map (fun p => ubits false (fst p) (snd p)) l) = [false; true] ++ Zbits 8 7 ++ [true] ++ [false; false].
Proof. cbv zeta. split; [|reflexivity]. parts; cbn [fst snd wft valid length]; unfold wf_size, size_in, sides; cbn; parts. Qed.

(** * C35 *)
(** Whatever the input, a decoded value respects [shape]. *)
Theorem C35_shape : forall c t s v s', wft t -> Forall is_byte (buf s) -> dec c t true s = Ok (Some v, s') -> shape t v.
Proof. intros c t s v s' Hw HB E. exact (proj2 (proj1 (UperProofs5.shape_ok c) t Hw true s (Some v) s' HB E)). Qed.
(** For [guarded] types, on any input, decoding terminates without undefined
    behaviour, in particular without access outside an array. *)
Theorem C35_safe : forall c, ovf_wrap c = true -> shl_wrap c = true -> forall t, wft t -> guarded t = true ->
  safe (dec c t true) (shape t).
Proof. exact UperProofs6.safe_uper. Qed.
(** The function of a type assignment returns only values its validity function
    accepts. *)
Theorem C35_checked : forall c ok t s v s', dec c (TRef ok t) true s = Ok (Some v, s') -> ok v = true.
Proof.
  intros c ok t s v s' E. cbn [dec] in E. unfold bindo, bind, ret in E. destruct (dec c t true s) as [[[x|] s1]| | |]; try discriminate.
  destruct (ok x) eqn:O; [|discriminate]. injection E; intros; subst. auto.
Qed.
Example C35_example : let t := TSeq (FCons Optional (TOct 2 5) (FCons Mandatory (TSeqOf (TEnum [1; 2; 3] None) 0 3) FNil)) in
  guarded t = true /\
  (exists s, dec iso t true (mkbs [0x79; 0xFF; 0xFF; 0] 3 0 0) = Ok (None, s)) /\
  (exists s, dec iso t true (mkbs [0x42; 0; 0; 0] 3 0 0) = Ok (Some (VSeq [(false, None); (true, Some (VSeqOf [VEnum 1; VEnum 2]))]), s)).
Proof. cbv zeta. split; [reflexivity|]. split; eexists; vm_compute; reflexivity. Qed.
(** The size bound fails for OCTET STRING of variable size below 64K: a length out
    of range gives an empty string. *)
Theorem C35_octets_refuted : exists s1, wft (TOct 1 5) /\ dec iso (TOct 1 5) true (mkbs [0xE0; 0] 1 0 0) = Ok (Some (VOct []), s1).
Proof. eexists. split; [vm_compute; intuition congruence|]. vm_compute; reflexivity. Qed.
(** Lower bounds of semi-constrained integers are not enforced by the decoder. *)
Theorem C35_semi_refuted : exists s1 s2,
  dec wrapv (TInt (INoExt (PosInf (-5))) false 64) true (mkbs ([8] ++ repeat 255 8 ++ [0]) 9 0 0) = Ok (Some (VInt (-6)), s1) /\
  dec wrapv (TInt (INoExt (PosInf 5)) true 64) true (mkbs ([8] ++ repeat 255 8 ++ [0]) 9 0 0) = Ok (Some (VInt 4), s2).
Proof. eexists _, _. split; vm_compute; reflexivity. Qed.
(** 65536 items: decoding continues after a failed item, past the end of the
    input; and when the last item succeeds the failure is forgotten. *)
Theorem C35_overrun_refuted : wft (TSeqOf TBool 65536 65536) /\ wfs (mkbs [0xC4; 0; 0] 2 0 0) /\
  dec iso (TSeqOf TBool 65536 65536) true (mkbs [0xC4; 0; 0] 2 0 0) = UB.
Proof.
  split; [|split].
  - vm_compute. intuition congruence.
  - unfold wfs. cbn. parts; unfold is_byte; lia.
  - vm_compute. reflexivity.
Qed.
Theorem C35_lost_item_refuted : forall c,
  let t := TInt (INoExt (Concrete 0 2)) true 8 in
  (forall r, reads (dec c t r) None [true; true]) /\
  reads (dec c (TSeqOf t 65536 65536) true) (Some (VSeqOf (VJunk :: repeat (VInt 0) (Z.to_nat 65535))))
    (Zbits 8 196 ++ [true; true] ++ zeros (2 * Z.to_nat 65535)).
Proof. intros c. split; [exact (Properties4Proofs.item3_bad c)|exact (Properties4Proofs.lost_item c)]. Qed.
(** An ENUMERATED with items excluded by a constraint, in the efficient mode: the
    table has the permitted items only, the bound counts all. *)
Theorem C35_enum_table_refuted : wfs (mkbs [0x80; 0] 1 0 0) /\
  dec iso (TEnum [0; 1; 2] (Some [0; 1])) true (mkbs [0x80; 0] 1 0 0) = UB.
Proof. split; [unfold wfs; cbn; parts; unfold is_byte; lia|vm_compute; reflexivity]. Qed.

(** * C41, C42 *)
(** OCTET STRING (SIZE (0..65536)) in a buffer of one byte: TRUE, although the contents
    do not fit. *)
Theorem C41_octets_refuted : exists s, enc iso (TOct 0 65536) true (VOct [7]) (mkbs [0; 0] 1 0 0) = Ok (true, s) /\
  Z.of_nat (length (ubits false (TOct 0 65536) (VOct [7]))) = 16.
Proof. eexists. split; vm_compute; reflexivity. Qed.
Theorem C42_uper : forall c, ovf_wrap c = true -> forall t, wft t -> strict t = true -> parses (dec c t true) (fun _ _ => True).
Proof. exact UperProofs7.parses_uper. Qed.
Theorem C42_uper_truncated : forall c t v s pre rest, ovf_wrap c = true -> wft t -> strict t = true -> valid t v -> sides c t v ->
  at_ s pre (ubits false t v ++ rest) -> wfp s ->
  8 * count s < Z.of_nat (length pre) + Z.of_nat (length (ubits false t v)) ->
  forall b s', dec c t true s <> Ok (Some b, s').
Proof. exact Properties4Proofs.truncated. Qed.
Example C42_example_uper : let t := TSeq (FCons Optional (TOct 2 2) (FCons Mandatory (TSeqOf (TEnum [1; 2; 3] None) 0 3) FNil)) in
  strict t = true /\ wfp (mkbs [0x42; 0] 1 0 0) /\
  exists s, dec wrapv t true (mkbs [0x42; 0] 1 0 0) = Ok (Some (VSeq [(false, None); (true, Some (VSeqOf [VEnum 1; VEnum 2]))]), s).
Proof.
  cbv zeta. split; [reflexivity|]. split; [unfold wfp, inside, pos; cbn; parts; unfold is_byte; lia|]. eexists. vm_compute. reflexivity.
Qed.
(** A truncated encoding is accepted for OCTET STRING of variable size below 64K
    and for OCTET STRING CONTAINING (the missing octets are taken to be zero). *)
Theorem C42_octets_refuted : exists s, wft (TOct 0 255) /\ valid (TOct 0 255) (VOct []) /\
  Z.of_nat (length (ubits false (TOct 0 255) (VOct []))) = 8 /\
  dec iso (TOct 0 255) true (mkbs [0] 0 0 0) = Ok (Some (VOct []), s).
Proof.
  eexists. split; [vm_compute; intuition congruence|]. split; [cbn; unfold size_in; cbn; parts|]. split; vm_compute; reflexivity.
Qed.
Theorem C42_containing_refuted : exists s, let u := TCont false 2 2 2 (TOct 2 2) in
  wft u /\ computed u /\ valid u (VOct [0; 0]) /\ Z.of_nat (length (ubits false u (VOct [0; 0]))) = 16 /\
  dec iso u true (mkbs [9] 1 0 0) = Ok (Some (VOct [0; 0]), s).
Proof.
  eexists. cbv zeta. split; [vm_compute; intuition congruence|]. split; [vm_compute; intuition congruence|].
  split; [cbn; unfold size_in; cbn; parts|]. split; vm_compute; reflexivity.
Qed.

(** * Assumptions of all theorems above *)
Definition theorems4 := (
  @C30_encode, @C30_decode, @C30_end_to_end, @C30_round_trip, @C30_canonical, @C30_nul_refuted,
  @C30_containing_refuted, @C31_encode, @C31_decode, @C31_enum_refuted, @C31_alphabet_refuted,
  @C31_fixed_refuted, @C31_containing_refuted, @C31_real_refuted, @C32_max, @C32_buffer,
  @C32_bit_string_refuted, @C33_min, @C33_extensible_refuted, @C33_64K_refuted, @C34_unique,
  @C34_concatenated_encode, @C34_concatenated_decode, @C35_shape, @C35_safe, @C35_checked,
  @C35_octets_refuted, @C35_semi_refuted, @C35_overrun_refuted, @C35_lost_item_refuted,
  @C35_enum_table_refuted, @C41_octets_refuted, @C42_uper, @C42_uper_truncated, @C42_octets_refuted,
  @C42_containing_refuted).
Print Assumptions theorems4.
