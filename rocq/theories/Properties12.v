(** C51-C53: the generated ACN encoders and decoders. Statements only. *)
From Verif Require Import Base Bits StrSpec BitStream Ints Octets Misc Contracts RealSpec RealC UperTypes UperSpec Uper UperWf UperSizes UperClasses
  Acn AcnStr AcnReal AcnSpec AcnGen AcnGenSpec AcnGenSizes.
From Verif Require AcnGenProofs6 Properties12Proofs.
From Coq Require Import Sorting.Sorted.

Ltac run :=
  lazymatch goal with
  | |- _ /\ _ => split; [run|run]
  | |- _ => vm_compute; first [reflexivity | discriminate | split; run | idtac]
  end.

Ltac find := repeat first [apply has_here | apply has_there; [discriminate|]].
Ltac fit := vm_compute; repeat first [split | constructor]; try discriminate; auto.

(** A message with a length, a presence flag and a selector as ACN fields. *)
Definition ex_acn : aty :=
  ASeq (GAcn 1 (AInt KPos8 64 None)
       (GAcn 2 (ABool BTrue [0x80] [0x00] 1)
       (GAcn 3 (AEnum [(0, 5); (1, 9)] (KPosLE 2) 32)
       (GPad (ANull (Some ([0xA0], 3)) false)
       (GAsn OMandatory (AOct (SzExt 1 (Some 1) (Some 5)) 1 5)
       (GAsn (OOptional (PDet 2) None) (AAlign 16 (AInt (KTwosLE 2) 16 None))
       (GAsn OMandatory (AChoice (CEnum 3 [0; 1]) (HCons (AReal true false true) (HCons (AStr (SNull [0]) 0 4) HNil)))
       (GAsn (OOptional PBit (Some (VInt 7))) (AInt KBcdNull 64 None)
       (GAsn OMandatory (ASeqOf (AUper (TInt (INoExt (Concrete 0 3)) true 8)) (SzNull [0xFF] 8) 0 3)
        GNil))))))))).
Definition ex_val : value :=
  VSeq [(true, Some (VOct [1; 2; 3]));
        (true, Some (VInt (-2)));
        (true, Some (VChoice 1 (VStr [72; 105])));
        (false, Some (VInt 7));
        (true, Some (VSeqOf [VInt 1; VInt 2]))].
Definition ex_bits : list bool :=
  [false] ++ bits_of_bytes [3] ++ [true] ++ bits_of_bytes [9; 0] ++ [true; false; true] ++ bits_of_bytes [1; 2; 3] ++
  zeros 11 ++ bits_of_bytes [0xFE; 0xFF] ++ bits_of_bytes [72; 105; 0] ++ [false; true; true; false] ++ bits_of_bytes [0xFF].

(** * C51 *)
(** From any position and for any determinants; see AcnGenSpec.v for [encodes], the
    bit strings that encode a value. *)
Theorem C51_encode : forall c h t e v p bs, wfa t -> encodes c true t e v p bs -> writesAt p (aenc c h t v) true bs.
Proof. exact Properties12Proofs.encode. Qed.
Theorem C51_decode : forall c st h t e v p bs, wfa t -> encodes c st t e v p bs -> readsAt p (adec c h t e) (Some (anorm t v)) bs.
Proof. exact Properties12Proofs.decode. Qed.
(** From Init to the receiver of the first BitStream_GetLength bytes; memory beyond
    the buffer is not touched. *)
Theorem C51_round_trip : forall c h t ok check v bs mem n, wfa t -> encodes c true t [] v 0 bs ->
  (check = true -> ok v = true) -> ok (anorm t v) = true ->
  Forall is_byte mem -> 0 <= n <= Z.of_nat (length mem) -> blen bs <= 8 * n ->
  exists s0 s1, BitStream_Init mem n = Ok s0 /\ ACN_Encode c h t ok check v s0 = Ok (true, s1) /\ pos s1 = blen bs /\
    bits_of_bytes (firstn (Z.to_nat n) (buf s1)) = bs ++ zeros (Z.to_nat (8 * n) - length bs) /\
    skipn (Z.to_nat n) (buf s1) = skipn (Z.to_nat n) mem /\
    forall tail, Forall is_byte tail -> exists s2,
      ACN_Decode c h t ok (BitStream_AttachBuffer (firstn (Z.to_nat (BitStream_GetLength s1)) (buf s1) ++ tail) (BitStream_GetLength s1))
      = Ok (Some (anorm t v), s2) /\ pos s2 = pos s1.
Proof. exact Properties12Proofs.round_trip. Qed.
(** The encoder refuses a value that fails its constraints, and consumers of one
    ACN field that ask for different values. *)
Theorem C51_checked : forall c h t ok v s, ok v = false -> ACN_Encode c h t ok true v s = Ok (false, s).
Proof. intros c h t ok v s H. unfold ACN_Encode. rewrite H. reflexivity. Qed.
Theorem C51_disagree : forall c h d t fs l x y s, In x (dem_fields d fs l) -> In y (dem_fields d fs l) -> x <> y ->
  aenc_fields c h (GAcn d t fs) l s = Ok (false, s).
Proof. exact Properties12Proofs.disagree. Qed.
Example C51_disagree_example : let f := GAsn OMandatory (AOct (SzExt 1 None (Some 4)) 0 4) in
  dem_fields 1 (f (f GNil)) [(true, Some (VOct [7])); (true, Some (VOct [7; 8]))] = [VInt 1; VInt 2].
Proof. reflexivity. Qed.
(** The encoding depends on the value alone: the ACN fields are determined by it. *)
Theorem C51_functional : forall c t e1 e2 v p bs1 bs2, wfa t -> 0 <= p ->
  encodes c true t e1 v p bs1 -> encodes c true t e2 v p bs2 -> bs1 = bs2.
Proof. exact Properties12Proofs.functional. Qed.
(** Two values with the same encoding, or one a prefix of the other, are equal up to
    contents of absent components and rounding. *)
Theorem C51_unique : forall c st1 st2 t e v1 v2 p bs1 bs2 r1 r2, wfa t -> 0 <= p ->
  encodes c st1 t e v1 p bs1 -> encodes c st2 t e v2 p bs2 -> bs1 ++ r1 = bs2 ++ r2 ->
  anorm t v1 = anorm t v2 /\ bs1 = bs2 /\ r1 = r2.
Proof. exact Properties12Proofs.unique. Qed.

Example C51_example : wfa ex_acn /\ encodes iso true ex_acn [] ex_val 0 ex_bits /\ anorm ex_acn ex_val = ex_val.
Proof.
  split; [|split; [|reflexivity]].
  - cbv [wfa wfa_fields wfa_alts ex_acn aalts_len length wf_codec wf_szkind wf_pat exact_pat wf_size wf_str wf_choice binds_fields binds].
    repeat split; try reflexivity; try (vm_compute; congruence); try (vm_compute; intuition congruence); try congruence.
    all: try (repeat constructor; vm_compute; intuition congruence).
    all: try (vm_compute; auto 10; fail).
    exists []. reflexivity.
  - unfold ex_acn, ex_val, ex_bits.
    eexists. split; [reflexivity|].
    exists (VInt 3). do 2 eexists. split; [reflexivity|]. split; [exact I|]. split; [fit|]. split; [|intros _; cbn [uses_fields uses size_uses]; right; left; reflexivity].
    exists (VBool true). do 2 eexists. split; [reflexivity|]. split; [exact I|]. split; [reflexivity|].
    split; [|intros _; cbn [uses_fields uses size_uses]; right; right; left; eexists; reflexivity].
    exists (VEnum 1). do 2 eexists. split; [reflexivity|]. split; [exact I|].
    split; [exists 9; split; [right; left; reflexivity|fit]|].
    split; [|intros _; cbn [uses_fields uses size_uses]; right; right; right; right; right; left; left; reflexivity].
    do 2 eexists. split; [reflexivity|]. split; [reflexivity|].
    do 2 eexists. split; [reflexivity|]. split.
    { split; [fit|]. exists [], []. split; [|fit]. split; [fit|]. split; [find|split; reflexivity]. }
    exists (zeros 11 ++ bits_of_bytes [0xFE; 0xFF]). eexists. split; [reflexivity|]. split.
    { split; [find|]. eexists. split; [reflexivity|]. fit. }
    do 2 eexists. split; [reflexivity|]. split.
    { exists [], (bits_of_bytes [72; 105; 0]). split; [reflexivity|]. split.
      - split; [reflexivity|]. exists 1. split; [reflexivity|find].
      - split; [fit|]. split; [fit|]. split; [|reflexivity]. intros [|[|i]] Hi; [discriminate|discriminate|cbn in Hi; lia]. }
    exists [], ([false; true; true; false] ++ bits_of_bytes [0xFF]). split; [reflexivity|]. split; [split; [exact I|reflexivity]|].
    exists ([false; true; true; false] ++ bits_of_bytes [0xFF]), []. split; [reflexivity|]. split; [|reflexivity].
    exists [], [[false; true]; [true; false]], (bits_of_bytes [0xFF]). split; [split; [fit|split; reflexivity]|].
    split; [reflexivity|]. split.
    { split; [|split; [|exact I]]; (split; [cbn; lia|]); (split; [|reflexivity]);
        (constructor; [right; left; reflexivity|constructor]). }
    split; [|left; reflexivity].
    intros [|[|i]] Hi; [discriminate|discriminate|cbn in Hi; lia].
Qed.
(** The same by running the code: [Some r] when encoding into [n] octets succeeds and
    decoding the octets written returns [r]. *)
Definition trip (n : nat) (t : aty) (v : value) : option (option value) :=
  match aenc iso true t v (mkbs (repeat 0 n) (Z.of_nat n) 0 0) with
  | Ok (true, s) =>
      match adec iso true t [] (BitStream_AttachBuffer (firstn (Z.to_nat (BitStream_GetLength s)) (buf s)) (BitStream_GetLength s)) with
      | Ok (r, _) => Some r
      | _ => None
      end
  | _ => None
  end.
Example C51_run : trip 20 ex_acn ex_val = Some (Some ex_val) /\
  match aenc iso true ex_acn ex_val (mkbs (repeat 0 20) 20 0 0) with
  | Ok (true, s) => firstn (length ex_bits) (bits_of_bytes (buf s)) = ex_bits /\ pos s = 116
  | _ => False
  end.
Proof. run. Qed.

(** What [wfa] and [encodes] exclude. A mapping function on a two's complement
    integer of 16 bits, big endian: the template for decoding has no MF, and the
    value comes back mapped. The other sizes are right. *)
Theorem C51_mapping_refuted : let mf := Some (Z.add 1, fun z => z - 1) in
  trip 2 (AInt (KTwosBE 2) 64 mf) (VInt 5) = Some (Some (VInt 6)) /\ trip 4 (AInt (KTwosBE 4) 64 mf) (VInt 5) = Some (Some (VInt 5)).
Proof. run. Qed.
(** A length determinant whose only consumer is absent: the decoder accepts any value,
    and the encoder then refuses what the decoder returned. *)
Theorem C51_unused_refuted : let t := ASeq (GAcn 1 (AInt KPos8 64 None) (GAsn (OOptional PBit None) (AOct (SzExt 1 None (Some 4)) 0 4) GNil)) in
  wfa t /\ encodes iso false t [] (VSeq [(false, None)]) 0 (false :: Zbits 8 3) /\
  exists s1 s2, adec iso true t [] (BitStream_AttachBuffer [0; 0x80; 0] 3) = Ok (Some (VSeq [(false, None)]), s1) /\
    aenc iso true t (VSeq [(false, None)]) (mkbs [0; 0; 0] 3 0 0) = Ok (false, s2).
Proof.
  cbv zeta. split; [|split].
  - cbn. unfold wf_codec, wf_size. repeat split; auto; lia.
  - eexists. split; [reflexivity|]. exists (VInt 3). exists (Zbits 8 3), []. split; [reflexivity|]. split; [exact I|].
    split; [fit|]. split; [|discriminate]. exists [], []. split; [reflexivity|]. split; [split; [exact I|reflexivity]|reflexivity].
  - do 2 eexists. run.
Qed.
(** A terminated octet string that contains the terminator is cut there. *)
Theorem C51_terminator_refuted : let t := AOct (SzNull [0] 8) 0 4 in
  wfa t /\ trip 8 t (VOct [1; 2]) = Some (Some (VOct [1; 2])) /\ trip 8 t (VOct [1; 0; 2]) = Some (Some (VOct [1])).
Proof. cbv zeta. split; [|run]. cbn. unfold wf_size, exact_pat, wf_pat. repeat split; try lia; [repeat constructor; unfold is_byte; lia|cbn; lia|exists []; reflexivity]. Qed.
(** Terminated lists inside a terminated list with as many items as allowed: the
    inner search leaves "found" in the variable they share, the outer terminator is
    not consumed and is taken for the next field. With the inner list in a type
    of its own ([ARef]) it is right. *)
Theorem C51_nested_refuted :
  let t := fun inner => ASeq (GAsn OMandatory (ASeqOf inner (SzNull [0xFF] 8) 0 1) (GAsn OMandatory (AInt KPos8 64 None) GNil)) in
  let o := AOct (SzNull [0] 8) 0 2 in
  let v := fun z => VSeq [(true, Some (VSeqOf [VOct [5]])); (true, Some (VInt z))] in
  wfa (t o) /\ trip 8 (t o) (v 7) = Some (Some (v 255)) /\ trip 8 (t (ARef (fun _ => true) o)) (v 7) = Some (Some (v 7)).
Proof.
  cbv zeta. split; [|run]. cbn. unfold wf_codec, wf_size, exact_pat, wf_pat.
  repeat split; auto; try lia; try (repeat constructor; unfold is_byte; lia); try (cbn; lia); exists []; reflexivity.
Qed.
(** ENUMERATED in efficient mode with encode-values [10, 20] given in the ACN grammar
    for the values 1, 2: the table holds the values of the ASN.1 definition, and
    those are written. *)
Theorem C51_encode_values_refuted : encodes iso true (AEnum [(1, 10); (2, 20)] KPos8 32) [] (VEnum 2) 0 (Zbits 8 20) /\
  writesAt 0 (aenc iso true (AEnumEff [1; 2] 2 1 true KPos8 32) (VEnum 2)) true (Zbits 8 2).
Proof.
  split.
  - exists 20. split; [right; left; reflexivity|fit].
  - apply Properties12Proofs.encode with (e := []).
    + cbn. unfold wf_codec. repeat split; auto; try lia. repeat constructor; lia.
    + exists 1%nat. split; [reflexivity|fit].
Qed.
(** * C52 *)
Theorem C52_max : forall c st t e v p bs, wfa t -> acomputed t -> encodes c st t e v p bs -> blen bs <= amax t.
Proof. intros c st t e v p bs W C. exact (proj1 (AcnGenProofs6.amax_ok c st) t W C e v p bs). Qed.
(** A buffer of REQUIRED_BYTES_FOR_ACN_ENCODING octets is enough. *)
Theorem C52_buffer : forall c h t v bs mem n, wfa t -> acomputed t -> encodes c true t [] v 0 bs ->
  Forall is_byte mem -> required_acn t <= n <= Z.of_nat (length mem) ->
  exists s0 s1, BitStream_Init mem n = Ok s0 /\ aenc c h t v s0 = Ok (true, s1) /\ pos s1 <= amax t /\
    BitStream_GetLength s1 <= required_acn t.
Proof. exact Properties12Proofs.buffer. Qed.
Example C52_example : acomputed ex_acn /\ amax ex_acn = 238 /\ required_acn ex_acn = 30.
Proof. run. Qed.

(** * C53 *)
(** Except for lists without size property of items of several sizes. *)
Theorem C53_min_partial : forall c st t e v p bs, wfa t -> acomputed t -> amin_exact t -> encodes c st t e v p bs -> amin t <= blen bs.
Proof. intros c st t e v p bs W C X. exact (proj1 (AcnGenProofs6.amin_ok c st) t W C X e v p bs). Qed.
Example C53_example : amin_exact ex_acn /\ amin ex_acn = 53 /\ blen ex_bits = 116.
Proof. run. Qed.
(** There the compiler multiplies the number of items by their maximal size: the
    minimum of SEQUENCE (SIZE (2)) OF OCTET STRING (SIZE (0..3)) comes out as 52, and
    the encoding of two empty strings has 4 bits. *)
Theorem C53_refuted : let t := ASeqOf (AOct SzEmbedded 0 3) SzFixed 2 2 in
  wfa t /\ encodes iso true t [] (VSeqOf [VOct []; VOct []]) 0 (zeros 4) /\ amin t = 52.
Proof.
  cbv zeta. split; [|split; [|reflexivity]].
  - cbn. unfold wf_size. repeat split; lia.
  - exists [], [zeros 2; zeros 2], []. split; [split; [fit|split; reflexivity]|]. split; [reflexivity|]. split; [|exact I].
    split; [|split; [|exact I]]; split; try (repeat constructor; fail);
      exists (zeros 2), []; (split; [split; [fit|split; reflexivity]|split; [reflexivity|exact I]]).
Qed.

(** * Assumptions of all theorems above *)
Definition theorems12 := (
  @C51_encode, @C51_decode, @C51_round_trip, @C51_checked, @C51_disagree, @C51_functional, @C51_unique,
  @C51_mapping_refuted, @C51_unused_refuted, @C51_terminator_refuted, @C51_nested_refuted,
  @C51_encode_values_refuted, @C52_max, @C52_buffer, @C53_min_partial, @C53_refuted).
Print Assumptions theorems12.
