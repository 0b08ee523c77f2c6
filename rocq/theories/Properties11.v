(** C39: the streaming build. Statements only; the proofs are in StreamingProofs*.v and
    Properties11Proofs.v. *)
From Verif Require Import Base Bits BitStream Ints Contracts IntsProofs Streaming StreamingSpec.
From Verif Require StreamingProofs StreamingProofs2 StreamingProofs3 StreamingProofs4 StreamingProofs5 StreamingProofs6 StreamingProofs7 Properties11Proofs.

Ltac run :=
  lazymatch goal with
  | |- _ /\ _ => split; [run|run]
  | |- _ => vm_compute; first [reflexivity | discriminate | split; run | idtac]
  end.
(** What is flushed when a writer is done; the value and what is left when a reader is done. *)
Definition out {A} (r : outcome (A * sstream)) : option (A * list Z) :=
  match r with Ok (a, st) => Some (a, flushed st) | _ => None end.
Definition val {A} (r : outcome (A * sstream)) : option A := match r with Ok (a, _) => Some a | _ => None end.

(** ** Writers *)
(** Single bits, whether or not the block is cleared, and for every size of block. *)
Theorem C39_bit : forall c cl N b, swrites cl N (sAppendBit c cl b) tt [b] /\
  swrites cl N (sAppendBitOne c cl) tt [true] /\ swrites cl N (sAppendBitZero c cl) tt [false].
Proof. exact Properties11Proofs.bit. Qed.
(** Whole bytes and ones as well. *)
Theorem C39_byte : forall c cl N v neg k, is_byte v -> 0 <= k ->
  swrites cl N (sAppendByte c cl v neg) tt (Zbits 8 (if neg then Z.lnot v else v)) /\
  swrites cl N (sAppendByte0 cl v) true (Zbits 8 v) /\
  swrites cl N (sAppendNBitOne c cl k) tt (ones (Z.to_nat k)).
Proof. exact Properties11Proofs.bytes. Qed.
(** Parts of a byte and zeros, with a pushData that clears the block. *)
Theorem C39_byte_part : forall c N v n neg k, 1 <= n <= 8 -> (neg = false -> 0 <= v < 2 ^ n) -> 0 <= k -> (k + 7) / 8 <= N ->
  swrites true N (sAppendPartialByte c true v n neg) tt (Zbits (Z.to_nat n) (if neg then Z.lnot v else v)) /\
  swrites true N (sAppendNBitZero true k) tt (zeros (Z.to_nat k)).
Proof. exact Properties11Proofs.cleared. Qed.
(** Octet strings that start at a byte and end in the same block. *)
Theorem C39_octets : forall cl N arr k st pre, Forall is_byte arr -> 0 <= k <= Z.of_nat (length arr) ->
  sat cl N st pre -> curBit (sb st) = 0 -> curByte (sb st) + k <= N ->
  exists st', sEncodeOctets cl arr k st = Ok (true, st') /\ sat cl N st' (pre ++ bits_of_bytes (firstn (Z.to_nat k) arr)).
Proof. exact StreamingProofs4.sEncodeOctets_ok. Qed.
Theorem C39_align : forall c N st pre, sat true N st pre ->
  exists st', sAlignToNextByte c (push_if true) st = Ok (tt, st') /\ curBit (sb st') = 0 /\
    sat true N st' (pre ++ zeros (Z.to_nat ((- curBit (sb st)) mod 8))).
Proof. exact StreamingProofs5.sAlignByte_ok. Qed.

(** Words of 2 and 4 bytes, if a block is a whole number of them. *)
Theorem C39_align_word : forall c N w st pre, w = 2 \/ w = 4 -> N mod w = 0 -> sat true N st pre ->
  exists st', sAlignToNextN c (push_if true) w st = Ok (tt, st') /\ curBit (sb st') = 0 /\ curByte (sb st') mod w = 0 /\
    sat true N st' (pre ++ zeros (Z.to_nat ((- pos (sb st)) mod (8 * w)))).
Proof. exact StreamingProofs6.sAlignN_ok. Qed.
Example C39_align_example :
  out ((sAppendByte gcc true 255 false ;>> sAppendBit gcc true true ;>> sAlignToNextN gcc (push_if true) 4 ;>> sAppendByte gcc true 1 false) (sinit 4)) =
    Some (tt, [255; 128; 0; 0; 1]).
Proof. run. Qed.

(** A message encoded in blocks of 8 bytes or more is the one encoded at once, when pushData clears
    the block. *)
Theorem C39_one_shot : forall c l n, Forall (op_ok c) l -> (8 <= n)%nat ->
  exists st, streamed_all c true l (sinit n) = Ok (tt, st) /\
  forall mem m, Forall is_byte mem -> Z.of_nat (length (flushed st)) <= m <= Z.of_nat (length mem) ->
    exists s0 s, BitStream_Init mem m = Ok s0 /\ one_shot_all c l s0 = Ok (tt, s) /\
      firstn (Z.to_nat (BitStream_GetLength s)) (buf s) = flushed st.
Proof. exact StreamingProofs5.streamed_one_shot. Qed.
(** Without clearing, for calls that set each of their bits: the bits are the same, up to those
    after the end in the last byte. *)
Theorem C39_plain : forall c cl l n, Forall (op_ok c) l -> Forall op_plain l -> (0 < n)%nat ->
  exists st, streamed_all c cl l (sinit n) = Ok (tt, st) /\
  forall mem m, Forall is_byte mem -> Z.of_nat (length (flushed st)) <= m <= Z.of_nat (length mem) ->
    exists s0 s, BitStream_Init mem m = Ok s0 /\ one_shot_all c l s0 = Ok (tt, s) /\
      firstn (Z.to_nat (pos s)) (bits_of_bytes (buf s)) = firstn (Z.to_nat (pos s)) (bits_of_bytes (flushed st)) /\
      8 * Z.of_nat (length (flushed st)) - 8 < pos s <= 8 * Z.of_nat (length (flushed st)).
Proof. exact StreamingProofs5.streamed_plain. Qed.

Definition message : list op :=
  [OpInt 5 0 1000; OpByte 255; OpPartial 3 5; OpBit true; OpUnc (-300); OpSemi 1000 (-5); OpInt (-1) (-5) 0; OpOnes 9;
   OpPosInt 7 3 100000; OpSemiPos 1 0].
Example C39_message : Forall (op_ok gcc) message /\
  out (streamed_all gcc true message (sinit 8)) = Some (tt, [1; 127; 199; 2; 254; 212; 2; 3; 237; 159; 240; 0; 32; 8; 8])
  /\ out (streamed_all gcc true message (sinit 8)) = out (streamed_all gcc true message (sinit 100)).
Proof.
  split; [|run]. unfold message. repeat apply Forall_cons; try apply Forall_nil; cbn [op_ok]; unfold is_s64, is_u64, is_byte, sfits, two63, two64; try Lia.lia.
  all: try (repeat split; try Lia.lia; left; unfold is_s64, two63; Lia.lia).
Qed.
Example C39_plain_example : out (streamed_all gcc false [OpByte 255; OpByte 254; OpBit false; OpOnes 3; OpByte 0] (sinit 1)) =
  Some (tt, [255; 254; 112; 0]).
Proof. run. Qed.

(** ** Readers *)
Theorem C39_read : forall N c b v n min max, 1 <= n <= 8 -> 0 <= v < 2 ^ n ->
  sreads N sReadBit (true, b) [b] /\
  sreads N (sReadPartialByte n) (Some v) (Zbits (Z.to_nat n) v) /\
  (is_s64 min -> is_s64 max -> min <= v <= max -> max - min < 128 ->
   sreads N (sDecodeConstraint c min max) (Some v) (Zbits (crange min max) (v - min))).
Proof. exact Properties11Proofs.read_small. Qed.
(** Whole bytes are read, except from the middle of the last byte of a block. *)
Theorem C39_read_byte : forall N v st rest, is_byte v -> unread N st (Zbits 8 v ++ rest) ->
  (curBit (sb st) = 0 \/ curByte (sb st) + 1 < N -> exists st', sReadByte st = Ok (Some v, st') /\ unread N st' rest) /\
  (curBit (sb st) <> 0 /\ curByte (sb st) + 1 = N -> sReadByte st = Ok (None, st)).
Proof. exact Properties11Proofs.read_byte. Qed.
(** An integer of any range is read from the start of a byte, or when its whole bytes end before the
    last byte of the block; otherwise the decoder fails. *)
Theorem C39_read_integer : forall N c v min max st rest, is_s64 min -> is_s64 max -> min <= v <= max -> sfits c (max - min) ->
  unread N st (Zbits (crange min max) (v - min) ++ rest) ->
  (curBit (sb st) = 0 \/ curByte (sb st) + Z.of_nat (crange min max) / 8 < N ->
   exists st', sDecodeConstraint c min max st = Ok (Some v, st') /\ unread N st' rest) /\
  (curBit (sb st) <> 0 /\ N <= curByte (sb st) + Z.of_nat (crange min max) / 8 ->
   exists st', sDecodeConstraint c min max st = Ok (None, st')).
Proof. exact StreamingProofs7.sDecodeConstraint_gen. Qed.
Example C39_read_integer_example :
  val (sDecodeConstraint gcc 0 1099511627775 (sattach 1 [1; 2; 3; 4; 5])) = Some (Some 4328719365) /\
  val ((do _ <- sReadBit in sDecodeConstraint gcc 0 65535) (sattach 4 [0; 128; 128; 0])) = Some (Some 257) /\
  val ((do _ <- sReadBit in sDecodeConstraint gcc 0 65535) (sattach 2 [0; 128; 128; 0])) = Some None.
Proof. run. Qed.
Theorem C39_read_octets : forall N arr d st rest, Forall is_byte d -> length d = length arr ->
  unread N st (bits_of_bytes d ++ rest) -> curBit (sb st) = 0 -> curByte (sb st) + Z.of_nat (length d) <= N ->
  exists st', sDecodeOctets arr (Z.of_nat (length d)) st = Ok (Some d, st') /\ unread N st' rest.
Proof. exact StreamingProofs4.sDecodeOctets_ok. Qed.
Theorem C39_read_align : forall c N st pad rest, unread N st (pad ++ rest) -> Z.of_nat (length pad) = (- curBit (sb st)) mod 8 ->
  exists st', sAlignToNextByte c fetch_if st = Ok (tt, st') /\ curBit (sb st') = 0 /\ unread N st' rest.
Proof. exact StreamingProofs5.sAlignByte_read. Qed.
(** What is written in blocks of one size is read in blocks of any other. *)
Theorem C39_round_trip : forall c l n1 n2, Forall (op_ok c) l -> Forall op_short l -> (8 <= n1)%nat -> (0 < n2)%nat ->
  exists st st', streamed_all c true l (sinit n1) = Ok (tt, st) /\
    read_all c l (sattach n2 (flushed st)) = Ok (Some (map op_value l), st').
Proof. exact StreamingProofs5.round_trip. Qed.
Theorem C39_attach : forall n data, (0 < n)%nat -> Forall is_byte data -> unread (Z.of_nat n) (sattach n data) (bits_of_bytes data).
Proof. exact StreamingProofs4.sattach_unread. Qed.

Example C39_round_trip_example :
  out (streamed_all gcc true (concat (repeat [OpInt 5 0 100; OpBit true; OpPartial 3 5; OpInt (-1) (-60) 9] 5)) (sinit 8)) =
    Some (tt, [11; 27; 176; 177; 187; 11; 27; 176; 177; 187; 11; 27; 176]) /\
  val (read_all gcc (concat (repeat [OpInt 5 0 100; OpBit true; OpPartial 3 5; OpInt (-1) (-60) 9] 5))
    (sattach 1 [11; 27; 176; 177; 187; 11; 27; 176; 177; 187; 11; 27; 176])) =
    Some (Some (concat (repeat [5; 1; 3; -1] 5))).
Proof. run. Qed.
Example C39_read_byte_example : val (sReadByte (sattach 2 [1; 2; 3])) = Some (Some 1) /\
  val ((do _ <- sReadBit in sReadByte) (sattach 2 [1; 2; 3])) = Some (Some 2).
Proof. run. Qed.
Example C39_octets_example : out (sEncodeOctets false [1; 2; 3; 4] 4 (sinit 4)) = Some (true, [1; 2; 3; 4]) /\
  val (sDecodeOctets [0; 0; 0; 0] 4 (sattach 4 [1; 2; 3; 4; 5])) = Some (Some [1; 2; 3; 4]).
Proof. run. Qed.

(** ** Where streaming differs *)
(** The end of the data is not noticed: a reader gets zeros for ever. *)
Theorem C39_past_end : forall N k, 0 < N -> forall st, unread N st [] ->
  exists st', Nat.iter k (fun m => do _ <- sReadBit in m) sReadBit st = Ok ((true, false), st') /\ unread N st' [].
Proof. exact StreamingProofs5.read_past. Qed.

(** With the pushData of the documentation, which keeps the block as it is, zeros are not written:
    after 8 bytes, 0 in the range 0..1000 comes out as 1023. *)
Theorem C39_stale_refuted : exists l n, Forall (op_ok gcc) l /\ (8 <= n)%nat /\
  out (streamed_all gcc false l (sinit n)) = Some (tt, repeat 255 10) /\
  out (streamed_all gcc true l (sinit n)) = Some (tt, repeat 255 8 ++ [0; 32]).
Proof.
  exists (repeat (OpByte 255) 8 ++ [OpInt 0 0 1000; OpBit true]), 8%nat. split; [|split; [apply Nat.le_refl|run]].
  apply Forall_app. split; repeat apply Forall_cons; try apply Forall_nil; cbn [op_ok]; unfold is_byte, is_s64, sfits, two63; try Lia.lia.
  repeat split; try Lia.lia; left; unfold is_s64, two63; Lia.lia.
Qed.
(** A part of a byte that crosses into the next one keeps old bits as well. *)
Theorem C39_stale_part_refuted : exists l n, Forall (op_ok gcc) l /\ (8 <= n)%nat /\
  out (streamed_all gcc false l (sinit n)) = Some (tt, repeat 255 16 ++ [0; 128]) /\
  out (streamed_all gcc true l (sinit n)) = Some (tt, repeat 255 16 ++ [0; 0]).
Proof.
  exists (repeat (OpByte 255) 16 ++ [OpBit false; OpBit false; OpPartial 0 7]), 8%nat. split; [|split; [apply Nat.le_refl|run]].
  apply Forall_app. split; repeat apply Forall_cons; try apply Forall_nil; cbn [op_ok]; unfold is_byte; Lia.lia.
Qed.
(** Zeros that reach past the next block leave the cursor outside of the block, and the next bit is
    written outside of the array. *)
Theorem C39_zeros : forall c N cl st pre n b, sat cl N st pre -> 2 * N <= curByte (sb st) + (curBit (sb st) + n) / 8 -> 0 <= n ->
  exists st', sAppendNBitZero cl n st = Ok (tt, st') /\ N <= curByte (sb st') /\ sAppendBit c cl b st' = UB.
Proof. exact Properties11Proofs.zeros_out. Qed.
(** Blocks shorter than 8 bytes: 0 in the range 0..2^24-1 needs 3 bytes of zeros. *)
Theorem C39_small_block_refuted : exists l, Forall (op_ok gcc) l /\ streamed_all gcc true l (sinit 1) = UB /\
  out (streamed_all gcc true l (sinit 8)) = Some (tt, [0; 0; 0; 128]).
Proof.
  exists [OpInt 0 0 16777215; OpBit true]. split; [|run].
  repeat apply Forall_cons; try apply Forall_nil; cbn [op_ok]; unfold is_s64, sfits, two63; try Lia.lia.
  repeat split; try Lia.lia; left; unfold is_s64, two63; Lia.lia.
Qed.
(** Octet strings over the end of a block: from the start of a byte, each block gets the start of
    the string again, and the decoder writes each block over the start of the array. *)
Theorem C39_octets_refuted : exists d n, Forall is_byte d /\ (8 <= n)%nat /\
  out (sEncodeOctets true d (Z.of_nat (length d)) (sinit n)) = Some (true, [1; 2; 3; 4; 5; 6; 7; 8; 1; 2]) /\
  val (sDecodeOctets (repeat 0 (length d)) (Z.of_nat (length d)) (sattach n d)) = Some (Some [9; 10; 3; 4; 5; 6; 7; 8; 0; 0]) /\
  d = [1; 2; 3; 4; 5; 6; 7; 8; 9; 10].
Proof.
  exists [1; 2; 3; 4; 5; 6; 7; 8; 9; 10], 8%nat. split; [|split; [apply Nat.le_refl|run]].
  repeat apply Forall_cons; try apply Forall_nil; unfold is_byte; Lia.lia.
Qed.
(** From the middle of a byte the writer refuses them, which BitStream_AppendBits does not notice, *)
Theorem C39_octets_refused : forall cl N st pre arr n, sat cl N st pre -> 8 * N < 8 * (curByte (sb st) + n) + curBit (sb st) ->
  sAppendByteArray cl arr n st = Ok (false, st).
Proof. exact Properties11Proofs.byte_array_refused. Qed.
Theorem C39_bits_lost_refuted : exists d n, (8 <= n)%nat /\
  out ((do _ <- sAppendBit gcc true true in sAppendBits gcc true d 80) (sinit n)) = Some (tt, [128]) /\
  length d = 10%nat.
Proof. exists [1; 2; 3; 4; 5; 6; 7; 8; 9; 10], 8%nat. split; [apply Nat.le_refl|run]. Qed.
(** and the reader reads past the block, even when the last byte is the last of the block. *)
Theorem C39_read_octets_outside : forall N st l n, unread N st l -> 1 <= n -> N <= curByte (sb st) + n -> sReadByteArray n st = UB.
Proof. exact Properties11Proofs.byte_array_ub. Qed.
(** An integer of 10 bits, read over the end of a block. *)
Theorem C39_read_integer_refuted : exists l n, Forall (op_ok gcc) l /\ (8 <= n)%nat /\
  out (streamed_all gcc true l (sinit n)) = Some (tt, [255; 255; 255; 255; 255; 255; 255; 254; 2; 128]) /\
  val (read_all gcc l (sattach 100 [255; 255; 255; 255; 255; 255; 255; 254; 2; 128])) = Some (Some (repeat 127 9 ++ [5])) /\
  val (read_all gcc l (sattach n [255; 255; 255; 255; 255; 255; 255; 254; 2; 128])) = Some None.
Proof.
  exists (repeat (OpInt 127 0 127) 9 ++ [OpInt 5 0 1000]), 8%nat. split; [|split; [apply Nat.le_refl|run]].
  apply Forall_app. split; repeat apply Forall_cons; try apply Forall_nil; cbn [op_ok]; unfold is_s64, sfits, two63;
    repeat split; try Lia.lia; left; unfold is_s64, two63; Lia.lia.
Qed.
(** Alignment to words counts from the start of the block: byte 10 for blocks of 6 bytes, not 12. *)
Theorem C39_word_refuted : exists l n, (0 < n)%nat /\
  out ((streamed_all gcc true l ;>> sAlignToNextN gcc (push_if true) 4 ;>> sAppendByte gcc true 1 false) (sinit n)) =
    Some (tt, repeat 255 9 ++ [0; 1]) /\
  out ((streamed_all gcc true l ;>> sAlignToNextN gcc (push_if true) 4 ;>> sAppendByte gcc true 1 false) (sinit 64)) =
    Some (tt, repeat 255 9 ++ [0; 0; 0; 1]).
Proof. exists (repeat (OpByte 255) 9), 6%nat. split; [Lia.lia|run]. Qed.

Example C39_differ_example : sAppendByteArray true [1; 2; 3] 3 (sinit 2) = Ok (false, sinit 2) /\
  sReadByteArray 2 (sattach 2 [1; 2; 3]) = UB /\
  (do _ <- sAppendNBitZero true 200 in sAppendBit gcc true true) (sinit 8) = UB /\
  val ((do _ <- sReadByte in sReadBit) (sattach 1 [1])) = Some (true, false).
Proof. run. Qed.

(** * Assumptions of all theorems above *)
Definition theorems11 := (
  @C39_bit, @C39_byte, @C39_byte_part, @C39_octets, @C39_align, @C39_align_word, @C39_one_shot,
  @C39_plain, @C39_read, @C39_read_byte, @C39_read_integer, @C39_read_octets, @C39_read_align,
  @C39_round_trip, @C39_attach, @C39_past_end, @C39_stale_refuted, @C39_stale_part_refuted, @C39_zeros,
  @C39_small_block_refuted, @C39_octets_refuted, @C39_octets_refused, @C39_bits_lost_refuted,
  @C39_read_octets_outside, @C39_read_integer_refuted, @C39_word_refuted).
Print Assumptions theorems11.
