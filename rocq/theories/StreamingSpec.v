(** Specification vocabulary for the streaming build: what a streaming state has
    written and what it has still to read. *)
From Verif Require Import Base Bits BitStream Ints Contracts Streaming.

(** ** State: [pre] is everything written so far; its last part is the first
    [k] bits of the block. With a clearing pushData the rest of the block is
    zero. *)
Definition blk (cl : bool) (N k : Z) (st : sstream) (pre : list bool) : Prop :=
  exists p r, Forall is_byte (buf (sb st)) /\ Forall is_byte (sent st) /\
    bits_of_bytes (buf (sb st)) = p ++ r /\ Z.of_nat (length p) = k /\
    count (sb st) = N /\ Z.of_nat (length (buf (sb st))) = N /\ 0 < N /\
    pre = bits_of_bytes (sent st) ++ p /\ (cl = true -> r = zeros (length r)).

Definition sat (cl : bool) (N : Z) (st : sstream) (pre : list bool) : Prop :=
  0 <= curByte (sb st) < N /\ 0 <= curBit (sb st) < 8 /\ blk cl N (pos (sb st)) st pre.

(** The streaming encoder contract. *)
Definition swrites {A} (cl : bool) (N : Z) (f : SM A) (a : A) (bs : list bool) : Prop :=
  forall st pre, sat cl N st pre ->
    exists st', f st = Ok (a, st') /\ sat cl N st' (pre ++ bs).

(** The message once the encoder is done: what was pushed and the bytes of the
    last block that are in use. *)
Definition flushed (st : sstream) : list Z :=
  sent st ++ firstn (Z.to_nat (curByte (sb st) + if curBit (sb st) =? 0 then 0 else 1)) (buf (sb st)).

(** A new encoder with blocks of [n] bytes, and a decoder that has fetched the
    first block of [data]. *)
Definition sinit (n : nat) : sstream := mkss (mkbs (repeat 0 n) (Z.of_nat n) 0 0) [] [].
Definition sattach (n : nat) (data : list Z) : sstream :=
  mkss (mkbs (firstn n data ++ repeat 0 (n - length (firstn n data))) (Z.of_nat n) 0 0) [] (skipn n data).

(** Equal up to zeros at the end. *)
Definition eqz (a b : list bool) : Prop := forall i, nth i a false = nth i b false.

(** What a decoder has not read yet, from bit [k] of its block on, is [l]
    followed by zeros. *)
Definition rblk (N k : Z) (st : sstream) (l : list bool) : Prop :=
  Forall is_byte (buf (sb st)) /\ Forall is_byte (src st) /\ count (sb st) = N /\
  Z.of_nat (length (buf (sb st))) = N /\ 0 < N /\ 0 <= k <= 8 * N /\
  eqz (skipn (Z.to_nat k) (bits_of_bytes (buf (sb st))) ++ bits_of_bytes (src st)) l.

Definition unread (N : Z) (st : sstream) (l : list bool) : Prop :=
  0 <= curByte (sb st) < N /\ 0 <= curBit (sb st) < 8 /\ rblk N (pos (sb st)) st l.

(** The streaming decoder contract. *)
Definition sreads {A} (N : Z) (f : SM A) (a : A) (bs : list bool) : Prop :=
  forall st rest, unread N st (bs ++ rest) ->
    exists st', f st = Ok (a, st') /\ unread N st' rest.

(** ** Messages: sequences of calls of the runtime's encoding functions *)
Inductive op : Type :=
| OpBit (b : bool)
| OpByte (v : Z)
| OpOnes (n : Z)
| OpPartial (v n : Z)
| OpInt (v min max : Z)
| OpPosInt (v min max : Z)
| OpSemi (v min : Z)
| OpSemiPos (v min : Z)
| OpUnc (v : Z).

Definition op_ok (c : cfg) (o : op) : Prop :=
  match o with
  | OpBit _ => True
  | OpByte v => is_byte v
  | OpOnes n => 0 <= n
  | OpPartial v n => 1 <= n <= 8 /\ 0 <= v < 2 ^ n
  | OpInt v min max => is_s64 min /\ is_s64 max /\ min <= v <= max /\ sfits c (max - min)
  | OpPosInt v min max => 0 <= min /\ max < two64 /\ min <= v <= max
  | OpSemi v min => is_s64 v /\ is_s64 min /\ min <= v /\ sfits c (v - min)
  | OpSemiPos v min => is_u64 v /\ is_u64 min /\ min <= v
  | OpUnc v => is_s64 v /\ sfits c (- v)
  end.

(** The calls without and with streaming. *)
Definition one_shot (c : cfg) (o : op) : M unit :=
  match o with
  | OpBit b => BitStream_AppendBit c b
  | OpByte v => BitStream_AppendByte c v false
  | OpOnes n => BitStream_AppendNBitOne c n
  | OpPartial v n => BitStream_AppendPartialByte c v n false
  | OpInt v min max => BitStream_EncodeConstraintWholeNumber c v min max
  | OpPosInt v min max => BitStream_EncodeConstraintPosWholeNumber c v min max
  | OpSemi v min => BitStream_EncodeSemiConstraintWholeNumber c v min
  | OpSemiPos v min => BitStream_EncodeSemiConstraintPosWholeNumber c v min
  | OpUnc v => BitStream_EncodeUnConstraintWholeNumber c v
  end.
Definition streamed (c : cfg) (clear : bool) (o : op) : SM unit :=
  match o with
  | OpBit b => sAppendBit c clear b
  | OpByte v => sAppendByte c clear v false
  | OpOnes n => sAppendNBitOne c clear n
  | OpPartial v n => sAppendPartialByte c clear v n false
  | OpInt v min max => sEncodeConstraint c clear v min max
  | OpPosInt v min max => sEncodeConstraintPos c clear v min max
  | OpSemi v min => sEncodeSemi c clear v min
  | OpSemiPos v min => sEncodeSemiPos c clear v min
  | OpUnc v => sEncodeUnc c clear v
  end.
Fixpoint one_shot_all (c : cfg) (l : list op) : M unit :=
  match l with [] => ret tt | o :: t => one_shot c o ;;; one_shot_all c t end.
Fixpoint streamed_all (c : cfg) (clear : bool) (l : list op) : SM unit :=
  match l with [] => sret tt | o :: t => streamed c clear o ;>> streamed_all c clear t end.

(** Calls that set every bit they write, whatever the block contained. *)
Definition op_plain (o : op) : Prop := match o with OpBit _ | OpByte _ | OpOnes _ => True | _ => False end.

(** Calls whose decoders never use BitStream_ReadByte, and the values they
    give back. *)
Definition op_short (o : op) : Prop :=
  match o with OpBit _ | OpPartial _ _ => True | OpInt v min max => max - min < 128 | _ => False end.
Definition op_value (o : op) : Z :=
  match o with
  | OpBit b => Z.b2z b | OpByte v => v | OpOnes n => n | OpPartial v _ => v | OpInt v _ _ => v
  | OpPosInt v _ _ => v | OpSemi v _ => v | OpSemiPos v _ => v | OpUnc v => v
  end.
Definition read_op (c : cfg) (o : op) : SM (option Z) :=
  match o with
  | OpBit _ => do r <- sReadBit in sret (if fst r then Some (Z.b2z (snd r)) else None)
  | OpByte _ => sReadByte
  | OpPartial _ n => sReadPartialByte n
  | OpInt _ min max => sDecodeConstraint c min max
  | _ => sret None
  end.
Fixpoint read_all (c : cfg) (l : list op) : SM (option (list Z)) :=
  match l with
  | [] => sret (Some [])
  | o :: t => do? v <- read_op c o in do? vs <- read_all c t in sret (Some (v :: vs))
  end.
