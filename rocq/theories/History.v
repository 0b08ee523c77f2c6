(** C01: arbitrary histories of append operations. *)
From Verif Require Import Base Bits BitStream Contracts.

(** An append operation, one constructor per public append function of
    asn1crt_encoding.c:121-358, 450-491, 194-207, 1389-1428. *)
Inductive op : Type :=
| OBitOne
| OBitZero
| OBit (b : bool)
| OZeros (n : Z)
| OOnes (n : Z)
| OByte (v : Z)
| OByteNeg (v : Z)
| OByte0 (v : Z)
| OPartial (v n : Z)
| OPartialNeg (v n : Z)
| OBytes (l : list Z)
| OBits (l : list Z) (n : Z).

(** Operands the C types and the documentation allow. *)
Definition op_ok (o : op) : Prop :=
  match o with
  | OBitOne | OBitZero | OBit _ => True
  | OZeros n | OOnes n => 0 <= n
  | OByte v | OByteNeg v | OByte0 v => is_byte v
  | OPartial v n => 1 <= n <= 8 /\ 0 <= v < 2 ^ n
  | OPartialNeg v n => 1 <= n <= 8 /\ is_byte v
  | OBytes l => Forall is_byte l
  | OBits l n => Forall is_byte l /\ 0 <= n <= 8 * Z.of_nat (length l)
  end.

(** The bits an operation stands for. *)
Definition op_bits (o : op) : list bool :=
  match o with
  | OBitOne => [true]
  | OBitZero => [false]
  | OBit b => [b]
  | OZeros n => zeros (Z.to_nat n)
  | OOnes n => ones (Z.to_nat n)
  | OByte v | OByte0 v => Zbits 8 v
  | OByteNeg v => map negb (Zbits 8 v)
  | OPartial v n => Zbits (Z.to_nat n) v
  | OPartialNeg v n => map negb (Zbits (Z.to_nat n) v)
  | OBytes l => bits_of_bytes l
  | OBits l n => take_bits n l
  end.
Definition ops_bits (os : list op) : list bool := concat (map op_bits os).

(** Run the append function. *)
Definition run_op (c : cfg) (o : op) : M unit :=
  match o with
  | OBitOne => BitStream_AppendBitOne c
  | OBitZero => BitStream_AppendBitZero c
  | OBit b => BitStream_AppendBit c b
  | OZeros n => BitStream_AppendNBitZero n
  | OOnes n => BitStream_AppendNBitOne c n
  | OByte v => BitStream_AppendByte c v false
  | OByteNeg v => BitStream_AppendByte c v true
  | OByte0 v => let* _ := BitStream_AppendByte0 v in ret tt
  | OPartial v n => BitStream_AppendPartialByte c v n false
  | OPartialNeg v n => BitStream_AppendPartialByte c v n true
  | OBytes l => let* _ := BitStream_EncodeOctetString_no_length l (Z.of_nat (length l)) in ret tt
  | OBits l n => BitStream_AppendBits c l n
  end.
Fixpoint run_ops (c : cfg) (os : list op) : M unit :=
  match os with [] => ret tt | o :: t => run_op c o ;;; run_ops c t end.

(** The matching read and the item it must return. *)
Inductive item : Type := IBit (b : bool) | IRun (l : list bool) | IByte (v : Z) | IBytes (l : list Z).

(** [n] calls of BitStream_ReadBit *)
Fixpoint read_run (k : nat) : M (option (list bool)) :=
  match k with
  | O => ret (Some [])
  | S k' =>
      let* r := BitStream_ReadBit in
      if fst r then let? l := read_run k' in ret (Some (snd r :: l)) else ret None
  end.

Definition read_op (o : op) : M (option item) :=
  match o with
  | OBitOne | OBitZero | OBit _ =>
      let* r := BitStream_ReadBit in ret (if fst r then Some (IBit (snd r)) else None)
  | OZeros n | OOnes n => let? l := read_run (Z.to_nat n) in ret (Some (IRun l))
  | OByte _ | OByteNeg _ | OByte0 _ => let? v := BitStream_ReadByte in ret (Some (IByte v))
  | OPartial _ n | OPartialNeg _ n => let? v := BitStream_ReadPartialByte n in ret (Some (IByte v))
  | OBytes l => let? d := BitStream_DecodeOctetString_no_length (Z.of_nat (length l)) in ret (Some (IBytes d))
  | OBits l n => let? d := BitStream_ReadBits n in ret (Some (IBytes d))
  end.
Fixpoint read_ops (os : list op) : M (option (list item)) :=
  match os with
  | [] => ret (Some [])
  | o :: t => let? i := read_op o in let? l := read_ops t in ret (Some (i :: l))
  end.

Definition op_item (o : op) : item :=
  match o with
  | OBitOne => IBit true
  | OBitZero => IBit false
  | OBit b => IBit b
  | OZeros n => IRun (zeros (Z.to_nat n))
  | OOnes n => IRun (ones (Z.to_nat n))
  | OByte v | OByte0 v => IByte v
  | OByteNeg v => IByte (255 - v)
  | OPartial v _ => IByte v
  | OPartialNeg v n => IByte (2 ^ n - 1 - v mod 2 ^ n)
  | OBytes l => IBytes l
  | OBits l n => IBytes (pack (take_bits n l))
  end.
