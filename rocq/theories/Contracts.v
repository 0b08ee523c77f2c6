(** Specification vocabulary: how a stream state represents a bit string, and
    the contracts for encoders and decoders. *)
From Verif Require Import Base Bits.

(** Cursor position in bits. *)
Definition pos (s : bstream) : Z := 8 * curByte s + curBit s.

(** The memory of [s] is the bit string [pre ++ rest] and the cursor stands
    between the two. *)
Definition at_ (s : bstream) (pre rest : list bool) : Prop :=
  Forall is_byte (buf s) /\
  bits_of_bytes (buf s) = pre ++ rest /\
  Z.of_nat (length pre) = pos s /\
  0 <= curBit s < 8.

(** Encoder contract. From any state whose unwritten part up to [count] is
    zero and long enough, [f] returns [a], the written bits are exactly [bs],
    everything before is unchanged, the rest up to [count] is still zero, and
    memory after [count] ([tl]) is unchanged. *)
Definition writes {A} (f : M A) (a : A) (bs : list bool) : Prop :=
  forall s pre n tl,
    at_ s pre (zeros n ++ tl) ->
    Z.of_nat (length pre + n) = 8 * count s ->
    (length bs <= n)%nat ->
    exists s', f s = Ok (a, s') /\
      at_ s' (pre ++ bs) (zeros (n - length bs) ++ tl) /\
      count s' = count s.

(** Stronger encoder contract: works over any old content and changes only the
    bits it writes. *)
Definition overwrites {A} (f : M A) (a : A) (bs : list bool) : Prop :=
  forall s pre old rest,
    at_ s pre (old ++ rest) ->
    length old = length bs ->
    Z.of_nat (length pre + length bs) <= 8 * count s ->
    exists s', f s = Ok (a, s') /\
      at_ s' (pre ++ bs) rest /\
      count s' = count s.

(** Decoder contract: with [bs] next in the stream and inside [count], [f]
    returns [a], consumes exactly [bs] and does not change the memory. *)
Definition reads {A} (f : M A) (a : A) (bs : list bool) : Prop :=
  forall s pre rest,
    at_ s pre (bs ++ rest) ->
    Z.of_nat (length pre + length bs) <= 8 * count s ->
    exists s', f s = Ok (a, s') /\
      at_ s' (pre ++ bs) rest /\
      count s' = count s /\
      buf s' = buf s.

(** Safety contract for decoders that return an option. With memory of at least
    [count + 1] bytes (one readable guard byte) and the cursor inside the
    declared data, [f] terminates without undefined behaviour or assertion
    failure, leaves the memory and [count] alone, moves the cursor forward, and
    on success the cursor is still inside the declared data; moreover the
    returned value satisfies [P]. *)
Definition wfs (s : bstream) : Prop :=
  Forall is_byte (buf s) /\ 0 <= curByte s /\ 0 <= curBit s < 8 /\
  pos s <= 8 * count s /\ count s < Z.of_nat (length (buf s)).

Definition safe {A} (f : M (option A)) (P : A -> Prop) : Prop :=
  forall s, wfs s ->
    exists r s', f s = Ok (r, s') /\ buf s' = buf s /\ count s' = count s /\
      pos s <= pos s' /\ 0 <= curBit s' < 8 /\
      match r with
      | Some a => pos s' <= 8 * count s' /\ P a
      | None => True
      end.

(** The signed 64-bit result x can be computed: it is representable, or signed
    arithmetic wraps. *)
Definition sfits (c : cfg) (x : Z) : Prop := is_s64 x \/ ovf_wrap c = true.

(** Memory is exactly the declared data and the cursor is inside it. *)
Definition fits (s : bstream) : Prop :=
  Forall is_byte (buf s) /\ Z.of_nat (length (buf s)) = count s /\
  0 <= curByte s /\ 0 <= curBit s < 8 /\ pos s <= 8 * count s.

(** C07: whatever the memory, if [f] returns at all then memory and size are
    unchanged, the cursor did not move back, and on success it is inside the
    declared data. *)
Definition inside (s : bstream) : Prop :=
  0 <= curByte s /\ 0 <= curBit s < 8 /\ pos s <= 8 * count s.
Definition tame {A} (f : M (option A)) : Prop :=
  forall s r s', inside s -> f s = Ok (r, s') ->
    buf s' = buf s /\ count s' = count s /\ pos s <= pos s' /\ 0 <= curBit s' < 8 /\
    (r <> None -> pos s' <= 8 * count s').
