(** Contract for decoders as prefix parsers. *)
From Verif Require Import Base Bits Contracts.

(** Declared data lies inside the memory, cursor inside the declared data. *)
Definition wfp (s : bstream) : Prop :=
  Forall is_byte (buf s) /\ inside s /\ count s <= Z.of_nat (length (buf s)).

(** Whenever [f] succeeds, the bits it consumed lie inside the declared data, and
    the result depends on nothing else: from any other state with the same bits
    next, [f] gives the same value and consumes the same bits ([reads]). [P]
    relates the value to the bits consumed. *)
Definition parses {A} (f : M (option A)) (P : A -> list bool -> Prop) : Prop :=
  forall s a s', wfp s -> f s = Ok (Some a, s') ->
    exists pre bs rest,
      at_ s pre (bs ++ rest) /\
      Z.of_nat (length pre + length bs) <= 8 * count s /\
      reads f (Some a) bs /\ P a bs /\
      pos s' = pos s + Z.of_nat (length bs).

(** C07 for decoders whose next step depends on a decoded value: as [tame], for
    memory holding bytes, and a returned value satisfies [P]. *)
Definition tamed {A} (f : M (option A)) (P : A -> Prop) : Prop :=
  forall s r s', Forall is_byte (buf s) -> inside s -> f s = Ok (r, s') ->
    buf s' = buf s /\ count s' = count s /\ pos s <= pos s' /\ 0 <= curBit s' < 8 /\
    match r with Some a => pos s' <= 8 * count s' /\ P a | None => True end.
