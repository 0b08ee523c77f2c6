(** ByteStream, asn1crt/asn1crt.h:166-171, used by the BER and XER runtimes, its
    monad, and the contracts of its codecs. *)
From Verif Require Import Base.

(** [mem]: the memory reachable through buf; [size]: count; [cur]: currentByte.
    count and currentByte are long; sums with 1 are computed without overflow
    (count < LONG_MAX). *)
Record bytes_ : Type := mkby {
  mem : list Z;
  size : Z;
  cur : Z;
  ws : bool        (* EncodeWhiteSpace *)
}.
Definition B (A : Type) : Type := bytes_ -> outcome (A * bytes_).
Definition bret {A} (a : A) : B A := fun s => Ok (a, s).
Definition bbind {A C} (m : B A) (k : A -> B C) : B C :=
  fun s => match m s with
           | Ok (a, s') => k a s'
           | Abort => Abort
           | UB => UB
           | Diverge => Diverge
           end.
Definition blift {A} (m : outcome A) : B A :=
  fun s => match m with
           | Ok a => Ok (a, s)
           | Abort => Abort
           | UB => UB
           | Diverge => Diverge
           end.
(** Functions returning flag: [None] is FALSE. *)
Definition bopt {A C} (m : B (option A)) (k : A -> B (option C)) : B (option C) :=
  bbind m (fun r => match r with Some a => k a | None => bret None end).
Notation "'do*' x := m 'in' k" := (bbind m (fun x => k))
  (at level 200, x pattern, m at level 100, k at level 200, right associativity).
Notation "'do?' x := m 'in' k" := (bopt m (fun x => k))
  (at level 200, x pattern, m at level 100, k at level 200, right associativity).
Definition bget : B bytes_ := fun s => Ok (s, s).
Definition bseek (i : Z) : B unit := fun s => Ok (tt, mkby (mem s) (size s) i (ws s)).
Definition brd (i : Z) : B Z :=
  fun s => match nthZ (mem s) i with
           | Ok b => Ok (b, s) | Abort => Abort | UB => UB | Diverge => Diverge end.
Definition bwr (i v : Z) : B unit :=
  fun s => match updZ (mem s) i v with
           | Ok m => Ok (tt, mkby m (size s) (cur s) (ws s))
           | Abort => Abort | UB => UB | Diverge => Diverge end.

(** ** Contracts *)

(** The memory is [pre ++ rest] and the cursor stands between the two. *)
Definition bat (s : bytes_) (pre rest : list Z) : Prop :=
  mem s = pre ++ rest /\ cur s = Z.of_nat (length pre).

(** Encoders: over any old content, with room inside [size], [f] succeeds with [a]
    and changes exactly the next [length bs] bytes, to [bs]. *)
Definition puts {A} (f : B (option A)) (a : A) (bs : list Z) : Prop :=
  forall s pre old rest,
    bat s pre (old ++ rest) -> length old = length bs ->
    Z.of_nat (length pre + length bs) <= size s ->
    exists s', f s = Ok (Some a, s') /\ bat s' (pre ++ bs) rest /\ size s' = size s /\ ws s' = ws s.

(** Decoders: with [bs] next and inside [size], [f] succeeds with [a] and consumes
    exactly [bs]; nothing else matters. *)
Definition gets {A} (f : B (option A)) (a : A) (bs : list Z) : Prop :=
  forall s pre rest, Forall is_byte (mem s) ->
    bat s pre (bs ++ rest) -> Z.of_nat (length pre + length bs) <= size s ->
    exists s', f s = Ok (Some a, s') /\ bat s' (pre ++ bs) rest /\
      size s' = size s /\ ws s' = ws s /\ mem s' = mem s.

(** A decoder accepts only [P]: whenever it succeeds, it has consumed bytes [bs]
    of the memory with [P a bs], at most one of them beyond [size]; the memory
    is unchanged. *)
Definition accepts {A} (f : B (option A)) (P : A -> list Z -> Prop) : Prop :=
  forall s a s', Forall is_byte (mem s) -> 0 <= cur s <= Z.of_nat (length (mem s)) -> f s = Ok (Some a, s') ->
    exists pre bs rest, bat s pre (bs ++ rest) /\ P a bs /\
      s' = mkby (mem s) (size s) (cur s + Z.of_nat (length bs)) (ws s) /\
      (bs <> [] -> cur s' <= size s + 1).

(** With a spare byte behind the declared ones, a decoder returns, without
    undefined behaviour, leaves the memory alone and the cursor at most one byte
    beyond the declared end; results satisfy [P]. *)
Definition bwf (s : bytes_) : Prop :=
  Forall is_byte (mem s) /\ 0 <= cur s <= size s + 1 /\ size s < Z.of_nat (length (mem s)).
Definition guarded {A} (f : B (option A)) (P : A -> Prop) : Prop :=
  forall s, bwf s -> exists r s', f s = Ok (r, s') /\
    mem s' = mem s /\ size s' = size s /\ ws s' = ws s /\ cur s <= cur s' <= size s + 1 /\
    match r with Some a => P a | None => True end.
(** The same for encoders: all memory beyond the spare byte is unchanged. *)
Definition bounded {A} (f : B (option A)) : Prop :=
  forall s, bwf s -> exists r s', f s = Ok (r, s') /\
    size s' = size s /\ cur s <= cur s' <= size s + 1 /\ length (mem s') = length (mem s) /\
    Forall is_byte (mem s') /\
    firstn (Z.to_nat (cur s)) (mem s') = firstn (Z.to_nat (cur s)) (mem s) /\
    skipn (Z.to_nat (size s + 1)) (mem s') = skipn (Z.to_nat (size s + 1)) (mem s).
