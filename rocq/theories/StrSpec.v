(** Specification of length-prefixed and fragmented encodings (X.691 11.9),
    independent of the model of the code. *)
From Verif Require Import Bits.

(** A sequence of n items, each given by its encoding. Up to 127 items: length
    on 8 bits; up to 16383: bit 1, bit 0, length on 14 bits; otherwise blocks of
    k*16384 items, k = 4 as long as possible, each announced by bits 11 and k on
    6 bits; then the remaining (possibly zero) items as above. *)
Fixpoint frag_bits (fuel : nat) (items : list (list bool)) : list bool :=
  match fuel with
  | O => []
  | S f =>
      let n := Z.of_nat (length items) in
      if n <=? 127 then Zbits 8 n ++ concat items
      else if n <? 16384 then [true; false] ++ Zbits 14 n ++ concat items
      else
        let k := Z.min 4 (n / 16384) in
        [true; true] ++ Zbits 6 k ++
        concat (firstn (Z.to_nat (k * 16384)) items) ++
        frag_bits f (skipn (Z.to_nat (k * 16384)) items)
  end.
(** Each block is nonempty, so the number of items bounds the number of blocks. *)
Definition frag (items : list (list bool)) : list bool := frag_bits (S (length items)) items.

(** A sequence of items whose number is in min..max: with max < 64K the length
    is a constrained whole number, otherwise fragmentation is used. *)
Definition sized (min max : Z) (items : list (list bool)) : list bool :=
  if max <? 65536
  then Zbits (crange min max) (Z.of_nat (length items) - min) ++ concat items
  else frag items.

Definition octets (l : list Z) : list (list bool) := map bits_of_byte l.
Definition single_bits (l : list bool) : list (list bool) := map (fun b => [b]) l.

(** [p] occurs in [d] at index j and at no smaller index. *)
Definition occurs_at (p d : list bool) (j : nat) : Prop := firstn (length p) (skipn j d) = p.
Definition first_at (p d : list bool) (j : nat) : Prop :=
  occurs_at p d j /\ forall i, (i < j)%nat -> ~ occurs_at p d i.
