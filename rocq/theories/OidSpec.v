(** Specification of subidentifiers (X.690 8.19.2): base-128 digits, most
    significant first, no leading zero digit, bit 8 set on all octets but the
    last. *)
From Verif Require Import Bits.

Definition base128 (ds : list Z) : Z := fold_left (fun a d => a * 128 + d) ds 0.
Definition is_digit (d : Z) : Prop := 0 <= d < 128.

Definition is_subid (v : Z) (l : list Z) : Prop :=
  exists ds e, l = map (Z.add 128) ds ++ [e] /\ Forall is_digit ds /\ is_digit e /\
    hd 1 ds <> 0 /\ v = base128 (ds ++ [e]).
