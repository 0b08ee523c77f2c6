(** The types whose generated uPER decoders accept nothing but encodings. *)
From Verif Require Import Base Bits Contracts Parse UperTypes UperSpec Uper UperWf.

(** Strings of variable size are read up to the first NUL. *)
Definition no_nul (a : option (list Z)) : bool :=
  match a with None => false | Some l => negb (existsb (Z.eqb 0) l) end.
(** No INTEGER with a missing or extensible limit, no OBJECT IDENTIFIER, no REAL (lengths and
    leading octets are not unique); no list that may reach 64K (lengths and blocks are not unique); no OCTET
    STRING of variable size (a failure to read the length is not noticed); no string of variable
    size with NUL in its alphabet; no component that WITH COMPONENTS makes ABSENT or PRESENT (the bit is read,
    not compared); no CONTAINING. *)
Fixpoint canonical (t : ty) : bool :=
  match t with
  | TBool | TNull | TEnum _ _ => true
  | TInt (INoExt (Concrete _ _)) _ _ => true
  | TInt _ _ _ | TOid _ | TReal _ => false
  | TStr a min max => (max <? 65536) && ((min =? max) || no_nul a)
  | TOct min max => (max <? 65536) && (min =? max)
  | TBit _ max => max <? 65536
  | TSeqOf t _ max => (max <? 65536) && canonical t
  | TSeq fs => canonical_fields fs
  | TChoice cs => canonical_alts cs
  | TRef _ t => canonical t
  | TCont _ _ _ _ _ => false
  end
with canonical_fields (fs : fields) : bool :=
  match fs with
  | FNil => true
  | FCons o t fs =>
      match o with AlwaysAbsent | AlwaysPresent => false | _ => true end && canonical t && canonical_fields fs
  end
with canonical_alts (cs : alts) : bool :=
  match cs with ANil => true | ACons t cs => canonical t && canonical_alts cs end.

(** The bits consumed between two states of a decoder. *)
Definition taken (s s' : bstream) : list bool :=
  firstn (Z.to_nat (pos s' - pos s)) (skipn (Z.to_nat (pos s)) (bits_of_bytes (buf s))).
(** The decoder of [t] returns a value from bits that are not the encoding of it, or that is not a value of [t]. *)
Definition accepts_more (c : cfg) (t : ty) : Prop :=
  wft t /\ exists s v s', wfp s /\ dec c t true s = Ok (Some v, s') /\ ~ (valid t v /\ taken s s' = ubits false t v).
