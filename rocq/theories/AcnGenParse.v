(** Generated ACN decoders as prefix parsers: contract and classes of types,
    independent of the model of the code. *)
From Verif Require Import Base Bits Contracts Parse UperTypes UperClasses AcnGen AcnGenSpec.

(** As [parses], for decoders that depend on the position in the message, and only
    for results satisfying [ok]. *)
Definition prefix {A} (f : M (option A)) (ok : A -> Prop) : Prop :=
  forall s a s', wfp s -> f s = Ok (Some a, s') -> ok a ->
    exists pre bs rest,
      at_ s pre (bs ++ rest) /\
      Z.of_nat (length pre + length bs) <= 8 * count s /\
      readsAt (blen pre) f (Some a) bs /\
      pos s' = pos s + blen bs.

(** No component with contents that were not set. *)
Fixpoint clean (v : value) : bool :=
  match v with
  | VJunk => false
  | VSeqOf l => forallb clean l
  | VSeq l => forallb (fun p => match snd p with Some v => clean v | None => true end) l
  | VChoice _ v => clean v
  | _ => true
  end.

(** Types whose decoder sets all contents when it succeeds. *)
Definition int_length (lo hi : option Z) : bool :=
  match lo, hi with Some a, Some b => (0 <=? a) && (b <? 2 ^ 31) | _, _ => false end.
Fixpoint firm (t : aty) : bool :=
  match t with
  | AReal be d64 _ => be || d64
  | AOct sz min max =>
      match sz with
      | SzNull _ _ => false
      | SzExt _ lo hi => (min =? max) || int_length lo hi
      | _ => true
      end
  | ABit sz min max =>
      match sz with
      | SzExt _ lo hi => (min =? max) || int_length lo hi
      | _ => true
      end
  | ASeqOf t sz min max =>
      match sz with
      | SzNull _ _ => false
      | SzExt _ lo _ => (min =? max) || int_length lo (Some max)
      | _ => true
      end && firm t
  | ASeq fs => firm_fields fs
  | AChoice _ cs => firm_alts cs
  | ARef _ t | AAlign _ t => firm t
  | _ => true
  end
with firm_fields (fs : afields) : bool :=
  match fs with
  | GNil => true
  | GAsn _ t fs | GAcn _ t fs | GPad t fs => firm t && firm_fields fs
  end
with firm_alts (cs : aalts) : bool :=
  match cs with HNil => true | HCons t cs => firm t && firm_alts cs end.

(** Types whose decoder looks at no bit that it does not consume: uPER parts are
    [strict], the flag of a length is not lost, items of a terminated list do not
    search for terminators themselves, no alignment beyond an octet. *)
Fixpoint tight (t : aty) : Prop :=
  match t with
  | AUper t => strict t = true
  | AStr (SIndexExt set _) _ _ => set <> [] /\ NoDup set
  | AOct sz min max => match sz with SzFixed | SzEmbedded => min = max | _ => True end
  | ASeqOf t sz _ _ => tight t /\ match sz with SzNull _ _ => terms t = false | _ => True end
  | ASeq fs => tight_fields fs
  | AChoice _ cs => tight_alts cs
  | ARef _ t => tight t
  | AAlign n t => n = 8 /\ tight t
  | _ => True
  end
with tight_fields (fs : afields) : Prop :=
  match fs with
  | GNil => True
  | GAsn o t fs => (o = OAbsent \/ tight t) /\ tight_fields fs
  | GAcn _ t fs | GPad t fs => tight t /\ firm t = true /\ tight_fields fs
  end
with tight_alts (cs : aalts) : Prop :=
  match cs with HNil => True | HCons t cs => tight t /\ tight_alts cs end.
