(** Classes of types for which the properties of the generated uPER code hold. *)
From Verif Require Import Bits UperTypes UperSpec UperSizes.
From Coq Require Import Sorting.Sorted.

(** No extensible INTEGER, no list of variable size that may reach 64K. *)
Fixpoint min_exact (t : ty) : bool :=
  match t with
  | TInt (INoExt _) _ _ => true
  | TInt _ _ _ => false
  | TBool | TNull | TEnum _ _ | TOid _ | TReal _ => true
  | TStr _ min max | TOct min max | TBit min max => (max <? 65536) || (min =? max)
  | TSeqOf t min max => ((max <? 65536) || (min =? max)) && min_exact t
  | TSeq fs => min_exact_fields fs
  | TChoice cs => min_exact_alts cs
  | TRef _ t => min_exact t
  | TCont _ min max _ t => ((max <? 65536) || (min =? max)) && min_exact t
  end
with min_exact_fields (fs : fields) : bool :=
  match fs with
  | FNil => true
  | FCons Mandatory t fs => min_exact t && min_exact_fields fs
  | FCons _ _ fs => min_exact_fields fs
  end
with min_exact_alts (cs : alts) : bool :=
  match cs with ANil => true | ACons t cs => min_exact t && min_exact_alts cs end.

(** No list of fixed size of 64K or more other than BIT STRING, no CONTAINING. *)
Fixpoint guarded (t : ty) : bool :=
  match t with
  | TStr _ min max | TOct min max => (max <? 65536) || negb (min =? max)
  | TSeqOf t min max => ((max <? 65536) || negb (min =? max)) && guarded t
  | TSeq fs => guarded_fields fs
  | TChoice cs => guarded_alts cs
  | TRef _ t => guarded t
  | TCont _ _ _ _ _ => false
  | _ => true
  end
with guarded_fields (fs : fields) : bool :=
  match fs with FNil => true | FCons _ t fs => guarded t && guarded_fields fs end
with guarded_alts (cs : alts) : bool :=
  match cs with ANil => true | ACons t cs => guarded t && guarded_alts cs end.

Definition strict_int (i : ispec) : bool :=
  match i with INoExt (Concrete _ _) | INoExt (PosInf _) => true | _ => false end.
(** No unconstrained whole number and no REAL (the decoder looks at the sign bit before knowing
    that there is one), no OCTET STRING of variable size below 64K (the flag of the
    length is lost), no list of fixed size of 64K or more other than BIT STRING
    (flags of items are lost), no OCTET STRING CONTAINING. *)
Fixpoint strict (t : ty) : bool :=
  match t with
  | TBool | TNull | TEnum _ _ | TOid _ | TBit _ _ => true
  | TInt i _ _ => strict_int i
  | TReal _ => false
  | TStr _ min max => (max <? 65536) || negb (min =? max)
  | TOct min max => if max <? 65536 then min =? max else negb (min =? max)
  | TSeqOf t min max => ((max <? 65536) || negb (min =? max)) && strict t
  | TSeq fs => strict_fields fs
  | TChoice cs => strict_alts cs
  | TRef _ t => strict t
  | TCont bits _ _ _ _ => bits
  end
with strict_fields (fs : fields) : bool :=
  match fs with FNil => true | FCons _ t fs => strict t && strict_fields fs end
with strict_alts (cs : alts) : bool :=
  match cs with ANil => true | ACons t cs => strict t && strict_alts cs end.

(** The sizes computed for CONTAINING types hold for the contained values. *)
Fixpoint cont_fit (t : ty) : Prop :=
  match t with
  | TSeqOf t _ _ | TRef _ t => cont_fit t
  | TSeq fs => cont_fit_fields fs
  | TChoice cs => cont_fit_alts cs
  | TCont _ _ _ _ t => cont_fit t /\ min_exact t = true /\ 0 < umin t
  | _ => True
  end
with cont_fit_fields (fs : fields) : Prop :=
  match fs with FNil => True | FCons _ t fs => cont_fit t /\ cont_fit_fields fs end
with cont_fit_alts (cs : alts) : Prop :=
  match cs with ANil => True | ACons t cs => cont_fit t /\ cont_fit_alts cs end.

(** [fixed16 min max]: a fixed size of 64K or more that is a multiple of 16K. *)
Definition fixed16 (min max : Z) : bool := (min =? max) && (65536 <=? max) && (max mod 16384 =? 0).
Definition conform_alpha (a : option (list Z)) : Prop :=
  match a with
  | None => True
  | Some l => StronglySorted Z.lt l /\ 2 ^ Z.of_nat (crange 0 (Z.of_nat (length l) - 1)) <= fold_right Z.max 0 l
  end.
Fixpoint conform (t : ty) : Prop :=
  match t with
  | TEnum items eff => StronglySorted Z.lt items \/ eff <> None
  | TStr a min max => conform_alpha a /\ fixed16 min max = false
  | TOct min max | TBit min max => fixed16 min max = false
  | TSeqOf t min max => fixed16 min max = false /\ conform t
  | TSeq fs => conform_fields fs
  | TChoice cs => conform_alts cs
  | TRef _ t => conform t
  | TCont _ _ max _ t => 65536 <= max /\ conform t
  | TReal _ => False
  | _ => True
  end
with conform_fields (fs : fields) : Prop :=
  match fs with FNil => True | FCons _ t fs => conform t /\ conform_fields fs end
with conform_alts (cs : alts) : Prop :=
  match cs with ANil => True | ACons t cs => conform t /\ conform_alts cs end.

