(** ASN.1 types as the uPER code generator sees them, and their values as the
    generated C types hold them. *)
From Verif Require Import Bits RealSpec.

(** uperRange, CommonTypes/CommonTypes.fs:960-964. *)
Inductive range :=
| Concrete (a b : Z) | PosInf (a : Z) | NegInf (b : Z) | Full.

(** The three bodies getIntfuncBodyByCons can produce, BackendAst/DAstUPer.fs:155-215:
    no extension marker; "root, ..." ; "root, ..., additions". In the last one
    [inroot] is the generated test sRootBaseConstraint (uper_c.stg:246). *)
Inductive ispec :=
| INoExt (r : range)
| IExt (root : range)
| IExt2 (root : range) (inroot : Z -> bool).

(** Values. The components of a SEQUENCE carry the exist flag and the contents
    of the field ([None]: contents not set); a component without exist flag has
    [true]. [VJunk]: a field left half-written by a failed decoding. *)
Inductive value :=
| VBool (b : bool)
| VNull
| VInt (z : Z)
| VEnum (z : Z)
| VOid (l : list Z)
| VReal (x : double)
| VStr (l : list Z)
| VOct (l : list Z)
| VBit (l : list bool)
| VSeqOf (l : list value)
| VSeq (l : list (bool * option value))
| VChoice (i : nat) (v : value)
| VJunk.

(** Asn1Optionality, BackendAst/DAstUPer.fs:700-790. *)
Inductive opt :=
| Mandatory
| Optional
| Default (d : value)
| AlwaysAbsent
| AlwaysPresent.

(** Types. [TInt i p w]: p tells whether the C type is unsigned and w its width
    (8, 16, 32 or 64; IntegerClass, Asn1AcnAstUtilFunctions.fs:347). [TEnum items eff]:
    values of the items in declaration order; [eff] is the table
    encoded_values_array (header_c.stg:144-153) when isEnumEfficientEnabled.
    [TOid rel]: OBJECT IDENTIFIER or RELATIVE-OID. [TReal fp32]: REAL, held in a
    C float or double (getClass, Asn1AcnAstUtilFunctions.fs). [TStr alpha min max]: [alpha]
    is None when the permitted alphabet has 128 characters (DAstUPer.fs:437-447).
    [TRef ok t]: call to the function of another type assignment; [ok] is its
    IsConstraintValid function. [TCont bits min max req t]: OCTET STRING or BIT
    STRING CONTAINING t, with the bounds and the size in octets of the temporary
    buffer computed by the front end (AcnCreateFromAntlr.fs:1580-1612); t is the
    [TRef] of the function called. The
    TIME types are not represented. *)
Inductive ty :=
| TBool
| TNull
| TInt (i : ispec) (p : bool) (w : Z)
| TEnum (items : list Z) (eff : option (list Z))
| TOid (rel : bool)
| TReal (fp32 : bool)
| TStr (alpha : option (list Z)) (min max : Z)
| TOct (min max : Z)
| TBit (min max : Z)
| TSeqOf (t : ty) (min max : Z)
| TSeq (fs : fields)
| TChoice (cs : alts)
| TRef (ok : value -> bool) (t : ty)
| TCont (bits : bool) (min max req : Z) (t : ty)
with fields := FNil | FCons (o : opt) (t : ty) (fs : fields)
with alts := ANil | ACons (t : ty) (cs : alts).

Scheme ty_ind' := Induction for ty Sort Prop
with fields_ind' := Induction for fields Sort Prop
with alts_ind' := Induction for alts Sort Prop.
Combined Scheme ty_mutind from ty_ind', fields_ind', alts_ind'.

Fixpoint alts_len (cs : alts) : nat :=
  match cs with ANil => O | ACons _ cs => S (alts_len cs) end.
Fixpoint fields_len (fs : fields) : nat :=
  match fs with FNil => O | FCons _ _ fs => S (fields_len fs) end.
