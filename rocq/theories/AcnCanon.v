(** The types whose generated ACN decoders accept nothing but encodings;
    independent of the model of the code. *)
From Verif Require Import Base Bits Contracts Parse RealSpec UperTypes UperCanon AcnGen AcnGenSpec AcnGenShape.

(** Integer codings that give every value one form, read into a variable that is
    wide enough. Not: lengths and leading octets of variable size, packed decimal
    (nibbles above 9), signed text (two zeros), text of variable size. *)
Definition exact_codec (k : icodec) (w : Z) : Prop :=
  match k with
  | KUper _ _ | KPos8 | KTwos8 => True
  | KPos n | KTwos n => n <= w
  | KPosBE k | KPosLE k | KTwosBE k | KTwosLE k => 8 * k <= w
  | KUText n => 10 ^ n <= 2 ^ w
  | _ => False
  end.
(** A length that passes the tests is a permitted one. *)
Definition exact_length (s : scope) (sz : size_kind) (list_of : bool) (min max : Z) : Prop :=
  match sz with
  | SzExt d lo hi =>
      exists r, s d = Some (DInt r) /\
        forall x, within r x -> tested lo (if list_of || (min =? max) then Some max else hi) x -> min <= x <= max
  | _ => True
  end.
(** Types of ACN fields: their decoder sets a value of its own kind. *)
Fixpoint scalar (t : aty) : bool :=
  match t with
  | AUper TBool | AUper (TInt _ _ _) | AUper (TEnum _ _) | AUper (TStr _ _ _) => true
  | ABool _ _ _ _ | AInt _ _ _ | AEnum _ _ _ | AEnumEff _ _ _ _ _ _ => true
  | ARef _ t => scalar t
  | _ => false
  end.
Fixpoint blank (t : aty) : bool :=
  match t with ANull _ _ => true | ARef _ t => blank t | _ => false end.

(** [exact]: uPER parts are [canonical]; a BOOLEAN of one pattern has one bit; the
    pattern of a NULL is compared; characters cannot be NUL; nothing is aligned (the
    padding is not looked at). *)
Fixpoint exact (s : scope) (t : aty) : Prop :=
  match t with
  | AUper t => canonical t = true
  | ABool k _ _ n => k = BBoth \/ n = 1
  | ANull pat skip => pat = None \/ skip = false
  | AInt k w mf => exact_codec k w /\ match mf with Some (f, g) => forall z, f (g z) = z | None => True end
  | AEnum _ k w | AEnumEff _ _ _ _ k w => exact_codec k w
  | AReal _ _ _ => True
  | AStr k min max =>
      match k with
      | SAscii => min = max
      | SNull p => p = [0]
      | SIndexExt set d =>
          set <> [] /\ NoDup set /\ Forall (fun ch => 0 < ch < 128) set /\
          exists r, s d = Some (DInt r) /\ forall x, within r x -> 0 <= x <= max
      | SAsciiExt _ | SIA5Ext _ => False
      end
  | AOct sz min max =>
      exact_length s sz false min max /\ match sz with SzFixed | SzEmbedded => min = max | _ => True end
  | ABit sz min max => exact_length s sz false min max
  | ASeqOf t sz min max =>
      exact_length s sz true min max /\ exact s t /\ match sz with SzNull _ _ => terms t = false | _ => True end
  | ASeq fs => exact_fields s fs
  | AChoice k cs => choice_ok s k /\ exact_alts s cs
  | ARef _ t => exact s t
  | AAlign _ _ => False
  end
with exact_fields (s : scope) (fs : afields) : Prop :=
  match fs with
  | GNil => True
  | GAsn o t fs => (o = OAbsent \/ exact s t) /\ exact_fields s fs
  | GAcn d t fs => exact s t /\ scalar t = true /\ exact_fields (add d (kind_of t) s) fs
  | GPad t fs => exact s t /\ blank t = true /\ exact_fields s fs
  end
with exact_alts (s : scope) (cs : aalts) : Prop :=
  match cs with HNil => True | HCons t cs => exact s t /\ exact_alts s cs end.

(** What the decoders leave to the check of the constraints: minimal sizes of
    strings and of terminated lists. And what no check can see: contents that were
    not set, NaN (many bit patterns). *)
Definition not_nan (x : spec_float) : bool := match x with S754_nan => false | _ => true end.
Fixpoint whole (t : aty) (v : value) {struct t} : bool :=
  match t, v with
  | _, VJunk => false
  | AReal _ _ _, VReal x => not_nan x
  | AStr _ min _, VStr l => min <=? Z.of_nat (length l)
  | AOct (SzNull _ _) min _, VOct l => min <=? Z.of_nat (length l)
  | ABit (SzNull _ _) min _, VBit l => min <=? Z.of_nat (length l)
  | ASeqOf t sz min _, VSeqOf l =>
      match sz with SzNull _ _ => min <=? Z.of_nat (length l) | _ => true end && forallb (whole t) l
  | ASeq fs, VSeq l => whole_fields fs l
  | AChoice _ cs, VChoice i v => whole_alt cs i v
  | ARef _ t, v | AAlign _ t, v => whole t v
  | _, _ => true
  end
with whole_fields (fs : afields) (l : list (bool * option value)) {struct fs} : bool :=
  match fs, l with
  | GAsn _ t fs, (e, ov) :: l =>
      match e, ov with true, Some v => whole t v | _, _ => true end && whole_fields fs l
  | GAcn _ _ fs, l | GPad _ fs, l => whole_fields fs l
  | _, _ => true
  end
with whole_alt (cs : aalts) (i : nat) (v : value) {struct cs} : bool :=
  match cs, i with
  | HNil, _ => true
  | HCons t _, O => whole t v
  | HCons _ cs, S i => whole_alt cs i v
  end.

(** Every determinant has a consumer that is present. *)
Fixpoint served (t : aty) (v : value) {struct t} : Prop :=
  match t, v with
  | ASeqOf t _ _ _, VSeqOf l => Forall (served t) l
  | ASeq fs, VSeq l => served_fields fs l
  | AChoice _ cs, VChoice i v => served_alt cs i v
  | ARef _ t, v | AAlign _ t, v => served t v
  | _, _ => True
  end
with served_fields (fs : afields) (l : list (bool * option value)) {struct fs} : Prop :=
  match fs, l with
  | GAsn o t fs, (e, ov) :: l =>
      match o, e, ov with
      | OMandatory, _, Some v | OPresent, _, Some v | OOptional _ _, true, Some v => served t v
      | _, _, _ => True
      end /\ served_fields fs l
  | GAcn d _ fs, l => uses_fields d fs l /\ served_fields fs l
  | GPad _ fs, l => served_fields fs l
  | _, _ => True
  end
with served_alt (cs : aalts) (i : nat) (v : value) {struct cs} : Prop :=
  match cs, i with
  | HNil, _ => True
  | HCons t _, O => served t v
  | HCons _ cs, S i => served_alt cs i v
  end.

(** The decoder of [t] returns a value from bits that do not encode it. *)
Definition accepts_more (c : cfg) (h : bool) (t : aty) : Prop :=
  wfa t /\ exists s v s', wfp s /\ adec c h t [] s = Ok (Some v, s') /\ whole t v = true /\ ~ encodes c false t [] v (pos s) (taken s s').
