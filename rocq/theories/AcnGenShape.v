(** Types whose generated ACN decoder is safe on any input, and what it can then
    return; independent of the model of the code. *)
From Verif Require Import Bits RealSpec UperTypes UperSpec UperShape UperClasses AcnGen.

(** ** Determinants: kind, and the limits of an integer as decoded *)
Inductive dkind := DBool | DEnum | DStr | DInt (r : option (Z * Z)).
Definition scope := Z -> option dkind.
Definition add (d : Z) (k : option dkind) (s : scope) : scope := fun x => if x =? d then k else s x.
Definition within (r : option (Z * Z)) (x : Z) : Prop :=
  match r with Some (a, b) => a <= x <= b | None => True end.
Definition of_kind (k : dkind) (v : value) : Prop :=
  match k, v with
  | DBool, VBool _ | DEnum, VEnum _ | DStr, VStr _ => True
  | DInt r, VInt x => within r x
  | _, _ => False
  end.

(** A decoded integer fits its C type, and the field it is read from when that is
    narrower. *)
Definition limits (k : icodec) (w : Z) : Z * Z :=
  let bits := fun n => (0, 2 ^ Z.min n w - 1) in
  match k with
  | KUper a b => (a, b)
  | KPos n => bits n
  | KPos8 => bits 8
  | KPosBE k | KPosLE k => bits (8 * k)
  | KTwos _ | KTwos8 | KTwosBE _ | KTwosLE _ | KTwosVar | KText _ | KTextVar | KTextNull _ => (- 2 ^ (w - 1), 2 ^ (w - 1) - 1)
  | _ => bits w
  end.
Fixpoint kind_of (t : aty) : option dkind :=
  match t with
  | AUper TBool | ABool _ _ _ _ => Some DBool
  | AUper (TEnum _ _) | AEnum _ _ _ | AEnumEff _ _ _ _ _ _ => Some DEnum
  | AUper (TInt (INoExt (Concrete a b)) _ _) => Some (DInt (Some (a, b)))
  | AUper (TInt _ _ _) | AInt _ _ (Some _) => Some (DInt None)
  | AInt k w None => Some (DInt (Some (limits k w)))
  | AUper (TStr _ _ _) | AStr _ _ _ => Some DStr
  | ARef _ t | AAlign _ t => kind_of t
  | _ => None
  end.

(** ** Uses of determinants. A length that passes the tests [lo] and [hi] is not
    negative and does not exceed the array. For a list the upper limit is always
    tested, and a negative length only matters when it does not fit an int. *)
Definition tested (lo hi : option Z) (x : Z) : Prop :=
  (match lo with Some a => a <= x | None => True end) /\ (match hi with Some b => x <= b | None => True end).
Definition length_ok (s : scope) (sz : size_kind) (list_of : bool) (min max : Z) : Prop :=
  match sz with
  | SzExt d lo hi =>
      exists r, s d = Some (DInt r) /\
        (min = max \/
         if list_of then forall x, within r x -> tested lo (Some max) x -> - 2 ^ 31 <= x
         else forall x, within r x -> tested lo hi x -> 0 <= x <= max)
  | _ => True
  end.
Definition choice_ok (s : scope) (k : choice_kind) : Prop :=
  match k with
  | CIndex => True
  | CEnum d _ => s d = Some DEnum
  | CPres conds => Forall (Forall (fun p => s (fst p) <> None)) conds
  end.

(** [sturdy]: every determinant is decoded before it is used, lengths are limited,
    uPER parts are [guarded], no string terminated by a pattern, no alignment to
    more than an octet. *)
Fixpoint sturdy (s : scope) (t : aty) : Prop :=
  match t with
  | AUper t => guarded t = true
  | AStr k _ _ =>
      match k with
      | SNull _ => False
      | SAscii => True
      | SIndexExt set d => set <> [] /\ exists r, s d = Some (DInt r)
      | SAsciiExt d | SIA5Ext d => exists r, s d = Some (DInt r)
      end
  | AOct sz min max | ABit sz min max => length_ok s sz false min max
  | ASeqOf t sz min max => length_ok s sz true min max /\ sturdy s t
  | ASeq fs => sturdy_fields s fs
  | AChoice k cs => choice_ok s k /\ sturdy_alts s cs
  | ARef _ t => sturdy s t
  | AAlign n t => n = 8 /\ sturdy s t
  | _ => True
  end
with sturdy_fields (s : scope) (fs : afields) : Prop :=
  match fs with
  | GNil => True
  | GAsn o t fs =>
      (match o with OOptional (PDet d) _ => s d = Some DBool | _ => True end) /\
      (o = OAbsent \/ sturdy s t) /\ sturdy_fields s fs
  | GAcn d t fs => sturdy s t /\ sturdy_fields (add d (kind_of t) s) fs
  | GPad t fs => sturdy s t /\ sturdy_fields s fs
  end
with sturdy_alts (s : scope) (cs : aalts) : Prop :=
  match cs with HNil => True | HCons t cs => sturdy s t /\ sturdy_alts s cs end.

(** ** Decoded values. [VJunk]: contents not set, where the generated code forgets a
    failure (32 bit REAL in little endian, C55). *)
Fixpoint ashape (t : aty) (v : value) {struct t} : Prop :=
  match t, v with
  | AUper t, v => shape t v
  | ABool _ _ _ _, VBool _ => True
  | ANull _ _, VNull => True
  | AInt k w mf, VInt z => mf = None -> within (Some (limits k w)) z
  | AEnum items _ _, VEnum z => In z (map fst items)
  | AEnumEff arr _ _ _ _ _, VEnum z => In z arr
  | AReal _ _ _, VReal _ => True
  | AReal be d64 _, VJunk => be = false /\ d64 = false
  | AStr _ _ max, VStr l => Z.of_nat (length l) <= max /\ ~ In 0 l
  | AOct _ _ max, VOct l => Z.of_nat (length l) <= max /\ Forall (fun b => 0 <= b < 256) l
  | ABit _ _ max, VBit l => Z.of_nat (length l) <= max
  | ASeqOf t _ _ max, VSeqOf l => Z.of_nat (length l) <= max /\ Forall (ashape t) l
  | AOct (SzNull _ _) _ _, VJunk | ASeqOf _ (SzNull _ _) _ _, VJunk | ASeqOf _ (SzExt _ _ _) _ _, VJunk => True
  | ASeq fs, VSeq l => ashape_fields fs l
  | AChoice _ cs, VChoice i v => ashape_alt cs i v
  | ARef ok t, v => ashape t v /\ ok v = true
  | AAlign _ t, v => ashape t v
  | _, _ => False
  end
with ashape_fields (fs : afields) (l : list (bool * option value)) {struct fs} : Prop :=
  match fs, l with
  | GNil, [] => True
  | GAsn o t fs, (e, ov) :: l =>
      (match o, e, ov with
       | OAbsent, false, None => True
       | OAbsent, _, _ => False
       | _, true, Some v => ashape t v
       | OOptional _ def, false, ov => ov = def
       | _, _, _ => False
       end) /\ ashape_fields fs l
  | GAcn _ _ fs, l | GPad _ fs, l => ashape_fields fs l
  | _, _ => False
  end
with ashape_alt (cs : aalts) (i : nat) (v : value) {struct cs} : Prop :=
  match cs, i with
  | HNil, _ => False
  | HCons t _, O => ashape t v
  | HCons _ cs, S i => ashape_alt cs i v
  end.
