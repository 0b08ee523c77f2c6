(** Structural limits of decoded values, independent of the model of the code. *)
From Verif Require Import Bits RealSpec UperTypes UperSpec.

(** Integers fit the C type, and the range when it is bounded on both sides. *)
Definition shape_int (i : ispec) (p : bool) (w z : Z) : Prop :=
  in_class p w z /\ match i with INoExt (Concrete a b) => a <= z <= b | _ => True end.

(** [loose]: fixed size of 64K or more, where the contents of items that failed
    to decode are unspecified. *)
Definition loose (min max : Z) : Prop := min = max /\ 65536 <= max.

Fixpoint shape (t : ty) (v : value) {struct t} : Prop :=
  match t, v with
  | TBool, VBool _ => True
  | TNull, VNull => True
  | TInt i p w, VInt z => shape_int i p w z
  | TEnum items _, VEnum z => In z items
  | TOid rel, VOid l => (length l <= 20)%nat /\ Forall (fun x => 0 <= x < 2 ^ 64) l
  | TReal f, VReal x => if f then is_float x else is_double x
  | TStr a min max, VStr l =>
      size_in min max (length l) /\ (loose min max \/ Forall (in_alpha a) l)
  | TOct min max, VOct l =>
      (size_in min max (length l) \/ l = [] /\ min < max < 65536) /\ Forall (fun b => 0 <= b < 256) l
  | TBit min max, VBit l => size_in min max (length l)
  | TSeqOf t min max, VSeqOf l =>
      size_in min max (length l) /\ Forall (fun x => shape t x \/ x = VJunk /\ loose min max) l
  | TSeq fs, VSeq l => shape_fields fs l
  | TChoice cs, VChoice i v => shape_alt cs i v
  | TRef ok t, v => shape t v /\ ok v = true
  | TCont _ _ _ _ t, v => shape t v
  | _, _ => False
  end
with shape_fields (fs : fields) (l : list (bool * option value)) {struct fs} : Prop :=
  match fs, l with
  | FNil, [] => True
  | FCons o t fs, (e, v) :: l =>
      (match e, v, o with
       | true, Some v, _ => shape t v
       | true, None, _ => False
       | false, _, Mandatory => False
       | false, v, Default d => v = Some d
       | false, v, _ => v = None
       end) /\ shape_fields fs l
  | _, _ => False
  end
with shape_alt (cs : alts) (i : nat) (v : value) {struct cs} : Prop :=
  match cs, i with
  | ANil, _ => False
  | ACons t _, O => shape t v
  | ACons _ cs, S i => shape_alt cs i v
  end.
