(** Tags of CHOICE alternatives. CreateAsn1AstFromAntlrTree.fs:446 and 475 drop TYPE_TAG
    nodes, and the tagging environment of the module is not read at all; 497 treats SET
    as SEQUENCE. *)
From Verif Require Import Base Bits UperTypes UperSpec.

(** A type as written. [GBase u t]: any type but CHOICE, with universal tag u
    (X.680 table 1); [GTag]: a prefixed type; [GChoice auto]: auto tells whether the
    module has AUTOMATIC TAGS. *)
Inductive gty :=
| GBase (u : Z) (t : ty)
| GTag (cls num : Z) (g : gty)
| GChoice (auto : bool) (l : list gty).
(** What the compiler keeps. *)
Fixpoint alts_of (l : list ty) : alts := match l with [] => ANil | t :: l => ACons t (alts_of l) end.
Fixpoint compile (g : gty) : ty :=
  match g with
  | GBase _ t => t
  | GTag _ _ g => compile g
  | GChoice _ l => TChoice (alts_of (map compile l))
  end.
(** A SET of mandatory components and its value, as kept by the compiler. *)
Fixpoint set_of (l : list gty) : fields := match l with [] => FNil | g :: l => FCons Mandatory (compile g) (set_of l) end.
Definition set_value (l : list value) : value := VSeq (map (fun v => (true, Some v)) l).
