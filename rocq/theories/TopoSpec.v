(** What an order of definitions has to satisfy. *)
From Verif Require Import Base Topo.

(** [cmp] is the equality of names. *)
Definition equality {A} (cmp : A -> A -> bool) : Prop := forall x y, cmp x y = true <-> x = y.
(** In [out], an occurrence of [n] comes after every member of [l]. *)
Definition after {A} (out : list A) (n : A) (l : list A) : Prop := exists a b, out = a ++ n :: b /\ incl l a.

(** A type mentions a name: it or a component is a reference to it, or has a parameter
    of that type. *)
Inductive mentions {A} : dtype A -> A -> Prop :=
| m_other : forall prms r, In r prms -> mentions (DOther prms) r
| m_of_p : forall prms t r, In r prms -> mentions (DSeqOf prms t) r
| m_of : forall prms t r, mentions t r -> mentions (DSeqOf prms t) r
| m_seq_p : forall prms ts r, In r prms -> mentions (DSeq prms ts) r
| m_seq : forall prms ts t r, In t ts -> mentions t r -> mentions (DSeq prms ts) r
| m_ref_p : forall prms s r, In r prms -> mentions (DRef prms s) r
| m_ref : forall prms r, mentions (DRef prms r) r.
