(** What the equivalence of types for uPER is for. *)
From Verif Require Import Base Bits RealSpec UperTypes UperSpec ConSpec TypeEquiv.

(** F# equality: equal things are the same. *)
Definition sound (e : eqs) : Prop :=
  (forall a b, eq_int e a b = true -> a = b) /\ (forall a b, eq_str e a b = true -> a = b) /\ (forall a b, eq_oct e a b = true -> a = b) /\
  (forall a b, eq_bit e a b = true -> a = b) /\ (forall a b, eq_enum e a b = true -> a = b) /\ (forall a b, eq_of e a b = true -> a = b) /\
  (forall a b, eq_opt e a b = true -> a = b).
Definition reflexive (e : eqs) : Prop :=
  (forall a, eq_int e a a = true) /\ (forall a, eq_str e a a = true) /\ (forall a, eq_oct e a a = true) /\
  (forall a, eq_bit e a a = true) /\ (forall a, eq_enum e a a = true) /\ (forall a, eq_of e a a = true) /\ (forall a, eq_opt e a a = true).
(** Both are refused, or both have the same encodings and leave the same value after decoding. *)
Definition same_codec (o1 o2 : option ty) : Prop :=
  match o1, o2 with
  | Some u1, Some u2 => forall v, (forall std, ubits std u1 v = ubits std u2 v) /\ norm u1 v = norm u2 v
  | None, None => True
  | _, _ => False
  end.
(** No OBJECT IDENTIFIER. *)
Inductive no_oid : ety -> Prop :=
| no_int : forall cs, no_oid (EInt cs) | no_real : forall cs, no_oid (EReal cs) | no_str : forall n cs, no_oid (EStr n cs)
| no_oct : forall cs, no_oid (EOct cs) | no_bit : forall cs, no_oid (EBit cs) | no_null : no_oid ENull
| no_bool : forall cs, no_oid (EBool cs) | no_enum : forall i cs, no_oid (EEnum i cs)
| no_of : forall cs t, no_oid t -> no_oid (ESeqOf cs t)
| no_seq : forall l, (forall o t, In (o, t) l -> no_oid t) -> no_oid (ESeq l)
| no_choice : forall l, (forall t, In t l -> no_oid t) -> no_oid (EChoice l)
| no_ref : forall t, no_oid t -> no_oid (ERef t).
(** The type without references and without the constraints of REAL and BOOLEAN, which do not matter in uPER. *)
Fixpoint erase (t : ety) : ety :=
  match t with
  | EReal _ => EReal []
  | EBool _ => EBool []
  | ESeqOf cs t => ESeqOf cs (erase t)
  | ESeq l => ESeq (map (fun c => (fst c, erase (snd c))) l)
  | EChoice l => EChoice (map erase l)
  | ERef t => erase t
  | t => t
  end.
