(** What an initialised variable should hold, and the types for which the generated
    _Initialize guarantees it. *)
From Verif Require Import Base Bits UperTypes ConSpec Constraints ConstraintsProofs Init.

(** ** The values of a type *)
(** Presence of a component. *)
Definition presence (o : nopt) (e : bool) : bool :=
  match o with
  | NRequired | NAlwaysPresent => e
  | NAlwaysAbsent => negb e
  | NOptional _ => true
  end.
Fixpoint value_of (t : nty) (v : value) {struct t} : bool :=
  match t, v with
  | NInt p _ cs, VInt x =>
      (if p then (0 <=? x) && (x <? 2 ^ 64) else (- 2 ^ 63 <=? x) && (x <? 2 ^ 63)) && forallb (fun c => sat_int c x) cs
  | NBool cs, VBool b => forallb (sat (Bool.eqb b)) cs
  | NEnum items cs, VEnum x => mem x items && forallb (sat (Z.eqb x)) cs
  | NNull, VNull => true
  | NOid, VOid l => 2 <=? len l
  | NStr d cs, VStr s => forallb (fun ch => mem ch d && negb (ch =? 0)) s && forallb (fun c => sat_str c s) cs
  | NOct cs, VOct l => forallb (fun b => (0 <=? b) && (b <? 256)) l && forallb (sat (sat_szatom eqs len l)) cs
  | NBit cs, VBit l => forallb (sat (sat_szatom (list_eqb Bool.eqb) len l)) cs
  | NSeqOf cs t, VSeqOf l => forallb (sat (fun a => sat_sq a l)) cs && forallb (value_of t) l
  | NSeq cs fs, VSeq l =>
      forallb2 (fun (f : nopt * nty) (x : bool * option value) =>
        presence (fst f) (fst x) &&
        (negb (fst x) || match snd x with Some w => value_of (snd f) w | None => false end)) fs l
      && forallb (sat (fun a => sat_sr a l)) cs
  | NChoice cs ts, VChoice i w =>
      forallb (sat (fun a => sat_chc a i w)) cs
      && match nth_error (map (fun t => value_of t w) ts) i with Some b => b | None => false end
  | NCall cs t, v => value_of t v && forallb (fun c => sat_any c v) cs
  | _, _ => false
  end.

(** ** Constraints without exceptions *)
Fixpoint no_except {A} (c : con A) : bool :=
  match c with
  | Union c1 c2 | Inter c1 c2 | Root2 c1 c2 => no_except c1 && no_except c2
  | Root c => no_except c
  | Atom _ => true
  | AllExcept _ | Except _ _ => false
  end.
(** The bounds fit the C type. *)
Definition bound_ok (p : bool) (x : Z) : bool :=
  if p then (0 <=? x) && (x <? 2 ^ 64) else (- 2 ^ 63 <=? x) && (x <? 2 ^ 63).
Definition bounds_ok (p : bool) (a : atom) : bool :=
  match a with
  | Val v => bound_ok p v
  | Rng a b _ _ => bound_ok p a && bound_ok p b
  | Ge a _ | Le a _ => bound_ok p a
  end.
Fixpoint each {A} (f : A -> bool) (c : con A) : bool :=
  match c with
  | Union c1 c2 | Inter c1 c2 | Root2 c1 c2 | Except c1 c2 => each f c1 && each f c2
  | Root c | AllExcept c => each f c
  | Atom a => f a
  end.

(** ** Sizes: one union of closed ranges, or several closed ranges *)
Definition closed (a : atom) : bool :=
  match a with
  | Val v => (0 <=? v) && (v <? 2 ^ 32)
  | Rng a b ai bi => ai && bi && (0 <=? a) && (a <=? b) && (b <? 2 ^ 32)
  | _ => false
  end.
Fixpoint union_of_closed (c : icon) : bool :=
  match c with
  | Union c1 c2 => union_of_closed c1 && union_of_closed c2
  | Atom a => closed a
  | _ => false
  end.
Definition sizes_ok (l : list icon) : Prop :=
  (exists c, l = [c] /\ union_of_closed c = true) \/
  (l <> [] /\ Forall (fun c => exists a, c = Atom a /\ closed a = true) l /\ exists n, Forall (fun c => sat_int c n = true) l).

(** ** Strings: SIZE and FROM *)
Definition str_sizes (cs : list scon) : list icon :=
  flat_map (fun c => match c with Atom (StrSize k) => [k] | _ => [] end) cs.
Definition str_form (c : scon) : Prop :=
  match c with
  | Atom (StrSize _) => True
  | Atom (StrFrom k) => positive k = true
  | _ => False
  end.
Definition str_char_ok (ch : Z) (c : scon) : Prop :=
  match c with Atom (StrFrom k) => sat_char k ch = true | _ => True end.

(** ** Lists: SIZE and WITH COMPONENT *)
Definition sq_sizes (cs : list (con sqatom)) : list icon :=
  flat_map (fun c => match c with Atom (SqSize k) => [k] | _ => [] end) cs.
(** A WITH COMPONENT constraint is merged into the item type, AcnCreateFromAntlr.fs:1146. *)
Definition sq_form (item : value -> bool) (c : con sqatom) : Prop :=
  match c with
  | Atom (SqSize _) => True
  | Atom (SqWith k) => forall v, item v = true -> sat_any k v = true
  | _ => False
  end.

(** DEFAULT values are assigned faithfully. *)
Fixpoint no_var_bits (t : nty) : Prop :=
  match t with
  | NBit cs => exists n, getSizeableUperRange len cs = Some (Concrete n n)
  | NSeqOf _ t | NCall _ t => no_var_bits t
  | NSeq _ fs => (fix go (fs : list (nopt * nty)) := match fs with [] => True | (_, t) :: fs => no_var_bits t /\ go fs end) fs
  | NChoice _ ts => (fix go (ts : list nty) := match ts with [] => True | t :: ts => no_var_bits t /\ go ts end) ts
  | _ => True
  end.

(** ** Types that are initialised with a value of the type *)
Fixpoint ready (t : nty) : Prop :=
  match t with
  | NInt p _ cs =>
      forallb no_except cs = true /\ forallb (each (bounds_ok p)) cs = true /\
      exists x, bound_ok p x = true /\ forallb (fun c => sat_int c x) cs = true
  | NBool cs => exists b, forallb (sat (Bool.eqb b)) cs = true
  | NEnum items cs => exists x, In x items /\ forallb (sat (Z.eqb x)) cs = true
  | NNull => True
  | NOid => False
  | NStr d cs =>
      canonical d /\ Forall str_form cs /\ sizes_ok (str_sizes cs) /\
      getSrtingAlphaUperRange d cs <> None /\
      exists ch, In ch d /\ 32 <= ch <= 126 /\ Forall (str_char_ok ch) cs
  | NOct cs => exists l, cs = map (fun c => Atom (Size c)) l /\ sizes_ok l
  | NBit cs => exists l, cs = map (fun c => Atom (Size c)) l /\ sizes_ok l
  | NSeqOf cs t => (Forall (sq_form (value_of t)) cs /\ sizes_ok (sq_sizes cs)) /\ ready t
  | NSeq cs fs =>
      cs = [] /\
      (fix go (fs : list (nopt * nty)) : Prop :=
         match fs with
         | [] => True
         | (o, t) :: fs =>
             match o with
             | NAlwaysAbsent => True
             | NOptional (Some def) => no_var_bits t /\ value_of t def = true
             | _ => ready t
             end /\ go fs
         end) fs
  | NChoice cs ts => cs = [] /\ match ts with t :: _ => ready t | [] => False end
  | NCall cs t => cs = [] /\ ready t
  end.
