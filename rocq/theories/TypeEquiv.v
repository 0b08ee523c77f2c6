(** When the uPER function of a referenced type is called: uperEquivalence, FrontEndAst/TypesEquivalence.fs,
    used by createReferenceFunction, BackendAst/DAstUPer.fs:926-962. *)
From Verif Require Import Base Bits RealSpec UperTypes ConSpec Constraints Validate Pipeline.

(** Asn1Type, as far as uPER matters; the lists are `cons`. [numeric]: NumericString. [items]: the values of the
    items of an ENUMERATED; the equality of items also compares their names. Alternatives are in the order
    of their tags; those of both types compared come from one definition. The tags, the marks of alternatives,
    ACN components and the TIME types, which like OBJECT IDENTIFIER are never equivalent, are left out. *)
Inductive ety :=
| EInt (cs : list icon)
| EReal (cs : list (con double))
| EStr (numeric : bool) (cs : list scon)
| EOct (cs : list (con (szatom (list Z))))
| EBit (cs : list (con (szatom (list bool))))
| ENull
| EBool (cs : list (con bool))
| EEnum (items : list Z) (cs : list (con Z))
| EOid (rel : bool)
| ESeqOf (cs : list (con (szatom (list value)))) (t : ety)
| ESeq (l : list (opt * ety))
| EChoice (l : list ety)
| ERef (t : ety).

(** The equality tests of F# for the values compared. *)
Record eqs := Eqs {
  eq_int : list icon -> list icon -> bool;
  eq_str : list scon -> list scon -> bool;
  eq_oct : list (con (szatom (list Z))) -> list (con (szatom (list Z))) -> bool;
  eq_bit : list (con (szatom (list bool))) -> list (con (szatom (list bool))) -> bool;
  eq_enum : list (con Z) -> list (con Z) -> bool;
  eq_of : list (con (szatom (list value))) -> list (con (szatom (list value))) -> bool;
  eq_opt : opt -> opt -> bool }.

(** `_, ReferenceType r2`, TypesEquivalence.fs:37 *)
Fixpoint strip (t : ety) : ety := match t with ERef t => strip t | _ => t end.
(** List.zip and Seq.forall of lists of one length, 22-27, 29-33 *)
Definition zip_forall {A B} (f : A -> B -> bool) : list A -> list B -> bool :=
  fix go l m := match l, m with
                | [], [] => true
                | x :: l, y :: m => f x y && go l m
                | _, _ => false
                end.
(** uperEquivalence, 5-38 *)
Fixpoint uperEquivalence (e : eqs) (t1 t2 : ety) {struct t1} : bool :=
  match t1 with
  | ERef r1 => uperEquivalence e r1 t2
  | _ =>
      match t1, strip t2 with
      | EInt a1, EInt a2 => eq_int e a1 a2
      | EReal _, EReal _ => true
      | EStr n1 s1, EStr n2 s2 => Bool.eqb n1 n2 && eq_str e s1 s2
      | EOct o1, EOct o2 => eq_oct e o1 o2
      | ENull, ENull => true
      | EBit b1, EBit b2 => eq_bit e b1 b2
      | EBool _, EBool _ => true
      | EEnum i1 c1, EEnum i2 c2 => list_eqb Z.eqb i1 i2 && eq_enum e c1 c2
      | ESeqOf c1 ch1, ESeqOf c2 ch2 => eq_of e c1 c2 && uperEquivalence e ch1 ch2
      | ESeq l1, ESeq l2 => zip_forall (fun c1 c2 => eq_opt e (fst c1) (fst c2) && uperEquivalence e (snd c1) (snd c2)) l1 l2
      | EChoice l1, EChoice l2 => zip_forall (uperEquivalence e) l1 l2
      | _, _ => false
      end
  end.

(** The type of the uPER code generator, by Pipeline.v. [slim]: command line option; [fp32]: the C type of
    REAL; [eff]: the table of an ENUMERATED, made of its items and constraints. The validity function of
    SEQUENCE OF, SEQUENCE and CHOICE types is left out here. *)
Record gen := Gen { slim : bool; fp32 : bool; chars : bool -> list Z; eff : list Z -> list (con Z) -> option (list Z) }.
Definition omap_fields (f : ety -> option ty) : list (opt * ety) -> option fields :=
  fix go l := match l with
              | [] => Some FNil
              | (o, t) :: l => obind (f t) (fun t => obind (go l) (fun fs => Some (FCons o t fs)))
              end.
Definition omap_alts (f : ety -> option ty) : list ety -> option alts :=
  fix go l := match l with
              | [] => Some ANil
              | t :: l => obind (f t) (fun t => obind (go l) (fun cs => Some (ACons t cs)))
              end.
Fixpoint uper_type (g : gen) (t : ety) : option ty :=
  match t with
  | EInt cs => int_ty (slim g) cs
  | EReal _ => Some (TReal (fp32 g))
  | EStr n cs => str_ty (chars g n) cs
  | EOct cs => oct_ty cs
  | EBit cs => bit_ty cs
  | ENull => Some TNull
  | EBool _ => Some TBool
  | EEnum items cs => Some (TEnum items (eff g items cs))
  | EOid rel => Some (TOid rel)
  | ESeqOf cs t => obind (obind (getSizeableUperRange len cs) getSizeMinAndMaxValue) (fun '(a, b) =>
      obind (uper_type g t) (fun t => Some (TSeqOf t a b)))
  | ESeq l => obind (omap_fields (uper_type g) l) (fun fs => Some (TSeq fs))
  | EChoice l => obind (omap_alts (uper_type g) l) (fun cs => Some (TChoice cs))
  | ERef t => obind (uper_type g t) (fun t => Some (TRef (fun _ => true) t))
  end.
