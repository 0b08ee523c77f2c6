(** Conditions under which the generated validity functions are exact. *)
From Verif Require Import Bits UperTypes ConSpec.

(** ** The value has the C type *)

(** The value of a C integer type of w bits, unsigned if p. *)
Definition fits_int (p : bool) (w : Z) (x : Z) : bool :=
  if p then (0 <=? x) && (x <? 2 ^ w) else (- 2 ^ (w - 1) <=? x) && (x <? 2 ^ (w - 1)).
(** Lengths are below 2^32; of a type of fixed size the length is that size. *)
Definition fits_len (fixed : option Z) (n : Z) : bool :=
  (n <? 2 ^ 32) && match fixed with Some k => n =? k | None => true end.

Section Atoms.
  Context {A : Type} (q : A -> bool).
  Fixpoint every (c : con A) : bool :=
    match c with
    | Union c1 c2 | Inter c1 c2 | Except c1 c2 | Root2 c1 c2 => every c1 && every c2
    | AllExcept c | Root c => every c
    | Atom a => q a
    end.
End Atoms.

(** The value is of the type constrained by [a]; so are the components on which
    [a] has constraints. A component that is not OPTIONAL is present; a present
    component has a value. *)
Fixpoint fits (a : acon) (v : value) : bool :=
  match a, v with
  | AInt p w _, VInt x => fits_int p w x
  | ABool _, VBool _ | AEnum _, VEnum _ => true
  | AStr _, VStr s => forallb (fun c => 0 <? c) s && fits_len None (len s)
  | AOct fixed _, VOct l => fits_len fixed (len l)
  | ABit fixed _, VBit l => fits_len fixed (len l)
  | ASeqOf fixed c, VSeqOf l => fits_len fixed (len l) && every (fun a => fits_sq a l) c
  | ASeq c, VSeq l => every (fun a => fits_sr a l) c
  | AChoice c, VChoice i v => every (fun a => fits_chc a i v) c
  | _, _ => false
  end
with fits_sq (a : sqatom) (l : list value) : bool :=
  match a with
  | SqWith a => forallb (fits a) l
  | _ => true
  end
with fits_sr (a : sratom) (l : list (bool * option value)) : bool :=
  match a with
  | SrVal _ => true
  | SrWith ns _ =>
      forallb (fun n =>
        let 'Named i opt c _ := n in
        match field l i with
        | (true, Some w) => match c with Some c => fits c w | None => true end
        | (true, None) => false
        | (false, _) => opt
        end) ns
  end
with fits_chc (a : chcatom) (k : nat) (v : value) : bool :=
  match a with
  | ChVal _ => true
  | ChWith ns =>
      forallb (fun n =>
        let 'Named i _ c _ := n in
        negb (Nat.eqb k i) || match c with Some c => fits c v | None => true end) ns
  end.

Fixpoint fits_ty (t : cty) (v : value) : bool :=
  match t with
  | CPrim cs => forallb (fun c => fits c v) cs
  | CSeqOf fixed cs t =>
      match v with
      | VSeqOf l => forallb (fun c => fits (ASeqOf fixed c) v) cs && forallb (fits_ty t) l
      | _ => false
      end
  | CSeq cs fs =>
      match v with
      | VSeq l =>
          forallb (fun c => fits (ASeq c) v) cs &&
          forallb2 (fun (f : bool * cty) (x : bool * option value) =>
            match x with
            | (true, Some w) => fits_ty (snd f) w
            | (true, None) => false
            | (false, _) => fst f
            end) fs l
      | _ => false
      end
  | CChoice cs ts =>
      match v with
      | VChoice i w =>
          forallb (fun c => fits (AChoice c) v) cs &&
          match nth_error (map (fun t => fits_ty t w) ts) i with Some b => b | None => true end
      | _ => false
      end
  | CRef cs t => fits_ty t v && forallb (fun c => fits c v) cs
  end.

(** ** The constraint is within what the generator handles *)

(** The widths of C integer types. *)
Definition width (w : Z) : bool := existsb (Z.eqb w) [8; 16; 32; 64].
(** The constants that are printed fit the C type of the comparison: for
    unsigned types upper bounds and single values are not negative. *)
Definition low_ok (p : bool) (a : Z) : bool := if p then a <? 2 ^ 64 else a <? 2 ^ 63.
Definition high_ok (p : bool) (b : Z) : bool := if p then 0 <=? b else - 2 ^ 63 <=? b.
Definition atom_ok (p : bool) (a : atom) : bool :=
  match a with
  | Val v => low_ok p v && high_ok p v
  | Rng a b _ _ => low_ok p a && high_ok p b
  | Ge a _ => low_ok p a
  | Le b _ => high_ok p b
  end.
(** For types of fixed size, all SIZE constraints hold for that size. *)
Definition size_ok (fixed : option Z) (c : icon) : bool :=
  match fixed with Some n => sat_int c n | None => true end.
Definition szatom_ok {V} (fixed : option Z) (a : szatom V) : bool :=
  match a with SzVal _ => true | Size c => size_ok fixed c end.

(** In the second operand of a union (and in extension additions) there is no
    WITH COMPONENT, and WITH COMPONENTS starts with a component marked PRESENT
    or ABSENT. *)
Section Unions.
  Context {A : Type} (q : A -> bool).
  Fixpoint unions_ok (c : con A) : bool :=
    match c with
    | Union c1 c2 | Root2 c1 c2 => unions_ok c1 && unions_ok c2 && every q c2
    | Inter c1 c2 | Except c1 c2 => unions_ok c1 && unions_ok c2
    | AllExcept c | Root c => unions_ok c
    | Atom _ => true
    end.
End Unions.
Definition firm_sq (a : sqatom) : bool := match a with SqWith _ => false | _ => true end.
Definition firm_named (l : list named) : bool :=
  match l with Named _ _ _ (MarkPresent | MarkAbsent) :: _ => true | _ => false end.
Definition firm_sr (a : sratom) : bool := match a with SrWith l _ => firm_named l | _ => true end.
Definition firm_chc (a : chcatom) : bool := match a with ChWith l => firm_named l | _ => true end.

(** No single values of SEQUENCE, SEQUENCE OF, CHOICE; no WITH COMPONENTS without
    "..." that leaves out OPTIONAL components. *)
Fixpoint handled (a : acon) : bool :=
  match a with
  | AInt p w c => width w && every (atom_ok p) c
  | ABool _ | AEnum _ => true
  | AStr c => true
  | AOct fixed c => every (szatom_ok fixed) c
  | ABit fixed c => every (szatom_ok fixed) c
  | ASeqOf fixed c => every (handled_sq fixed) c && unions_ok firm_sq c
  | ASeq c => every handled_sr c && unions_ok firm_sr c
  | AChoice c => every handled_chc c && unions_ok firm_chc c
  end
with handled_sq (fixed : option Z) (a : sqatom) : bool :=
  match a with
  | SqVal _ => false
  | SqSize c => size_ok fixed c
  | SqWith a => handled a
  end
with handled_sr (a : sratom) : bool :=
  match a with
  | SrVal _ => false
  | SrWith ns absent =>
      match absent with [] => true | _ => false end &&
      forallb (fun n => let 'Named _ _ c _ := n in match c with Some c => handled c | None => true end) ns
  end
with handled_chc (a : chcatom) : bool :=
  match a with
  | ChVal _ => false
  | ChWith ns => forallb (fun n => let 'Named _ _ c _ := n in match c with Some c => handled c | None => true end) ns
  end.

Fixpoint handled_ty (t : cty) : bool :=
  match t with
  | CPrim cs => forallb handled cs
  | CSeqOf fixed cs t => forallb (fun c => handled (ASeqOf fixed c)) cs && handled_ty t
  | CSeq cs fs => forallb (fun c => handled (ASeq c)) cs && forallb (fun f => handled_ty (snd f)) fs
  | CChoice cs ts => forallb (fun c => handled (AChoice c)) cs && forallb handled_ty ts
  | CRef cs t => handled_ty t && forallb handled cs
  end.
