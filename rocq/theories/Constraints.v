(** What the front end computes from constraints: FrontEndAst/uPER.fs, uperUnion
    and uperIntersection of CommonTypes/CommonTypes.fs, the C type of an integer
    (Asn1AcnAstUtilFunctions.fs) and the removal of type inclusions
    (AcnCreateFromAntlr.fs). [None]: a SemanticError, the specification is
    rejected. *)
From Verif Require Import Base Bits UperTypes ConSpec.

Definition obind {A B} (o : option A) (f : A -> option B) : option B :=
  match o with Some x => f x | None => None end.

(** uperUnion, CommonTypes.fs:968-978. The last case, which swaps the arguments,
    is written out. *)
Definition uperUnion (r1 r2 : range) : range :=
  match r1, r2 with
  | Full, _ => Full
  | PosInf a, PosInf b => PosInf (Z.min a b)
  | PosInf a, NegInf b => Full
  | PosInf a1, Concrete a b => PosInf (Z.min a1 a)
  | NegInf a, NegInf b => NegInf (Z.max a b)
  | NegInf a, PosInf b => Full
  | NegInf a1, Concrete a b => NegInf (Z.max a1 b)
  | Concrete a1 b1, Concrete a2 b2 => Concrete (Z.min a1 a2) (Z.max b1 b2)
  | _, Full => Full
  | Concrete a b, PosInf a1 => PosInf (Z.min a1 a)
  | Concrete a b, NegInf a1 => NegInf (Z.max a1 b)
  end.

(** uperIntersection, CommonTypes.fs:980-999; swapped cases written out. *)
Definition posinf_concrete (a1 a b : Z) : option range :=
  if b <? a1 then None
  else if a1 <=? a then Some (PosInf a1)
  else Some (Concrete a1 b).
Definition neginf_concrete (a1 a b : Z) : option range :=
  if a1 <? a then None
  else if a1 <? b then Some (Concrete a1 b)
  else Some (Concrete a b).
Definition uperIntersection (r1 r2 : range) : option range :=
  match r1, r2 with
  | Full, _ => Some r2
  | PosInf a, PosInf b => Some (PosInf (Z.max a b))
  | PosInf a, NegInf b => if a <=? b then Some (Concrete a b) else None
  | PosInf a1, Concrete a b => posinf_concrete a1 a b
  | NegInf a, NegInf b => Some (NegInf (Z.min a b))
  | NegInf a, PosInf b => if b <=? a then Some (Concrete b a) else None
  | NegInf a1, Concrete a b => neginf_concrete a1 a b
  | Concrete a1 b1, Concrete a2 b2 =>
      if (a1 <=? a2) && (a2 <=? b1) && (b1 <=? b2) then Some (Concrete a2 b1)
      else if (a2 <=? a1) && (a1 <=? b2) && (b2 <=? b1) then Some (Concrete a1 b2)
      else if (a2 <=? a1) && (b1 <=? b2) then Some r1
      else if (a1 <=? a2) && (b2 <=? b1) then Some r2
      else None
  | _, Full => Some r1
  | Concrete a b, PosInf a1 => posinf_concrete a1 a b
  | Concrete a b, NegInf a1 => neginf_concrete a1 a b
  end.

(** The fold common to uPER.fs:15-35, 49-79, 92-124, 127-167. [f]: the range of
    an atom. Both arguments of EXCEPT are folded, so an error in the second one
    is reported too. *)
Fixpoint range_of {A} (f : A -> option range) (c : con A) : option range :=
  match c with
  | Union c1 c2 =>
      obind (range_of f c1) (fun r1 => obind (range_of f c2) (fun r2 => Some (uperUnion r1 r2)))
  | Inter c1 c2 =>
      obind (range_of f c1) (fun r1 => obind (range_of f c2) (fun r2 => uperIntersection r1 r2))
  | AllExcept c => obind (range_of f c) (fun _ => Some Full)
  | Except c1 c2 => obind (range_of f c1) (fun r1 => obind (range_of f c2) (fun _ => Some r1))
  | Root c => obind (range_of f c) (fun _ => Some Full)
  | Root2 c1 c2 => obind (range_of f c1) (fun _ => obind (range_of f c2) (fun _ => Some Full))
  | Atom a => f a
  end.
(** uPER.fs:23-33 and its copies: exclusive bounds are moved by one. *)
Definition atom_range (next prev : Z -> Z) (a : atom) : range :=
  match a with
  | Val v => Concrete v v
  | Rng a b ai bi => Concrete (if ai then a else next a) (if bi then b else prev b)
  | Ge a ai => PosInf (if ai then a else next a)
  | Le b bi => NegInf (if bi then b else prev b)
  end.
(** List.fold (fun s c -> uperIntersection s (..c..)) Full *)
Fixpoint fold_ranges {A} (f : A -> option range) (s : range) (cs : list A) : option range :=
  match cs with
  | [] => Some s
  | c :: cs => obind (f c) (fun r => obind (uperIntersection s r) (fun s' => fold_ranges f s' cs))
  end.

(** getIntTypeConstraintUperRange, uPER.fs:38-41 (BigInteger) *)
Definition int_range (c : icon) : option range :=
  range_of (fun a => Some (atom_range (fun x => x + 1) (fun x => x - 1) a)) c.
Definition getIntTypeConstraintUperRange (cs : list icon) : option range :=
  fold_ranges int_range Full cs.

(** The sizes are UInt32: bounds moved by one wrap. *)
Definition u32 (x : Z) : Z := x mod 2 ^ 32.
Definition size_range (c : icon) : option range :=
  range_of (fun a => Some (atom_range (fun x => u32 (x + 1)) (fun x => u32 (x - 1)) a)) c.
(** getSizeableUperRange, uPER.fs:81-84; getSequenceOfUperRange, uPER.fs:94-127, is
    the same on the constraints of SIZE and single values. *)
Definition sz_range {V} (len : V -> Z) (c : con (szatom V)) : option range :=
  range_of (fun a => match a with SzVal v => Some (Concrete (u32 (len v)) (u32 (len v))) | Size c => size_range c end) c.
Definition getSizeableUperRange {V} (len : V -> Z) (cs : list (con (szatom V))) : option range :=
  fold_ranges (sz_range len) Full cs.
(** getStringSizeUperRange, uPER.fs:130-175: everything inside FROM is Full. *)
Definition str_size_range (c : scon) : option range :=
  range_of (fun a => match a with
                     | StrVal s => Some (Concrete (u32 (Z.of_nat (length s))) (u32 (Z.of_nat (length s))))
                     | StrSize c => size_range c
                     | StrFrom _ => Some Full
                     end) c.
Definition getStringSizeUperRange (cs : list scon) : option range :=
  fold_ranges str_size_range Full cs.
(** getSizeMinAndMaxValue, uPER.fs:274-277 *)
Definition getSizeMinAndMaxValue (r : range) : option (Z * Z) :=
  match r with Concrete a b => Some (a, b) | _ => None end.

(** ** Permitted alphabet, uPER.fs:177-263 *)

Definition mem (x : Z) (l : list Z) : bool := existsb (Z.eqb x) l.
(** Seq.distinct: first occurrences *)
Fixpoint distinct_from (seen l : list Z) : list Z :=
  match l with
  | [] => []
  | x :: l => if mem x seen then distinct_from seen l else x :: distinct_from (x :: seen) l
  end.
Definition distinct (l : list Z) : list Z := distinct_from [] l.
(** IntersectArrays, uPER.fs:177-182 *)
Definition IntersectArrays (s1 s2 : list Z) : option (list Z) :=
  match filter (fun ch => mem ch s2) s1 with
  | [] => None
  | l => Some l
  end.
Definition CharSetUnion (s1 s2 : list Z) : list Z := distinct (s1 ++ s2).
(** Array.tryFindIndex *)
Fixpoint findIndex (x : Z) (l : list Z) (i : Z) : option Z :=
  match l with
  | [] => None
  | y :: l => if y =? x then Some i else findIndex x l (i + 1)
  end.
(** arr.[i..j]: empty when i > j *)
Definition slice (l : list Z) (i j : Z) : list Z :=
  firstn (Z.to_nat (j - i + 1)) (skipn (Z.to_nat i) l).
(** GetCharSetFromMinMax, uPER.fs:190-205 *)
Definition GetCharSetFromMinMax (d : list Z) (a b : Z) (ai bi : bool) : option (list Z) :=
  obind (findIndex a d 0) (fun a1 =>
  obind (findIndex b d 0) (fun a2 =>
  Some (slice d (if ai then a1 else a1 + 1) (if bi then a2 else a2 - 1)))).

(** The fold, with [f] for the atoms; [d]: defaultCharSet *)
Fixpoint chars_of {A} (d : list Z) (f : A -> option (list Z)) (c : con A) : option (list Z) :=
  match c with
  | Union c1 c2 =>
      obind (chars_of d f c1) (fun r1 => obind (chars_of d f c2) (fun r2 => Some (CharSetUnion r1 r2)))
  | Inter c1 c2 =>
      obind (chars_of d f c1) (fun r1 => obind (chars_of d f c2) (fun r2 => IntersectArrays r1 r2))
  | AllExcept c => obind (chars_of d f c) (fun _ => Some d)
  | Except c1 c2 => obind (chars_of d f c1) (fun r1 => obind (chars_of d f c2) (fun _ => Some r1))
  | Root c => obind (chars_of d f c) (fun _ => Some d)
  | Root2 c1 c2 => obind (chars_of d f c1) (fun _ => obind (chars_of d f c2) (fun _ => Some d))
  | Atom a => f a
  end.
(** An empty defaultCharSet does not occur; [last], [hd]: its ends. *)
Definition chatom_chars (d : list Z) (a : chatom) : option (list Z) :=
  match a with
  | Chars s => Some (distinct s)
  | ChRng a b ai bi => GetCharSetFromMinMax d a b ai bi
  | ChGe a ai => GetCharSetFromMinMax d a (last d 0) ai true
  | ChLe b bi => GetCharSetFromMinMax d (hd 0 d) b true bi
  end.
(** getStringConstraintAlphabetUperRange, uPER.fs:184-257. The part about sizes
    only returns defaultCharSet. *)
Definition str_chars (d : list Z) (c : scon) : option (list Z) :=
  chars_of d (fun a => match a with
                       | StrVal _ | StrSize _ => Some d
                       | StrFrom c => chars_of d (chatom_chars d) c
                       end) c.
(** getSrtingAlphaUperRange, uPER.fs:259-262 *)
Fixpoint fold_chars (d s : list Z) (cs : list scon) : option (list Z) :=
  match cs with
  | [] => Some s
  | c :: cs => obind (str_chars d c) (fun r => obind (IntersectArrays s r) (fun s' => fold_chars d s' cs))
  end.
Definition getSrtingAlphaUperRange (d : list Z) (cs : list scon) : option (list Z) := fold_chars d d cs.

(** AcnCreateFromAntlr.fs:1109, 1115 *)
Definition ia5_chars : list Z := map Z.of_nat (seq 0 128).
Definition numeric_chars : list Z := 32 :: map (fun i => 48 + Z.of_nat i) (seq 0 10).

(** ** The C type of an INTEGER *)

(** getIntEncodingClassByUperRange, Asn1AcnAstUtilFunctions.fs:347-390: whether
    the type is unsigned, and its width. [slim]: command line option;
    [w]: 8 * integerSizeInBytes, 32 or 64. *)
Definition int_class (slim : bool) (w : Z) (r : range) : bool * Z :=
  match r with
  | Concrete a b =>
      if 0 <=? a then
        if slim then
          if 2 ^ 32 - 1 <? b then (true, 64)
          else if 2 ^ 16 - 1 <? b then (true, 32)
          else if 2 ^ 8 - 1 <? b then (true, 16)
          else (true, 8)
        else (true, w)
      else
        if slim then
          if (- 2 ^ 7 <=? a) && (b <=? 2 ^ 7 - 1) then (false, 8)
          else if (- 2 ^ 15 <=? a) && (b <=? 2 ^ 15 - 1) then (false, 16)
          else if (- 2 ^ 31 <=? a) && (b <=? 2 ^ 31 - 1) then (false, 32)
          else (false, 64)
        else (false, w)
  | PosInf a => if 0 <=? a then (true, w) else (false, w)
  | NegInf _ | Full => (false, w)
  end.

(** ** From the parse tree to constraints *)

(** CreateConstraint, CreateAsn1AstFromAntlrTree.fs:294-356. The result is None
    for a rejected specification, Some None for "no constraint". The constraints
    of an included type have been created where that type is defined. *)
Fixpoint create {A} (c : src A) : option (option (src A)) :=
  match c with
  | SUnion c1 c2 =>
      obind (create c1) (fun k1 => obind (create c2) (fun k2 =>
      Some (match k1, k2 with Some k1, Some k2 => Some (SUnion k1 k2) | _, _ => None end)))
  | SInter c1 c2 =>
      obind (create c1) (fun k1 => obind (create c2) (fun k2 =>
      Some (match k1, k2 with
            | Some k1, Some k2 => Some (SInter k1 k2)
            | Some k1, None => Some k1
            | None, Some k2 => Some k2
            | None, None => None
            end)))
  | SAllExcept c => obind (create c) (fun k => obind k (fun k => Some (Some (SAllExcept k))))
  | SExcept c1 c2 =>
      obind (create c1) (fun k1 => obind (create c2) (fun k2 => obind k2 (fun k2 =>
      Some (match k1 with Some k1 => Some (SExcept k1 k2) | None => Some (SAllExcept k2) end))))
  | SRoot c => obind (create c) (fun k => Some (match k with Some k => Some (SRoot k) | None => None end))
  | SRoot2 c1 c2 =>
      obind (create c1) (fun k1 => obind (create c2) (fun k2 => obind k1 (fun k1 =>
      Some (match k2 with Some k2 => Some (SRoot2 k1 k2) | None => Some (SRoot k1) end))))
  | SAtom a => Some (Some (SAtom a))
  | SMinMax => Some None
  | SIncl l => Some (Some (SIncl l))
  end.

(** fixConstraint, AcnCreateFromAntlr.fs:854-902: a list of constraints that must
    all hold. [inter1]: intersect applied to a non-empty list. *)
Definition inter1 {A} (c : con A) (cs : list (con A)) : con A := fold_left Inter cs c.
Definition merge {A} (cc : list (con A)) (k : con A -> con A) : list (con A) :=
  match cc with [] => [] | x :: xs => [k (inter1 x xs)] end.
Definition merge2 {A} (c1 c2 : list (con A)) (k : con A -> con A -> con A) : list (con A) :=
  match c1, c2 with
  | [], [] => []
  | _ :: _, [] => c1
  | [], _ :: _ => c2
  | x1 :: xs1, x2 :: xs2 => [k (inter1 x1 xs1) (inter1 x2 xs2)]
  end.
Fixpoint fixConstraint {A} (c : src A) : list (con A) :=
  match c with
  | SUnion c1 c2 => merge2 (fixConstraint c1) (fixConstraint c2) Union
  | SInter c1 c2 => merge2 (fixConstraint c1) (fixConstraint c2) Inter
  | SAllExcept c => merge (fixConstraint c) AllExcept
  | SExcept c1 c2 =>
      match fixConstraint c1, fixConstraint c2 with
      | [], [] => []
      | l1, [] => l1
      | [], l2 => merge l2 AllExcept
      | l1, l2 => merge2 l1 l2 Except
      end
  | SRoot c => merge (fixConstraint c) Root
  | SRoot2 c1 c2 => merge2 (fixConstraint c1) (fixConstraint c2) Root2
  | SAtom a => [Atom a]
  | SMinMax => []
  | SIncl l => flat_map fixConstraint l
  end.
