(** Values and indices of the items of an ENUMERATED, as computed by the compiler. *)
From Verif Require Import Base.
From Coq Require String.

(** Asn1Ast.NamedItem: name and value if one is given (already evaluated). *)
Definition item : Type := String.string * option Z.

(** getValue, AcnCreateFromAntlr.fs:717-720; [fuel] bounds the search, None: exhausted. *)
Definition has_value (vl : Z) (ni : item) : bool := match snd ni with Some v => vl =? v | None => false end.
Fixpoint getValue (fuel : nat) (allocated : list item) (vl : Z) : option Z :=
  match fuel with
  | O => None
  | S fuel => if existsb (has_value vl) allocated then getValue fuel allocated (vl + 1) else Some vl
  end.
(** allocateItems, AcnCreateFromAntlr.fs:713-723 *)
Fixpoint allocateItems (unallocated allocated : list item) (potentialValue : Z) : option (list item) :=
  match unallocated with
  | [] => Some allocated
  | x :: xs =>
      match getValue (S (length allocated)) allocated potentialValue with
      | None => None
      | Some vl => allocateItems xs (allocated ++ [(fst x, Some vl)]) (vl + 1)
      end
  end.

(** List.sortBy is a stable sort. *)
Fixpoint insert {A} (key : A -> Z) (x : A) (l : list A) : list A :=
  match l with
  | [] => [x]
  | y :: l' => if key x <=? key y then x :: l else y :: insert key x l'
  end.
Fixpoint sortBy {A} (key : A -> Z) (l : list A) : list A :=
  match l with
  | [] => []
  | x :: l' => insert key x (sortBy key l')
  end.
(** Seq.findIndex; a missing element is an exception, here the length. *)
Fixpoint findIndex {A} (f : A -> bool) (l : list A) : Z :=
  match l with
  | [] => 0
  | x :: l' => if f x then 0 else 1 + findIndex f l'
  end.
(** allocatedValuesToAllEnumItems, AcnCreateFromAntlr.fs:709-725 *)
Definition allocatedValuesToAllEnumItems (namedItems : list item) : option (list item) :=
  let allocated := filter (fun x => match snd x with Some _ => true | None => false end) namedItems in
  let unallocated := filter (fun x => match snd x with Some _ => false | None => true end) namedItems in
  match allocateItems unallocated allocated 0 with
  | None => None
  | Some l => Some (sortBy (fun ni => findIndex (fun x => String.eqb (fst x) (fst ni)) namedItems) l)
  end.

(** Asn1AcnAst.NamedItem: name, definitionValue, acnEncodeValue *)
Record named := mknamed { Name : String.string; definitionValue : Z; acnEncodeValue : Z }.
(** mapItem, AcnCreateFromAntlr.fs:727-765, names of the back ends left out. [ev]:
    the property encode-values; [acn]: values set for items in the ACN file. *)
Definition mapItem (ev : bool) (acn : list (String.string * option Z)) (i : Z) (itm : item) : option named :=
  match snd itm with
  | None => None
  | Some definitionValue =>
      let enc :=
        if ev then
          match find (fun z => String.eqb (fst z) (fst itm)) acn with
          | Some (_, Some v) => v
          | _ => definitionValue
          end
        else i in
      Some (mknamed (fst itm) definitionValue enc)
  end.
Fixpoint mapi (ev : bool) (acn : list (String.string * option Z)) (i : Z) (l : list item) : option (list named) :=
  match l with
  | [] => Some []
  | x :: l' =>
      match mapItem ev acn i x, mapi ev acn (i + 1) l' with
      | Some y, Some r => Some (y :: r)
      | _, _ => None
      end
  end.
(** mergeEnumerated, AcnCreateFromAntlr.fs:769-774: the field items. *)
Definition enum_items (ev : bool) (acn : list (String.string * option Z)) (namedItems : list item) : option (list named) :=
  match allocatedValuesToAllEnumItems namedItems with
  | None => None
  | Some items0 => mapi ev acn 0 items0
  end.
(** The arguments of the uPER code: the values in the order of the switch
    (DAstUPer.fs:321-322) and the table of the binary search (DAstTypeDefinition.fs:388-402,
    isEnumEfficientEnabled, CommonTypes.fs:1070-1071); no constraint removes items. *)
Definition enum_table (threshold : Z) (items : list named) : list Z * option (list Z) :=
  let vals := map definitionValue items in
  (vals, if threshold <=? Z.of_nat (length items) then Some (map definitionValue (sortBy definitionValue items)) else None).
