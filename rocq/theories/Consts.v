(** The constants printed in C for ASN.1 value assignments, and the C types they have. *)
From Verif Require Import Base Bits CExpr AcnExpr CInit.
From Coq Require Import String Ascii.
Local Open Scope Z_scope.

(** IntegerClass, as far as it decides the C type. [CIW], [CUW]: ASN1SCC_Int and
    ASN1SCC_UInt, whose width is that of the word (asn1crt.h:104-136). *)
Inductive iclass := CI8 | CI16 | CI32 | CI64 | CIW | CU8 | CU16 | CU32 | CU64 | CUW.
(** SingleStringValue, CommonTypes.fs. *)
Inductive spart := PText (s : string) | PCr | PLf | PHt | PNul.
(** Asn1ValueKind without REAL and TIME. [PRef v]: a named value, resolved. *)
Inductive pval :=
| PInt (z : Z) | PBool (b : bool) | PStr (l : list spart) | PBits (l : list bool) | POcts (l : list Z)
| PEnum (name : string) | PNull | POid (l : list Z)
| PList (l : list pval)
| PSeq (l : list (string * pval))
| PChoice (name : string) (v : pval)
| PRef (v : pval).
(** Sizes of a type: its own minSize.uper and maxSize.uper, and whether the C type it is
    an alias of has no nCount, and its array size in elements (bits for BIT STRING).
    A constrained type is [typedef parent name] (header_c.stg:191-193, 216-218, 240-245). *)
Record sizes := mksz { smin : Z; smax : Z; dfix : bool; dlen : Z }.
(** An ASN.1 component: name, name in C, [None] when mandatory, otherwise its DEFAULT value.
    An item of ENUMERATED: name, name in C, number. An alternative: name, name in C, name
    of its enumerator. *)
Record comp := mkcomp { k_name : string; k_c : string; k_opt : option (option pval) }.
Record eitem := mkeitem { e_name : string; e_c : string; e_num : Z }.
Record alt := mkalt { a_name : string; a_c : string; a_present : string }.
Inductive pty :=
| TInt (c : iclass) | TBool | TStr (cmax : Z) | TBits (z : sizes) | TOcts (z : sizes)
| TEnum (l : list eitem) | TNull | TOid
| TOf (z : sizes) (t : pty)
| TSeq (l : list (comp * pty))
| TChoice (l : list (alt * pty)).

(** * Declarations *)
(** getTypeDefinitionName / declare_Integer, LangGeneric_c.fs and asn1crt.h:98-136. [ws]: WORD_SIZE. *)
Definition class_type (ws : Z) (c : iclass) : cty :=
  match c with
  | CI8 => (true, 8) | CI16 => (true, 16) | CI32 => (true, 32) | CI64 => (true, 64) | CIW => (true, 8 * ws)
  | CU8 => (false, 8) | CU16 => (false, 16) | CU32 => (false, 32) | CU64 => (false, 64) | CUW => (false, 8 * ws)
  end.
(** struct of a sizeable type, header_c.stg:180-188, 204-213, 224-236: a fixed size type has no nCount. *)
Definition sized (fixed : bool) (n : Z) (t : cty_obj) : cty_obj :=
  YStruct ((if fixed then [] else [("nCount"%string, YInt int32)]) ++ [("arr"%string, YArr n t)]).
Definition octet : cty_obj := YInt (false, 8).
Definition is_opt (c : comp) : bool := match k_opt c with Some _ => true | None => false end.
(** header_c.stg:173-300; exist holds one bit per OPTIONAL or DEFAULT component. Enumerated types
    are taken as int. *)
Fixpoint declared (ws : Z) (t : pty) : cty_obj :=
  match t with
  | TInt c => YInt (class_type ws c)
  | TBool => YBool
  | TStr n => YChars n
  | TBits z => sized (dfix z) ((dlen z + 7) / 8) octet
  | TOcts z => sized (dfix z) (dlen z) octet
  | TEnum _ => YInt int32
  | TNull => YInt (true, 8)
  | TOid => YStruct [("nCount"%string, YInt int32); ("values"%string, YArr 20 (YInt (false, 8 * ws)))]
  | TOf z t => sized (dfix z) (dlen z) (declared ws t)
  | TSeq l =>
      let ex := map (fun ct => (k_c (fst ct), YInt (false, 1))) (filter (fun ct => is_opt (fst ct)) l) in
      YStruct ((fix go (l : list (comp * pty)) := match l with [] => [] | (c, t) :: l => (k_c c, declared ws t) :: go l end) l
               ++ match ex with [] => [] | _ => [("exist"%string, YStruct ex)] end)
  | TChoice l =>
      YStruct [("kind"%string, YInt int32);
               ("u"%string, YUnion ((fix go (l : list (alt * pty)) := match l with [] => [] | (a, t) :: l => (a_c a, declared ws t) :: go l end) l))]
  end.

(** * Printing *)
Definition nl : string := String "010" EmptyString.
Fixpoint join (sep : string) (l : list string) : string :=
  match l with [] => EmptyString | [x] => x | x :: l => (x ++ sep ++ join sep l)%string end.
Definition min32 : Z := - 2 ^ 31.
Definition min64 : Z := - 2 ^ 63.
(** intValueToString, LangGeneric_c.fs:73-90. *)
Definition int_text (c : iclass) (i : Z) : string :=
  match c with
  | CI8 | CI16 => dec_text i
  | CI32 => if i =? min32 then "INT_MIN"%string else dec_text i
  | CI64 | CIW => if i =? min64 then "LLONG_MIN"%string else (dec_text i ++ "LL")%string
  | CU8 | CU16 | CU32 | CU64 | CUW => (dec_text i ++ "UL")%string
  end.
(** sv.Replace of one quote by two, DAstVariables.fs:45. *)
Fixpoint double_quotes (s : string) : string :=
  match s with
  | EmptyString => EmptyString
  | String c s => if (c =? """")%char then String """" (String """" (double_quotes s)) else String c (double_quotes s)
  end.
(** PrintSingleStringValue, PrintCR, PrintLF, PrintHT, PrintStringValueNull, variables_c.stg:18-35. *)
Definition part_text (p : spart) : string :=
  match p with
  | PText s => (String """" (double_quotes s) ++ """")%string
  | PCr => """\r"""%string
  | PLf => """\n"""%string
  | PHt => """\t"""%string
  | PNul => """\0"""%string
  end.
(** convertStringValue2TargetLangStringLiteral, DAstVariables.fs:37-52; PrintStringValue in C
    does not use arrsNullChars, variables_c.stg:14-16. *)
Definition string_text (l : list spart) : string := join " " (map part_text l).
(** bitStringValueToByteArray, FsUtils.fs:587-607. *)
Definition bit (b : bool) : Z := if b then 1 else 0.
Fixpoint bits_to_nibbles (l : list bool) : list Z :=
  match l with
  | [] => []
  | [a] => [bit a * 8]
  | [a; b] => [bit a * 8 + bit b * 4]
  | [a; b; c] => [bit a * 8 + bit b * 4 + bit c * 2]
  | a :: b :: c :: d :: l => (bit a * 8 + bit b * 4 + bit c * 2 + bit d) :: bits_to_nibbles l
  end.
Fixpoint nibbles_to_bytes (l : list Z) : list Z :=
  match l with
  | [] => []
  | [a] => [a * 16]
  | a :: b :: l => (a * 16 + b) :: nibbles_to_bytes l
  end.
Definition bits_to_bytes (l : list bool) : list Z := nibbles_to_bytes (bits_to_nibbles l).
(** Format X2 of a byte. *)
Definition hex_digit (n : Z) : ascii := ascii_of_nat (Z.to_nat (if n <? 10 then 48 + n else 55 + n)).
Definition byte_text (b : Z) : string :=
  String "0" (String "x" (String (hex_digit (b / 16)) (String (hex_digit (b mod 16)) EmptyString))).
(** PrintBitOrOctetStringValue, variables_c.stg:44-50. *)
Definition bytes_text (fixed : bool) (n : Z) (l : list Z) : string :=
  ("{" ++ (if fixed then "" else dec_text n ++ ",") ++ nl ++ "    {" ++ nl ++ "        " ++
   join ("," ++ nl) (map byte_text l) ++ nl ++ "    }" ++ nl ++ "}")%string.
Definition is_fixed (z : sizes) : bool := smin z =? smax z.
(** PrintObjectIdentifierValue, variables_c.stg:76-82. *)
Definition oid_text (l : list Z) : string :=
  ("{" ++ String "009" "" ++ dec_text (Z.of_nat (List.length l)) ++ "," ++ nl ++ "    {" ++ nl ++ "        " ++
   join ("," ++ nl) (map dec_text l) ++ nl ++ "    }" ++ nl ++ "}")%string.
(** PrintSequenceOfValue, variables_c.stg:188-197. *)
Definition of_text (fixed : bool) (l : list string) : string :=
  ("{" ++ (if fixed then "" else nl ++ "    .nCount = " ++ dec_text (Z.of_nat (List.length l)) ++ "," ++ nl) ++
   nl ++ "    .arr =" ++ nl ++ "    {" ++ nl ++ "        " ++ join ("," ++ nl) l ++ nl ++ "    }" ++ nl ++ "}")%string.
(** PrintSequenceValueChild, PrintSequenceValue_child_exists and PrintSequenceValue,
    variables_c.stg:165-175. *)
Definition member_text (name v : string) : string := ("." ++ name ++ " = " ++ v)%string.
Definition seq_text (children exist : list string) : string :=
  ("{" ++ nl ++ "    " ++ join ("," ++ nl) children ++
   match exist with
   | [] => ""
   | _ => "," ++ nl ++ "    .exist = {" ++ nl ++ "        " ++ join ("," ++ nl) exist ++ nl ++ "    }" ++ nl ++ "    "
   end ++ nl ++ "}")%string.
(** PrintChoiceValue, variables_c.stg:177-181. *)
Definition choice_text (name v present : string) : string :=
  ("{" ++ nl ++ "    .kind = " ++ present ++ "," ++ nl ++ "    .u = { ." ++ name ++ " = " ++ v ++ "}" ++ nl ++ "}")%string.
Fixpoint deref (v : pval) : pval := match v with PRef v => deref v | _ => v end.
Fixpoint named (n : string) (l : list (string * pval)) : option pval :=
  match l with [] => None | (m, v) :: l => if String.eqb m n then Some v else named n l end.
Fixpoint enum_item (n : string) (l : list eitem) : option eitem :=
  match l with [] => None | e :: l => if String.eqb (e_name e) n then Some e else enum_item n l end.
(** All of a list of texts, or none. *)
Fixpoint sequence (l : list (option string)) : option (list string) :=
  match l with
  | [] => Some []
  | None :: _ => None
  | Some x :: l => match sequence l with Some r => Some (x :: r) | None => None end
  end.
(** printValue, DAstVariables.fs:54-186, for C (hasModules and supportsInitExpressions are
    false, LangGeneric_c.fs:101). None: BugErrorException, Seq.find or List.head on an
    empty sequence. The byte string for a BIT STRING and the bit string for an OCTET
    STRING are not modelled. *)
Fixpoint print_value (t : pty) (v : pval) {struct t} : option string :=
  match t, deref v with
  | TInt c, PInt z => Some (int_text c z)
  | TBool, PBool b => Some (if b then "TRUE" else "FALSE")%string
  | TStr _, PStr l => Some (string_text l)
  | TBits z, PBits l => let bytes := bits_to_bytes l in Some (bytes_text (is_fixed z) (Z.of_nat (List.length bytes)) bytes)
  | TOcts z, POcts l => Some (bytes_text (is_fixed z) (Z.of_nat (List.length l)) l)
  | TEnum items, PEnum n => option_map e_c (enum_item n items)
  | TNull, PNull => Some "0"%string
  | TOid, POid l => Some (oid_text l)
  | TOf z t', PList l =>
      match sequence (map (print_value t') l) with Some r => Some (of_text (is_fixed z) r) | None => None end
  | TSeq l, PSeq vals =>
      let ex := map (fun ct => member_text (k_c (fst ct)) (match named (k_name (fst ct)) vals with Some _ => "1" | None => "0" end))
                    (filter (fun ct => is_opt (fst ct)) l) in
      match (fix go (l : list (comp * pty)) : option (list string) :=
               match l with
               | [] => Some []
               | (c, t') :: l =>
                   match (match named (k_name c) vals with
                          | Some v' => Some (print_value t' v')
                          | None => match k_opt c with
                                    | Some (Some dv) => Some (print_value t' dv)
                                    | _ => None
                                    end
                          end) with
                   | None => go l
                   | Some None => None
                   | Some (Some x) => match go l with Some r => Some (member_text (k_c c) x :: r) | None => None end
                   end
               end) l with
      | Some r => Some (seq_text r ex)
      | None => None
      end
  | TChoice l, PChoice n v' =>
      (fix go (l : list (alt * pty)) : option string :=
         match l with
         | [] => None
         | (a, t') :: l =>
             if String.eqb (a_name a) n
             then match print_value t' v' with Some x => Some (choice_text (a_c a) x (a_present a)) | None => None end
             else go l
         end) l
  | _, _ => None
  end.
(** PrintValueAssignment, variables_c.stg:184-186, called in GenerateFiles.fs:31-43. *)
Definition print_assignment (T x : string) (t : pty) (v : pval) : option string :=
  match print_value t v with Some s => Some ("const " ++ T ++ " " ++ x ++ " = " ++ s ++ ";")%string | None => None end.
