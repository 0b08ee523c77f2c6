(** The part of C99 that the printed constants use: tokens with string literals (6.4), the
    grammar of initializers (6.7.8) and what they initialise. Independent of the compiler.
    Trigraphs, comments, hexadecimal escapes and universal character names are not C
    here (None). *)
From Verif Require Import Base CExpr.
From Coq Require Import String Ascii.
From Coq Require DecimalString DecimalZ.
Local Open Scope Z_scope.

(** * Tokens *)
(** [KStr]: the characters of one string literal, without the closing NUL. *)
Inductive ktok := KId (s : string) | KNum (s : string) | KStr (l : list Z) | KP (c : ascii).
Definition kcode (c : ascii) : Z := Z.of_nat (nat_of_ascii c).
Definition is_blank (c : ascii) : bool := existsb (fun d => (c =? d)%char) [" "; "009"; "010"; "013"]%char.
Definition is_kpunct (c : ascii) : bool := existsb (fun d => (c =? d)%char) ["{"; "}"; ","; "="; "."; "-"; ";"]%char.
Definition is_octal (c : ascii) : bool := let n := nat_of_ascii c in (48 <=? n)%nat && (n <=? 55)%nat.
(** Two characters that begin another token than the first one alone. *)
Definition kpair (o c : ascii) : bool :=
  existsb (fun p => (o =? fst p)%char && (c =? snd p)%char) [("-", "-"); ("-", "="); ("-", ">"); ("=", "=")]%char
  || ((o =? ".")%char && is_digit c).
(** 6.4.4.4: the simple escape sequences. *)
Definition escape (c : ascii) : option Z :=
  (if c =? "n" then Some 10 else if c =? "r" then Some 13 else if c =? "t" then Some 9
   else if c =? "a" then Some 7 else if c =? "b" then Some 8 else if c =? "f" then Some 12
   else if c =? "v" then Some 11 else if c =? "\" then Some 92 else if c =? "'" then Some 39
   else if c =? """" then Some 34 else if c =? "?" then Some 63 else None)%char.
(** The token being read. [LOct acc k v]: an octal escape that may take [k] more digits. *)
Inductive kst :=
| LIdle | LId (a : string) | LNum (a : string) (last : ascii) | LOp (o : ascii)
| LStr (acc : list Z) | LEsc (acc : list Z) | LOct (acc : list Z) (k : nat) (v : Z).
Definition kflush (st : kst) : list ktok :=
  match st with LId a => [KId a] | LNum a _ => [KNum a] | LOp o => [KP o] | _ => [] end.
Definition kstart (c : ascii) : option kst :=
  if is_blank c then Some LIdle
  else if is_digit c then Some (LNum (chr1 c) c)
  else if is_alpha c then Some (LId (chr1 c))
  else if (c =? """")%char then Some (LStr [])
  else if is_kpunct c then Some (LOp c)
  else None.
(** A character of a string literal: no line end inside it. *)
Definition kchar (acc : list Z) (c : ascii) : option (list ktok * kst) :=
  if (c =? """")%char then Some ([KStr (rev acc)], LIdle)
  else if (c =? "\")%char then Some ([], LEsc acc)
  else if (c =? "010")%char || (c =? "013")%char then None
  else Some ([], LStr (kcode c :: acc)).
Definition kstep (st : kst) (c : ascii) : option (list ktok * kst) :=
  let fresh := match kstart c with Some st' => Some (kflush st, st') | None => None end in
  match st with
  | LIdle => fresh
  | LId a => if is_alnum c then Some ([], LId (a ++ chr1 c)) else fresh
  | LNum a l => if is_alnum c || (c =? ".")%char || (is_exp l && is_sign c) then Some ([], LNum (a ++ chr1 c) c) else fresh
  | LOp o => if kpair o c then None else fresh
  | LStr acc => kchar acc c
  | LEsc acc => if is_octal c then Some ([], LOct acc 2 (kcode c - 48))
                else match escape c with Some z => Some ([], LStr (z :: acc)) | None => None end
  | LOct acc k v =>
      match k with
      | S k' => if is_octal c then Some ([], LOct acc k' (8 * v + (kcode c - 48))) else kchar (v :: acc) c
      | O => kchar (v :: acc) c
      end
  end.
Fixpoint klex (st : kst) (s : string) : option (list ktok) :=
  match s with
  | EmptyString => match st with LStr _ | LEsc _ | LOct _ _ _ => None | _ => Some (kflush st) end
  | String c s =>
      match kstep st c with
      | None => None
      | Some (t, st') => match klex st' s with None => None | Some ts => Some (t ++ ts) end
      end
  end.

(** * Grammar *)
Inductive kexp := XNum (s : string) | XNeg (s : string) | XName (s : string) | XStr (l : list Z).
Inductive init := IExp (e : kexp) | IList (l : list (option string * init)).
(** 5.1.1.2, phase 6: adjacent string literals are one. *)
Fixpoint adjacent (ts : list ktok) : list Z * list ktok :=
  match ts with KStr l :: ts => let (l', r) := adjacent ts in (l ++ l', r) | _ => ([], ts) end.
(** 6.4.1. *)
Definition is_kw (s : string) : bool :=
  existsb (String.eqb s)
    ["auto"; "break"; "case"; "char"; "const"; "continue"; "default"; "do"; "double"; "else"; "enum"; "extern"; "float";
     "for"; "goto"; "if"; "inline"; "int"; "long"; "register"; "restrict"; "return"; "short"; "signed"; "sizeof";
     "static"; "struct"; "switch"; "typedef"; "union"; "unsigned"; "void"; "volatile"; "while"; "_Bool"; "_Complex";
     "_Imaginary"]%string.
(** [reads gnu ts i rest]: [ts] is the initializer [i] followed by [rest]. [gnu]: empty
    braces are allowed (not in ISO C before C23). *)
Inductive reads (gnu : bool) : list ktok -> init -> list ktok -> Prop :=
| r_num : forall s ts, reads gnu (KNum s :: ts) (IExp (XNum s)) ts
| r_neg : forall s ts, reads gnu (KP "-" :: KNum s :: ts) (IExp (XNeg s)) ts
| r_name : forall s ts, is_kw s = false -> reads gnu (KId s :: ts) (IExp (XName s)) ts
| r_str : forall l ts l' ts', adjacent ts = (l', ts') -> reads gnu (KStr l :: ts) (IExp (XStr (l ++ l'))) ts'
| r_list : forall ts l rest, items gnu ts l rest -> reads gnu (KP "{" :: ts) (IList l) rest
| r_empty : forall rest, gnu = true -> reads gnu (KP "{" :: KP "}" :: rest) (IList []) rest
with items (gnu : bool) : list ktok -> list (option string * init) -> list ktok -> Prop :=
| i_last : forall ts x rest, item gnu ts x (KP "}" :: rest) -> items gnu ts [x] rest
| i_trail : forall ts x rest, item gnu ts x (KP "," :: KP "}" :: rest) -> items gnu ts [x] rest
| i_more : forall ts x ts' l rest, item gnu ts x (KP "," :: ts') -> items gnu ts' l rest -> items gnu ts (x :: l) rest
with item (gnu : bool) : list ktok -> option string * init -> list ktok -> Prop :=
| t_plain : forall ts i rest, reads gnu ts i rest -> item gnu ts (None, i) rest
| t_member : forall m ts i rest, is_kw m = false -> reads gnu ts i rest -> item gnu (KP "." :: KId m :: KP "=" :: ts) (Some m, i) rest.
(** A definition [const T x = init;] with a type name [T]. *)
Definition declares (gnu : bool) (text T x : string) (i : init) : Prop :=
  is_kw T = false /\ is_kw x = false /\
  exists ts, klex LIdle text = Some ([KId "const"; KId T; KId x; KP "="] ++ ts) /\ reads gnu ts i [KP ";"].

(** * Values of constants *)
Definition digit_val (c : ascii) : option Z :=
  let n := kcode c in
  if (48 <=? n) && (n <=? 57) then Some (n - 48)
  else if (65 <=? n) && (n <=? 70) then Some (n - 55)
  else if (97 <=? n) && (n <=? 102) then Some (n - 87) else None.
Fixpoint base_val (b acc : Z) (s : string) : option Z :=
  match s with
  | EmptyString => Some acc
  | String c s => match digit_val c with Some d => if d <? b then base_val b (b * acc + d) s else None | None => None end
  end.
Fixpoint all_digits (s : string) : bool := match s with EmptyString => true | String c s => is_digit c && all_digits s end.
(** 6.4.4.1: the type of a constant is the first of a list that holds it. *)
Fixpoint first_type (l : list cty) (n : Z) : option (cty * Z) :=
  match l with [] => None | t :: l => if in_tyb t n then Some (t, n) else first_type l n end.
Definition int32 : cty := (true, 32).
Definition uint32 : cty := (false, 32).
Definition int64 : cty := (true, 64).
Definition uint64 : cty := (false, 64).
(** Decimal constants without suffix or with UL or LL, octal and hexadecimal ones without
    suffix; long has 64 bits. *)
Definition dec_val (s : string) : option Z :=
  match s with
  | EmptyString => None
  | String "0" EmptyString => Some 0
  | String "0" _ => None
  | _ => if all_digits s then option_map Z.of_int (DecimalString.NilZero.int_of_string s) else None
  end.
Fixpoint unsuffix (suf s : string) : option string :=
  if String.eqb s suf then Some EmptyString
  else match s with EmptyString => None | String c s => option_map (String c) (unsuffix suf s) end.
Definition num_val (s : string) : option (cty * Z) :=
  match s with
  | String "0" (String "x" (String c s')) =>
      match base_val 16 0 (String c s') with Some n => first_type [int32; uint32; int64; uint64] n | None => None end
  | String "0" (String c s') =>
      match base_val 8 0 (String c s') with
      | Some n => first_type [int32; uint32; int64; uint64] n
      | None => if String.eqb (String c s') "UL" then Some (uint64, 0)
                else if String.eqb (String c s') "LL" then Some (int64, 0) else None
      end
  | _ =>
      match dec_val s with
      | Some n => first_type [int32; int64] n
      | None =>
          match unsuffix "UL" s with
          | Some d => match dec_val d with Some n => first_type [uint64] n | None => None end
          | None =>
              match unsuffix "LL" s with
              | Some d => match dec_val d with Some n => first_type [int64] n | None => None end
              | None => None
              end
          end
      end
  end.
(** Names of constants: enumerators and macros. *)
Definition cenv : Type := string -> option (cty * Z).
(** The value of an expression; negation in the promoted type, None when it overflows. *)
Definition exp_val (env : cenv) (e : kexp) : option Z :=
  match e with
  | XNum s => option_map snd (num_val s)
  | XName s => option_map snd (env s)
  | XNeg s =>
      match num_val s with
      | Some (t, n) => match arith (promote t) (- cconv (promote t) n) with CV _ z => Some z | _ => None end
      | None => None
      end
  | XStr _ => None
  end.

(** * Objects *)
(** [YInt]: an integer type or bit-field; [YBool]: _Bool; [YChars]: array of char. *)
Inductive cty_obj :=
| YInt (t : cty) | YBool | YChars (n : Z)
| YArr (n : Z) (t : cty_obj)
| YStruct (l : list (string * cty_obj))
| YUnion (l : list (string * cty_obj)).
Inductive data := DInt (z : Z) | DArr (l : list data) | DStruct (l : list (string * data)) | DUnion (m : string) (d : data).
(** 6.7.8 p10: what is not mentioned is zero. *)
Fixpoint zeroed (t : cty_obj) : data :=
  match t with
  | YInt _ | YBool => DInt 0
  | YChars n => DArr (repeat (DInt 0) (Z.to_nat n))
  | YArr n t => DArr (repeat (zeroed t) (Z.to_nat n))
  | YStruct l => DStruct ((fix go (l : list (string * cty_obj)) := match l with [] => [] | (m, t) :: l => (m, zeroed t) :: go l end) l)
  | YUnion l => match l with [] => DStruct [] | (m, t) :: _ => DUnion m (zeroed t) end
  end.
(** Conversion to the type of the object, 6.3.1.2 and 6.3.1.3. *)
Definition store (t : cty_obj) (z : Z) : option data :=
  match t with
  | YInt c => Some (DInt (cconv c z))
  | YBool => Some (DInt (if z =? 0 then 0 else 1))
  | _ => None
  end.
(** The members from [m] on. *)
Fixpoint from (m : string) (l : list (string * cty_obj)) : list (string * cty_obj) :=
  match l with [] => [] | (m', t) :: l' => if String.eqb m m' then l else from m l' end.
Fixpoint put (m : string) (d : data) (l : list (string * data)) : list (string * data) :=
  match l with [] => [] | (m', d') :: l' => if String.eqb m m' then (m, d) :: l' else (m', d') :: put m d l' end.
Definition zero_members (l : list (string * cty_obj)) : list (string * data) := map (fun mt => (fst mt, zeroed (snd mt))) l.
(** None: a constraint violation of 6.7.8 (excess initializers, unknown member), or one of
    the forms that C allows but that are left out: missing inner braces, designators for
    array elements, a union without designator. *)
Fixpoint initialise (env : cenv) (t : cty_obj) (i : init) {struct i} : option data :=
  match i with
  | IExp (XStr s) =>
      match t with
      | YChars n => if Z.of_nat (List.length s) <=? n
                    then Some (DArr (map DInt s ++ repeat (DInt 0) (Z.to_nat n - List.length s))) else None
      | _ => None
      end
  | IExp e => match exp_val env e with Some z => store t z | None => None end
  | IList l =>
      match t with
      | YInt _ | YBool => match l with
                       | [(None, IExp e)] => match exp_val env e with Some z => store t z | None => None end
                       | _ => None
                       end
      | YChars _ => None
      | YArr n t' =>
          match (fix go (l : list (option string * init)) :=
                   match l with
                   | [] => Some []
                   | (None, i) :: l =>
                       match initialise env t' i with
                       | Some d => match go l with Some ds => Some (d :: ds) | None => None end
                       | None => None
                       end
                   | (Some _, _) :: _ => None
                   end) l with
          | Some ds => if Z.of_nat (List.length ds) <=? n
                       then Some (DArr (ds ++ repeat (zeroed t') (Z.to_nat n - List.length ds))) else None
          | None => None
          end
      | YStruct ms =>
          (fix go (next : list (string * cty_obj)) (cur : list (string * data)) (l : list (option string * init)) :=
             match l with
             | [] => Some (DStruct cur)
             | (m, i) :: l =>
                 match (match m with Some m => from m ms | None => next end) with
                 | [] => None
                 | (m', t') :: next' =>
                     match initialise env t' i with Some d => go next' (put m' d cur) l | None => None end
                 end
             end) ms (zero_members ms) l
      | YUnion ms =>
          match l with
          | [(Some m, i)] =>
              match from m ms with
              | (m', t') :: _ => match initialise env t' i with Some d => Some (DUnion m' d) | None => None end
              | [] => None
              end
          | _ => None
          end
      end
  end.
