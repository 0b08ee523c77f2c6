(** The part of C99 that the printed expressions use: tokens (6.4), grammar of expressions
    (6.5.1 to 6.5.14) and evaluation (6.3.1, 6.4.4.1, 6.5). Independent of the compiler. *)
From Verif Require Import Base.
From Coq Require Import String Ascii.
From Coq Require DecimalString DecimalZ.
Local Open Scope Z_scope.

(** * Tokens *)
Inductive tok := TId (s : string) | TNum (s : string) | TP (s : string).
Definition is_digit (c : ascii) : bool := let n := nat_of_ascii c in (48 <=? n)%nat && (n <=? 57)%nat.
Definition is_alpha (c : ascii) : bool :=
  let n := nat_of_ascii c in
  ((65 <=? n)%nat && (n <=? 90)%nat) || ((97 <=? n)%nat && (n <=? 122)%nat) || (n =? 95)%nat.
Definition is_alnum (c : ascii) : bool := is_alpha c || is_digit c.
Definition is_exp (c : ascii) : bool := (c =? "e")%char || (c =? "E")%char || (c =? "p")%char || (c =? "P")%char.
Definition is_sign (c : ascii) : bool := (c =? "+")%char || (c =? "-")%char.
Definition is_punct (c : ascii) : bool :=
  existsb (fun d => (c =? d)%char)
    ["("; ")"; "!"; "-"; "+"; "*"; "/"; "%"; "<"; ">"; "="; "&"; "|"; "."; "["; "]"; "~"; "^"; "?"; ":"; ","]%char.
(** Punctuators of two characters; the longest match is taken (6.4 p4). *)
Definition pair_punct (o c : ascii) : bool :=
  existsb (fun p => (o =? fst p)%char && (c =? snd p)%char)
    [("-", "-"); ("-", ">"); ("-", "="); ("+", "+"); ("+", "="); ("*", "="); ("/", "="); ("%", "="); ("<", "="); ("<", "<");
     (">", "="); (">", ">"); ("=", "="); ("!", "="); ("&", "&"); ("&", "="); ("|", "|"); ("|", "="); ("^", "=")]%char.
(** The token being read: identifier, preprocessing number with its last character
    (6.4.8), or the first character of a punctuator. *)
Inductive lstate := Idle | InId (a : string) | InNum (a : string) (last : ascii) | InOp (o : ascii).
Definition chr1 (c : ascii) : string := String c EmptyString.
Definition flush (st : lstate) : list tok :=
  match st with Idle => [] | InId a => [TId a] | InNum a _ => [TNum a] | InOp o => [TP (chr1 o)] end.
(** None: not a character of these expressions. *)
Definition start (c : ascii) : option lstate :=
  if (c =? " ")%char then Some Idle
  else if is_digit c then Some (InNum (chr1 c) c)
  else if is_alpha c then Some (InId (chr1 c))
  else if is_punct c then Some (InOp c)
  else None.
Definition step (st : lstate) (c : ascii) : option (list tok * lstate) :=
  let fresh := match start c with Some st' => Some (flush st, st') | None => None end in
  match st with
  | Idle => fresh
  | InId a => if is_alnum c then Some ([], InId (a ++ chr1 c)) else fresh
  | InNum a l => if is_alnum c || (c =? ".")%char || (is_exp l && is_sign c) then Some ([], InNum (a ++ chr1 c) c) else fresh
  | InOp o => if pair_punct o c then Some ([TP (chr1 o ++ chr1 c)], Idle) else fresh
  end.
Fixpoint run (st : lstate) (s : string) : option (list tok * lstate) :=
  match s with
  | EmptyString => Some ([], st)
  | String c s =>
      match step st c with
      | None => None
      | Some (t, st') => match run st' s with None => None | Some (ts, st'') => Some (t ++ ts, st'') end
      end
  end.
Definition tokens (s : string) : option (list tok) :=
  match run Idle s with Some (ts, st) => Some (ts ++ flush st) | None => None end.

(** * Expressions *)
Inductive cexp :=
| CId (s : string)
| CNum (s : string)
| CMem (arrow : bool) (e : cexp) (s : string)
| CUn (op : string) (e : cexp)
| CBin (op : string) (e1 e2 : cexp).
(** Level of a binary operator: multiplicative 2, additive 3, relational 4, equality 5,
    logical and 6, logical or 7 (shift and bitwise operators do not occur). *)
Definition op_level (s : string) : option nat :=
  (if existsb (String.eqb s) ["*"; "/"; "%"] then Some 2%nat
   else if existsb (String.eqb s) ["+"; "-"] then Some 3%nat
   else if existsb (String.eqb s) ["<"; "<="; ">"; ">="] then Some 4%nat
   else if existsb (String.eqb s) ["=="; "!="] then Some 5%nat
   else if String.eqb s "&&" then Some 6%nat
   else if String.eqb s "||" then Some 7%nat
   else None)%string.
(** The grammar: [derives l ts e], the tokens ts are an expression e of level l; 0 is
    postfix-expression, 1 unary-expression. *)
Inductive derives : nat -> list tok -> cexp -> Prop :=
| d_id : forall s, derives 0 [TId s] (CId s)
| d_num : forall s, derives 0 [TNum s] (CNum s)
| d_paren : forall ts e, derives 7 ts e -> derives 0 (TP "(" :: ts ++ [TP ")"]) e
| d_arrow : forall ts e s, derives 0 ts e -> derives 0 (ts ++ [TP "->"; TId s]) (CMem true e s)
| d_dot : forall ts e s, derives 0 ts e -> derives 0 (ts ++ [TP "."; TId s]) (CMem false e s)
| d_un : forall op ts e, In op ["-"; "!"]%string -> derives 1 ts e -> derives 1 (TP op :: ts) (CUn op e)
| d_bin : forall l op ts1 e1 ts2 e2, op_level op = Some (S l) -> derives (S l) ts1 e1 -> derives l ts2 e2 ->
    derives (S l) (ts1 ++ TP op :: ts2) (CBin op e1 e2)
| d_up : forall l ts e, derives l ts e -> derives (S l) ts e.
(** The text is an expression, and no other. *)
Definition means (s : string) (e : cexp) : Prop :=
  exists ts, tokens s = Some ts /\ (forall e', derives 7 ts e' <-> e' = e).

(** * Evaluation *)
(** Integer types by signedness and width; int has 32 bits, long and long long 64. *)
Definition cty : Type := bool * Z.
Definition cint : cty := (true, 32).
Definition tmin (t : cty) : Z := if fst t then - 2 ^ (snd t - 1) else 0.
Definition tmax (t : cty) : Z := if fst t then 2 ^ (snd t - 1) - 1 else 2 ^ snd t - 1.
Definition in_ty (t : cty) (z : Z) : Prop := tmin t <= z <= tmax t.
Definition in_tyb (t : cty) (z : Z) : bool := (tmin t <=? z) && (z <=? tmax t).
(** 6.3.1.3: conversion; for a signed type only done when the value fits (or wraps as in gcc). *)
Definition cconv (t : cty) (z : Z) : Z :=
  if fst t then (z + 2 ^ (snd t - 1)) mod 2 ^ snd t - 2 ^ (snd t - 1) else z mod 2 ^ snd t.
(** 6.3.1.1: integer promotion. *)
Definition promote (t : cty) : cty := if snd t <? 32 then cint else t.
(** 6.3.1.8: the usual arithmetic conversions, of promoted types. *)
Definition usual (a b : cty) : cty :=
  if Bool.eqb (fst a) (fst b) then (fst a, Z.max (snd a) (snd b))
  else let u := if fst a then b else a in let s := if fst a then a else b in
       if snd s <=? snd u then u else s.
(** 6.4.4.1: a decimal constant without suffix. *)
Definition literal_type (n : Z) : option cty :=
  if n <? 2 ^ 31 then Some cint else if n <? 2 ^ 63 then Some (true, 64) else None.
(** Undefined behaviour, or not C at all (also anything with floating point). *)
Inductive cres := CV (t : cty) (z : Z) | CUndef | CStuck.
Definition arith (t : cty) (z : Z) : cres :=
  if fst t then (if in_tyb t z then CV t z else CUndef) else CV t (z mod 2 ^ snd t).
Definition cbool (b : bool) : cres := CV cint (if b then 1 else 0).
Definition strict_bin (op : string) (t1 : cty) (z1 : Z) (t2 : cty) (z2 : Z) : cres :=
  let t := usual (promote t1) (promote t2) in
  let a := cconv t z1 in let b := cconv t z2 in
  (if String.eqb op "+" then arith t (a + b)
   else if String.eqb op "-" then arith t (a - b)
   else if String.eqb op "*" then arith t (a * b)
   else if String.eqb op "/" then if (b =? 0)%Z then CUndef else arith t (Z.quot a b)
   else if String.eqb op "%" then
     if (b =? 0)%Z then CUndef else if in_tyb t (Z.quot a b) then arith t (Z.rem a b) else CUndef
   else if String.eqb op "<" then cbool (a <? b)%Z
   else if String.eqb op "<=" then cbool (a <=? b)%Z
   else if String.eqb op ">" then cbool (b <? a)%Z
   else if String.eqb op ">=" then cbool (b <=? a)%Z
   else if String.eqb op "==" then cbool (a =? b)%Z
   else if String.eqb op "!=" then cbool (negb (a =? b)%Z)
   else CStuck)%string.
(** The member path below a variable. *)
Fixpoint mem_path (e : cexp) : option (string * list string) :=
  match e with
  | CId s => Some (s, [])
  | CMem _ e s => match mem_path e with Some (r, l) => Some (r, l ++ [s]) | None => None end
  | _ => None
  end.
Definition mem : Type := string -> list string -> option (cty * Z).
(** [m]: objects in memory. true and false are macros of stdbool.h. *)
Fixpoint ceval (m : mem) (e : cexp) : cres :=
  match e with
  | CId s => if String.eqb s "true" then cbool true else if String.eqb s "false" then cbool false
             else match m s [] with Some (t, z) => CV t z | None => CStuck end
  | CNum s =>
      match DecimalString.NilZero.int_of_string s with
      | Some d => let n := Z.of_int d in match literal_type n with Some t => CV t n | None => CStuck end
      | None => CStuck
      end
  | CMem _ e' s =>
      match mem_path e' with
      | Some (r, l) => match m r (l ++ [s]) with Some (t, z) => CV t z | None => CStuck end
      | None => CStuck
      end
  | CUn op e1 =>
      match ceval m e1 with
      | CV t z => if String.eqb op "!" then cbool (z =? 0)
                  else if String.eqb op "-" then arith (promote t) (- cconv (promote t) z)
                  else CStuck
      | r => r
      end
  | CBin op e1 e2 =>
      match ceval m e1 with
      | CV t1 z1 =>
          if String.eqb op "&&" then
            if z1 =? 0 then cbool false else match ceval m e2 with CV _ z2 => cbool (negb (z2 =? 0)) | r => r end
          else if String.eqb op "||" then
            if z1 =? 0 then match ceval m e2 with CV _ z2 => cbool (negb (z2 =? 0)) | r => r end else cbool true
          else match ceval m e2 with CV t2 z2 => strict_bin op t1 z1 t2 z2 | r => r end
      | r => r
      end
  end.
