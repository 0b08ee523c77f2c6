(** How the compiler reads and prints values of TIME types (CommonTypes.fs). Texts are lists of
    ASCII characters. *)
From Coq Require Import List Ascii Bool Arith ZArith String.
From Verif Require Import AcnExpr.
Import ListNotations.
Local Open Scope list_scope.
Local Open Scope Z_scope.

Definition text : Type := list ascii.
(** [Invalid]: a SemanticError is raised; [Crash]: an IndexOutOfRangeException, which nobody expects. *)
Inductive tres (A : Type) := TOk (a : A) | Invalid | Crash.
Arguments TOk {A}. Arguments Invalid {A}. Arguments Crash {A}.
Definition tbind {A B} (x : tres A) (f : A -> tres B) : tres B :=
  match x with TOk a => f a | Invalid => Invalid | Crash => Crash end.

(** * Values, CommonTypes.fs:137-171 *)
(** TimeTypeClass; the number of digits of the fraction is not looked at. *)
Inductive tclass :=
| LocalTime (n : Z) | UtcTime (n : Z) | ZoneTime (n : Z) | DateOnly
| DateLocal (n : Z) | DateUtc (n : Z) | DateZone (n : Z).
Record date := mkdate { years : Z; months : Z; days : Z }.
(** [fraction]: the digits as a number, and the largest number of as many digits. *)
Record time := mktime { hours : Z; mins : Z; secs : Z; fraction : option (Z * Z) }.
Record zone := mkzone { zsign : Z; zhours : Z; zmins : Z }.
Inductive tvalue :=
| VLocal (t : time) | VUtc (t : time) | VZone (t : time) (z : zone) | VDate (d : date)
| VDateLocal (d : date) (t : time) | VDateUtc (d : date) (t : time) | VDateZone (d : date) (t : time) (z : zone).

(** * Reading *)
(** String.Split(char). *)
Fixpoint split (c : ascii) (s : text) : list text :=
  match s with
  | [] => [[]]
  | x :: r =>
      if (x =? c)%char then [] :: split c r
      else match split c r with p :: ps => (x :: p) :: ps | [] => [[x]] end
  end.
Definition digit (c : ascii) : option Z :=
  let n := Z.of_nat (nat_of_ascii c) in if (48 <=? n) && (n <=? 57) then Some (n - 48) else None.
Definition is_digit (c : ascii) : bool := match digit c with Some _ => true | None => false end.
Fixpoint number (acc : Z) (s : text) : option Z :=
  match s with
  | [] => Some acc
  | c :: r => match digit c with Some d => number (10 * acc + d) r | None => None end
  end.
Definition white (c : ascii) : bool :=
  let n := Z.of_nat (nat_of_ascii c) in ((9 <=? n) && (n <=? 13)) || (n =? 32).
Fixpoint skip_white (s : text) : text :=
  match s with c :: r => if white c then skip_white r else s | [] => [] end.
(** BigInteger.TryParse: blanks on both sides and a sign are permitted (NumberStyles.Integer). *)
Definition try_parse (s : text) : option Z :=
  let t := rev (skip_white (rev (skip_white s))) in
  match t with
  | [] => None
  | c :: r =>
      if (c =? "-")%char then match r with [] => None | _ => option_map Z.opp (number 0 r) end
      else if (c =? "+")%char then match r with [] => None | _ => number 0 r end
      else number 0 t
  end.
(** pr, lines 188-193. *)
Definition pr (s : text) (size : nat) (mn mx : Z) : tres Z :=
  if (List.length s =? size)%nat then
    match try_parse s with
    | Some n => if (mn <=? n) && (n <=? mx) then TOk n else Invalid
    | None => Invalid
    end
  else Invalid.
(** checkForInvalidCharacters, lines 194-198. *)
Definition only (ok : ascii -> bool) (s : text) : bool := forallb ok s.
(** The part of an array; an index beyond its end is an exception. *)
Definition part (l : list text) (i : nat) : tres text := match nth_error l i with Some x => TOk x | None => Crash end.
Definition mem_char (c : ascii) (s : text) : bool := existsb (Ascii.eqb c) s.
(** parseSeconds, lines 201-214. *)
Definition parse_seconds (s : text) : tres (Z * option (Z * Z)) :=
  if mem_char "." s then
    let p := split "." s in
    tbind (part p 0) (fun p0 => tbind (pr p0 2 0 59) (fun sec =>
    tbind (part p 1) (fun p1 =>
    match p1 with
    | [] => TOk (sec, None)
    | _ =>
        let mx := 10 ^ Z.of_nat (List.length p1) - 1 in
        tbind (pr p1 (List.length p1) 0 mx) (fun f => TOk (sec, Some (f, mx)))
    end)))
  else tbind (pr s 2 0 59) (fun sec => TOk (sec, None)).
(** parseTimeValue, lines 200-222. *)
Definition parse_time (s : text) : tres time :=
  if only (fun c => is_digit c || (c =? ":")%char || (c =? ".")%char) s then
    let p := split ":" s in
    if (List.length p =? 3)%nat then
      tbind (part p 2) (fun p2 => tbind (parse_seconds p2) (fun '(sec, f) =>
      tbind (part p 0) (fun p0 => tbind (pr p0 2 0 23) (fun h =>
      tbind (part p 1) (fun p1 => tbind (pr p1 2 0 59) (fun m => TOk (mktime h m sec f)))))))
    else Invalid
  else Invalid.
(** parseUtcTimeValue, lines 223-226. *)
Definition parse_utc (s : text) : tres time :=
  match rev s with
  | c :: _ => if (c =? "Z")%char then parse_time (firstn (List.length s - 1) s) else Invalid
  | [] => Invalid
  end.
(** parseDateValue, lines 227-232. *)
Definition parse_date (s : text) : tres date :=
  if only (fun c => is_digit c || (c =? "-")%char) s then
    let p := split "-" s in
    tbind (part p 0) (fun p0 => tbind (pr p0 (List.length p0) 0 9999999999) (fun y =>
    tbind (part p 1) (fun p1 => tbind (pr p1 2 1 12) (fun m =>
    tbind (part p 2) (fun p2 => tbind (pr p2 2 1 31) (fun d => TOk (mkdate y m d)))))))
  else Invalid.
(** parseTimeValueWithTimeZone, lines 234-247. *)
Definition parse_zone (s : text) : tres (time * zone) :=
  let n := List.length s in
  if (n <=? 6)%nat then Invalid
  else
    let sign := nth (n - 6) s " "%char in
    if (sign =? "-")%char || (sign =? "+")%char then
      let tz := skipn (n - 5) s in
      if (List.length tz =? 5)%nat then
        tbind (parse_time (firstn (n - 6) s)) (fun t =>
        let p := split ":" tz in
        tbind (part p 0) (fun p0 => tbind (pr p0 2 0 23) (fun h =>
        tbind (part p 1) (fun p1 => tbind (pr p1 2 0 59) (fun m =>
        TOk (t, mkzone (if (sign =? "+")%char then 1 else -1) h m))))))
      else Invalid
    else Invalid.
(** splitDateTimeString, lines 248-252. *)
Definition date_and {A} (s : text) (f : text -> tres A) : tres (date * A) :=
  let p := split "T" s in
  if (List.length p =? 2)%nat then
    tbind (part p 0) (fun p0 => tbind (parse_date p0) (fun d =>
    tbind (part p 1) (fun p1 => tbind (f p1) (fun x => TOk (d, x)))))
  else Invalid.
(** createTimeValueFromString, lines 185-265. *)
Definition read (c : tclass) (s : text) : tres tvalue :=
  match c with
  | LocalTime _ => tbind (parse_time s) (fun t => TOk (VLocal t))
  | UtcTime _ => tbind (parse_utc s) (fun t => TOk (VUtc t))
  | ZoneTime _ => tbind (parse_zone s) (fun '(t, z) => TOk (VZone t z))
  | DateOnly => tbind (parse_date s) (fun d => TOk (VDate d))
  | DateLocal _ => tbind (date_and s parse_time) (fun '(d, t) => TOk (VDateLocal d t))
  | DateUtc _ => tbind (date_and s parse_utc) (fun '(d, t) => TOk (VDateUtc d t))
  | DateZone _ => tbind (date_and s parse_zone) (fun '(d, (t, z)) => TOk (VDateZone d t z))
  end.

(** * Printing, asn1DateTimeValueToString, lines 275-292; %A of a BigInteger is its decimal text. *)
Definition dec (z : Z) : text := list_ascii_of_string (dec_text z).
Definition print_time (t : time) : text :=
  dec (hours t) ++ ":"%char :: dec (mins t) ++ ":"%char :: dec (secs t) ++
  match fraction t with None => [] | Some (f, _) => "."%char :: dec f end.
Definition print_zone (z : zone) : text :=
  (if zsign z =? 1 then "+"%char else "-"%char) :: dec (zhours z) ++ ":"%char :: dec (zmins z).
Definition print_date (d : date) : text := dec (years d) ++ "-"%char :: dec (months d) ++ "-"%char :: dec (days d).
Definition print (v : tvalue) : text :=
  match v with
  | VLocal t => print_time t
  | VUtc t => print_time t ++ ["Z"%char]
  | VZone t z => print_time t ++ print_zone z
  | VDate d => print_date d
  | VDateLocal d t => print_date d ++ print_time t
  | VDateUtc d t => print_date d ++ print_time t ++ ["Z"%char]
  | VDateZone d t z => print_date d ++ print_time t ++ print_zone z
  end.
