(** What the texts of TIME values mean, said without the functions that read them. *)
From Coq Require Import List Ascii Bool Arith ZArith.
From Verif Require Import Time.
Import ListNotations.
Local Open Scope list_scope.
Local Open Scope Z_scope.

(** * Numbers written with digits *)
Definition digit_char (c : ascii) (d : Z) : Prop := Z.of_nat (nat_of_ascii c) = 48 + d /\ 0 <= d <= 9.
Inductive numeral : text -> Z -> Prop :=
| num_nil : numeral [] 0
| num_snoc : forall s n c d, numeral s n -> digit_char c d -> numeral (s ++ [c]) (10 * n + d).
Definition two (s : text) (lo hi n : Z) : Prop := numeral s n /\ List.length s = 2%nat /\ lo <= n <= hi.

(** * Texts the standard has: hh:mm:ss with or without a fraction, year-mm-dd, +hh:mm *)
Inductive wtime : text -> time -> Prop :=
| wt_whole : forall h m s H M S, two h 0 23 H -> two m 0 59 M -> two s 0 59 S ->
    wtime (h ++ [":"%char] ++ m ++ [":"%char] ++ s) (mktime H M S None)
| wt_fraction : forall h m s f H M S F mx, two h 0 23 H -> two m 0 59 M -> two s 0 59 S ->
    numeral f F -> f <> [] -> mx + 1 = 10 ^ Z.of_nat (List.length f) ->
    wtime (h ++ [":"%char] ++ m ++ [":"%char] ++ s ++ ["."%char] ++ f) (mktime H M S (Some (F, mx))).
Inductive wdate : text -> date -> Prop :=
| wd : forall y m d Y M D, numeral y Y -> y <> [] -> Y <= 9999999999 -> two m 1 12 M -> two d 1 31 D ->
    wdate (y ++ ["-"%char] ++ m ++ ["-"%char] ++ d) (mkdate Y M D).
Definition sign_char (c : ascii) (z : Z) : Prop := (c = "+"%char /\ z = 1) \/ (c = "-"%char /\ z = -1).
Inductive wzone : text -> zone -> Prop :=
| wz : forall c s h m H M, sign_char c s -> two h 0 23 H -> two m 0 59 M ->
    wzone ([c] ++ h ++ [":"%char] ++ m) (mkzone s H M).
(** [T], [D], [Z]: how times, dates and zones are written. *)
Inductive writes (T : text -> time -> Prop) (D : text -> date -> Prop) (Z : text -> zone -> Prop) : tclass -> text -> tvalue -> Prop :=
| w_local : forall n s t, T s t -> writes T D Z (LocalTime n) s (VLocal t)
| w_utc : forall n s t, T s t -> writes T D Z (UtcTime n) (s ++ ["Z"%char]) (VUtc t)
| w_zone : forall n s t r z, T s t -> Z r z -> writes T D Z (ZoneTime n) (s ++ r) (VZone t z)
| w_date : forall s d, D s d -> writes T D Z DateOnly s (VDate d)
| w_dlocal : forall n a d s t, D a d -> T s t -> writes T D Z (DateLocal n) (a ++ ["T"%char] ++ s) (VDateLocal d t)
| w_dutc : forall n a d s t, D a d -> T s t -> writes T D Z (DateUtc n) (a ++ ["T"%char] ++ s ++ ["Z"%char]) (VDateUtc d t)
| w_dzone : forall n a d s t r z, D a d -> T s t -> Z r z ->
    writes T D Z (DateZone n) (a ++ ["T"%char] ++ s ++ r) (VDateZone d t z).
Definition written : tclass -> text -> tvalue -> Prop := writes wtime wdate wzone.

(** * What is accepted beyond that *)
Definition made_of (c : ascii) (s : text) : Prop := forall x, In x s -> x = c \/ exists d, digit_char x d.
(** After a fraction, a point and whatever is made of digits and points; after whole seconds, a point
    alone, or two points and whatever is made of digits and points. *)
Inductive ltime : text -> time -> Prop :=
| lt_written : forall s t, wtime s t -> ltime s t
| lt_fraction : forall s t r, wtime s t -> fraction t <> None -> made_of "." r -> ltime (s ++ ["."%char] ++ r) t
| lt_point : forall s t, wtime s t -> fraction t = None -> ltime (s ++ ["."%char]) t
| lt_points : forall s t r, wtime s t -> fraction t = None -> made_of "." r -> ltime (s ++ ["."%char; "."%char] ++ r) t.
(** After a date, a hyphen and whatever is made of digits and hyphens. *)
Inductive ldate : text -> date -> Prop :=
| ld_written : forall s d, wdate s d -> ldate s d
| ld_more : forall s d r, wdate s d -> made_of "-" r -> ldate (s ++ ["-"%char] ++ r) d.
(** Two characters: two digits, a digit beside a blank, a digit after a plus, a zero after a minus. *)
Definition blank (c : ascii) : Prop := (9 <= nat_of_ascii c <= 13)%nat \/ c = " "%char.
Inductive loose : text -> Z -> Prop :=
| lo_two : forall s n, numeral s n -> List.length s = 2%nat -> loose s n
| lo_before : forall b c d, blank b -> digit_char c d -> loose [b; c] d
| lo_after : forall b c d, blank b -> digit_char c d -> loose [c; b] d
| lo_plus : forall c d, digit_char c d -> loose ["+"%char; c] d
| lo_minus : loose ["-"%char; "0"%char] 0.
Inductive lzone : text -> zone -> Prop :=
| lz : forall c s h m H M, sign_char c s -> loose h H -> H <= 23 -> loose m M -> M <= 59 ->
    lzone ([c] ++ h ++ [":"%char] ++ m) (mkzone s H M).
Definition accepted : tclass -> text -> tvalue -> Prop := writes ltime ldate lzone.

(** * Dates that stop early *)
Inductive cut_date : text -> Prop :=
| cd_year : forall y Y, numeral y Y -> y <> [] -> Y <= 9999999999 -> cut_date y
| cd_month : forall y m Y M, numeral y Y -> y <> [] -> Y <= 9999999999 -> two m 1 12 M -> cut_date (y ++ ["-"%char] ++ m).
Definition cut (c : tclass) (s : text) : Prop :=
  match c with
  | LocalTime _ | UtcTime _ | ZoneTime _ => False
  | DateOnly => cut_date s
  | DateLocal _ | DateUtc _ | DateZone _ =>
      exists a b, s = a ++ ["T"%char] ++ b /\ cut_date a /\ ~ In "T"%char b
  end.

(** * Values *)
Definition time_ok (t : time) : Prop :=
  0 <= hours t <= 23 /\ 0 <= mins t <= 59 /\ 0 <= secs t <= 59 /\
  match fraction t with None => True | Some (f, mx) => 0 <= f <= mx /\ exists n, 0 < n /\ mx + 1 = 10 ^ n end.
Definition date_ok (d : date) : Prop := 0 <= years d <= 9999999999 /\ 1 <= months d <= 12 /\ 1 <= days d <= 31.
Definition zone_ok (z : zone) : Prop := (zsign z = 1 \/ zsign z = -1) /\ 0 <= zhours z <= 23 /\ 0 <= zmins z <= 59.
Definition value_ok (v : tvalue) : Prop :=
  match v with
  | VLocal t | VUtc t => time_ok t
  | VZone t z => time_ok t /\ zone_ok z
  | VDate d => date_ok d
  | VDateLocal d t | VDateUtc d t => date_ok d /\ time_ok t
  | VDateZone d t z => date_ok d /\ time_ok t /\ zone_ok z
  end.
Definition class_of (v : tvalue) (c : tclass) : Prop :=
  match v, c with
  | VLocal _, LocalTime _ | VUtc _, UtcTime _ | VZone _ _, ZoneTime _ | VDate _, DateOnly
  | VDateLocal _ _, DateLocal _ | VDateUtc _ _, DateUtc _ | VDateZone _ _ _, DateZone _ => True
  | _, _ => False
  end.
(** No field needs a leading zero. *)
Definition full_time (t : time) : Prop :=
  10 <= hours t /\ 10 <= mins t /\ 10 <= secs t /\
  match fraction t with None => True | Some (f, mx) => mx = 9 \/ mx < 10 * f end.
Definition full (v : tvalue) : Prop :=
  match v with
  | VLocal t | VUtc t => full_time t
  | VZone t z => full_time t /\ 10 <= zhours z /\ 10 <= zmins z
  | VDate d => 10 <= months d /\ 10 <= days d
  | VDateLocal _ _ | VDateUtc _ _ | VDateZone _ _ _ => False
  end.
