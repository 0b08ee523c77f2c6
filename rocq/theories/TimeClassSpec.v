(** What the SETTINGS of a TIME type say, without the functions that read them. *)
From Coq Require Import List Ascii Bool ZArith String Permutation.
From Verif Require Import Time.
Import ListNotations.
Local Open Scope list_scope.

(** The settings of the classes, X.680, as words. *)
Definition words (c : tclass) : list string :=
  match c with
  | LocalTime _ => ["Basic=Time"; "Time=HMS"; "Local-or-UTC=L"]
  | UtcTime _ => ["Basic=Time"; "Time=HMS"; "Local-or-UTC=Z"]
  | ZoneTime _ => ["Basic=Time"; "Time=HMS"; "Local-or-UTC=LD"]
  | DateOnly => ["Basic=Date"; "Date=YMD"; "Year=Basic"]
  | DateLocal _ => ["Basic=Date-Time"; "Date=YMD"; "Year=Basic"; "Time=HMS"; "Local-or-UTC=L"]
  | DateUtc _ => ["Basic=Date-Time"; "Date=YMD"; "Year=Basic"; "Time=HMS"; "Local-or-UTC=Z"]
  | DateZone _ => ["Basic=Date-Time"; "Date=YMD"; "Year=Basic"; "Time=HMS"; "Local-or-UTC=LD"]
  end%string.
Definition precision (c : tclass) : Z :=
  match c with
  | LocalTime n | UtcTime n | ZoneTime n | DateLocal n | DateUtc n | DateZone n => n
  | DateOnly => 0
  end%Z.
Definition space (c : ascii) : Prop := c = " "%char \/ c = ascii_of_nat 9 \/ c = ascii_of_nat 13 \/ c = ascii_of_nat 10.
(** The characters that are no spaces, in order. *)
Inductive dense : text -> text -> Prop :=
| de_nil : dense [] []
| de_space : forall c s t, space c -> dense s t -> dense (c :: s) t
| de_char : forall c s t, ~ space c -> dense s t -> dense (c :: s) (c :: t).
(** Tabulators and line ends stand beside an equals sign only. *)
Inductive laid : text -> Prop :=
| la_nil : laid []
| la_char : forall c s, ~ space c -> laid s -> laid (c :: s)
| la_blank : forall s, laid s -> laid (" "%char :: s)
| la_equals : forall u v s, Forall space u -> Forall space v -> laid s -> laid (u ++ ["="%char] ++ v ++ s).
(** The words of the class, in any order. *)
Definition says (s : text) (c : tclass) : Prop :=
  precision c = 0%Z /\ exists p, Permutation (words c) p /\ dense s (List.concat (map list_ascii_of_string p)).
(** The words, each followed by some number of blanks. *)
Fixpoint spaced (n : nat -> nat) (i : nat) (p : list string) : text :=
  match p with
  | [] => []
  | w :: r => list_ascii_of_string w ++ repeat " "%char (n i) ++ spaced n (S i) r
  end.
