(** The SETTINGS of a TIME type (CreateTimeClass and TimeClassMap, CreateAsn1AstFromAntlrTree.fs;
    combinations, FsUtils.fs). Texts are lists of ASCII characters. *)
From Coq Require Import List Ascii Bool Arith ZArith String.
From Verif Require Import Time.
Import ListNotations.
Local Open Scope list_scope.

(** combinations, FsUtils.fs:327-337. [fuel]: the length of the array. *)
Fixpoint combos {A} (fuel : nat) (l : list A) : list (list A) :=
  match fuel with
  | O => []
  | S f =>
      filter (fun p => (List.length p =? List.length l)%nat)
        (flat_map (fun i =>
           match nth_error l i with
           | None => []
           | Some x =>
               match combos f (firstn i l ++ skipn (S i) l) with
               | [] => [[x]]
               | rs => map (cons x) rs
               end
           end) (seq 0 (List.length l)))
  end.
Definition combinations {A} (l : list A) : list (list A) := combos (List.length l) l.

(** TimeClassMap, lines 24-36. *)
Definition tx (s : string) : text := list_ascii_of_string s.
Arguments tx s%string.
Definition setting_lists : list (text * tclass) :=
  [ (tx "Basic=Time Time=HMS Local-or-UTC=L", LocalTime 0);
    (tx "Basic=Time Time=HMS Local-or-UTC=Z", UtcTime 0);
    (tx "Basic=Time Time=HMS Local-or-UTC=LD", ZoneTime 0);
    (tx "Basic=Date Date=YMD Year=Basic", DateOnly);
    (tx "Basic=Date-Time Date=YMD Year=Basic Time=HMS Local-or-UTC=L", DateLocal 0);
    (tx "Basic=Date-Time Date=YMD Year=Basic Time=HMS Local-or-UTC=Z", DateUtc 0);
    (tx "Basic=Date-Time Date=YMD Year=Basic Time=HMS Local-or-UTC=LD", DateZone 0) ].
Definition class_map : list (text * tclass) :=
  flat_map (fun '(s, c) => map (fun l => (List.concat l, c)) (combinations (split " " s))) setting_lists.
Fixpoint text_eqb (a b : text) : bool :=
  match a, b with
  | [], [] => true
  | x :: a', y :: b' => (x =? y)%char && text_eqb a' b'
  | _, _ => false
  end.
(** Map.ofList: the last of equal keys counts. *)
Definition look (s : text) : option tclass :=
  option_map snd (find (fun e => text_eqb (fst e) s) (rev class_map)).

(** String.StartsWith, Contains, IndexOf, Replace; the pattern is not empty. *)
Fixpoint starts (p s : text) : bool :=
  match p, s with
  | [], _ => true
  | x :: p', y :: s' => (x =? y)%char && starts p' s'
  | _, [] => false
  end.
Fixpoint index_of (p s : text) : option nat :=
  if starts p s then Some O
  else match s with [] => None | _ :: r => option_map S (index_of p r) end.
Definition contains (p s : text) : bool := match index_of p s with Some _ => true | None => false end.
Fixpoint replace (fuel : nat) (p q s : text) : text :=
  match fuel, s with
  | S f, c :: r => if starts p s then q ++ replace f p q (skipn (List.length p) s) else c :: replace f p q r
  | _, _ => s
  end.
Definition replace_all (p q s : text) : text := replace (List.length s) p q s.

(** removeSpaceArountEqual, lines 727-731. *)
Definition tab : ascii := ascii_of_nat 9.
Definition cr : ascii := ascii_of_nat 13.
Definition lf : ascii := ascii_of_nat 10.
Definition eqc : ascii := "="%char.
Definition patterns : list text :=
  [ [" "%char; eqc]; [tab; eqc]; [cr; lf; eqc]; [cr; eqc]; [lf; eqc];
    [eqc; " "%char]; [eqc; tab]; [eqc; cr; lf]; [eqc; cr]; [eqc; lf] ].
Fixpoint around (fuel : nat) (s : text) : text :=
  match fuel with
  | O => s
  | S f => match find (fun p => contains p s) patterns with
           | None => s
           | Some p => around f (replace_all p [eqc] s)
           end
  end.
(** [fuel]: each round makes the text shorter. *)
Definition remove_around (s : text) : text := around (S (List.length s)) s.

(** CreateTimeClass, lines 726-760; the text without its quotes. The digits after HMSF are turned
    into "System.Char[]" (string of an array), which Int32.Parse refuses with an exception. *)
Definition settings (s : text) : tres tclass :=
  let t := remove_around s in
  match index_of (tx "Time=HMSF") t with
  | Some (S _) => Crash
  | _ =>
      match look (replace_all [" "%char] [] t) with
      | Some c => TOk c
      | None => Invalid
      end
  end.
