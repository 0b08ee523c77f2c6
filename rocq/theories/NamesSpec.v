(** What the renaming should achieve. *)
From Verif Require Import Names.
From Coq Require Import String Ascii List Bool Arith.
Import ListNotations.
Local Open Scope string_scope.
Local Open Scope list_scope.

(** The grammar without C names. *)
Fixpoint shape (t : nty) : nty :=
  match t with
  | NEnum items => NEnum (map (fun it => (fst it, "")) items)
  | NSeq l => NSeq (map (fun c => (fst c, shape (snd c))) l)
  | NChoice l => NChoice (map (fun c => (fst (fst c), "", shape (snd c))) l)
  | NOf t => NOf (shape t)
  | NOther => NOther
  end.
Definition root_shape (r : nroot) : nroot :=
  map (fun m => mkmod (mname m) (map (fun a => (fst a, shape (snd a))) (mtypes m)) (mvalues m)) r.

(** Names with the path to them: module, type, components. *)
Fixpoint enum_items (key : list string) (t : nty) : list (list string * string) :=
  match t with
  | NEnum items => map (fun it => (key, snd it)) items
  | NSeq l => flat_map (fun c => enum_items (key ++ [fst c]) (snd c)) l
  | NChoice l => flat_map (fun c => enum_items (key ++ [fst (fst c)]) (snd c)) l
  | NOf t => enum_items (key ++ ["#"]) t
  | NOther => []
  end.
Fixpoint choice_items (key : list string) (t : nty) : list (list string * string) :=
  match t with
  | NChoice l => map (fun c => (key, snd (fst c))) l ++ flat_map (fun c => choice_items (key ++ [fst (fst c)]) (snd c)) l
  | NSeq l => flat_map (fun c => choice_items (key ++ [fst c]) (snd c)) l
  | NOf t => choice_items (key ++ ["#"]) t
  | _ => []
  end.
Definition items_of (f : list string -> nty -> list (list string * string)) (r : nroot) : list (list string * string) :=
  flat_map (fun m => flat_map (fun a => f [mname m; fst a] (snd a)) (mtypes m)) r.
(** new is old behind parts of the path, each followed by an underscore. *)
Inductive prefixed (key : list string) : string -> string -> Prop :=
| px_same : forall s, prefixed key s s
| px_more : forall k s s', In k key -> prefixed key s s' -> prefixed key s (ToC k ++ "_" ++ s')%string.
Definition only_prefixed (a b : list string * string) : Prop := fst a = fst b /\ prefixed (fst a) (snd a) (snd b).

(** Called again and again. *)
Definition hangs (f : nroot -> call) (r : nroot) : Prop := forall n, run f n r = None.
Definition finishes (f : nroot -> call) (r : nroot) : Prop := exists n x, run f n r = Some x.

(** The name that an item gets if its own is taken: the last part of the path before it. *)
Definition candidate (x : list string * string) : string := (ToC (last (fst x) "") ++ "_" ++ snd x)%string.

(** C99, 6.4.1 *)
Definition c99_keywords : list string :=
  ["auto"; "break"; "case"; "char"; "const"; "continue"; "default"; "do"; "double"; "else"; "enum"; "extern"; "float"; "for";
   "goto"; "if"; "inline"; "int"; "long"; "register"; "restrict"; "return"; "short"; "signed"; "sizeof"; "static"; "struct";
   "switch"; "typedef"; "union"; "unsigned"; "void"; "volatile"; "while"; "_Bool"; "_Complex"; "_Imaginary"].

(** What one call does to an item, with the names [all] in view: if its name is there twice, the
    innermost part of the path that does not occur in the name is put before it. *)
Definition occurs (x s : string) : Prop := exists u v, s = (u ++ x ++ v)%string.
Definition twice (same : string -> string -> bool) (all : list string) (s : string) : Prop := 2 <= List.length (filter (same s) all).
Definition takes (same : string -> string -> bool) (all : list string) (x y : list string * string) : Prop :=
  fst y = fst x /\
  ((~ twice same all (snd x) /\ snd y = snd x) \/
   (twice same all (snd x) /\ exists k1 k k2, fst x = k1 ++ k :: k2 /\ Forall (fun z => occurs (ToC z) (snd x)) k2 /\
      ~ occurs (ToC k) (snd x) /\ snd y = (ToC k ++ "_" ++ snd x)%string)).
(** No part of the path is left. *)
Definition stuck (same : string -> string -> bool) (all : list string) (x : list string * string) : Prop :=
  twice same all (snd x) /\ Forall (fun z => occurs (ToC z) (snd x)) (fst x).

(** The names by type: one list for each ENUMERATED, for each CHOICE. *)
Fixpoint enum_groups (t : nty) : list (list string) :=
  match t with
  | NEnum items => [map snd items]
  | NSeq l => flat_map (fun c => enum_groups (snd c)) l
  | NChoice l => flat_map (fun c => enum_groups (snd c)) l
  | NOf t => enum_groups t
  | NOther => []
  end.
Fixpoint choice_groups (t : nty) : list (list string) :=
  match t with
  | NChoice l => map (fun c => snd (fst c)) l :: flat_map (fun c => choice_groups (snd c)) l
  | NSeq l => flat_map (fun c => choice_groups (snd c)) l
  | NOf t => choice_groups t
  | _ => []
  end.
Definition groups_of (f : nty -> list (list string)) (r : nroot) : list (list string) :=
  flat_map (fun m => flat_map (fun a => f (snd a)) (mtypes m)) r.
Definition one_prefix (g g' : list string) : Prop := exists p, g' = map (append p) g.
