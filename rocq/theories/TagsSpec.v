(** X.680 8.6: canonical order of tags (class, then number; UNIVERSAL 0, APPLICATION 1,
    context-specific 2, PRIVATE 3); X.691 23: the index of a CHOICE. *)
From Verif Require Import Base Bits UperTypes UperSpec Tags.

Definition tag : Type := Z * Z.
Definition tag_lt (a b : tag) : bool := (fst a <? fst b) || (fst a =? fst b) && (snd a <? snd b).
Definition tag_min (a b : tag) : tag := if tag_lt b a then b else a.
Definition is_tagged (g : gty) : bool := match g with GTag _ _ _ => true | _ => false end.
(** X.680 25.7 and 29.2: AUTOMATIC TAGS count unless an alternative is tagged. *)
Definition automatic (auto : bool) (l : list gty) : bool := auto && negb (existsb is_tagged l).
(** The tag of an alternative; for an untagged CHOICE the smallest tag of its alternatives. *)
Fixpoint key (g : gty) : tag :=
  match g with
  | GBase u _ => (0, u)
  | GTag c n _ => (c, n)
  | GChoice auto l =>
      if automatic auto l then (2, 0)
      else match map key l with [] => (0, 0) | k :: ks => fold_right tag_min k ks end
  end.
Definition keys (auto : bool) (l : list gty) : list tag :=
  if automatic auto l then map (fun i => (2, Z.of_nat i)) (seq 0 (length l)) else map key l.
Definition tag_rank (k : tag) (ks : list tag) : Z := Z.of_nat (length (filter (fun x => tag_lt x k) ks)).
(** The bits of X.691. *)
Fixpoint xbits (g : gty) (v : value) {struct g} : list bool :=
  match g, v with
  | GBase _ t, v => ubits true t v
  | GTag _ _ g, v => xbits g v
  | GChoice auto l, VChoice i v =>
      Zbits (crange 0 (Z.of_nat (length l) - 1)) (tag_rank (nth i (keys auto l) (0, 0)) (keys auto l)) ++
      (fix alt (l : list gty) (i : nat) : list bool :=
         match l, i with
         | [], _ => []
         | g :: _, O => xbits g v
         | _ :: l, S i => alt l i
         end) l i
  | _, _ => []
  end.
(** The alternatives of every CHOICE are written in the order of their tags. *)
Fixpoint ascending (ks : list tag) : Prop :=
  match ks with
  | [] => True
  | k :: ks => Forall (fun x => tag_lt k x = true) ks /\ ascending ks
  end.
Fixpoint ordered (g : gty) : Prop :=
  match g with
  | GBase _ _ => True
  | GTag _ _ g => ordered g
  | GChoice auto l => ascending (keys auto l) /\ (fix all (l : list gty) : Prop := match l with [] => True | g :: l => ordered g /\ all l end) l
  end.
(** AUTOMATIC TAGS and no tag written anywhere. *)
Fixpoint untagged (g : gty) : Prop :=
  match g with
  | GBase _ _ => True
  | GTag _ _ g => False
  | GChoice auto l => auto = true /\ (fix all (l : list gty) : Prop := match l with [] => True | g :: l => untagged g /\ all l end) l
  end.
(** X.691 21: the components of a SET are encoded in the order of their tags. Here: all
    mandatory and not automatically tagged. *)
Definition set_bits (l : list (gty * value)) : list bool :=
  let ks := map (fun p => key (fst p)) l in
  flat_map (fun r => flat_map (fun p => if tag_rank (key (fst p)) ks =? Z.of_nat r then xbits (fst p) (snd p) else []) l)
    (seq 0 (length l)).
