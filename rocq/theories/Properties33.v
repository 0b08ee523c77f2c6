(** C74: which constraints a type may have. Statements only. *)
From Coq Require Import List String ZArith.
From Verif Require Import ConAllowed ConAllowedSpec.
From Verif Require ConAllowedProofs.
Import ListNotations.
Local Open Scope string_scope.
Local Open Scope list_scope.

(** The constraints a type may have, exactly, whatever the check of values. *)
Theorem C74_exact : forall V value_ok tyof t c, (exists f, isConstraintAllowed V value_ok tyof f t c = inl tt) <-> allowed V value_ok tyof t c.
Proof. exact ConAllowedProofs.check_exact. Qed.
(** The answer does not depend on how deep the recursion is allowed to be. *)
Theorem C74_stable : forall V value_ok tyof c f g t, (f <= g)%nat ->
  isConstraintAllowed V value_ok tyof f t c = inr Deep \/
  isConstraintAllowed V value_ok tyof f t c = isConstraintAllowed V value_ok tyof g t c.
Proof. exact ConAllowedProofs.stable. Qed.
Theorem C74_compatible_exact : forall tyof t u, (exists f, AreTypesCompatible tyof f t u = inl true) <-> alike tyof t u.
Proof. exact ConAllowedProofs.compat_exact. Qed.
(** A type whose references all lead somewhere may be constrained to itself. *)
Theorem C74_self : forall V value_ok tyof m T t l, tyof m T = Some t -> grounded tyof t ->
  exists f, isConstraintAllowed V value_ok tyof f (AT l (KRef m T)) (AIncl m T) = inl tt.
Proof. exact ConAllowedProofs.includes_self. Qed.

(** Values of the examples *)
Inductive val := Num (z : Z) | Txt (s : string).
Definition fits (t : atype) (v : val) : bool :=
  match kind_of t, v with
  | KInt, Num _ | KReal, Num _ | KIA5, Txt _ | KNum, Txt _ => true
  | KRef _ _, Num _ => true
  | _, _ => false
  end.
(** I ::= INTEGER, J ::= I, S ::= SEQUENCE { a I, b BOOLEAN OPTIONAL, c INTEGER DEFAULT 1 },
    S2 with the same components, C ::= CHOICE { a I, b BOOLEAN }, L ::= SEQUENCE OF J,
    E ::= ENUMERATED { red, green }, E2 ::= ENUMERATED { yes, no } *)
Definition types (m T : string) : option atype :=
  match T with
  | "I" => Some (AT 1 KInt)
  | "J" => Some (AT 2 (KRef "M" "I"))
  | "S" => Some (AT 3 (KSeq [("a", Mandatory, AT 4 (KRef "M" "I")); ("b", Optional false, AT 5 KBool); ("c", Optional true, AT 6 KInt)]))
  | "S2" => Some (AT 7 (KSeq [("a", Mandatory, AT 8 (KRef "M" "I")); ("b", Optional false, AT 9 KBool); ("c", Optional true, AT 10 KInt)]))
  | "C" => Some (AT 11 (KCh [("a", Mandatory, AT 12 (KRef "M" "I")); ("b", Mandatory, AT 13 KBool)]))
  | "L" => Some (AT 14 (KOf (AT 15 (KRef "M" "J"))))
  | "E" => Some (AT 16 (KEnum ["red"; "green"]))
  | "E2" => Some (AT 17 (KEnum ["yes"; "no"]))
  | "B" => Some (AT 18 KIA5)
  | _ => None
  end.
Definition check (T : string) (c : acon val) : chk unit := isConstraintAllowed val fits types 9 (AT 20 (KRef "M" T)) c.
Example C74_example :
  check "J" (AUnion (ARange (Num 1) (Num 5)) (AFrom (Num 9))) = inl tt /\
  check "J" (AIncl "M" "I") = inl tt /\
  check "L" (AInter (ASize (ARange (Num 1) (Num 5))) (AWith (ARange (Num 0) (Num 9)))) = inl tt /\
  check "S" (AWiths [("a", NoMark, Some (ASingle (Num 1))); ("b", MarkAbsent, None); ("c", MarkPresent, None)]) = inl tt /\
  check "C" (AWiths [("b", MarkAbsent, None)]) = inl tt /\
  check "S" (AIncl "M" "S") = inl tt /\ check "C" (AIncl "M" "C") = inl tt /\ check "L" (AIncl "M" "L") = inl tt /\
  (exists t, types "M" "S" = Some t /\ grounded types t).
Proof.
  repeat (split; [reflexivity|]). eexists. split; [reflexivity|]. apply g_seq. intros n o t [E|[E|[E|[]]]]; injection E as <- <- <-.
  - eapply g_ref; [eapply r_ref; [reflexivity|apply r_here; discriminate]|]. apply g_simple. constructor.
  - apply g_simple. constructor.
  - apply g_simple. constructor.
Qed.
(** Every error *)
Example C74_errors :
  check "S" AAny = inr NoRange /\ check "C" (ARange (Num 1) (Num 2)) = inr NoRange /\ check "E" (AFrom (Num 1)) = inr NoRange /\
  check "E" (ATo (Num 1)) = inr NoRange /\ check "J" (ASize (ASingle (Num 1))) = inr NoSize /\ check "J" (AAlpha (ASingle (Num 1))) = inr NoAlpha /\
  check "S" (AWith (ASingle (Num 1))) = inr NoWith /\ check "L" (AWiths []) = inr NoWiths /\
  check "L" (ASize (ASingle (Txt "a"))) = inr BadValue /\ check "J" (ARange (Num 1) (Txt "a")) = inr BadValue /\
  check "L" (ASize (ASize (ASingle (Num 1)))) = inr NoSize /\
  check "J" (AIncl "M" "L") = inr Incompatible /\ check "J" (AIncl "M" "X") = inr UnknownType /\ check "X" AAny = inr UnknownType /\
  check "S" (AWiths [("b", NoMark, None); ("b", NoMark, None)]) = inr (Twice "b") /\
  check "S" (AWiths [("d", NoMark, None)]) = inr (BadId "d") /\
  check "S" (AWiths [("c", MarkAbsent, None)]) = inr (HasDefault "c") /\
  check "S" (AWiths [("a", MarkAbsent, None)]) = inr (NotOptional "a") /\ check "S" (AWiths [("a", MarkPresent, None)]) = inr (NotOptional "a") /\
  check "C" (AWiths [("a", MarkOptional, None)]) = inr (ChoiceMark "a") /\
  check "S" (AWiths [("b", NoMark, Some AAny)]) = inr NoRange /\
  check "J" (AUnion (ASingle (Num 1)) (ASingle (Txt "a"))) = inr BadValue /\ check "J" (AInter (ASingle (Txt "a")) AAny) = inr BadValue /\
  check "J" (AExcept AAny (ASize AAny)) = inr NoSize /\ check "J" (ARoot2 AAny (ASize AAny)) = inr NoSize /\
  check "J" (AAllExcept (ASize AAny)) = inr NoSize /\ check "J" (ARoot (ASize AAny)) = inr NoSize /\
  isConstraintAllowed val fits (fun m T => Some (AT 1 (KRef m T))) 9 (AT 1 (KRef "M" "T")) AAny = inr Deep.
Proof. repeat split. Qed.

(** The names of one ENUMERATED type are compared with themselves: all ENUMERATED types with the same
    number of items are compatible. E (E2) is accepted. *)
Theorem C74_enum_refuted : (forall tyof f l l' i j, List.length i = List.length j ->
    AreTypesCompatible tyof (S f) (AT l (KEnum i)) (AT l' (KEnum j)) = inl true) /\
  check "E" (AIncl "M" "E2") = inl tt /\ types "M" "E" = Some (AT 16 (KEnum ["red"; "green"])) /\ types "M" "E2" = Some (AT 17 (KEnum ["yes"; "no"])).
Proof.
  split; [|repeat split]. intros tyof f l l' i j E. cbn [AreTypesCompatible kind_of]. rewrite E, PeanoNat.Nat.eqb_refl.
  destruct (list_eq_dec string_dec i i); [reflexivity|congruence].
Qed.
(** SEQUENCE types with the same components are never compatible, unless they are the same definition:
    the comparison of the components includes their places in the source. S (S2) is refused. *)
Theorem C74_sequence_refuted : (forall tyof f l l' c d,
    (exists n a o t n' o' t', nth_error c a = Some (n, o, t) /\ nth_error d a = Some (n', o', t') /\ loc_of t <> loc_of t') ->
    AreTypesCompatible tyof f (AT l (KSeq c)) (AT l' (KSeq d)) <> inl true) /\
  check "S" (AIncl "M" "S2") = inr Incompatible.
Proof. split; [exact ConAllowedProofs.elsewhere|reflexivity]. Qed.
(** Two alternatives of a CHOICE may both be PRESENT, which no value is. *)
Theorem C74_present_refuted : check "C" (AWiths [("a", MarkPresent, None); ("b", MarkPresent, None)]) = inl tt.
Proof. reflexivity. Qed.
(** The ends of a range may be in the wrong order. *)
Theorem C74_order_refuted : check "J" (ARange (Num 5) (Num 1)) = inl tt /\
  isConstraintAllowed val fits types 9 (AT 1 KInt) (ARange (Num 5) (Num 1)) = inl tt.
Proof. split; reflexivity. Qed.
(** Within FROM everything that a string may have is accepted, SIZE and FROM included. *)
Theorem C74_alphabet_refuted : check "B" (AAlpha (ASize (ASingle (Num 1)))) = inl tt /\ check "B" (AAlpha (AAlpha AAny)) = inl tt.
Proof. split; reflexivity. Qed.

(** * Assumptions of all theorems above *)
Definition theorems33 := (
  @C74_exact, @C74_stable, @C74_compatible_exact, @C74_self, @C74_enum_refuted, @C74_sequence_refuted,
  @C74_present_refuted, @C74_order_refuted, @C74_alphabet_refuted).
Print Assumptions theorems33.
