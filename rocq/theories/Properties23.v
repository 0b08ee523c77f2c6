(** C64: present-when expressions of ACN. Statements only. *)
From Verif Require Import Base CExpr AcnExpr AcnExprSeq AcnExprSpec.
From Verif Require CExprProofs AcnExprProofs AcnExprProofs2 AcnExprProofs3.
From Coq Require Import String.
Local Open Scope Z_scope.

Definition fint (n : string) (s : bool) (w : Z) : cinfo * akind := (mkci n n false false, AInt s w).
Definition a_b : children := [fint "a" true 64; fint "b" true 64; (mkci "f" "f" false false, ABool)].
Definition fa : aexp := EField ["a"%string].
Definition fb : aexp := EField ["b"%string].

(** The text printed for an expression has exactly one reading as a C expression, the one
    with the structure of the ACN expression: the parentheses are right, and no two
    characters run together. *)
Theorem C64_text : forall seq root base e s, plain e -> good_names (ASeq seq) -> ident root -> Forall ident base ->
  acnExpressionToBackendExpression seq root base e = Some s -> means s (tree_of (resolve seq base) root e).
Proof. exact AcnExprProofs.text. Qed.
(** !(a - (b - 1) > - (-2)) || f && (a < 3) == f *)
Definition e1 : aexp :=
  EBin OOr (ENot (EBin OGt (EBin OSub fa (EBin OSub fb (EInt 1))) (EMinus (EMinus (EInt 2)))))
    (EBin OAnd (EField ["f"%string]) (EBin OEq (EBin OLt fa (EInt 3)) (EField ["f"%string]))).
Example C64_text_example : plain e1 /\ good_names (ASeq a_b) /\ ident "pVal" /\
  acnExpressionToBackendExpression a_b "pVal" [] e1 =
    Some "!(pVal->a - (pVal->b - 1) > -(-2)) || (pVal->f && pVal->a < 3 == pVal->f)"%string.
Proof. repeat split; cbn; try reflexivity; lia. Qed.

(** Whatever the check accepts can be printed. *)
Theorem C64_total : forall seq root base e t, validateAcnExpression seq e = Some t ->
  exists s, acnExpressionToBackendExpression seq root base e = Some s.
Proof. exact AcnExprProofs2.total. Qed.
Example C64_total_example : validateAcnExpression a_b e1 = Some TyBool.
Proof. reflexivity. Qed.

(** A reference that is accepted: check and printing agree on a scalar component, which is named by
    a non-empty initial part of the path. *)
Theorem C64_path : forall p seq t, check_path seq p = Some t ->
  exists p1 rest l k, p = p1 ++ rest /\ p1 <> [] /\ denotes (ASeq seq) p1 l k /\ scalar k = Some t /\ back_path seq p = Some l.
Proof. exact AcnExprProofs2.path_ok. Qed.
(** One name: every mandatory scalar ASN.1 component can be used, with its type. *)
Theorem C64_single : forall seq c k t, NoDup (map (fun c => cname (fst c)) seq) -> In (c, k) seq -> cacn c = false -> copt c = false ->
  scalar k = Some t -> check_path seq [cname c] = Some t /\ back_path seq [cname c] = Some [cback c].
Proof. exact AcnExprProofs2.path_single. Qed.
(** Two or more names: no component of a component can be used at all. *)
Theorem C64_nested : forall p seq l k t, distinct (ASeq seq) -> denotes (ASeq seq) p l k -> scalar k = Some t -> (2 <= List.length p)%nat ->
  check_path seq p = None.
Proof. exact AcnExprProofs2.path_nested. Qed.
Definition nested : children := [(mkci "h" "h" false false, ASeq a_b); fint "n" true 64].
Example C64_nested_example : distinct (ASeq nested) /\ denotes (ASeq nested) ["h"; "a"]%string ["h"; "a"]%string (AInt true 64) /\
  check_path nested ["n"%string] = Some TyInt.
Proof.
  split; [cbn; repeat split; repeat constructor; cbn; intuition congruence|]. split; [|reflexivity].
  cbn. eexists _, _, _. split; [left; reflexivity|]. split; [reflexivity|]. split; [reflexivity|].
  eexists _, _, _. split; [left; reflexivity|]. auto.
Qed.

(** The type check: without division, REAL and named constants an accepted expression always has a
    value, of the type found. *)
Theorem C64_typed : forall seq val e t, no_division e ->
  (forall p ty, check_path seq p = Some ty -> exists v, val p = Some v /\ val_type v = ty) ->
  validateAcnExpression seq e = Some t -> exists v, meval val e = Some v /\ val_type v = t.
Proof. exact AcnExprProofs2.typed. Qed.
Example C64_typed_example : no_division e1 /\ validateAcnExpression a_b (EBin OAdd fa (EField ["f"%string])) = None.
Proof. split; [cbn; intuition discriminate|reflexivity]. Qed.

(** The check is exactly these typing rules. *)
Theorem C64_rules : forall seq e t, validateAcnExpression seq e = Some t <-> well_typed (fun p t => check_path seq p = Some t) e t.
Proof. exact AcnExprProofs3.rules. Qed.
Example C64_rules_example : let seq := (mkci "r" "r" false false, AReal) :: a_b in
  validateAcnExpression seq (EBin OLt (EBin OAdd (EField ["r"%string]) (EReal "1.0E+000")) fa) = Some TyBool /\
  validateAcnExpression seq (EBin OAdd (EField ["r"%string]) fa) = None.
Proof. split; reflexivity. Qed.

(** The C expression computes the meaning, if all integers on the way are below 2^31 and,
    where members are unsigned, none is negative. *)
Theorem C64_present : forall (seq : children) lo sv e b, - 2 ^ 31 < lo <= 0 ->
  NoDup (map (fun c => cname (fst c)) seq) -> NoDup (map (fun c => cback (fst c)) seq) ->
  struct_ok seq lo sv -> plain e -> (forall p, In p (fields_of e) -> List.length p = 1%nat /\ check_path seq p <> None) ->
  within (value_of seq sv) lo e -> meval (value_of seq sv) e = Some (MB b) -> test seq sv (reading seq e) = Some b.
Proof. exact AcnExprProofs2.present. Qed.
(** b != 0 && a / b > -3, also with b = 0 *)
Definition e2 : aexp := EBin OAnd (EBin ONe fb (EInt 0)) (EBin OGt (EBin ODiv fa fb) (EMinus (EInt 3))).
Definition store (a b f : Z) : sval := mksv (fun _ => false)
  (fun l => match l with [n] => if String.eqb n "a" then a else if String.eqb n "b" then b else f | _ => 0 end).
Example C64_present_example :
  struct_ok a_b (- 2 ^ 31 + 1) (store 7 (-2) 1) /\ within (value_of a_b (store 7 (-2) 1)) (- 2 ^ 31 + 1) e2 /\
  meval (value_of a_b (store 7 (-2) 1)) e2 = Some (MB false) /\ test a_b (store 7 (-2) 1) (reading a_b e2) = Some false /\
  meval (value_of a_b (store 7 0 1)) e2 = Some (MB false) /\ within (value_of a_b (store 7 0 1)) (- 2 ^ 31 + 1) e2 /\
  meval (value_of a_b (store 5 (-2) 1)) e2 = Some (MB true).
Proof.
  split; [intros c k H; cbn in H; destruct H as [H|[H|[H|[]]]]; injection H as <- <-; cbn; auto 7|].
  split; [cbn; repeat split; intros; try congruence; match goal with H : Some (MZ ?x) = Some (MZ ?z) |- _ => assert (x = z) by congruence; lia end|].
  split; [reflexivity|]. split; [reflexivity|]. split; [reflexivity|]. split; [|reflexivity].
  cbn; repeat split; intros; try congruence; match goal with H : Some (MZ ?x) = Some (MZ ?z) |- _ => assert (x = z) by congruence; lia end.
Qed.

(** The same under the exact conditions: every operation is done in a C type that holds its
    operands and its result. *)
Theorem C64_fits : forall (seq : children) sv e b,
  NoDup (map (fun c => cname (fst c)) seq) -> NoDup (map (fun c => cback (fst c)) seq) ->
  stored seq sv -> plain e -> (forall p, In p (fields_of e) -> List.length p = 1%nat /\ check_path seq p <> None) ->
  fits (type_of seq) (value_of seq sv) e -> meval (value_of seq sv) e = Some (MB b) -> test seq sv (reading seq e) = Some b.
Proof. exact AcnExprProofs3.present_fits. Qed.
(** a * a > 2^62 for a member of 64 bits; 2^62 + 1 is a long constant. *)
Definition e3 : aexp := EBin OGt (EBin OMul fa fa) (EInt (2 ^ 62 + 1)).
Example C64_fits_example : stored a_b (store (2 ^ 31 + 5) 0 0) /\
  fits (type_of a_b) (value_of a_b (store (2 ^ 31 + 5) 0 0)) e3 /\ meval (value_of a_b (store (2 ^ 31 + 5) 0 0)) e3 = Some (MB true).
Proof.
  split. { intros c k H; cbn in H; destruct H as [H|[H|[H|[]]]]; injection H as <- <-; cbn [fieldv store cback String.eqb Ascii.eqb Bool.eqb]; [| |left; reflexivity]; (split; [auto|]); vm_compute; intuition discriminate. }
  assert (A : forall z, meval (value_of a_b (store (2 ^ 31 + 5) 0 0)) fa = Some (MZ z) -> z = 2147483653).
  { intros z H. assert (X : meval (value_of a_b (store (2 ^ 31 + 5) 0 0)) fa = Some (MZ 2147483653)) by reflexivity. congruence. }
  split; [|reflexivity]. unfold e3. cbn [fits]. split; [|split; [vm_compute; reflexivity|]].
  - split; [exact I|]. split; [exact I|]. intros a b Ha Hb. apply A in Ha, Hb. subst. unfold in_ty. cbn [results In].
    split; [vm_compute; intuition discriminate|]. split; [vm_compute; intuition discriminate|].
    intros z [<-|[]]. vm_compute. intuition discriminate.
  - intros a b Ha Hb. assert (a = 4611686039902224409) as ->.
    { assert (X : meval (value_of a_b (store (2 ^ 31 + 5) 0 0)) (EBin OMul fa fa) = Some (MZ 4611686039902224409)) by reflexivity. congruence. }
    assert (b = 4611686018427387905) as -> by (cbn [meval] in Hb; assert (X : 2 ^ 62 + 1 = 4611686018427387905) by reflexivity; congruence).
    split; [vm_compute; intuition discriminate|]. split; [vm_compute; intuition discriminate|]. intros z [].
Qed.

(** SEQUENCE: right flags are accepted. *)
Theorem C64_accepts : forall seq cs sv, flags_ok seq cs sv -> exists w, seq_enc seq (reading seq) cs sv = Some (true, w).
Proof. exact AcnExprProofs2.accepts. Qed.
(** And decoding, into any memory, gives back flags and values, if the expressions look only at
    mandatory components that come earlier. *)
Theorem C64_round_trip : forall cs sv sv0 w, let seq := kids cs in NoDup (map back cs) -> before seq [] cs -> flags_ok seq cs sv ->
  seq_enc seq (reading seq) cs sv = Some (true, w) ->
  exists sv1, seq_dec seq (reading seq) cs w sv0 = Some sv1 /\ same cs sv sv1.
Proof. exact AcnExprProofs2.round_trip. Qed.
(** Wrong flags are refused, if the statements that encode the component do not assign ret. *)
Theorem C64_detects : forall seq cs sv w, (forall c, In c cs -> cond c <> None -> sets c = false) ->
  seq_enc seq (reading seq) cs sv = Some (true, w) -> flags_ok seq cs sv.
Proof. exact AcnExprProofs2.detects. Qed.
(** SEQUENCE { a INTEGER, s OCTET STRING OPTIONAL (present-when a > 3), b INTEGER } *)
Definition three (assigns : bool) : list schild :=
  [mksc (mkci "a" "a" false false) (AInt true 64) None true;
   mksc (mkci "s" "s" false true) AOther (Some (EBin OGt fa (EInt 3))) assigns;
   mksc (mkci "b" "b" false false) (AInt true 64) None true].
Definition str (ex : bool) (a s b : Z) : sval := mksv (fun _ => ex)
  (fun l => match l with [n] => if String.eqb n "a" then a else if String.eqb n "s" then s else b | _ => 0 end).
Example C64_sequence_example : before (kids (three true)) [] (three true) /\ flags_ok (kids (three true)) (three true) (str true 5 77 9) /\
  (exists w, seq_enc (kids (three true)) (reading (kids (three true))) (three true) (str true 5 77 9) = Some (true, w) /\ List.length w = 3%nat) /\
  (exists w, seq_enc (kids (three false)) (reading (kids (three false))) (three false) (str true 2 77 9) = Some (false, w)).
Proof.
  split. { cbn. split; [|exact I]. intros p [<-|[]]. exists "a"%string, []. auto. }
  split. { intros c e H C. cbn in H. intuition; subst; cbn in C; try discriminate. assert (e = EBin OGt fa (EInt 3)) by congruence. subst. reflexivity. }
  split; eexists; [split|]; reflexivity.
Qed.

(** The flag says present, the expression says absent: the error is lost, because the encoding of s
    assigns ret again. The decoder then takes s for b. *)
Theorem C64_flag_refuted : let cs := three true in let seq := kids cs in let sv := str true 2 77 9 in
  ~ flags_ok seq cs sv /\
  exists w sv1, seq_enc seq (reading seq) cs sv = Some (true, w) /\ seq_dec seq (reading seq) cs w (str false 0 0 0) = Some sv1 /\
    exist sv1 "s" = false /\ fieldv sv ["b"%string] = 9 /\ fieldv sv1 ["b"%string] = 77.
Proof.
  cbv zeta. split.
  - intros F. specialize (F _ _ (or_intror (or_introl eq_refl)) eq_refl). vm_compute in F. discriminate.
  - eexists _, _. split; [reflexivity|]. split; [reflexivity|]. repeat split.
Qed.
(** An expression may look at a component that comes later: the decoder evaluates it on what
    the memory held before. *)
Theorem C64_order_refuted : exists cs, let seq := kids cs in let e := EBin OGt fb (EInt 3) in
  cs = [mksc (mkci "s" "s" false true) AOther (Some e) false; mksc (mkci "b" "b" false false) (AInt true 64) None true] /\
  validateAcnExpression seq e = Some TyBool /\
  forall sv, fieldv sv ["b"%string] = 5 -> exist sv "s" = true -> flags_ok seq cs sv /\
    exists w, seq_enc seq (reading seq) cs sv = Some (true, w) /\
      exists sv0 sv1, seq_dec seq (reading seq) cs w sv0 = Some sv1 /\ exist sv1 "s" = false.
Proof.
  eexists. cbv zeta. split; [reflexivity|]. split; [reflexivity|]. intros sv B E.
  assert (T : test (kids [mksc (mkci "s" "s" false true) AOther (Some (EBin OGt fb (EInt 3))) false; mksc (mkci "b" "b" false false) (AInt true 64) None true]) sv
    (reading (kids [mksc (mkci "s" "s" false true) AOther (Some (EBin OGt fb (EInt 3))) false; mksc (mkci "b" "b" false false) (AInt true 64) None true]) (EBin OGt fb (EInt 3))) = Some true).
  { unfold test, reading. cbn. rewrite B. reflexivity. }
  split.
  - intros c e H C. cbn in H. intuition; subst; cbn in C; try discriminate. assert (e = EBin OGt fb (EInt 3)) by congruence. subst. rewrite T. cbn [back sinfo cback]. now rewrite E.
  - cbn [seq_enc cond]. rewrite T. cbn [back sinfo cback sets]. rewrite E. cbn [Bool.eqb]. eexists. split; [reflexivity|].
    exists (str false 0 0 0). eexists. split; [reflexivity|]. reflexivity.
Qed.
(** Further names are ignored: a.b.c is accepted for a INTEGER and means a. *)
Theorem C64_path_refuted : check_path a_b ["a"; "x"; "y"]%string = Some TyInt /\
  back_path a_b ["a"; "x"; "y"]%string = Some ["a"%string] /\ forall l k, ~ denotes (ASeq a_b) ["a"; "x"; "y"]%string l k.
Proof.
  split; [reflexivity|]. split; [reflexivity|]. intros l k D. cbn in D. destruct D as (c & k1 & l1 & H & N & _ & D).
  destruct H as [H|[H|[H|[]]]]; assert (X : snd (c, k1) = k1) by reflexivity; rewrite <- H in X; cbn in X; subst k1; exact D.
Qed.
(** A named constant is printed as nothing. *)
Theorem C64_constant_refuted : let e := EBin OEq fa (EConst "Limit") in
  validateAcnExpression a_b e = Some TyBool /\ acnExpressionToBackendExpression a_b "pVal" [] e = Some "pVal->a == "%string /\
  forall c, ~ means "pVal->a == " c.
Proof.
  cbv zeta. split; [reflexivity|]. split; [reflexivity|]. intros c (ts & E & D).
  assert (X : tokens "pVal->a == " = Some ([TId "pVal"; TP "->"; TId "a"] ++ [TP "=="])) by reflexivity.
  assert (ts = [TId "pVal"; TP "->"; TId "a"] ++ [TP "=="]) as -> by congruence.
  apply (CExprProofs.no_trailing 7 [TId "pVal"; TP "->"; TId "a"] "==" c); [discriminate|]. apply D. reflexivity.
Qed.
(** The whole expression need not be BOOLEAN. *)
Theorem C64_boolean_refuted : validateAcnExpression a_b (EBin OAdd fa (EInt 1)) = Some TyInt.
Proof. reflexivity. Qed.
(** Modulo of REALs is accepted; in C, % wants integers (6.5.5 p2). *)
Theorem C64_modulo_refuted : exists seq, let e := EBin OGt (EBin OMod (EField ["r"%string]) (EReal "2.0E+000")) (EReal "1.0E+000") in
  validateAcnExpression seq e = Some TyBool /\
  acnExpressionToBackendExpression seq "pVal" [] e = Some "pVal->r % 2.0E+000 > 1.0E+000"%string.
Proof. exists [(mkci "r" "r" false false, AReal)]. split; reflexivity. Qed.
(** -1 < a for an unsigned a: false in C. So the right flag is refused and the decoder finds the
    component absent. *)
Theorem C64_unsigned_refuted : let seq := [fint "a" false 64] in let e := EBin OLt (EMinus (EInt 1)) fa in
  validateAcnExpression seq e = Some TyBool /\
  forall sv, fieldv sv ["a"%string] = 5 -> meval (value_of seq sv) e = Some (MB true) /\ test seq sv (reading seq e) = Some false.
Proof. cbv zeta. split; [reflexivity|]. intros sv A. unfold test, reading. cbn. rewrite A. split; reflexivity. Qed.
(** Undefined behaviour: overflow of constants (int has 32 bits) and of members, division. *)
Theorem C64_overflow_refuted :
  (let e := EBin OGt (EBin OAdd (EInt 2000000000) (EInt 2000000000)) fa in
   validateAcnExpression a_b e = Some TyBool /\ meval (value_of a_b (store 5 0 0)) e = Some (MB true) /\ test a_b (store 5 0 0) (reading a_b e) = None) /\
  (let e := EBin OGt (EBin OMul fa fa) (EInt 0) in
   validateAcnExpression a_b e = Some TyBool /\ meval (value_of a_b (store (2 ^ 32) 0 0)) e = Some (MB true) /\
   test a_b (store (2 ^ 32) 0 0) (reading a_b e) = None) /\
  (let e := EBin OGt (EBin ODiv fa fb) (EInt 0) in
   validateAcnExpression a_b e = Some TyBool /\ ceval (memory a_b (store 5 0 0)) (reading a_b e) = CUndef).
Proof. repeat split; vm_compute; reflexivity. Qed.
(** A constant of 2^63 or more, which the parser takes (FsUtils.fs:287-295), has no type in C. *)
Theorem C64_literal_refuted : let e := EBin OLt fa (EInt (2 ^ 63)) in
  validateAcnExpression a_b e = Some TyBool /\ meval (value_of a_b (store 5 0 0)) e = Some (MB true) /\ test a_b (store 5 0 0) (reading a_b e) = None.
Proof. repeat split; vm_compute; reflexivity. Qed.

(** * Assumptions of all theorems above *)
Definition theorems23 := (
  @C64_text, @C64_total, @C64_path, @C64_single, @C64_nested, @C64_typed, @C64_rules, @C64_present,
  @C64_fits, @C64_accepts, @C64_round_trip, @C64_detects, @C64_flag_refuted, @C64_order_refuted,
  @C64_path_refuted, @C64_constant_refuted, @C64_boolean_refuted, @C64_modulo_refuted,
  @C64_unsigned_refuted, @C64_overflow_refuted, @C64_literal_refuted).
Print Assumptions theorems23.
