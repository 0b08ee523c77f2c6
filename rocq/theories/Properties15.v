(** C56 *)
From Verif Require Import Base Bits UperTypes ConSpec Constraints ConstraintsProofs Oid Init InitSpec InitProofs.

Ltac run := repeat split; try (vm_compute; reflexivity); try (vm_compute; discriminate).
Definition rng (a b : Z) : icon := Atom (Rng a b true true).
Definition val (a : Z) : icon := Atom (Val a).

(** * C56 *)
(** The value left by _Initialize is a value of the type, for the types of
    InitSpec.ready, of any depth. *)
Theorem C56_valid : forall t, ready t -> exists v, init t = Some v /\ value_of t v = true.
Proof. exact init_valid. Qed.
(** INTEGER: it is 0 whenever 0 is permitted; otherwise, without EXCEPT and with
    bounds that fit the C type, a permitted value if there is one. *)
Theorem C56_zero : forall p w cs, forallb (fun c => sat_int c 0) cs = true -> init (NInt p w cs) = Some (VInt 0).
Proof. exact init_zero. Qed.
Theorem C56_integer : forall p cs x, forallb no_except cs = true -> forallb (each (bounds_ok p)) cs = true ->
  bound_ok p x = true -> forallb (fun c => sat_int c x) cs = true ->
  bound_ok p (init_int p cs) = true /\ forallb (fun c => sat_int c (init_int p cs)) cs = true.
Proof. exact init_int_valid. Qed.
(** With EXCEPT the value is still permitted, unless it is 0. *)
Theorem C56_integer_or_zero : forall p cs, init_int p cs = 0 \/ forallb (fun c => sat_int c (init_int p cs)) cs = true.
Proof. exact init_int_or_zero. Qed.
(** DEFAULT values are assigned as they are, without BIT STRING of variable size. *)
Theorem C56_default : forall t v, no_var_bits t -> byval t v = v.
Proof. intros t v H. exact (byval_same t H v). Qed.

Definition ex_str : nty := NStr ia5_chars [Atom (StrSize (Union (rng 2 4) (val 7))); Atom (StrFrom (Union (Atom (Chars [7; 66])) (Atom (ChRng 97 99 true false))))].
Definition ex_int : nty := NInt false 64 [Union (rng (-20) (-10)) (Inter (rng 5 30) (rng 20 40)); Atom (Ge 3 false)].
Definition ex_ty : nty :=
  NSeqOf [Atom (SqSize (rng 2 8)); Atom (SqSize (rng 0 5))]
    (NSeq [] [(NRequired, ex_int); (NOptional (Some (VOct [1; 2])), NOct [Atom (Size (rng 1 3))]); (NAlwaysAbsent, NOid);
              (NOptional None, NChoice [] [NBool [Atom true]; NOid]); (NAlwaysPresent, NEnum [4; 5; 6] [AllExcept (Atom 4)]);
              (NRequired, NBit [Atom (Size (Union (rng 6 9) (val 3)))]); (NRequired, NCall [] (NSeq [] [(NRequired, ex_str)]))]).
Example C56_valid_example : ready ex_ty /\
  init ex_ty = Some (VSeqOf (repeat (VSeq
    [(true, Some (VInt 30)); (true, Some (VOct [1; 2])); (false, None); (true, Some (VChoice 0 (VBool true)));
     (true, Some (VEnum 5)); (true, Some (VBit [false; false; false])); (true, Some (VSeq [(true, Some (VStr [66; 66; 66; 66; 66; 66; 66]))]))]) 2)).
Proof.
  split; [|vm_compute; reflexivity]. split.
  { split; [repeat constructor|]. right. split; [discriminate|]. split.
    - repeat constructor; eexists; split; reflexivity.
    - exists 4. repeat constructor. }
  split; [reflexivity|]. split; [|split; [|split; [|split; [|split; [|split; [|split]]]]]].
  - split; [reflexivity|]. split; [reflexivity|]. exists 25. split; reflexivity.
  - split; [exact I|reflexivity].
  - exact I.
  - split; [reflexivity|]. exists true. reflexivity.
  - exists 6. split; [cbn; auto|reflexivity].
  - eexists [Union (rng 6 9) (val 3)]. split; [reflexivity|]. left. eexists. split; reflexivity.
  - split; [reflexivity|]. split; [reflexivity|]. split; [|exact I].
    split; [apply ia5_canonical|]. split; [repeat constructor|]. split; [left; eexists; split; reflexivity|].
    split; [vm_compute; discriminate|]. exists 98. split; [apply (proj1 (mem_In' _ _)); reflexivity|]. split; [split; discriminate|].
    repeat constructor.
  - exact I.
Qed.

(** SEQUENCE (SIZE (2..8)) OF INTEGER (0..100) (WITH COMPONENT (3..9)): the size comes
    from SIZE alone, the items from the merged item type. *)
Definition ex_with : nty := NSeqOf [Atom (SqSize (rng 2 8)); Atom (SqWith (AInt false 64 (rng 3 9)))] (NInt false 64 [rng 0 100; rng 3 9]).
Example C56_with_component_example : ready ex_with /\ init ex_with = Some (VSeqOf [VInt 3; VInt 3]).
Proof.
  split; [|vm_compute; reflexivity]. split; [split|].
  - repeat constructor. intros v H. destruct v; try discriminate. cbn [value_of forallb sat_any] in *.
    rewrite !andb_true_iff in H. tauto.
  - left. eexists. split; reflexivity.
  - split; [reflexivity|]. split; [reflexivity|]. exists 5. split; reflexivity.
Qed.
(** Only a WITH COMPONENT constraint of its own is merged (AcnCreateFromAntlr.fs:1146);
    SEQUENCE (SIZE (2..8) ^ WITH COMPONENT (3..9)) OF INTEGER (0..100) holds zeros. *)
Theorem C56_with_component_refuted : exists cs t v, ready t /\ init (NSeqOf cs t) = Some v /\ value_of (NSeqOf cs t) v = false /\
  exists w, value_of (NSeqOf cs t) w = true.
Proof.
  exists [Inter (Atom (SqSize (rng 2 8))) (Atom (SqWith (AInt false 64 (rng 3 9))))], (NInt false 64 [rng 0 100]). eexists.
  split; [|split; [vm_compute; reflexivity|split; [reflexivity|]]].
  - split; [reflexivity|]. split; [reflexivity|]. exists 5. split; reflexivity.
  - exists (VSeqOf [VInt 4; VInt 4]). reflexivity.
Qed.

(** INTEGER (1..10)(ALL EXCEPT (1 | 10)): initialised with 0. *)
Theorem C56_except_refuted : exists p w cs, (exists x, value_of (NInt p w cs) (VInt x) = true) /\
  init (NInt p w cs) = Some (VInt 0) /\ value_of (NInt p w cs) (VInt 0) = false.
Proof. exists true, 8, [rng 1 10; AllExcept (Union (val 1) (val 10))]. split; [exists 5|split]; reflexivity. Qed.
(** Excluded single values are used: OCTET STRING (SIZE(1..2))(ALL EXCEPT 'AA'H). *)
Theorem C56_single_value_refuted : exists cs l, init (NOct cs) = Some (VOct l) /\ value_of (NOct cs) (VOct l) = false /\
  exists k, value_of (NOct cs) (VOct k) = true.
Proof.
  exists [Atom (Size (rng 1 2)); AllExcept (Atom (SzVal [170]))], [170]. split; [reflexivity|]. split; [reflexivity|].
  exists [0]. reflexivity.
Qed.
(** The least size of the uPER range need not be permitted:
    SIZE((1..3 | 8..10)) with SIZE(5..20). *)
Theorem C56_size_refuted : exists cs l, init (NOct cs) = Some (VOct l) /\ value_of (NOct cs) (VOct l) = false /\
  exists k, value_of (NOct cs) (VOct k) = true.
Proof.
  exists [Atom (Size (Union (rng 1 3) (rng 8 10))); Atom (Size (rng 5 20))], [0; 0; 0; 0; 0]. split; [reflexivity|]. split; [reflexivity|].
  exists [0; 0; 0; 0; 0; 0; 0; 0]. reflexivity.
Qed.
(** Strings: IA5String ("no" | "yes") is initialised with three blanks, and without
    a printable character in the alphabet the string is empty whatever the size. *)
Theorem C56_string_refuted : exists cs1 cs2,
  init (NStr ia5_chars cs1) = Some (VStr [32; 32; 32]) /\ value_of (NStr ia5_chars cs1) (VStr [32; 32; 32]) = false /\
  value_of (NStr ia5_chars cs1) (VStr [110; 111]) = true /\
  init (NStr ia5_chars cs2) = Some (VStr []) /\ value_of (NStr ia5_chars cs2) (VStr []) = false /\
  value_of (NStr ia5_chars cs2) (VStr [13; 10]) = true.
Proof.
  exists [Union (Atom (StrVal [110; 111])) (Atom (StrVal [121; 101; 115]))], [Atom (StrSize (val 2)); Atom (StrFrom (Atom (Chars [10; 13])))].
  run.
Qed.
(** OBJECT IDENTIFIER: no components; its own validity function rejects that. *)
Theorem C56_oid_refuted : init NOid = Some (VOid []) /\ value_of NOid (VOid []) = false /\
  forall values, ObjectIdentifier_isValid 0 values = Ok false.
Proof. repeat split. Qed.
(** CHOICE: the first alternative even if it is constrained to be ABSENT. *)
Theorem C56_choice_refuted : exists cs ts v, init (NChoice cs ts) = Some v /\ value_of (NChoice cs ts) v = false /\
  exists w, value_of (NChoice cs ts) w = true.
Proof.
  exists [Atom (ChWith [Named 0 false None MarkAbsent])], [NBool []; NNull], (VChoice 0 (VBool false)).
  split; [reflexivity|]. split; [reflexivity|]. exists (VChoice 1 VNull). reflexivity.
Qed.
(** A ::= SEQUENCE {x INTEGER (0..10)}, B ::= A (WITH COMPONENTS {x (5..10)}):
    B_Initialize calls A_Initialize, so x = 0. *)
Theorem C56_reference_refuted : exists cs t v, ready t /\ init (NCall cs t) = Some v /\ value_of (NCall cs t) v = false /\
  exists w, value_of (NCall cs t) w = true.
Proof.
  exists [ASeq (Atom (SrWith [Named 0 false (Some (AInt true 8 (rng 5 10))) NoMark] []))],
    (NSeq [] [(NRequired, NInt true 8 [rng 0 10])]), (VSeq [(true, Some (VInt 0))]).
  split; [|split; [|split]]; [|reflexivity|reflexivity|].
  - split; [reflexivity|]. split; [|exact I]. split; [reflexivity|]. split; [reflexivity|]. exists 3. split; reflexivity.
  - exists (VSeq [(true, Some (VInt 7))]). reflexivity.
Qed.
(** x BIT STRING (SIZE(4..20)) DEFAULT '111100001111'B is set to '11'B: nCount gets
    the number of octets. The same code sets x when the uPER decoder finds it
    absent (DAstUPer.fs:792). *)
Theorem C56_default_refuted : exists t def v, value_of t def = true /\ init (NSeq [] [(NOptional (Some def), t)]) = Some v /\
  v = VSeq [(true, Some (VBit [true; true]))] /\ def <> VBit [true; true] /\ value_of t (VBit [true; true]) = false.
Proof.
  exists (NBit [Atom (Size (rng 4 20))]), (VBit [true; true; true; true; false; false; false; false; true; true; true; true]).
  eexists. split; [reflexivity|]. split; [reflexivity|]. split; [reflexivity|]. split; [discriminate|reflexivity].
Qed.
(** The constant initialisers do not look at the constraints. *)
Theorem C56_constant_refuted :
  (exists cs, forallb (sat (Bool.eqb (const_bool cs))) cs = false /\ forallb (sat (Bool.eqb (init_bool cs))) cs = true) /\
  (exists items cs x, const_enum items cs = Some x /\ forallb (sat (Z.eqb x)) cs = false /\ init_enum items cs <> None).
Proof.
  split; [exists [Atom true]|exists [1; 2], [Atom 2], 1]; repeat split; discriminate.
Qed.

(** * Assumptions of all theorems above *)
Definition theorems15 := (
  @C56_valid, @C56_zero, @C56_integer, @C56_integer_or_zero, @C56_default, @C56_with_component_refuted,
  @C56_except_refuted, @C56_single_value_refuted, @C56_size_refuted, @C56_string_refuted,
  @C56_oid_refuted, @C56_choice_refuted, @C56_reference_refuted, @C56_default_refuted,
  @C56_constant_refuted).
Print Assumptions theorems15.
