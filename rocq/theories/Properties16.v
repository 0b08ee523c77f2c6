(** C57 *)
From Coq Require Import Floats.SpecFloat.
From Verif Require Import Base Bits RealSpec Equal EqualSpec EqualProofs.

Ltac run := repeat split; try (vm_compute; reflexivity); try (vm_compute; discriminate).

(** * C57 *)
(** T_Equal of two objects is true exactly when they stand for the same abstract
    value, whatever their bytes beyond nCount, their unused bits and their absent
    members; and it reads nothing outside them. *)
Theorem C57_exact : forall t o1 o2 v1 v2, calls_ok t -> no_real t -> abs t o1 = Some v1 -> abs t o2 = Some v2 ->
  exists b, T_Equal t o1 o2 = Ok b /\ (b = true <-> v1 = v2).
Proof. exact T_Equal_exact. Qed.
(** With REAL: the same, with REAL values compared by Asn1Real_Equal. *)
Theorem C57_same : forall t o1 o2 v1 v2, calls_ok t -> abs t o1 = Some v1 -> abs t o2 = Some v2 ->
  T_Equal t o1 o2 = Ok (sameb v1 v2).
Proof. exact T_Equal_same. Qed.
(** Hence objects for the same value without NaN are equal, and the order of the
    arguments does not matter. *)
Theorem C57_reflexive : forall t o1 o2 v, calls_ok t -> reals (fun x => x <> S754_nan) v ->
  abs t o1 = Some v -> abs t o2 = Some v -> T_Equal t o1 o2 = Ok true.
Proof. exact T_Equal_refl. Qed.
Theorem C57_symmetric : forall t o1 o2 v1 v2, calls_ok t -> abs t o1 = Some v1 -> abs t o2 = Some v2 ->
  exists b, T_Equal t o1 o2 = Ok b /\ T_Equal t o2 o1 = Ok b.
Proof. exact T_Equal_sym. Qed.
(** Asn1Real_Equal: reflexive but for NaN, symmetric, and never true for opposite signs. *)
Theorem C57_real : (forall x, x <> S754_nan -> Asn1Real_Equal x x = true) /\
  (forall x y, Asn1Real_Equal x y = Asn1Real_Equal y x) /\
  (forall x y, dltb D0 x = true -> dltb y D0 = true -> Asn1Real_Equal x y = false).
Proof. exact (conj real_refl (conj real_sym real_signs)). Qed.

Definition ex_item : ety := ESeq [(true, EBit 1 20); (false, ENull); (true, ENull); (false, EChoice [EInt; EStr; ENull])].
Definition ex_type : ety :=
  ESeq [(false, EInt); (true, EOct 0 8); (false, ECall (ESeqOf 0 9 ex_item) (ESeqOf 1 3 ex_item)); (false, EOid); (true, ESeqOf 2 2 EBool)].
Definition ex_obj (junk b : Z) : cobj :=
  XStruct [(true, XInt 5); (false, XArr junk [junk]);
           (true, XList 2 [XStruct [(true, XArr 11 [0xAB; 0x60 + Z.land junk 31]); (true, XInt 0); (false, XInt junk); (true, XUnion 1 (XChars [65; b; 0; junk]))];
                           XStruct [(false, XInt junk); (true, XInt junk); (true, XInt 0); (true, XUnion 2 (XInt junk))]]);
           (true, XArr 2 (1 :: b :: repeat junk 18)); (true, XList junk [XFlag true; XFlag false])].
Example C57_exact_example : calls_ok ex_type /\ no_real ex_type /\
  (exists v, abs ex_type (ex_obj 77 66) = Some v /\ abs ex_type (ex_obj 13 66) = Some v) /\
  (exists v, abs ex_type (ex_obj 13 67) = Some v) /\
  T_Equal ex_type (ex_obj 77 66) (ex_obj 13 66) = Ok true /\
  T_Equal ex_type (ex_obj 77 66) (ex_obj 13 67) = Ok false.
Proof.
  split; [vm_compute; repeat split|]. split; [vm_compute; repeat split|].
  split; [eexists; split; vm_compute; reflexivity|]. split; [eexists; vm_compute; reflexivity|]. split; vm_compute; reflexivity.
Qed.
Example C57_real_example :
  T_Equal (ESeqOf 0 4 EReal) (XList 1 [XDbl (S754_finite false 4503599627370496 (-52))]) (XList 1 [XDbl (S754_finite false 4503599627370496 (-52)); XDbl S754_nan]) = Ok true /\
  T_Equal EReal (XDbl (S754_zero true)) (XDbl (S754_zero false)) = Ok true.
Proof. run. Qed.

(** REAL values that differ by up to 0.001 % are reported equal, and the relation
    is not transitive: 1, 1.000009 and 1.000018. *)
Theorem C57_real_refuted : exists x y z, is_double x /\ is_double y /\ is_double z /\
  T_Equal EReal (XDbl x) (XDbl y) = Ok true /\ T_Equal EReal (XDbl y) (XDbl z) = Ok true /\
  T_Equal EReal (XDbl x) (XDbl z) = Ok false /\ x <> y.
Proof.
  exists (S754_finite false 4503599627370496 (-52)), (S754_finite false 4503640159767142 (-52)), (S754_finite false 4503680692163789 (-52)). run.
Qed.
(** A REAL holding NaN, which the encoders and decoders carry, is not equal to itself. *)
Theorem C57_nan_refuted : exists o v, abs EReal o = Some v /\ T_Equal EReal o o = Ok false.
Proof. exists (XDbl S754_nan), (AvReal S754_nan). run. Qed.
(** A component with DEFAULT that is absent, and the same component present with
    the default value, are the same abstract value (X.680 25.10) but reported
    different: the TODO of DAstEqual.fs:15-16. *)
Definition with_default (d : aval) (v : option aval) : aval := match v with Some v => v | None => d end.
Theorem C57_default_refuted : exists o1 o2 v1 v2, let t := ESeq [(true, EInt)] in
  abs t o1 = Some (AvSeq [v1]) /\ abs t o2 = Some (AvSeq [v2]) /\
  with_default (AvInt 5) v1 = with_default (AvInt 5) v2 /\ T_Equal t o1 o2 = Ok false.
Proof. exists (XStruct [(false, XInt 0)]), (XStruct [(true, XInt 5)]), None, (Some (AvInt 5)). run. Qed.
(** Base ::= OCTET STRING (SIZE (1..10)), Derived ::= Base (SIZE (5)). In C Derived
    is Base (header_c.stg:190-192) and has nCount, but its decoder, encoder and
    constraint check are those of the fixed size and neither set nor look at it
    (DAstUPer.fs:523, uper_c.stg:508-510, DastValidate2.fs:196-202), while
    Derived_Equal is Base_Equal: a decoded value need not be equal to the one encoded. *)
Theorem C57_reference_refuted : exists o1 o2 v, let t := ECall (EOct 1 10) (EOct 5 5) in
  abs t o1 = Some v /\ abs t o2 = Some v /\ T_Equal t o1 o2 = Ok false.
Proof. exists (XArr 5 [1; 2; 3; 4; 5; 0; 0; 0; 0; 0]), (XArr 0 [1; 2; 3; 4; 5; 0; 0; 0; 0; 0]), (AvOct [1; 2; 3; 4; 5]). run. Qed.
(** An object that stands for no value can make the function read outside it: a
    char array without NUL, or nCount beyond the array. *)
Theorem C57_bounds_refuted : (exists o1 o2, abs EStr o1 = None /\ T_Equal EStr o1 o2 = UB) /\
  (exists o, abs (EOct 1 2) o = None /\ T_Equal (EOct 1 2) o o = UB).
Proof. split; [exists (XChars [65; 66]), (XChars [65; 66; 0])|exists (XArr 3 [1; 2])]; run. Qed.

(** * Assumptions of all theorems above *)
Definition theorems16 := (
  @C57_exact, @C57_same, @C57_reflexive, @C57_symmetric, @C57_real, @C57_real_refuted, @C57_nan_refuted,
  @C57_default_refuted, @C57_reference_refuted, @C57_bounds_refuted).
Print Assumptions theorems16.
