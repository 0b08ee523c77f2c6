(** C62: values and indices of the items of an ENUMERATED. Statements only. *)
From Verif Require Import Base Bits BitStream Contracts UperTypes UperSpec UperWf UperClasses Uper EnumNum EnumNumSpec.
From Verif Require EnumNumProofs Properties21Proofs.
From Coq Require Import String.
Local Open Scope Z_scope.

(** X.680 20: explicit values are kept, the others are the free non-negative integers in
    the order of the text, and all differ. The hypotheses are checked by CheckAsn1.fs:551 and 565. *)
Theorem C62_values : forall ev acn (items : list item), NoDup (map fst items) -> NoDup (given items) ->
  exists out, enum_items ev acn items = Some out /\
    numbered (given items) 0 items (map (fun y => (Name y, definitionValue y)) out) /\ NoDup (map definitionValue out).
Proof. exact EnumNumProofs.values. Qed.
Definition colours : list item := [("a", None); ("b", Some 1); ("c", None); ("d", Some (-3)); ("e", None)]%string.
Example C62_values_example : NoDup (map fst colours) /\ NoDup (given colours) /\
  option_map (map definitionValue) (enum_items false [] colours) = Some [0; 1; 2; -3; 3].
Proof. split; [|split; [|reflexivity]]; cbn; repeat constructor; cbn; intuition congruence. Qed.

(** Codes used by ACN: the position, or with encode-values the value of the ACN file or else
    the ASN.1 value. *)
Theorem C62_codes : forall ev acn items out, enum_items ev acn items = Some out ->
  forall i y, nth_error out i = Some y ->
    acnEncodeValue y =
      if ev then match find (fun z => String.eqb (fst z) (Name y)) acn with Some (_, Some v) => v | _ => definitionValue y end
      else Z.of_nat i.
Proof. exact EnumNumProofs.codes. Qed.
Example C62_codes_example :
  option_map (map acnEncodeValue) (enum_items true [("c", Some 77); ("a", None)]%string colours) = Some [0; 1; 77; -3; 3] /\
  option_map (map acnEncodeValue) (enum_items false [("c", Some 77)]%string colours) = Some [0; 1; 2; 3; 4].
Proof. split; reflexivity. Qed.

(** The arguments of the uPER code are well formed (the hypothesis of C30 to C35). *)
Theorem C62_table : forall ev acn (items : list item) out threshold, NoDup (map fst items) -> NoDup (given items) -> items <> [] ->
  Z.of_nat (List.length items) < 2 ^ 31 -> enum_items ev acn items = Some out ->
  wf_enum (fst (enum_table threshold out)) (snd (enum_table threshold out)).
Proof. exact EnumNumProofs.table. Qed.
Example C62_table_example : option_map (enum_table 3) (enum_items false [] colours) = Some ([0; 1; 2; -3; 3], Some [-3; 0; 1; 2; 3]) /\
  option_map (enum_table 6) (enum_items false [] colours) = Some ([0; 1; 2; -3; 3], None).
Proof. split; reflexivity. Qed.

(** Without explicit values the items are 0, 1, 2, ... *)
Theorem C62_plain : forall ev acn items out, NoDup (map fst items) -> given items = [] -> enum_items ev acn items = Some out ->
  map definitionValue out = map Z.of_nat (seq 0 (List.length out)).
Proof. exact Properties21Proofs.plain. Qed.
(** X.691 14: the index on the wire is the rank of the value ([ubits true]), when the binary
    search is used or no value is explicit. *)
Theorem C62_wire : forall c ev acn items out threshold, NoDup (map fst items) -> NoDup (given items) -> items <> [] ->
  Z.of_nat (List.length items) < 2 ^ 31 -> enum_items ev acn items = Some out ->
  threshold <= Z.of_nat (List.length out) \/ given items = [] ->
  forall y, In y out -> let t := TEnum (fst (enum_table threshold out)) (snd (enum_table threshold out)) in
    writes (enc c t true (VEnum (definitionValue y))) true (ubits true t (VEnum (definitionValue y))) /\
    reads (dec c t true) (Some (VEnum (definitionValue y))) (ubits true t (VEnum (definitionValue y))).
Proof. exact Properties21Proofs.wire. Qed.
Example C62_wire_example : ubits true (TEnum [0; 1; 2; -3; 3] (Some [-3; 0; 1; 2; 3])) (VEnum 0) = Zbits 3 1 /\
  option_map (map definitionValue) (enum_items false [] [("a", None); ("b", None)]%string) = Some [0; 1].
Proof. split; reflexivity. Qed.

(** ENUMERATED { a, b(0) }: a is 1 and b is 0, but with the switch a is written as 0; and with
    another value of -eee the same file gives other bits. *)
Theorem C62_order_refuted : exists items out, enum_items false [] items = Some out /\ items = [("a", None); ("b", Some 0)]%string /\
  let t n := TEnum (fst (enum_table n out)) (snd (enum_table n out)) in
  ubits true (t 50) (VEnum 1) = [true] /\
  (exists s, enc iso (t 50) true (VEnum 1) (mkbs (repeat 0 2) 2 0 0) = Ok (true, s) /\ hd 1 (buf s) = 0) /\
  (exists s, enc iso (t 2) true (VEnum 1) (mkbs (repeat 0 2) 2 0 0) = Ok (true, s) /\ hd 1 (buf s) = 128).
Proof.
  eexists [("a", None); ("b", Some 0)]%string, _. split; [reflexivity|]. split; [reflexivity|]. cbv zeta. split; [reflexivity|].
  split; (eexists; split; [vm_compute; reflexivity|reflexivity]).
Qed.
(** encode-values does not keep the codes apart: a and b are both written as 5. *)
Theorem C62_codes_refuted : exists items acn out, enum_items true acn items = Some out /\
  NoDup (map fst items) /\ items = [("a", None); ("b", None)]%string /\ acn = [("a", Some 5); ("b", Some 5)]%string /\
  map acnEncodeValue out = [5; 5].
Proof.
  eexists [("a", None); ("b", None)]%string, [("a", Some 5); ("b", Some 5)]%string, _. split; [reflexivity|].
  split; [cbn; repeat constructor; cbn; intuition congruence|]. repeat split; reflexivity.
Qed.
(** A value of the ACN file can also meet the ASN.1 value of another item. *)
Theorem C62_mixed_refuted : exists out, enum_items true [("a", Some 1)]%string [("a", None); ("b", None)]%string = Some out /\
  map acnEncodeValue out = [1; 1].
Proof. eexists. split; reflexivity. Qed.

(** * Assumptions of all theorems above *)
Definition theorems21 := (
  @C62_values, @C62_codes, @C62_table, @C62_plain, @C62_wire, @C62_order_refuted, @C62_codes_refuted,
  @C62_mixed_refuted).
Print Assumptions theorems21.
