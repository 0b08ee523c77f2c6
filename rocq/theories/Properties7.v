(** C36: ranges computed from constraints; C37: alphabets computed from
    constraints; C48: generated validity functions. Statements only; the proofs
    are in ConstraintsProofs.v, ValidateProofs.v, PipelineProofs.v and
    Properties7Proofs.v. *)
From Verif Require Import Base Bits UperTypes UperSpec UperWf ConSpec Constraints Validate ValidSpec Pipeline.
From Verif Require Import ConstraintsProofs PipelineProofs.   (* conditions used in statements *)
From Verif Require ValidateProofs Properties7Proofs.

Ltac run :=
  lazymatch goal with
  | |- _ /\ _ => split; [run|run]
  | |- Forall _ _ => repeat constructor; vm_compute; discriminate
  | |- _ => vm_compute; first [reflexivity | discriminate | split; run | idtac]
  end.
Definition rng (a b : Z) : icon := Atom (Rng a b true true).
Definition val (a : Z) : icon := Atom (Val a).
Definition from (a : Z) : icon := Atom (Ge a true).
Definition upto (b : Z) : icon := Atom (Le b true).

(** * C36 *)
(** Without bounds of the form MIN..b the range contains every permitted value.
    [no_min] is a condition on the text of the constraints. *)
Theorem C36_contains : forall cs r v, getIntTypeConstraintUperRange cs = Some r ->
  Forall (fun c => no_min c = true) cs -> Forall (fun c => sat_int c v = true) cs -> in_range r v.
Proof. exact int_no_min. Qed.
(** With such bounds, provided no intersection meets "MIN..x" with "a..b" and
    a < x < b, which is computed wrongly. *)
Theorem C36_contains_clean : forall cs r v, getIntTypeConstraintUperRange cs = Some r -> clean_int cs = true ->
  Forall (fun c => sat_int c v = true) cs -> in_range r v.
Proof. exact int_sound. Qed.
Example C36_contains_example :
  let cs := [Union (rng 0 10) (Inter (rng 20 40) (from 30)); Root2 (rng 5 35) (val 50)] in
  getIntTypeConstraintUperRange cs = Some (Concrete 0 40) /\ forallb no_min cs = true /\ clean_int cs = true /\
  forallb (fun c => sat_int c 35) cs = true /\ in_range (Concrete 0 40) 35.
Proof. run. Qed.
(** That case: INTEGER (0..10)(MIN..5) gets the range 5..10, although 3 is
    permitted; so does INTEGER (0..10 ^ MIN..5). *)
Theorem C36_contains_refuted : exists cs c r v,
  getIntTypeConstraintUperRange cs = Some r /\ Forall (fun c => sat_int c v = true) cs /\ ~ in_range r v /\
  getIntTypeConstraintUperRange [c] = Some r /\ sat_int c v = true.
Proof.
  exists [rng 0 10; upto 5], (Inter (rng 0 10) (upto 5)), (Concrete 5 10), 3.
  repeat split; try reflexivity; [repeat constructor|]. intros [H _]. now apply H.
Qed.
(** Unions give the least range; intersections, except
    of x..MAX with a..b where x <= a and of MIN..x with a..b where a <= x < b,
    give exactly the common values, and a specification is rejected only
    if there are none. *)
Theorem C36_union : forall r1 r2 v, in_range r1 v \/ in_range r2 v -> in_range (uperUnion r1 r2) v.
Proof. exact union_sound. Qed.
Theorem C36_union_least : forall r1 r2 r, nonempty r1 -> nonempty r2 -> sub r1 r -> sub r2 r -> sub (uperUnion r1 r2) r.
Proof. exact union_least. Qed.
Theorem C36_intersection : forall r1 r2 r v, uperIntersection r1 r2 = Some r ->
  match r1, r2 with
  | Concrete _ _, Concrete _ _ | PosInf _, PosInf _ | NegInf _, NegInf _
  | PosInf _, NegInf _ | NegInf _, PosInf _ | Full, _ | _, Full => True
  | PosInf x, Concrete a _ | Concrete a _, PosInf x => a < x
  | NegInf x, Concrete a b | Concrete a b, NegInf x => b <= x
  end ->
  (in_range r v <-> in_range r1 v /\ in_range r2 v).
Proof. exact inter_exact. Qed.
Theorem C36_rejected : forall r1 r2, nonempty r1 -> nonempty r2 -> uperIntersection r1 r2 = None ->
  forall v, ~ (in_range r1 v /\ in_range r2 v).
Proof. exact inter_empty. Qed.
Example C36_operations_example :
  uperUnion (Concrete 0 3) (Concrete 10 12) = Concrete 0 12 /\ uperUnion (Concrete 0 3) (PosInf 7) = PosInf 0 /\
  uperIntersection (Concrete 0 10) (Concrete 5 20) = Some (Concrete 5 10) /\
  uperIntersection (Concrete 0 10) (Concrete 11 20) = None.
Proof. run. Qed.
(** The range is not the tightest: INTEGER (3..MAX)(5..10) is encoded as
    semi-constrained, and (1 | 10)^(5..20) has 5..10 where only 10 is permitted
    (X.691 10.3.11 asks for the effective value constraint). *)
Theorem C36_tight_refuted : exists cs r,
  getIntTypeConstraintUperRange cs = Some r /\ r <> Concrete 5 10 /\
  forall v, Forall (fun c => sat_int c v = true) cs <-> in_range (Concrete 5 10) v.
Proof.
  exists [from 3; rng 5 10], (PosInf 3). split; [reflexivity|]. split; [discriminate|]. intros v. split.
  - intros H. inversion_clear H. inversion_clear H1. cbn in *. unfold below in *. lia.
  - cbn. intros. repeat constructor; cbn; unfold below; lia.
Qed.
(** An empty type is accepted: INTEGER (5<..<6) has the range 6..5. *)
Theorem C36_empty_refuted : exists c, getIntTypeConstraintUperRange [c] = Some (Concrete 6 5) /\ forall v, sat_int c v = false.
Proof.
  exists (Atom (Rng 5 6 false false)). split; [reflexivity|]. intros v. cbn. unfold below. lia.
Qed.
(** Sizes: of strings of characters, and of any sized type. *)
Theorem C36_string_sizes : forall cs r s, getStringSizeUperRange cs = Some r -> clean_str cs = true ->
  Forall (fun c => sat_str c s = true) cs -> in_range r (Z.of_nat (length s)).
Proof. exact str_size_sound. Qed.
Theorem C36_sizes : forall V len eqv, (forall x y : V, eqv x y = true -> len x = len y) ->
  forall cs r x, getSizeableUperRange len cs = Some r -> clean_sz V len cs = true ->
  Forall (fun c => sat (sat_szatom eqv len x) c = true) cs -> in_range r (len x).
Proof. exact sizeable_sound. Qed.
Example C36_sizes_example :
  let c := Union (Atom (Size (rng 2 4))) (Atom (SzVal [7; 7; 7; 7; 7; 7])) in
  getSizeableUperRange len [c] = Some (Concrete 2 6) /\ clean_sz _ len [c] = true /\
  sat (sat_szatom eqs len [1; 2; 3]) c = true /\ sat (sat_szatom eqs len [1; 2; 3; 4; 5]) c = false.
Proof. run. Qed.
(** The C type chosen for the range holds the permitted values. *)
Theorem C36_class : forall slim w r v p u, (w = 32 \/ w = 64) -> int_class slim w r = (p, u) -> in_range r v ->
  (match r with
   | Concrete a b => if slim then if 0 <=? a then b < 2 ^ 64 else - 2 ^ 63 <= a /\ b < 2 ^ 63
                     else in_class (0 <=? a) w a /\ in_class (0 <=? a) w b
   | PosInf a => in_class (0 <=? a) w v
   | NegInf _ | Full => in_class false w v
   end) ->
  in_class p u v.
Proof. exact class_fits. Qed.
(** From the text of a constraint to the list used above: MIN..MAX and included
    types are resolved without changing the permitted values, provided no
    extension addition is the whole type ([no_open_ext]) and no included type
    without constraints occurs in a union, extension or after EXCEPT. *)
Theorem C36_source : forall A (p : A -> bool) (c k : src A), no_open_ext c = true -> create c = Some (Some k) ->
  constrained k = true -> forallb (sat p) (fixConstraint k) = sats p c.
Proof. exact Properties7Proofs.from_source. Qed.
Example C36_source_example :
  let c := SUnion (SInter (SIncl [SAtom (Rng 0 10 true true); SAtom (Ge 3 true)]) SMinMax) (SAtom (Val 20)) in
  exists k, no_open_ext c = true /\ create c = Some (Some k) /\ constrained k = true /\
    fixConstraint k = [Union (Inter (rng 0 10) (from 3)) (val 20)].
Proof. eexists. run. Qed.
(** INTEGER (A | 5) where A ::= INTEGER: every integer is permitted, the range
    is 5..5. INTEGER (0..10, ..., MIN..MAX): the addition is dropped. *)
Theorem C36_inclusion_refuted : exists c : src atom, create c = Some (Some c) /\
  getIntTypeConstraintUperRange (fixConstraint c) = Some (Concrete 5 5) /\ forall v, sats (sat_atom v) c = true.
Proof. exists (SUnion (SIncl []) (SAtom (Val 5))). now repeat split. Qed.
Theorem C36_addition_refuted : exists (c : src atom) k, create c = Some (Some k) /\
  sats (sat_atom 11) c = true /\ sats (sat_atom 11) k = false.
Proof. exists (SRoot2 (SAtom (Rng 0 10 true true)) SMinMax), (SRoot (SAtom (Rng 0 10 true true))). now repeat split. Qed.

(** The types that are generated. [int_ty] etc. give the type with its C type,
    range and validity function: the values that are encoded and decoded (for
    which C30 gives the round trip) are exactly the permitted ones. *)
Theorem C36_integer_type : forall slim cs r p w, getIntTypeConstraintUperRange cs = Some r -> int_class slim 64 r = (p, w) ->
  forallb no_marker cs = true -> clean_int cs = true -> representable r -> forallb (every (atom_ok p)) cs = true ->
  exists t, int_ty slim cs = Some t /\ wft t /\
    forall x, valid t (VInt x) <-> in_class p w x /\ Forall (fun c => sat_int c x = true) cs.
Proof. exact int_type. Qed.
Theorem C36_extensible_type : forall slim a r, getIntTypeConstraintUperRange [a] = Some r ->
  clean int_atom a = true -> wf_range64 r -> every (atom_ok false) a = true ->
  exists t, int_ty slim [Root a] = Some t /\ wft t /\
    forall x, valid t (VInt x) <-> in_class false 64 x /\ sat_int a x = true.
Proof. exact int_ext_type. Qed.
(** With additions: values of the root are encoded in the root's range, all
    others as unconstrained integers. *)
Theorem C36_additions_type : forall slim a b r, getIntTypeConstraintUperRange [a] = Some r -> int_range b <> None ->
  clean int_atom a = true -> wf_range64 r -> every (atom_ok false) a && every (atom_ok false) b = true ->
  exists t, int_ty slim [Root2 a b] = Some t /\ wft t /\
    (forall x, valid t (VInt x) <-> in_class false 64 x /\ (sat_int a x = true \/ sat_int b x = true)) /\
    forall x, in_class false 64 x -> forall std,
      ubits std t (VInt x) = if sat_int a x then false :: range_bits r x else true :: unc_bits x.
Proof. exact int_ext2_type. Qed.
Theorem C36_octets_type : forall cs a b, getSizeableUperRange len cs = Some (Concrete a b) ->
  clean_sz _ len cs = true -> wf_size a b -> forallb (every (szatom_ok (fixed_size a b))) cs = true ->
  exists t, oct_ty cs = Some t /\ wft t /\
    forall s, Forall (fun x => 0 <= x < 256) s ->
      (valid t (VOct s) <-> Forall (fun c => sat (sat_szatom eqs len s) c = true) cs).
Proof. exact oct_type'. Qed.
Theorem C36_bits_type : forall cs a b, getSizeableUperRange len cs = Some (Concrete a b) ->
  clean_sz _ len cs = true -> wf_size a b -> forallb (every (szatom_ok (fixed_size a b))) cs = true ->
  exists t, bit_ty cs = Some t /\ wft t /\
    forall s, valid t (VBit s) <-> Forall (fun c => sat (sat_szatom (list_eqb Bool.eqb) len s) c = true) cs.
Proof. exact bit_type'. Qed.
Example C36_types_example :
  let cs := [Union (rng 0 10) (rng 20 30); Except (rng 5 25) (val 7)] in
  getIntTypeConstraintUperRange cs = Some (Concrete 5 25) /\ int_class true 64 (Concrete 5 25) = (true, 8) /\
  forallb no_marker cs = true /\ clean_int cs = true /\ forallb (every (atom_ok true)) cs = true /\
  forallb (fun c => sat_int c 22) cs = true /\ forallb (fun c => sat_int c 15) cs = false /\
  forallb (fun c => sat_int c 7) cs = false.
Proof. run. Qed.
(** INTEGER (0..10, ...)(2..5) is not extensible (X.680 50.8) but is encoded
    with an extension bit and in the range 0..10. *)
Theorem C36_serial_refuted : exists t, int_ty true [Root (rng 0 10); rng 2 5] = Some t /\
  ubits true t (VInt 3) = [false; false; false; true; true] /\ range_bits (Concrete 2 5) 3 = [false; true].
Proof. eexists. repeat split. Qed.

(** * C37 *)
(** Every character of a permitted string is in the alphabet; [d]: the
    characters of the unconstrained type. *)
Theorem C37_alphabet : forall d cs l s, canonical d -> getSrtingAlphaUperRange d cs = Some l ->
  Forall (fun c => sat_str c s = true) cs -> (forall x, In x s -> In x d) -> forall x, In x s -> In x l.
Proof. exact alpha_sound. Qed.
(** The alphabet is in canonical order and not empty. *)
Theorem C37_canonical : forall d cs l, canonical d -> d <> [] -> getSrtingAlphaUperRange d cs = Some l ->
  canonical l /\ l <> [] /\ (forall x, In x l -> In x d).
Proof. exact alpha_canonical. Qed.
(** For one FROM constraint of ranges, strings, unions and intersections it is
    exactly the set of permitted characters. *)
Theorem C37_exact : forall d c l x, canonical d -> positive c = true ->
  getSrtingAlphaUperRange d [Atom (StrFrom c)] = Some l -> (In x l <-> In x d /\ sat_char c x = true).
Proof. exact alpha_exact. Qed.
Example C37_alphabet_example :
  let c := Inter (Atom (StrFrom (Union (Atom (Chars [66; 65; 67])) (Atom (ChRng 88 90 true false))))) (Atom (StrSize (rng 1 4))) in
  getSrtingAlphaUperRange ia5_chars [c] = Some [65; 66; 67; 88; 89] /\ getStringSizeUperRange [c] = Some (Concrete 1 4) /\
  sat_str c [67; 89] = true /\ sat_str c [67; 90] = false.
Proof. run. Qed.
(** The type that is generated: the strings that are encoded and decoded are
    exactly the permitted ones (without NUL). *)
Theorem C37_string_type : forall d cs a b l, canonical d -> d <> [] -> Forall (fun x => 0 <= x < 128) d ->
  getStringSizeUperRange cs = Some (Concrete a b) -> getSrtingAlphaUperRange d cs = Some l ->
  clean_str cs = true -> wf_size a b ->
  exists t, str_ty d cs = Some t /\ wft t /\
    forall s, Forall (fun ch => In ch d /\ 0 < ch) s ->
      (valid t (VStr s) <-> Forall (fun c => sat_str c s = true) cs).
Proof. exact str_type'. Qed.
Example C37_string_type_example :
  let c := Inter (Atom (StrFrom (Atom (ChRng 65 70 true true)))) (Atom (StrSize (rng 1 4))) in
  Forall (fun x => 0 <= x < 128) numeric_chars /\
  getSrtingAlphaUperRange numeric_chars [Atom (StrFrom (Atom (ChRng 48 50 true true)))] = Some [48; 49; 50] /\
  clean_str [c] = true /\
  match str_ty ia5_chars [c] with
  | Some t => ubits true t (VStr [66; 70]) = [false; true; false; false; true; true; false; true]
  | None => False
  end.
Proof. split; [repeat constructor; discriminate|run]. Qed.

(** * C48 *)
(** The generated T_IsConstraintValid accepts exactly the permitted values, for
    types of any depth. [fits_ty]: the value has the C type; [handled_ty]: the
    constraints are within what the generator handles (ValidSpec.v). *)
Theorem C48_exact : forall t v, handled_ty t = true -> fits_ty t v = true -> isConstraintValid t v = sat_ty t v.
Proof. exact ValidateProofs.valid_exact. Qed.
(** One constraint, as used for tests inside other code. *)
Theorem C48_constraint : forall a v, handled a = true -> fits a v = true -> vrun (v_any a) v true = sat_any a v.
Proof. exact ValidateProofs.any_run. Qed.
Theorem C48_integer : forall p w c x, width w = true -> every (atom_ok p) c = true -> fits_int p w x = true ->
  isConstraintValid (CPrim [AInt p w c]) (VInt x) = sat_int c x.
Proof. exact Properties7Proofs.int_exact. Qed.
(** Lengths need no condition on the constraint; a constraint on the size of a
    type of variable size is always exact. *)
Theorem C48_size : forall c n, 0 <= n < 2 ^ 32 -> vrun (v_size c) n true = sat_int c n.
Proof. exact ValidateProofs.size_run. Qed.
Definition ex_small : acon := AInt true 8 (rng 0 5).
Definition ex_pair : cty :=
  CSeq [Union (Atom (SrWith [Named 0 false (Some (AInt true 8 (rng 0 5))) NoMark] []))
              (Atom (SrWith [Named 1 true None MarkPresent; Named 1 true (Some (AStr (Atom (StrSize (val 2))))) NoMark] []))]
       [(false, CPrim [AInt true 8 (rng 0 100)]); (true, CPrim [AStr (Inter (Atom (StrSize (rng 1 3))) (Atom (StrFrom (Atom (ChGe 65 true)))))])].
Definition ex_type : cty := CSeqOf None [Atom (SqSize (rng 1 2))] (CRef [] ex_pair).
Definition ex_v (x : Z) (s : option (list Z)) : value :=
  VSeq [(true, Some (VInt x)); match s with Some s => (true, Some (VStr s)) | None => (false, None) end].
Example C48_example :
  let v1 := VSeqOf [ex_v 3 None; ex_v 50 (Some [65; 66])] in
  let v2 := VSeqOf [ex_v 3 None; ex_v 50 None] in
  let v3 := VSeqOf [ex_v 50 (Some [65; 66; 67])] in
  let v4 := VSeqOf [ex_v 3 None; ex_v 4 None; ex_v 5 None] in
  let v5 := VSeqOf [ex_v 3 (Some [65; 32])] in
  handled_ty ex_type = true /\ forallb (fits_ty ex_type) [v1; v2; v3; v4; v5] = true /\
  map (isConstraintValid ex_type) [v1; v2; v3; v4; v5] = [true; false; false; false; false].
Proof. run. Qed.
(** Unsigned types, negative bounds: INTEGER (((-5..-1) | (3..10)) ^ (0..20)) has
    an unsigned C type; the bound -1 is printed -1UL and the function accepts 1. *)
Theorem C48_negative_refuted : exists c r p w, getIntTypeConstraintUperRange [c] = Some r /\ int_class true 64 r = (p, w) /\
  fits_int p w 1 = true /\ isConstraintValid (CPrim [AInt p w c]) (VInt 1) = true /\ sat_int c 1 = false.
Proof.
  exists (Inter (Union (rng (-5) (-1)) (rng 3 10)) (rng 0 20)), (Concrete 0 10), true, 8. run.
Qed.
(** INTEGER (0..10 EXCEPT MIN..-1): every value is rejected. *)
Theorem C48_except_refuted : exists c r p w, getIntTypeConstraintUperRange [c] = Some r /\ int_class true 64 r = (p, w) /\
  forall x, fits_int p w x = true -> isConstraintValid (CPrim [AInt p w c]) (VInt x) = false.
Proof.
  exists (Except (rng 0 10) (upto (-1))), (Concrete 0 10), true, 8. split; [reflexivity|]. split; [reflexivity|].
  intros x F. unfold isConstraintValid. cbn. unfold fits_int, lte in *. lia.
Qed.
(** Types of fixed size: SIZE is not checked, so OCTET STRING (SIZE(3))(ALL EXCEPT
    SIZE(4)) rejects every value. *)
Theorem C48_fixed_refuted : exists c1 c2, getSizeableUperRange len [c1; c2] = Some (Concrete 3 3) /\
  forall s, isConstraintValid (CPrim (map (AOct (fixed_size 3 3)) [c1; c2])) (VOct s) = false.
Proof. exists (Atom (Size (val 3))), (AllExcept (Atom (Size (val 4)))). split; reflexivity. Qed.
(** Unions: SEQUENCE (SIZE(1..3)) OF INTEGER (0..100) with (WITH COMPONENT (0..5) |
    WITH COMPONENT (10..20)): {12} is rejected, since the loop of the second
    operand does not run once the first one has failed. *)
Theorem C48_union_refuted : exists t v, fits_ty t v = true /\ sat_ty t v = true /\ isConstraintValid t v = false.
Proof.
  exists (CSeqOf None [Atom (SqSize (rng 1 3)); Union (Atom (SqWith (AInt true 8 (rng 0 5)))) (Atom (SqWith (AInt true 8 (rng 10 20))))]
            (CPrim [AInt true 8 (rng 0 100)])), (VSeqOf [VInt 12]). run.
Qed.
(** The same for OPTIONAL components: (WITH COMPONENTS {..., a (0..5)}) | (WITH
    COMPONENTS {..., b (0..5)}) rejects a = 12 without b, which satisfies the
    second operand. *)
Theorem C48_optional_union_refuted : exists t v, fits_ty t v = true /\ sat_ty t v = true /\ isConstraintValid t v = false.
Proof.
  exists (CSeq [Union (Atom (SrWith [Named 0 false (Some (AInt true 8 (rng 0 5))) NoMark] []))
                      (Atom (SrWith [Named 1 true (Some (AInt true 8 (rng 0 5))) NoMark] []))]
            [(false, CPrim [AInt true 8 (rng 0 100)]); (true, CPrim [AInt true 8 (rng 0 100)])]),
    (VSeq [(true, Some (VInt 12)); (false, None)]). run.
Qed.
(** WITH COMPONENTS {a (0..5)} without "...": b must be absent; not checked. *)
Theorem C48_full_refuted : exists t v, fits_ty t v = true /\ sat_ty t v = false /\ isConstraintValid t v = true.
Proof.
  exists (CSeq [Atom (SrWith [Named 0 false (Some (AInt true 8 (rng 0 5))) NoMark] [1%nat])]
            [(false, CPrim [AInt true 8 (rng 0 100)]); (true, CPrim [ABool (Union (Atom true) (Atom false))])]),
    (VSeq [(true, Some (VInt 3)); (true, Some (VBool true))]). run.
Qed.
(** Single values of SEQUENCE OF, SEQUENCE and CHOICE are not checked. *)
Theorem C48_single_value_refuted : exists t v, fits_ty t v = true /\ sat_ty t v = false /\ isConstraintValid t v = true.
Proof.
  exists (CSeqOf None [Atom (SqSize (rng 0 3)); Atom (SqVal (VSeqOf [VInt 1]))] (CPrim [AInt true 8 (rng 0 100)])),
    (VSeqOf [VInt 2; VInt 3]). run.
Qed.

(** * Assumptions of all theorems above *)
Definition theorems7 := (
  @C36_contains, @C36_contains_clean, @C36_contains_refuted, @C36_union, @C36_union_least,
  @C36_intersection, @C36_rejected, @C36_tight_refuted, @C36_empty_refuted, @C36_string_sizes,
  @C36_sizes, @C36_class, @C36_source, @C36_inclusion_refuted, @C36_addition_refuted, @C36_integer_type,
  @C36_extensible_type, @C36_additions_type, @C36_octets_type, @C36_bits_type, @C36_serial_refuted,
  @C37_alphabet, @C37_canonical, @C37_exact, @C37_string_type, @C48_exact, @C48_constraint,
  @C48_integer, @C48_size, @C48_negative_refuted, @C48_except_refuted, @C48_fixed_refuted,
  @C48_union_refuted, @C48_optional_union_refuted, @C48_full_refuted, @C48_single_value_refuted).
Print Assumptions theorems7.
