(** C70: named bits, COMPONENTS OF and the values of a grammar. *)
From Verif Require Import Base Bits UperTypes ConSpec Constraints Resolve ResolveSpec ResolveProofs ResolveProofs2.
From Coq Require Import List String Ascii Bool Arith ZArith QArith Lia.
Import ListNotations.
Local Open Scope string_scope.
Local Open Scope list_scope.

(** * Grammars *)
(** A grammar from lists of its types and values. *)
Fixpoint look {A} (m n : string) (l : list (string * string * A)) : option A :=
  match l with
  | [] => None
  | (m', n', x) :: l => if String.eqb m m' && String.eqb n n' then Some x else look m n l
  end.
Definition size_upto (a b : Z) : bcon := Atom (Size (Atom (Rng a b true true))).
(** M: flags a(0), b(two) of at most 4 bits; a SEQUENCE with a field x; one that has also flags f and
    a default; a colour. *)
Definition ex_types : list (string * string * gtype) :=
  [ ("M", "F", UBits [("a", BitNumber 0); ("b", BitValue "M" "two")] [size_upto 1 4]);
    ("M", "S", USeq [UComp "x" Gmust UInt]);
    ("M", "T", USeq [UCompsOf "M" "S"; UComp "f" Goptional (URef "M" "F" []);
                     UComp "g" (Gdefault (GOf [GRef "M" "a"])) (URef "M" "F" []);
                     UComp "s" Goptional (UOf UStr); UComp "c" Goptional (URef "M" "C" [])]);
    ("M", "C", UEnum ["red"; "green"]);
    ("M", "H", UCh [("p", UBool); ("q", URef "M" "T" [])]) ].
Definition ex_values : list (string * string * (gtype * gval)) :=
  [ ("M", "two", (UInt, GInt 2)); ("M", "hue", (URef "M" "C" [], GRef "M" "green"));
    ("M", "v", (URef "M" "H" [], GCh "q" (GSeq
       [("x", GRef "M" "two"); ("f", GOf [GRef "M" "b"; GRef "M" "a"]);
        ("s", GOf [GOf [GStr "A"; GRef "M" "cr"]; GStr "B"]); ("c", GRef "M" "hue")]))) ].
Definition ex_tyof m n := look m n ex_types.
Definition ex_valof m n := look m n ex_values.
Definition ex_tyof' m n := match ex_tyof m n with Some t => match map_type ex_tyof ex_valof 9 t with Done t' => Some t' | _ => None end | None => None end.
Definition ex_valof' m n :=
  match ex_valof m n with
  | Some (t, e) => match map_type ex_tyof ex_valof 9 t, map_value ex_tyof ex_valof 9 t e with Done t', Done e' => Some (t', e') | _, _ => None end
  | None => None
  end.
Example ex_mapped : map_value ex_tyof ex_valof 9 (URef "M" "H" []) (snd (match ex_valof "M" "v" with Some x => x | None => (UNull, GNull) end)) =
  Done (XCh "q" (XSeq [("x", XRef "M" "two"); ("f", XBits [true; false; true; false]);
    ("s", XOf [XStr (String "A" (String (ascii_of_nat 13) "")); XStr "B"]); ("c", XRef "M" "hue")])).
Proof. vm_compute. reflexivity. Qed.

(** * COMPONENTS OF *)
(** COMPONENTS OF is replaced by the components of the SEQUENCE that is named, at any depth, exactly
    if every such name is that of a SEQUENCE; more time changes nothing. *)
Theorem C70_components : forall tyof l r,
  ((exists f, seq_children tyof f l = Done r) <-> direct tyof l /\ components tyof l r) /\
  (forall f, seq_children tyof f l = Done r -> forall f', (f <= f')%nat -> seq_children tyof f' l = Done r).
Proof. exact children_exact. Qed.
Example C70_components_ex : exists l r, ex_tyof "M" "T" = Some (USeq l) /\ direct ex_tyof l /\ components ex_tyof l r /\
  map (fun c => fst (fst c)) r = ["x"; "f"; "g"; "s"; "c"].
Proof.
  destruct (seq_children ex_tyof 9 match ex_tyof "M" "T" with Some (USeq l) => l | _ => [] end) as [r | |] eqn:E; try discriminate E.
  assert (R : map (fun c => fst (fst c)) r = ["x"; "f"; "g"; "s"; "c"]) by (vm_compute in E; injection E as <-; reflexivity).
  destruct (proj1 (proj1 (C70_components _ _ _)) (ex_intro _ _ E)) as (D & C). do 2 eexists. split; [reflexivity|]. eauto.
Qed.
(** The components of a SEQUENCE are determined by the grammar. *)
Theorem C70_components_unique : forall tyof l r r', components tyof l r -> components tyof l r' -> r = r'.
Proof. exact components_det. Qed.
(** A name for another name of a SEQUENCE is refused. *)
Theorem C70_components_alias_refuted : exists tyof l r,
  components tyof l r /\ forall f, seq_children tyof (S f) l = Raise.
Proof.
  exists (fun m n => look m n [("M", "S", USeq [UComp "x" Gmust UInt]); ("M", "A", URef "M" "S" [])]), [UCompsOf "M" "A"], [("x", Gmust, UInt)].
  split; [|reflexivity]. eapply (c_of _ _ _ _ _ [_] _ []); [reflexivity| |repeat constructor|constructor].
  eapply b_ref; [reflexivity|]. constructor. intros; discriminate.
Qed.
(** A SEQUENCE that contains its own components is not found out: the search does not end. *)
Definition ring (m n : string) := look m n [("M", "S", USeq [UCompsOf "M" "S"])].
Theorem C70_components_cycle_refuted : exists tyof l, (forall r, ~ components tyof l r) /\ forall f, seq_children tyof f l = Endless.
Proof.
  exists ring, [UCompsOf "M" "S"]. split.
  - assert (G : forall l r, components ring l r -> l <> [UCompsOf "M" "S"]).
    { induction 1 as [| | m T t l' r' l r E B C IH C' IH']; try discriminate. intros K. injection K as -> -> ->.
      vm_compute in E. injection E as <-. inversion B; subst. apply IH. reflexivity. }
    intros r H. exact (G _ _ H eq_refl).
  - induction f; [reflexivity|]. rewrite seq_children_S. change (ring "M" "S") with (Some (USeq [UCompsOf "M" "S"])).
    cbn iota beta. rewrite IHf. reflexivity.
Qed.

(** * Named bits *)
(** The bits that are named are one, the others zero; the number of bits is the largest size, or else
    as needed for the last one. *)
Theorem C70_named_bits : forall valof ns cs l r bs, getSizeableUperRange len cs = Some r ->
  (forall a b, r = Concrete a b -> (1 <= b < 2 ^ 32)%Z) ->
  ((exists f, named_bits valof f ns cs l = Done bs) <->
   exists ps, Forall2 (names_bit valof ns) l ps /\ bits_written r ps (List.length bs) /\
     forall i, nth i bs false = true <-> (i < List.length bs)%nat /\ In (Z.of_nat i) ps).
Proof. exact named_bits_exact. Qed.
Example C70_named_bits_ex :
  getSizeableUperRange len [size_upto 1 4] = Some (Concrete 1 4)%Z /\
  named_bits ex_valof 3 [("a", BitNumber 0); ("b", BitValue "M" "two")] [size_upto 1 4] [GRef "M" "b"; GRef "M" "a"] =
    Done [true; false; true; false] /\
  getSizeableUperRange len ([] : list bcon) = Some Full /\
  named_bits ex_valof 3 [("a", BitNumber 0); ("b", BitValue "M" "two")] [] [GRef "M" "b"; GRef "M" "b"] = Done [false; false; true].
Proof. vm_compute. repeat split; reflexivity. Qed.
(** A named bit beyond the largest size is dropped without a word. *)
Theorem C70_named_bit_lost_refuted : exists ns cs l ps bs f,
  named_bits ex_valof f ns cs l = Done bs /\ Forall2 (names_bit ex_valof ns) l ps /\ ps <> [] /\
  (forall p, In p ps -> (0 <= p)%Z) /\ ~ bits_at ps bs /\ bs = [false; false; false; false].
Proof.
  exists [("a", BitNumber 0); ("b", BitNumber 9)], [size_upto 4 4], [GRef "M" "b"], [9%Z], [false; false; false; false], 3%nat.
  split; [reflexivity|]. split; [repeat econstructor|]. split; [discriminate|]. split; [intros p [<-|[]]; lia|].
  split; [|reflexivity]. intros H. destruct (proj1 (H 9%Z)) as (_ & K); [cbn; auto|discriminate K].
Qed.
(** Nothing but zeros can be written neither as { } nor, without a largest size, as an empty list. *)
Theorem C70_no_bits_refuted : forall tyof valof ns cs f,
  gden tyof valof (UBits ns cs) GEmpty (ABits []) /\ map_value tyof valof (S (S f)) (UBits ns cs) GEmpty = Raise /\
  gden tyof valof (UBits ns []) (GOf []) (ABits []) /\ map_value tyof valof (S (S f)) (UBits ns []) (GOf []) = Raise.
Proof.
  intros. assert (B : bits_at [] []).
  { intros p. split; [intros [] |]. intros (_ & H). destruct (Z.to_nat p); discriminate H. }
  split; [constructor; auto|]. split; [reflexivity|]. split; [econstructor; eauto|reflexivity].
Qed.
(** SIZE(0): the number of bits before the last wraps around. *)
Theorem C70_size_zero_refuted : exists cs, getSizeableUperRange len cs = Some (Concrete 0 0)%Z /\
  forall valof ns f, exists bs, named_bits valof f ns cs [] = Done bs /\ List.length bs = Z.to_nat (2 ^ 32).
Proof.
  assert (L : forall m : Z, List.length (map (fun i => memZ i []) (upto m)) = Z.to_nat (m + 1)) by (intros; unfold upto; rewrite !map_length, seq_length; auto).
  assert (G : forall r b, u32 (b - 1) = (2 ^ 32 - 1)%Z -> forall valof ns f cs, getSizeableUperRange len cs = Some (Concrete r b) ->
    named_bits valof f ns cs [] = Done (map (fun i => memZ i []) (upto (2 ^ 32 - 1)))).
  { intros r b E valof ns f cs R. unfold named_bits. rewrite R. cbn [mapR bind]. rewrite E. generalize (2 ^ 32 - 1)%Z. reflexivity. }
  exists [size_upto 0 0]. split; [reflexivity|]. intros. eexists. split; [apply (G 0 0)%Z; reflexivity|].
  rewrite L. replace (2 ^ 32 - 1 + 1)%Z with (2 ^ 32)%Z by reflexivity. exact eq_refl.
Qed.
(** Constraints on the reference are not looked at: of G ::= F (SIZE(10)) {a} is one bit long. *)
Theorem C70_size_of_reference_refuted : exists tyof valof t e bs,
  tyof "M" "F" = Some (UBits [("a", BitNumber 0)] []) /\ t = URef "M" "F" [size_upto 10 10] /\
  map_value tyof valof 9 t e = Done (XBits bs) /\ List.length bs = 1%nat.
Proof.
  exists (fun m n => look m n [("M", "F", UBits [("a", BitNumber 0)] [])]), (fun _ _ => None), (URef "M" "F" [size_upto 10 10]), (GOf [GRef "M" "a"]), [true].
  repeat split; reflexivity.
Qed.

(** * Values *)
(** What a resolved value means, it means as it was written. *)
Theorem C70_values : forall tyof valof tyof' valof', resolved_types tyof valof tyof' -> resolved_values tyof valof valof' ->
  all_orderly tyof valof -> forall t t' e x v f f', map_type tyof valof f t = Done t' -> map_value tyof valof f' t e = Done x ->
  orderly tyof valof t e -> den tyof' valof' Plain t' x v -> gden tyof valof t e v.
Proof. exact values_kept. Qed.
Lemma ex_resolved : resolved_types ex_tyof ex_valof ex_tyof' /\ resolved_values ex_tyof ex_valof ex_valof'.
Proof.
  split; intros m n; unfold ex_tyof', ex_valof'.
  - destruct (ex_tyof m n) as [t|] eqn:E; auto.
    assert (H : exists t', map_type ex_tyof ex_valof 9 t = Done t').
    { unfold ex_tyof, ex_types in E. cbn [look] in E.
      repeat match type of E with (if ?b then _ else _) = _ => destruct b; [injection E as <-; eexists; vm_compute; reflexivity|] end. discriminate E. }
    destruct H as (t' & H). rewrite H. eauto.
  - destruct (ex_valof m n) as [[t e]|] eqn:E; auto.
    assert (H : exists t' e', map_type ex_tyof ex_valof 9 t = Done t' /\ map_value ex_tyof ex_valof 9 t e = Done e').
    { unfold ex_valof, ex_values in E. cbn [look] in E.
      repeat match type of E with (if ?b then _ else _) = _ => destruct b; [injection E as <- <-; eexists _, _; vm_compute; split; reflexivity|] end. discriminate E. }
    destruct H as (t' & e' & H1 & H2). rewrite H1, H2. eauto.
Qed.
Ltac here := constructor; intros; discriminate.
Ltac via := first [here | eapply b_ref; [reflexivity | here]].
Lemma ex_orderly : all_orderly ex_tyof ex_valof.
Proof.
  intros m n t e E. unfold ex_valof, ex_values in E. cbn [look] in E.
  repeat match type of E with (if ?b then _ else _) = _ => destruct b; [injection E as <- <-|] end; [| | |discriminate E].
  - apply o_leaf. exact I.
  - eapply o_item; [via|cbn; auto].
  - eapply o_ch; [via|reflexivity|]. destruct C70_components_ex as (l & r & T & D & C & R). cbn in T. injection T as <-.
    eapply o_seq; [via|exact C|].
    inversion C; subst. match goal with H : ex_tyof "M" "S" = Some _ |- _ => cbn in H; injection H as <- end.
    match goal with H : behind _ _ (USeq _) |- _ => inversion H; subst; clear H end.
    repeat match goal with H : components _ (_ :: _) _ |- _ => inversion H; subst; clear H | H : components _ [] _ |- _ => inversion H; subst; clear H end.
    intros n' e' J t' F. cbn in J. repeat (destruct J as [J|J]; [injection J as <- <-; vm_compute in F; injection F as <-|]); [| | | |destruct J].
    + eapply o_name; [via|intros; discriminate|reflexivity|via].
    + eapply o_named; [via|eexists; split; [vm_compute; reflexivity|discriminate]|]. intros e p J N. cbn in J. destruct J as [<-|[<-|[]]]; inversion N; subst;
        match goal with H : assoc _ _ = Some _ |- _ => vm_compute in H; injection H as <- end;
        match goal with H : bit_number _ _ _ |- _ => inversion H; subst end.
      * match goal with H : number_of _ _ _ |- _ => inversion H; subst end.
        match goal with H : ex_valof "M" "two" = Some _ |- _ => vm_compute in H; injection H as <- <- end.
        match goal with H : number_of _ _ _ |- _ => inversion H; subst end.
        split; [lia|]. intros a b K. vm_compute in K. injection K as <- <-. lia.
      * split; [lia|]. intros a b K. vm_compute in K. injection K as <- <-. lia.
    + eapply o_of; [via|]. intros e [<-|[<-|[]]]; [apply o_text; via|apply o_leaf; exact I].
    + eapply o_name; [via| |reflexivity|via]. intros items K. injection K as <-. split; [cbn; intuition discriminate|].
      intros m' L. inversion L; subst; auto. match goal with H : ex_tyof "M" "C" = Some _ |- _ => vm_compute in H; injection H as <- end.
      match goal with H : last_module _ (UEnum _) _ |- _ => inversion H end.
Qed.
Example C70_values_ex : exists t e t' x v, ex_valof "M" "v" = Some (t, e) /\ map_type ex_tyof ex_valof 9 t = Done t' /\
  map_value ex_tyof ex_valof 9 t e = Done x /\ orderly ex_tyof ex_valof t e /\ den ex_tyof' ex_valof' Plain t' x v /\
  v = ACh "q" (ASeq [("x", AInt 2); ("f", ABits [true; false; true; false]);
        ("s", AList [AStr (String "A" (String (ascii_of_nat 13) "")); AStr "B"]); ("c", AEnum "green")]).
Proof.
  do 5 eexists. split; [reflexivity|]. split; [reflexivity|]. split; [vm_compute; reflexivity|].
  split; [apply (ex_orderly "M" "v"); reflexivity|]. split; [|reflexivity].
  eapply d_ref; [vm_compute; reflexivity|]. eapply d_ch; [reflexivity|]. eapply d_ref; [vm_compute; reflexivity|].
  apply d_seq; [repeat constructor; cbn; intuition discriminate|].
  apply df_given; [eapply d_name; try discriminate; [reflexivity|constructor]| |cbn; intuition discriminate].
  apply df_given; [eapply d_ref; [vm_compute; reflexivity|constructor]| |cbn; intuition discriminate].
  apply df_absent; [discriminate| |cbn; intuition discriminate].
  apply df_given; [repeat constructor| |cbn; intuition discriminate].
  apply df_given; [|constructor|cbn; tauto].
  eapply d_ref; [vm_compute; reflexivity|]. eapply d_name; try discriminate; [|reflexivity|].
  - intros items K. injection K as <-. cbn. intuition discriminate.
  - constructor. cbn. auto.
Qed.
(** What a value means as it is written, it means when it is resolved, up to zeros at the end of BIT
    STRING values; and it is resolved. *)
Theorem C70_values_resolved : forall tyof valof tyof' valof', resolved_types tyof valof tyof' -> resolved_values tyof valof valof' ->
  all_orderly tyof valof -> forall t t' e v f, map_type tyof valof f t = Done t' -> orderly tyof valof t e -> gden tyof valof t e v ->
  exists x v' f0, (forall f, (f0 <= f)%nat -> map_value tyof valof f t e = Done x) /\ den tyof' valof' Plain t' x v' /\ alike v v'.
Proof. exact values_resolved. Qed.
Example C70_values_resolved_ex : exists t e v, ex_valof "M" "v" = Some (t, e) /\ orderly ex_tyof ex_valof t e /\ gden ex_tyof ex_valof t e v.
Proof.
  destruct C70_values_ex as (t & e & t' & x & v & E & M & V & O & D & _). exists t, e, v. split; auto. split; auto.
  destruct ex_resolved. eapply C70_values; eauto. apply ex_orderly.
Qed.
(** The name of a value of an ENUMERATED type is looked up in the module of the type: M2.b, written
    a in M2 and so green, becomes M1.a, which is red. *)
Definition r1_types := [("M1", "Color", UEnum ["red"; "green"])].
Definition r1_values := [("M1", "a", (URef "M1" "Color" [], GRef "M1" "red")); ("M2", "a", (URef "M1" "Color" [], GRef "M1" "green"))].
Definition r1_values' := [("M1", "a", (XT (TRef "M1" "Color") [], XRef "M1" "red")); ("M2", "a", (XT (TRef "M1" "Color") [], XRef "M1" "green"))].
Theorem C70_enum_names_refuted : exists tyof valof tyof' valof' t e t' x,
  resolved_types tyof valof tyof' /\ resolved_values tyof valof valof' /\
  map_type tyof valof 9 t = Done t' /\ map_value tyof valof 9 t e = Done x /\
  gden tyof valof t e (AEnum "green") /\ den tyof' valof' Plain t' x (AEnum "red") /\
  ~ gden tyof valof t e (AEnum "red").
Proof.
  exists (fun m n => look m n r1_types), (fun m n => look m n r1_values),
    (fun m n => look m n [("M1", "Color", XT (TEnum ["red"; "green"]) [])]), (fun m n => look m n r1_values'),
    (URef "M1" "Color" []), (GRef "M2" "a"), (XT (TRef "M1" "Color") []), (XRef "M1" "a").
  split.
  { intros m n. cbn [look r1_types]. destruct (String.eqb m "M1" && String.eqb n "Color"); auto. exists 9%nat. reflexivity. }
  split.
  { intros m n. cbn [look r1_values r1_values']. destruct (String.eqb m "M1" && String.eqb n "a"); [exists 9%nat; split; reflexivity|].
    destruct (String.eqb m "M2" && String.eqb n "a"); [exists 9%nat; split; reflexivity|auto]. }
  split; [reflexivity|]. split; [reflexivity|]. split; [|split].
  - eapply g_ref; [reflexivity|]. eapply g_name; [intros; discriminate| |reflexivity|via|].
    + intros items K. injection K as <-. cbn. intuition discriminate.
    + eapply g_ref; [reflexivity|]. constructor. cbn. auto.
  - eapply d_ref; [reflexivity|]. eapply d_name; try discriminate; [|reflexivity|].
    + intros items K. injection K as <-. cbn. intuition discriminate.
    + constructor. cbn. auto.
  - assert (R : forall e, gden (fun m n => look m n r1_types) (fun m n => look m n r1_values) (URef "M1" "Color" []) e (AEnum "red") ->
      gden (fun m n => look m n r1_types) (fun m n => look m n r1_values) (UEnum ["red"; "green"]) e (AEnum "red")).
    { intros e G. inversion G; subst.
      - match goal with H : look _ _ _ = Some _ |- _ => vm_compute in H; injection H as <- end. auto.
      - match goal with H : forall m T cs, URef _ _ _ <> _ |- _ => destruct (H _ _ _ eq_refl) end. }
    intros G. apply R in G. inversion G; subst.
    match goal with H : look _ _ _ = Some _ |- _ => vm_compute in H; injection H as <- <- end.
    match goal with H : gden _ _ (URef _ _ _) _ _ |- _ => apply R in H; inversion H; subst end.
    match goal with H : look "M1" "green" _ = Some _ |- _ => vm_compute in H; discriminate H end.
Qed.
(** Names of values are refused within the list that makes up a string. *)
Theorem C70_string_names_refuted : exists valof, valof "M" "n" = Some (UStr, GStr "x") /\
  forall tyof f, map_value tyof valof (S (S f)) UStr (GOf [GStr "a"; GRef "M" "n"]) = Raise.
Proof. exists (fun m n => look m n [("M", "n", (UStr, GStr "x"))]). split; reflexivity. Qed.

(** * Assumptions of all theorems above *)
Definition theorems29 := (
  @C70_components, @C70_components_unique, @C70_components_alias_refuted, @C70_components_cycle_refuted,
  @C70_named_bits, @C70_named_bit_lost_refuted, @C70_no_bits_refuted, @C70_size_zero_refuted,
  @C70_size_of_reference_refuted, @C70_values, @C70_values_resolved, @C70_enum_names_refuted,
  @C70_string_names_refuted).
Print Assumptions theorems29.
