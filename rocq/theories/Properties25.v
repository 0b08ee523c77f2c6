(** C66: the C constants printed for ASN.1 values. *)
From Verif Require Import Base Bits CExpr AcnExpr AcnExprSpec CInit Consts ConstsSpec ConstsProofs ConstsProofs7 ConstsProofs8.
From Coq Require Import String Ascii.
Local Open Scope Z_scope.

(** The printed definition of a value that satisfies [tame] is C99, can be read in one way
    only, and the object that it initialises represents the value. *)
Theorem C66_constants : forall ws env gnu T x t v, ws = 4 \/ ws = 8 -> std_env env -> c_name T -> c_name x ->
  tame ws env gnu t v -> right_constant ws env gnu T x t v.
Proof. exact (fun ws env gnu T x t v W E => constants ws env gnu W E T x t v). Qed.

(** The grammar of initializers is unambiguous. *)
Theorem C66_unambiguous : forall gnu text T x i i', declares gnu text T x i -> declares gnu text T x i' -> i' = i.
Proof. exact declares_det. Qed.

(** A BIT STRING in a C type with nCount: right exactly when there is at most one bit,
    because nCount is set to the number of bytes. *)
Theorem C66_bits : forall ws env gnu T x z l, ws = 4 \/ ws = 8 -> std_env env -> c_name T -> c_name x ->
  fits gnu z (len l) -> dfix z = false -> (right_constant ws env gnu T x (TBits z) (PBits l) <-> len l <= 1).
Proof. exact bits_exact. Qed.
Theorem C66_bits_refuted : exists z l, smin z <= len l <= smax z /\ smax z = dlen z /\ forall ws env gnu T x, ws = 4 \/ ws = 8 -> std_env env ->
  c_name T -> c_name x -> ~ right_constant ws env gnu T x (TBits z) (PBits l).
Proof. exact bits_wrong. Qed.

(** A text of printable characters without backslash: right exactly when it has no quote. *)
Theorem C66_quotes : forall ws env gnu T x n s, ws = 4 \/ ws = 8 -> std_env env -> c_name T -> c_name x ->
  all_chars (fun c => plain_char c || (c =? """")%char) s = true -> len (codes s) < n ->
  (right_constant ws env gnu T x (TStr n) (PStr [PText s]) <-> ~ In 34 (codes s)).
Proof. exact quotes_exact. Qed.
Theorem C66_quotes_refuted : exists n s, len (codes s) < n /\ forall ws env gnu T x, ws = 4 \/ ws = 8 -> std_env env ->
  c_name T -> c_name x -> ~ right_constant ws env gnu T x (TStr n) (PStr [PText s]).
Proof. exact quotes_wrong. Qed.

(** The quotes are left out of the initialised array. *)
Theorem C66_quotes_dropped : forall env gnu T x n s, c_name T -> c_name x ->
  all_chars (fun c => plain_char c || (c =? """")%char) s = true -> len (codes s) < n ->
  exists text i k, print_assignment T x (TStr n) (PStr [PText s]) = Some text /\ declares gnu text T x i /\
    initialise env (YChars n) i = Some (DArr (map DInt (filter (fun z => negb (z =? 34)) (codes s) ++ repeat 0 (S k)))).
Proof. exact quotes_dropped. Qed.

(** A backslash is printed as it is: the string is not terminated, or has other characters. *)
Theorem C66_backslash_refuted :
  (exists text, print_assignment "T" "v" (TStr 2) (PStr [PText "\"]) = Some text /\ forall gnu i, ~ declares gnu text "T" "v" i) /\
  (forall env gnu, exists text i,
     print_assignment "T" "v" (TStr 4) (PStr [PText "a\n"]) = Some text /\ declares gnu text "T" "v" i /\
     initialise env (YChars 4) i = Some (DArr [DInt 97; DInt 10; DInt 0; DInt 0]) /\
     ~ right_constant 8 env gnu "T" "v" (TStr 4) (PStr [PText "a\n"])).
Proof. exact (conj backslash_last backslash_escape). Qed.

(** A SEQUENCE with optional components of which none is printed (all components absent and
    without DEFAULT value) gives no C. *)
Theorem C66_absent_refuted : forall gnu l vals, (exists c t, In (c, t) l) ->
  (forall c t, In (c, t) l -> k_opt c = Some None /\ ~ given (k_name c) vals) ->
  exists text, print_assignment "T" "v" (TSeq l) (PSeq vals) = Some text /\ forall i, ~ declares gnu text "T" "v" i.
Proof. exact absent_all. Qed.

(** Empty values: the braces are empty, which is not ISO C99. *)
Theorem C66_empty_refuted :
  (exists text, print_assignment "T" "v" (TOcts (mksz 0 5 false 5)) (POcts []) = Some text /\ forall i, ~ declares false text "T" "v" i) /\
  (exists text, print_assignment "T" "v" (TOf (mksz 0 5 false 5) TBool) (PList []) = Some text /\ forall i, ~ declares false text "T" "v" i).
Proof. exact (conj empty_octets empty_seq_of). Qed.

(** A fixed size subtype of a type of variable size has the C type of its parent, but its
    values are printed without nCount: an octet becomes the count, two octets are an
    excess initializer, and a SEQUENCE OF is left with no elements. *)
Theorem C66_subtype_refuted : forall env gnu, std_env env ->
  (exists text i,
     print_assignment "T" "v" (TOcts (mksz 1 1 false 5)) (POcts [5]) = Some text /\ declares gnu text "T" "v" i /\
     initialise env (declared 8 (TOcts (mksz 1 1 false 5))) i =
       Some (DStruct [("nCount"%string, DInt 5); ("arr"%string, DArr [DInt 0; DInt 0; DInt 0; DInt 0; DInt 0])]) /\
     ~ right_constant 8 env gnu "T" "v" (TOcts (mksz 1 1 false 5)) (POcts [5])) /\
  (exists text i,
     print_assignment "T" "v" (TOcts (mksz 2 2 false 5)) (POcts [5; 6]) = Some text /\ declares gnu text "T" "v" i /\
     initialise env (declared 8 (TOcts (mksz 2 2 false 5))) i = None) /\
  (exists text i,
     print_assignment "T" "v" (TOf (mksz 1 1 false 5) TBool) (PList [PBool true]) = Some text /\ declares gnu text "T" "v" i /\
     initialise env (declared 8 (TOf (mksz 1 1 false 5) TBool)) i =
       Some (DStruct [("nCount"%string, DInt 0); ("arr"%string, DArr [DInt 1; DInt 0; DInt 0; DInt 0; DInt 0])]) /\
     ~ right_constant 8 env gnu "T" "v" (TOf (mksz 1 1 false 5) TBool) (PList [PBool true])).
Proof. exact (fun env gnu E => conj (sub_octets env gnu) (conj (sub_octets_more env gnu) (sub_seq_of env gnu E))). Qed.

(** An arc of 2^63 or more is printed without suffix and has no type in C99. *)
Theorem C66_arc_refuted : forall env gnu, exists text i,
  print_assignment "T" "v" TOid (POid [2 ^ 63]) = Some text /\ declares gnu text "T" "v" i /\ initialise env (declared 8 TOid) i = None.
Proof. exact big_arc. Qed.

(** An OPTIONAL component named exist gives the C struct two members of that name. *)
Theorem C66_exist_refuted : exists l vals ms, NoDup (map (fun ct => k_c (fst ct)) l) /\ Forall (fun ct => c_name (k_c (fst ct))) l /\
  (forall c t v, In (c, t) l -> In (k_name c, v) vals -> forall env, std_env env -> tame 8 env false t v) /\
  (forall c t, In (c, t) l -> given (k_name c) vals) /\
  declared 8 (TSeq l) = YStruct ms /\ ~ NoDup (map fst ms).
Proof. exact exist_twice. Qed.

(** * Examples *)
Definition ex_env : cenv := fun s =>
  (if String.eqb s "TRUE" then Some (int32, 1) else if String.eqb s "FALSE" then Some (int32, 0)
   else if String.eqb s "INT_MIN" then Some (int32, - 2 ^ 31) else if String.eqb s "LLONG_MIN" then Some (int64, - 2 ^ 63)
   else if String.eqb s "green" then Some (int32, 7) else if String.eqb s "C_num_PRESENT" then Some (int32, 2) else None)%string.
Example C66_ex_env : std_env ex_env.
Proof. repeat split. Qed.
(** SEQUENCE { a INTEGER, b OCTET STRING (SIZE(1..4)) OPTIONAL, c ENUMERATED DEFAULT green,
    d CHOICE { str IA5String, num INTEGER (-10..10) }, e SEQUENCE (SIZE(2)) OF BIT STRING (SIZE(3)), f BOOLEAN OPTIONAL }. *)
Definition ex_enum : list eitem := [mkeitem "red" "red" 0; mkeitem "green" "green" 7].
Definition ex_choice : list (alt * pty) :=
  [(mkalt "str" "str" "C_str_PRESENT", TStr 11); (mkalt "num" "num" "C_num_PRESENT", TInt CI8)].
Definition ex_type : pty := TSeq
  [(mkcomp "a" "a" None, TInt CI64); (mkcomp "b" "b" (Some None), TOcts (mksz 1 4 false 4));
   (mkcomp "c" "c" (Some (Some (PEnum "green"))), TEnum ex_enum); (mkcomp "d" "d" None, TChoice ex_choice);
   (mkcomp "e" "e" None, TOf (mksz 2 2 true 2) (TBits (mksz 3 3 true 3))); (mkcomp "f" "f" (Some None), TBool)].
Definition ex_value : pval := PSeq
  [("a"%string, PRef (PInt (- 2 ^ 63))); ("b"%string, POcts [1; 171]); ("d"%string, PChoice "num" (PInt (-3)));
   ("e"%string, PList [PBits [true; false; true]; PBits [false; true; true]])].
Example C66_ex_tame : tame 8 ex_env false ex_type ex_value.
Proof.
  apply m_seq.
  - repeat constructor; cbn; intuition discriminate.
  - repeat constructor.
  - repeat constructor; cbn; intuition discriminate.
  - intros c t v I J. cbn in I, J.
    repeat (destruct I as [I|I]; [injection I as <- <-; repeat (destruct J as [J|J]; [try discriminate J; injection J as <-|]); try destruct J|]); try destruct I.
    + apply m_ref. apply m_int. reflexivity.
    + apply m_octs; [repeat split; cbn; (lia || discriminate)|repeat constructor; lia].
    + apply (m_choice 8 ex_env false ex_choice 1 (mkalt "num" "num" "C_num_PRESENT") (TInt CI8) (PInt (-3)) int32);
        [reflexivity|repeat constructor; cbn; intuition discriminate|repeat constructor; cbn; intuition discriminate|repeat split|repeat split|reflexivity|cbn; lia|].
      apply m_int. reflexivity.
    + apply m_of; [repeat split; cbn; (lia || discriminate)|].
      repeat constructor; cbn; auto; try lia; discriminate.
  - intros c t dv I O G. cbn in I.
    repeat (destruct I as [I|I]; [injection I as <- <-; try discriminate O; injection O as <-|]); try destruct I.
    apply (m_enum 8 ex_env false ex_enum (mkeitem "green" "green" 7) int32); [right; now left|repeat constructor; cbn; intuition discriminate|repeat split|reflexivity|reflexivity].
  - intros c t I O. cbn in I. unfold given, ex_value. cbn [map fst].
    repeat (destruct I as [I|I]; [injection I as <- <-; try discriminate O; cbn; tauto|]). destruct I.
  - right. exists (mkcomp "a" "a" None), (TInt CI64). split; [now left|]. left. now left.
Qed.
Example C66_ex_text : exists s, print_value ex_type ex_value = Some s /\ klex LIdle s <> None.
Proof. eexists. split; [reflexivity|]. vm_compute. discriminate. Qed.
Example C66_ex_bits : fits false (mksz 1 8 false 8) (len [true; false; true]) /\ len [true; false; true] > 1.
Proof. repeat split; cbn; (lia || discriminate). Qed.
Example C66_ex_quotes : all_chars (fun c => plain_char c || (c =? """")%char) "say ""no""" = true /\ In 34 (codes "say ""no""").
Proof. split; [reflexivity|]. cbn. tauto. Qed.
Example C66_ex_absent : (exists c t, In (c, t) [(mkcomp "a" "a" (Some None), TBool)]) /\
  (forall c t, In (c, t) [(mkcomp "a" "a" (Some None), TBool)] -> k_opt c = Some None /\ ~ given (k_name c) []).
Proof.
  split; [exists (mkcomp "a" "a" (Some None)), TBool; now left|]. intros c t [E|[]]. injection E as <- <-. split; [reflexivity|]. intros [].
Qed.

(** The word classes have all integers of a word, and no more. *)
Theorem C66_word : forall ws z, 0 < ws ->
  (in_tyb (class_type ws CUW) z = true <-> 0 <= z < 2 ^ (8 * ws)) /\
  (in_tyb (class_type ws CIW) z = true <-> - 2 ^ (8 * ws - 1) <= z < 2 ^ (8 * ws - 1)).
Proof. exact word_range. Qed.

(** * Assumptions of all theorems above *)
Definition theorems25 := (
  @C66_constants, @C66_unambiguous, @C66_bits, @C66_bits_refuted, @C66_quotes, @C66_quotes_refuted,
  @C66_quotes_dropped, @C66_backslash_refuted, @C66_absent_refuted, @C66_empty_refuted,
  @C66_subtype_refuted, @C66_arc_refuted, @C66_exist_refuted, @C66_word).
Print Assumptions theorems25.
