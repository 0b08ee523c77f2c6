(** Grammars on which the removal of parameters goes wrong. *)
From Verif Require Import Params ParamsSpec ParamsProofs ParamsProofs2 ParamsProofs3 ParamsProofs4.
From Coq Require Import List String Ascii Bool ZArith Lia.
Import ListNotations.
Local Open Scope string_scope.
Local Open Scope list_scope.
Lemma names_kept : forall r f r', do_grammar r f = Done r' ->
  Forall2 (fun md md' => fst md' = fst md /\
    map ta_name (snd md') = map ta_name (filter (fun a => match ta_params a with [] => true | _ => false end) (snd md))) r r'.
Proof.
  intros r f r' H. apply do_grammar_from in H. refine (forall2_impl _ _ _ _ _ _ _ H).
  intros md md' [H1 H2]. split; [exact H1|]. unfold is_plain in H2. induction H2 as [|a a' l l' Ha _ IH]; [reflexivity|].
  simpl. rewrite IH. f_equal. apply Ha.
Qed.
Lemma plain_result : forall r f r' md a, do_grammar r f = Done r' -> hygienic r -> acyclic r ->
  In md r' -> In a (snd md) -> ta_params a = [] /\ plain (ta_type a).
Proof.
  intros r f r' md a H Hy [rank R] I1 I2. destruct (model_exists r (fun _ _ _ => True) rank R) as [P M]. eapply all_plain; eassumption.
Qed.
Lemma meaning_exists : forall r V, acyclic r -> exists P, model r P V.
Proof. intros r V [rank R]. eapply model_exists, R. Qed.
Lemma meaning_unique : forall r V P Q, acyclic r -> model r P V -> model r Q V ->
  (forall m T a v, lookup r m T = None -> P m T a v <-> Q m T a v) -> forall m T a v, P m T a v <-> Q m T a v.
Proof. intros r V P Q [rank R]. eapply model_unique, R. Qed.
Lemma same_type : forall r P V f cur t t', model r P V -> hygienic r -> do_type r f cur t = Done t' -> tidy (params_of r) [] t ->
  forall v, has P V [] t' v <-> has P V [] t v.
Proof. intros r P V f cur t t' M Hy H Ti. eapply do_type_sem; eassumption. Qed.

(** A template [T] and its only use [A], which names no other type. *)
Definition two (ps : list pparam) (body use : ptype) : grammar := [("M", [mktas "T" ps body; mktas "A" [] use])].
Lemma two_distinct : forall ps body use, distinct (two ps body use).
Proof.
  intros ps body use m l [[= <- <-]|[]]. simpl. constructor; [intros [K|[]]; discriminate|]. constructor; [intros []|constructor].
Qed.
Lemma two_acyclic : forall ps body use, (forall m T, In (m, T) (uses body) -> lookup (two ps body use) m T = None) ->
  (forall m T, In (m, T) (uses use) -> lookup (two ps body use) m T <> None -> (m, T) = ("M", "T")) -> acyclic (two ps body use).
Proof.
  intros ps body use H1 H2. exists (fun _ T => if String.eqb T "A" then 1 else 0).
  intros m T ta m' T' L U K. apply lookup_in in L. destruct L as (md & J1 & J2 & <- & <-).
  destruct J1 as [<-|[]]. destruct J2 as [<-|[<-|[]]]; simpl in U.
  - elim K. apply H1, U.
  - specialize (H2 m' T' U K). injection H2 as -> ->. simpl. lia.
Qed.
(** The values of [T {args}] when [A ::= T {args}]. *)
Lemma two_use : forall ps body a0 args P V v, model (two ps body (PT (KRef "M" "T" None (a0 :: args)) [])) P V ->
  let ss := map (arg_sem P V []) (a0 :: args) in
  P "M" "A" [] v <-> Forall2 suits ps ss /\ has P V (combine (map pname ps) ss) body v.
Proof.
  intros ps body a0 args P V v M ss. rewrite (m_def _ _ _ M "M" "A" (mktas "A" [] (PT (KRef "M" "T" None (a0 :: args)) [])) [] v eq_refl).
  rewrite <- (m_def _ _ _ M "M" "T" (mktas "T" ps body) ss v eq_refl).
  simpl ta_params. cbn [map combine ta_type]. rewrite has_eq. simpl. split; [intros (_ & H & _); exact H|]. intros H. split; [constructor | split; [exact H | exact I]].
Qed.

(** (1) A template with an extensible constraint, (SIZE (1..10, ...)). *)
Definition g_ext : grammar := two [PType "Y"]
  (PT (KOf (PT (KRef "M" "Y" None []) [])) [CSize (CRoot (CRange (EInt 1) (EInt 10) true true))])
  (PT (KRef "M" "T" None [AType (PT (KBase BInt) [])]) []).
Lemma ext_endless : forall f, do_grammar g_ext f = Endless.
Proof. intros [|f]; reflexivity. Qed.

(** (2) A parameter in an OCTET STRING (CONTAINING Y). *)
Definition g_box : grammar := two [PType "Y"] (PT (KRef "M" "Y" (Some InOctets) []) []) (PT (KRef "M" "T" None [AType (PT (KBase BInt) [])]) []).
Lemma box_dropped : exists r', do_grammar g_box 1 = Done r' /\ forall P V, model g_box P V -> ~ model r' P V.
Proof.
  eexists. split; [reflexivity|]. intros P V M M'.
  assert (K : P "M" "A" [] (VInt 0)).
  { apply (m_def _ _ _ M' "M" "A" (mktas "A" [] (PT (KBase BInt) [])) [] _ eq_refl). simpl. repeat split; constructor. }
  apply (two_use _ _ _ _ _ _ _ M) in K. destruct K as [_ K]. simpl in K. destruct K as [(w & K & _) _]. discriminate.
Qed.

(** (3) COMPONENTS OF a parameter, inclusion of a parameter. *)
Definition dangling (r : grammar) (m T : string) : Prop :=
  lookup r m T = None /\ exists md a, In md r /\ In a (snd md) /\ In (m, T) (uses (ta_type a)).
Definition g_comps : grammar := two [PType "Y"] (PT (KSeq [CompsOf "M" "Y"]) []) (PT (KRef "M" "T" None [AType (PT (KSeq []) [])]) []).
Lemma comps_dangling : exists r', do_grammar g_comps 1 = Done r' /\ dangling r' "M" "Y".
Proof. eexists. split; [reflexivity|]. split; [reflexivity|]. do 2 eexists. split; [left; reflexivity|]. split; [left; reflexivity|]. left. reflexivity. Qed.
Definition g_incl : grammar := two [PType "Y"] (PT (KBase BInt) [CIncl "M" "Y"]) (PT (KRef "M" "T" None [AType (PT (KBase BInt) [])]) []).
Lemma incl_dangling : exists r', do_grammar g_incl 1 = Done r' /\ dangling r' "M" "Y".
Proof. eexists. split; [reflexivity|]. split; [reflexivity|]. do 2 eexists. split; [left; reflexivity|]. split; [left; reflexivity|]. left. reflexivity. Qed.

(** (4) A parameter below the top of an actual parameter: T {Y} ::= I {SEQUENCE OF Y}. *)
Definition g_arg : grammar := [("M", [
  mktas "I" [PType "Z"] (PT (KSeq [Child "x" Mandatory (PT (KRef "M" "Z" None []) [])]) []);
  mktas "T" [PType "Y"] (PT (KRef "M" "I" None [make_arg [PType "Y"] (PT (KOf (PT (KRef "M" "Y" None []) [])) [])]) []);
  mktas "A" [] (PT (KRef "M" "T" None [AType (PT (KBase BInt) [])]) [])])].
Lemma arg_dangling : exists r', do_grammar g_arg 2 = Done r' /\ dangling r' "M" "Y".
Proof. eexists. split; [reflexivity|]. split; [reflexivity|]. do 2 eexists. split; [left; reflexivity|]. split; [left; reflexivity|]. left. reflexivity. Qed.
(** A value parameter within an actual parameter, below the top level: I {INTEGER:k} has it in a
    component; T {INTEGER:n} ::= I {n}. *)
Definition g_varg : grammar := [("M", [
  mktas "I" [PVal "k"] (PT (KSeq [Child "x" Mandatory (PT (KBase BInt) [CSingle (ERef "M" "k")])]) []);
  mktas "T" [PVal "n"] (PT (KRef "M" "I" None [AVal (ERef "M" "n")]) []);
  mktas "A" [] (PT (KRef "M" "T" None [AVal (EInt 7)]) [])])].
Lemma varg_left : do_grammar g_varg 2 = Done [("M", [mktas "A" [] (PT (KSeq [Child "x" Mandatory (PT (KBase BInt) [CSingle (ERef "M" "n")])]) [])])].
Proof. reflexivity. Qed.

(** (5) An actual parameter with a parameterized type below its top: T {SEQUENCE OF U {INTEGER}}. *)
Definition g_deep : grammar := [("M", [
  mktas "U" [PType "Z"] (PT (KOf (PT (KRef "M" "Z" None []) [])) []);
  mktas "T" [PType "Y"] (PT (KOf (PT (KRef "M" "Y" None []) [])) []);
  mktas "A" [] (PT (KRef "M" "T" None [AType (PT (KOf (PT (KRef "M" "U" None [AType (PT (KBase BInt) [])]) [])) [])]) [])])].
Lemma deep_kept : exists r', do_grammar g_deep 2 = Done r' /\ dangling r' "M" "U" /\
  ~ (forall md a, In md r' -> In a (snd md) -> plain (ta_type a)).
Proof.
  eexists. split; [reflexivity|]. split.
  - split; [reflexivity|]. do 2 eexists. split; [left; reflexivity|]. split; [left; reflexivity|]. left. reflexivity.
  - intros K. specialize (K _ _ (or_introl eq_refl) (or_introl eq_refl)). discriminate K.
Qed.

(** (6) The constraint of an actual parameter names a value [n] of the module; so is a parameter. *)
Definition g_capture : grammar := two [PVal "n"; PType "Y"] (PT (KRef "M" "Y" None []) [])
  (PT (KRef "M" "T" None [AVal (EInt 5); AType (PT (KBase BInt) [CTo (ERef "M" "n") true])]) []).
Lemma capture : exists r', do_grammar g_capture 1 = Done r' /\
  forall P V, (forall v, V "M" "n" v <-> v = VInt 10) -> model g_capture P V -> ~ model r' P V.
Proof.
  eexists. split; [reflexivity|]. intros P V Hn M M'.
  assert (K : P "M" "A" [] (VInt 10)).
  { apply (two_use _ _ _ _ _ _ _ M). split; [repeat constructor|]. simpl. split; [|exact I]. unfold type_named. simpl.
    split; [exact I|]. split; [|exact I]. exists (VInt 10). unfold value_named. simpl. split; [apply Hn; reflexivity|].
    exists 10%Z, 10%Z. repeat split; lia. }
  apply (m_def _ _ _ M' "M" "A" (mktas "A" [] (PT (KBase BInt) [CTo (EInt 5) true])) [] _ eq_refl) in K.
  destruct K as [_ K]. simpl in K. destruct K as [_ [(y & -> & x & z & [= <-] & [= <-] & K) _]]. lia.
Qed.

(** (7) An ENUMERATED with an item of the name of a parameter. *)
Definition g_item : grammar := two [PVal "red"] (PT (KEnum ["red"; "blue"]) (default_con "M" ["red"; "blue"]))
  (PT (KRef "M" "T" None [AVal (EInt 5)]) []).
Lemma item_lost : exists t, do_grammar g_item 1 = Done [("M", [mktas "A" [] t])] /\ kind t = KEnum ["red"; "blue"] /\
  forall P V v, has P V [] t v <-> v = VEnum ["red"; "blue"] "blue".
Proof.
  eexists. split; [reflexivity|]. split; [reflexivity|]. intros P V v. simpl. split.
  - intros ((x & _ & ->) & [H|H] & _); [discriminate|]. simpl in H. rewrite <- H. reflexivity.
  - intros ->. split; [exists "blue"; tauto|]. split; [right; reflexivity | exact I].
Qed.

(** (8) A type parameter constrained by a value of the module: T {Y} ::= Y (0..max). *)
Definition g_bound (e : pexp) : grammar := two [PType "Y"] (PT (KRef "M" "Y" None []) [CRange (EInt 0) e true true])
  (PT (KRef "M" "T" None [AType (PT (KBase BInt) [])]) []).
Lemma bound_refused : (forall f, do_grammar (g_bound (ERef "M" "max")) (2 + f) = Raise) /\
  (forall f z, exists r', do_grammar (g_bound (EInt z)) (2 + f) = Done r').
Proof. split; [reflexivity|]. intros f z. eexists. reflexivity. Qed.

(** (9) A parameter with a constraint as actual parameter: T {Y} ::= I {Y (0..5)}. *)
Definition g_carg : grammar := [("M", [
  mktas "I" [PType "Z"] (PT (KRef "M" "Z" None []) []);
  mktas "T" [PType "Y"] (PT (KRef "M" "I" None [make_arg [PType "Y"] (PT (KRef "M" "Y" None []) [CTo (EInt 5) true])]) []);
  mktas "A" [] (PT (KRef "M" "T" None [AType (PT (KBase BInt) [])]) [])])].
Lemma carg_dropped : do_grammar g_carg 2 = Done [("M", [mktas "A" [] (PT (KBase BInt) [])])].
Proof. reflexivity. Qed.
