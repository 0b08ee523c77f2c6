(** Proofs about the printed constants: lists in braces and the templates. *)
From Verif Require Import Base Bits CExpr AcnExpr AcnExprSpec AcnExprProofs CInit Consts ConstsSpec ConstsProofs ConstsProofs2 ConstsProofs3.
From Coq Require Import String Ascii.
Local Open Scope Z_scope.

(** * Constant texts *)
Fixpoint krun (st : kst) (s : string) : option (list ktok * kst) :=
  match s with
  | EmptyString => Some ([], st)
  | String c s =>
      match kstep st c with
      | None => None
      | Some (t, st') => match krun st' s with None => None | Some (ts, st'') => Some (t ++ ts, st'') end
      end
  end.
Lemma klex_run : forall s st ts st' rest, krun st s = Some (ts, st') ->
  klex st (s ++ rest) = match klex st' rest with Some r => Some (ts ++ r) | None => None end.
Proof.
  induction s as [|c s IH]; intros st ts st' rest H.
  - injection H as <- <-. cbn [append app]. destruct (klex st rest); reflexivity.
  - cbn [krun] in H. change ((String c s ++ rest)%string) with (String c (s ++ rest)). cbn [klex].
    destruct (kstep st c) as [[t st1]|]; [|discriminate]. destruct (krun st1 s) as [[ts1 st2]|] eqn:E; [|discriminate].
    injection H as <- <-. rewrite (IH _ _ _ rest E). destruct (klex st2 rest); [now rewrite app_assoc|reflexivity].
Qed.
Lemma opens_const : forall s ts, krun LIdle s = Some (ts, LIdle) -> opens s ts.
Proof. intros s ts H rest ts' E. now rewrite (klex_run _ _ _ _ rest H), E. Qed.
Lemma lexes_const : forall s ts o, krun LIdle s = Some (ts, LOp o) -> lexes s (ts ++ [KP o]).
Proof.
  intros s ts o H c rest ts' B E. rewrite (klex_run _ _ _ _ _ H).
  rewrite (flush_break (LOp o) c rest ts' B); [|right; right; right; eauto|exact E]. cbn [kflush]. now rewrite app_assoc.
Qed.
Lemma opens_const_op : forall s ts o, solo o = true -> krun LIdle s = Some (ts, LOp o) -> opens s (ts ++ [KP o]).
Proof.
  intros s ts o S H rest ts' E. rewrite (klex_run _ _ _ _ _ H), (klex_solo _ _ S), E. now rewrite <- app_assoc.
Qed.

(** * Lists *)
Definition item_text (gnu : bool) (s : string) (x : option string * init) : Prop :=
  exists ts, lexes s ts /\ forall c rest, item gnu (ts ++ KP c :: rest) x (KP c :: rest).
Definition init_text (gnu : bool) (s : string) (i : init) : Prop :=
  exists ts, lexes s ts /\ forall c rest, reads gnu (ts ++ KP c :: rest) i (KP c :: rest).
Lemma expr_init : forall env gnu s z, expr_text env gnu s z -> exists e, init_text gnu s (IExp e) /\ (forall l, e <> XStr l) /\ exp_val env e = Some z.
Proof. intros env gnu s z (ts & e & L & R & N & V). exists e. split; [exists ts; auto|auto]. Qed.
Lemma plain_item : forall gnu s i, init_text gnu s i -> item_text gnu s (None, i).
Proof. intros gnu s i (ts & L & R). exists ts. split; [assumption|]. intros c rest. constructor. apply R. Qed.
Lemma member_item : forall gnu m s i, c_name m -> init_text gnu s i -> item_text gnu (member_text m s) (Some m, i).
Proof.
  intros gnu m s i [I K] (ts & L & R). exists ([KP "."; KId m; KP "="] ++ ts). split.
  - unfold member_text. change ("." ++ m ++ " = " ++ s)%string with (String "." (m ++ (" = " ++ s))).
    rewrite <- (string_assoc m " = " s). change (String "." ((m ++ " = ") ++ s)) with (("." ++ m ++ " = ") ++ s)%string.
    apply opens_lexes; [now apply opens_member|assumption].
  - intros c rest. cbn [app]. constructor; [assumption|]. apply R.
Qed.
Definition sep : string := ("," ++ nl)%string.
Lemma lexes_empty : lexes "" [].
Proof. intros c rest ts' B E. exact E. Qed.
Lemma opens_sep : opens sep [KP ","].
Proof. apply opens_const. reflexivity. Qed.
Lemma joined : forall gnu l xs, Forall2 (item_text gnu) l xs -> l <> [] ->
  exists tss, lexes (join sep l) tss /\ forall rest, items gnu (tss ++ KP "}" :: rest) xs rest.
Proof.
  intros gnu l xs H. induction H as [|s x l xs (ts & L & R) H IH]; intros N; [congruence|]. clear N. destruct l as [|s' l].
  - inversion H; subst. exists ts. split; [exact L|]. intros rest. apply i_last. apply R.
  - destruct IH as (tss & L' & R'); [discriminate|]. exists (ts ++ [KP ","] ++ tss). split.
    + change (join sep (s :: s' :: l)) with (s ++ (sep ++ join sep (s' :: l)))%string.
      unfold sep at 1. change (("," ++ nl) ++ join sep (s' :: l))%string with (String "," (nl ++ join sep (s' :: l))).
      apply lexes_app; [reflexivity|assumption|].
      change (String "," (nl ++ join sep (s' :: l))) with (sep ++ join sep (s' :: l))%string. apply opens_lexes; [apply opens_sep|assumption].
    + intros rest. rewrite <- app_assoc. cbn [app]. apply i_more with (ts' := tss ++ KP "}" :: rest); [apply R|apply R'].
Qed.
Lemma braced : forall gnu l xs, Forall2 (item_text gnu) l xs -> (l = [] -> gnu = true) ->
  exists tss, lexes (join sep l) tss /\ forall rest, reads gnu (KP "{" :: tss ++ KP "}" :: rest) (IList xs) rest.
Proof.
  intros gnu l xs H N. destruct l as [|s l].
  - inversion H; subst. exists []. split; [apply lexes_empty|]. intros rest. apply r_empty. now apply N.
  - destruct (joined gnu _ _ H) as (tss & L & R); [discriminate|]. exists tss. split; [assumption|]. intros rest. now apply r_list.
Qed.
(** [{ ... }] with the items joined by a separator. *)
Lemma block : forall gnu l xs p q tp tq, Forall2 (item_text gnu) l xs -> (l = [] -> gnu = true) ->
  krun LIdle p = Some (tp, LIdle) -> krun LIdle (nl ++ q) = Some (tq, LOp "}") ->
  exists tss, lexes (p ++ join sep l ++ nl ++ q) (tp ++ tss ++ tq ++ [KP "}"]) /\
    forall rest, reads gnu (KP "{" :: tss ++ KP "}" :: rest) (IList xs) rest.
Proof.
  intros gnu l xs p q tp tq H N P Q. destruct (braced gnu l xs H N) as (tss & L & R). exists tss. split; [|exact R].
  apply opens_lexes; [now apply opens_const|]. change (nl ++ q)%string with (String "010" q) in *.
  apply lexes_app; [reflexivity|assumption|]. now apply lexes_const.
Qed.
Lemma tok_one : forall gnu ts i, (forall rest, reads gnu (ts ++ rest) i rest) -> forall c rest, reads gnu (ts ++ KP c :: rest) i (KP c :: rest).
Proof. auto. Qed.

(** * The templates *)
Lemma bytes_init : forall gnu fixed n e l xs,
  init_text gnu (dec_text n) (IExp e) -> Forall2 (item_text gnu) (map byte_text l) xs -> (l = [] -> gnu = true) ->
  init_text gnu (bytes_text fixed n l) (IList ((if fixed then [] else [(None, IExp e)]) ++ [(None, IList xs)])).
Proof.
  intros gnu fixed n e l xs (tn & Ln & Rn) H N.
  destruct (block gnu (map byte_text l) xs (nl ++ "    {" ++ nl ++ "        ") ("    }" ++ nl ++ "}") [KP "{"] [KP "}"] H) as (tss & L & R);
    [intros E; apply map_eq_nil in E; auto|reflexivity|reflexivity|].
  set (J := join sep (map byte_text l)) in *. destruct fixed.
  - exists ([KP "{"] ++ ([KP "{"] ++ tss ++ [KP "}"] ++ [KP "}"])). split.
    + change (bytes_text true n l) with (String "{" "" ++ ((nl ++ "    {" ++ nl ++ "        ") ++ J ++ nl ++ "    }" ++ nl ++ "}"))%string.
      apply opens_lexes; [now apply opens_solo|exact L].
    + intros c rest. cbn [app]. apply r_list. apply i_last. constructor. rewrite <- app_assoc. cbn [app]. apply R.
  - exists ([KP "{"] ++ (tn ++ ([KP ","] ++ ([KP "{"] ++ tss ++ [KP "}"] ++ [KP "}"])))). split.
    + replace (bytes_text false n l) with (String "{" "" ++ (dec_text n ++ (String "," ((nl ++ "    {" ++ nl ++ "        ") ++ J ++ nl ++ "    }" ++ nl ++ "}"))))%string.
      2: { unfold bytes_text. rewrite (string_assoc (dec_text n)). reflexivity. }
      apply opens_lexes; [now apply opens_solo|]. apply lexes_app; [reflexivity|assumption|].
      match goal with |- lexes (String "," ?x) _ => change (String "," x) with (String "," "" ++ x)%string end.
      apply opens_lexes; [now apply opens_solo|exact L].
    + intros c rest. cbn [app]. rewrite <- app_assoc. cbn [app]. apply r_list. eapply i_more; [constructor; apply Rn|].
      apply i_last. constructor. rewrite <- app_assoc. cbn [app]. apply R.
Qed.
Lemma oid_init : forall gnu e l xs,
  init_text gnu (dec_text (Z.of_nat (List.length l))) (IExp e) -> Forall2 (item_text gnu) (map dec_text l) xs -> (l = [] -> gnu = true) ->
  init_text gnu (oid_text l) (IList [(None, IExp e); (None, IList xs)]).
Proof.
  intros gnu e l xs (tn & Ln & Rn) H N. unfold oid_text. set (n := Z.of_nat (List.length l)) in *. clearbody n.
  destruct (block gnu (map dec_text l) xs (nl ++ "    {" ++ nl ++ "        ") ("    }" ++ nl ++ "}") [KP "{"] [KP "}"] H) as (tss & L & R);
    [intros E; apply map_eq_nil in E; auto|reflexivity|reflexivity|].
  change (join ("," ++ nl) (map dec_text l)) with (join sep (map dec_text l)). set (J := join sep (map dec_text l)) in *.
  exists ([KP "{"] ++ (tn ++ ([KP ","] ++ ([KP "{"] ++ tss ++ [KP "}"] ++ [KP "}"])))). split.
  - match goal with |- lexes ?x _ => change x with (String "{" (String "009" "") ++ (dec_text n ++ (String "," ((nl ++ "    {" ++ nl ++ "        ") ++ J ++ nl ++ "    }" ++ nl ++ "}"))))%string end.
    apply opens_lexes; [now apply opens_const|]. apply lexes_app; [reflexivity|assumption|].
    match goal with |- lexes (String "," ?x) _ => change (String "," x) with (String "," "" ++ x)%string end.
    apply opens_lexes; [now apply opens_solo|exact L].
  - intros c rest. cbn [app]. rewrite <- app_assoc. cbn [app]. apply r_list. eapply i_more; [constructor; apply Rn|].
    apply i_last. constructor. rewrite <- app_assoc. cbn [app]. apply R.
Qed.
Lemma of_init : forall gnu fixed e l xs,
  init_text gnu (dec_text (Z.of_nat (List.length l))) (IExp e) -> Forall2 (item_text gnu) l xs -> (l = [] -> gnu = true) ->
  init_text gnu (of_text fixed l) (IList ((if fixed then [] else [(Some "nCount"%string, IExp e)]) ++ [(Some "arr"%string, IList xs)])).
Proof.
  intros gnu fixed e l xs (tn & Ln & Rn) H N. unfold of_text. set (n := Z.of_nat (List.length l)) in *. clearbody n.
  destruct (block gnu l xs (nl ++ "    .arr =" ++ nl ++ "    {" ++ nl ++ "        ") ("    }" ++ nl ++ "}") [KP "."; KId "arr"; KP "="; KP "{"] [KP "}"] H N) as (tss & L & R);
    [reflexivity|reflexivity|].
  change (join ("," ++ nl) l) with (join sep l). set (J := join sep l) in *. destruct fixed.
  - exists ([KP "{"] ++ ([KP "."; KId "arr"; KP "="; KP "{"] ++ tss ++ [KP "}"] ++ [KP "}"])). split.
    + match goal with |- lexes ?x _ => change x with (String "{" "" ++ ((nl ++ "    .arr =" ++ nl ++ "    {" ++ nl ++ "        ") ++ J ++ nl ++ "    }" ++ nl ++ "}"))%string end.
      apply opens_lexes; [now apply opens_solo|exact L].
    + intros c rest. cbn [app]. apply r_list. apply i_last. constructor; [reflexivity|]. rewrite <- app_assoc. cbn [app]. apply R.
  - exists ([KP "{"; KP "."; KId "nCount"; KP "="] ++ (tn ++ ([KP ","] ++ ([KP "."; KId "arr"; KP "="; KP "{"] ++ tss ++ [KP "}"] ++ [KP "}"])))). split.
    + match goal with |- lexes ?x _ => replace x with (("{" ++ nl ++ "    .nCount = ") ++ (dec_text n ++ (String "," (nl ++ ((nl ++ "    .arr =" ++ nl ++ "    {" ++ nl ++ "        ") ++ J ++ nl ++ "    }" ++ nl ++ "}")))))%string end.
      2: { rewrite ?string_assoc. reflexivity. }
      apply opens_lexes; [now apply opens_const|]. apply lexes_app; [reflexivity|assumption|].
      match goal with |- lexes (String "," (nl ++ ?x)) _ => change (String "," (nl ++ x)) with (sep ++ x)%string end.
      apply opens_lexes; [now apply opens_sep|exact L].
    + intros c rest. cbn [app]. rewrite <- app_assoc. cbn [app]. apply r_list. eapply i_more; [constructor; [reflexivity|apply Rn]|].
      apply i_last. constructor; [reflexivity|]. rewrite <- app_assoc. cbn [app]. apply R.
Qed.
Lemma choice_init : forall gnu name v present i e, c_name name -> init_text gnu v i -> init_text gnu present (IExp e) ->
  init_text gnu (choice_text name v present) (IList [(Some "kind"%string, IExp e); (Some "u"%string, IList [(Some name, i)])]).
Proof.
  intros gnu name v present i e [C K] (tv & Lv & Rv) (tp & Lp & Rp).
  exists ([KP "{"; KP "."; KId "kind"; KP "="] ++ (tp ++ ([KP ","; KP "."; KId "u"; KP "="; KP "{"] ++ ([KP "."; KId name; KP "="] ++ (tv ++ [KP "}"; KP "}"]))))).
  split.
  - replace (choice_text name v present) with
      (("{" ++ nl ++ "    .kind = ") ++ (present ++ (String "," ((nl ++ "    .u = { ") ++ (("." ++ name ++ " = ") ++ (v ++ String "}" (nl ++ "}")))))))%string.
    2: { unfold choice_text. rewrite ?string_assoc. reflexivity. }
    apply opens_lexes; [now apply opens_const|]. apply lexes_app; [reflexivity|assumption|].
    match goal with |- lexes (String "," (?a ++ ?b)) _ => change (String "," (a ++ b)) with (String "," a ++ b)%string end.
    apply opens_lexes; [now apply opens_const|]. apply opens_lexes; [now apply opens_member|].
    apply lexes_app; [reflexivity|assumption|]. now apply (lexes_const (String "}" (nl ++ "}")) [KP "}"] "}").
  - intros c rest. cbn [app]. rewrite <- app_assoc. cbn [app]. apply r_list. eapply i_more; [constructor; [reflexivity|apply Rp]|].
    apply i_last. constructor; [reflexivity|]. rewrite <- app_assoc. cbn [app]. apply r_list. apply i_last.
    constructor; [assumption|]. apply Rv.
Qed.
Lemma joined_more : forall gnu l xs, Forall2 (item_text gnu) l xs -> l <> [] ->
  exists tss, lexes (join sep l) tss /\
    forall ts' l' rest, items gnu ts' l' rest -> items gnu (tss ++ KP "," :: ts') (xs ++ l') rest.
Proof.
  intros gnu l xs H. induction H as [|s x l xs (ts & L & R) H IH]; intros N; [congruence|]. clear N. destruct l as [|s' l].
  - inversion H; subst. exists ts. split; [exact L|]. intros ts' l' rest I. cbn [app]. eapply i_more; [apply R|exact I].
  - destruct IH as (tss & L' & R'); [discriminate|]. exists (ts ++ [KP ","] ++ tss). split.
    + change (join sep (s :: s' :: l)) with (s ++ (sep ++ join sep (s' :: l)))%string.
      unfold sep at 1. change (("," ++ nl) ++ join sep (s' :: l))%string with (String "," (nl ++ join sep (s' :: l))).
      apply lexes_app; [reflexivity|assumption|].
      change (String "," (nl ++ join sep (s' :: l))) with (sep ++ join sep (s' :: l))%string. apply opens_lexes; [apply opens_sep|assumption].
    + intros ts' l' rest I. rewrite <- app_assoc. cbn [app]. eapply i_more; [apply R|]. now apply R'.
Qed.
Lemma seq_init_plain : forall gnu l xs, Forall2 (item_text gnu) l xs -> (l = [] -> gnu = true) -> init_text gnu (seq_text l []) (IList xs).
Proof.
  intros gnu l xs H N.
  destruct (block gnu l xs ("{" ++ nl ++ "    ") "}" [KP "{"] [] H N) as (tss & L & R); [reflexivity|reflexivity|].
  exists ([KP "{"] ++ tss ++ [] ++ [KP "}"]). split; [exact L|]. intros c rest. cbn [app]. rewrite <- app_assoc. apply R.
Qed.
Lemma seq_init_exist : forall gnu l xs ex exs, Forall2 (item_text gnu) l xs -> l <> [] -> Forall2 (item_text gnu) ex exs -> ex <> [] ->
  init_text gnu (seq_text l ex) (IList (xs ++ [(Some "exist"%string, IList exs)])).
Proof.
  intros gnu l xs ex exs H N He Ne. destruct (joined_more gnu l xs H N) as (t1 & L1 & R1). destruct (joined gnu ex exs He Ne) as (t2 & L2 & R2).
  exists ([KP "{"] ++ (t1 ++ ([KP ","; KP "."; KId "exist"; KP "="; KP "{"] ++ (t2 ++ [KP "}"; KP "}"])))). split.
  - unfold seq_text. change (join ("," ++ nl) l) with (join sep l). change (join ("," ++ nl) ex) with (join sep ex).
    set (J1 := join sep l) in *. set (J2 := join sep ex) in *. destruct ex as [|e0 ex]; [congruence|]. clearbody J1 J2.
    match goal with |- lexes ?x _ => replace x with
      (("{" ++ nl ++ "    ") ++ (J1 ++ String "," ((nl ++ "    .exist = {" ++ nl ++ "        ") ++ (J2 ++ String "010" ("    }" ++ nl ++ "    " ++ nl ++ "}")))))%string end.
    2: { rewrite ?string_assoc. reflexivity. }
    apply opens_lexes; [now apply opens_const|]. apply lexes_app; [reflexivity|assumption|].
    match goal with |- lexes (String "," (?a ++ ?b)) _ => change (String "," (a ++ b)) with (String "," a ++ b)%string end.
    apply opens_lexes; [now apply opens_const|]. apply lexes_app; [reflexivity|assumption|].
    match goal with |- lexes ?s _ => exact (lexes_const s [KP "}"] "}" eq_refl) end.
  - intros c rest. cbn [app]. rewrite <- app_assoc. cbn [app]. apply r_list. apply R1. rewrite <- app_assoc. cbn [app].
    apply i_last. constructor; [reflexivity|]. apply r_list. apply R2.
Qed.
