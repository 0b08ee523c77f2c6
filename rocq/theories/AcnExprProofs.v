(** Proofs about the printed present-when expressions. *)
From Verif Require Import Base CExpr CExprProofs AcnExpr AcnExprSpec.
From Coq Require Import String Ascii.
From Coq Require DecimalString DecimalZ DecimalFacts.
Local Open Scope Z_scope.

(** * Characters and leaves *)
Lemma alpha_start : forall c, is_alpha c = true -> start c = Some (InId (chr1 c)).
Proof. intros [[] [] [] [] [] [] [] []] H; first [discriminate H | reflexivity]. Qed.
Lemma digit_start : forall c, is_digit c = true -> start c = Some (InNum (chr1 c) c).
Proof. intros [[] [] [] [] [] [] [] []] H; first [discriminate H | reflexivity]. Qed.
Lemma alpha_alnum : forall c, is_alpha c = true -> is_alnum c = true.
Proof. intros c H. unfold is_alnum. now rewrite H. Qed.
Lemma digit_alnum : forall c, is_digit c = true -> is_alnum c = true.
Proof. intros c H. unfold is_alnum. rewrite H. apply orb_true_r. Qed.
Lemma pair_alnum : forall o c, is_alnum c = true -> pair_punct o c = false.
Proof.
  intros o c H. unfold pair_punct. cbn [existsb fst snd].
  assert (X : forall d, In d ["-"; ">"; "="; "+"; "<"; "&"; "|"]%char -> (c =? d)%char = false).
  { intros d D. apply Ascii.eqb_neq. intros ->. revert H. cbn in D.
    repeat (destruct D as [<-|D]; [vm_compute; discriminate|]). destruct D. }
  rewrite !X by (cbn; tauto). now rewrite !andb_false_r.
Qed.
Lemma pair_open : forall o, pair_punct o "(" = false.
Proof. intros o. unfold pair_punct. cbn. now rewrite !andb_false_r. Qed.
Lemma app_one : forall a c s, ((a ++ chr1 c) ++ s = a ++ String c s)%string.
Proof. intros a c s. induction a as [|x a IH]; cbn in *; [reflexivity|]. now rewrite IH. Qed.
Lemma append_nil_r : forall a : string, (a ++ "")%string = a.
Proof. induction a as [|c a IH]; cbn; [reflexivity|]. now rewrite IH. Qed.
Lemma run_id : forall s a, all_chars is_alnum s = true -> run (InId a) s = Some ([], InId (a ++ s)).
Proof.
  induction s as [|c s IH]; intros a H; cbn [run]; [now rewrite append_nil_r|].
  cbn [all_chars] in H. apply andb_true_iff in H as [H1 H2]. unfold step. rewrite H1.
  rewrite IH by assumption. rewrite app_one. reflexivity.
Qed.
Lemma run_ident : forall s, ident s -> run Idle s = Some ([], InId s).
Proof.
  intros [|c s] H; [destruct H|]. cbn in H. destruct H as [H1 H2]. cbn [run]. unfold step. rewrite (alpha_start _ H1).
  cbn [flush]. rewrite run_id by assumption. reflexivity.
Qed.
Lemma run_digits : forall s a l, all_chars is_digit s = true -> exists l', run (InNum a l) s = Some ([], InNum (a ++ s) l').
Proof.
  induction s as [|c s IH]; intros a l H; cbn [run]; [exists l; now rewrite append_nil_r|].
  cbn [all_chars] in H. apply andb_true_iff in H as [H1 H2]. unfold step. rewrite (digit_alnum _ H1). cbn [orb].
  destruct (IH (a ++ chr1 c)%string c H2) as (l' & E). rewrite E. exists l'. rewrite app_one. reflexivity.
Qed.
Lemma run_number : forall c s, is_digit c = true -> all_chars is_digit s = true ->
  exists l, run Idle (String c s) = Some ([], InNum (String c s) l).
Proof.
  intros c s H1 H2. cbn [run]. unfold step. rewrite (digit_start _ H1). cbn [flush].
  destruct (run_digits s (chr1 c) c H2) as (l & E). rewrite E. exists l. reflexivity.
Qed.
Lemma uint_digits : forall d, all_chars is_digit (DecimalString.NilEmpty.string_of_uint d) = true.
Proof. induction d; cbn in *; auto. Qed.
Lemma dec_digits : forall n, 0 <= n -> exists c s, dec_text n = String c s /\ is_digit c = true /\ all_chars is_digit s = true.
Proof.
  intros n H. unfold dec_text.
  assert (exists d, Z.to_int n = Decimal.Pos d) as (d & ->) by (destruct n; [eexists; reflexivity|eexists; reflexivity|lia]).
  cbn [DecimalString.NilZero.string_of_int]. unfold DecimalString.NilZero.string_of_uint.
  destruct d; cbn; (eexists; eexists; split; [reflexivity|split; [reflexivity|try reflexivity; apply uint_digits]]).
Qed.
Lemma lexes_dec : forall n, 0 <= n -> lexes (dec_text n) [TNum (dec_text n)].
Proof.
  intros n H. destruct (dec_digits n H) as (c & s & -> & H1 & H2). destruct (run_number c s H1 H2) as (l & E).
  exists [], (InNum (String c s) l). split; [exact E|reflexivity].
Qed.
Lemma string_app_assoc : forall a b c : string, ((a ++ b) ++ c = a ++ b ++ c)%string.
Proof. induction a as [|x a IH]; intros; cbn; [reflexivity|]. now rewrite IH. Qed.
Lemma lexes_real : forall t, real_text t -> lexes t [TNum t].
Proof.
  intros t (a & i & f & sg & x & A & I & F & S & X & ->). unfold digits in *.
  destruct (run_number a i A I) as (l1 & E1). exists [].
  assert (exists l, run Idle (String a i ++ "." ++ f ++ "E" ++ String sg x) = Some ([], InNum (String a i ++ "." ++ f ++ "E" ++ String sg x) l)) as (l & E).
  { rewrite run_app, E1. rewrite run_app.
    assert (D : run (InNum (String a i) l1) "." = Some ([], InNum (String a i ++ chr1 ".") ".")) by reflexivity. rewrite D. clear D.
    rewrite run_app. destruct (run_digits f (String a i ++ chr1 ".") "." F) as (l2 & E2). rewrite E2.
    change ("E" ++ String sg x)%string with (String "E" (String sg x)).
    assert (D : run (InNum ((String a i ++ chr1 ".") ++ f) l2) (String "E" (String sg x)) =
                run (InNum ((((String a i ++ chr1 ".") ++ f) ++ chr1 "E") ++ chr1 sg) sg) x).
    { cbn [run]. unfold step at 1. change (is_alnum "E") with true. cbn [orb]. unfold step at 1.
      assert (is_alnum sg || (sg =? ".")%char || is_exp "E" && is_sign sg = true) as -> by (destruct S as [-> | ->]; reflexivity).
      destruct (run _ x) as [[t0 s0]|]; reflexivity. }
    rewrite D. clear D.
    destruct (run_digits x ((((String a i ++ chr1 ".") ++ f) ++ chr1 "E") ++ chr1 sg) sg X) as (l3 & E3). rewrite E3.
    exists l3. rewrite !string_app_assoc. reflexivity. }
  exists (InNum (String a i ++ "." ++ f ++ "E" ++ String sg x) l). split; [exact E|reflexivity].
Qed.
Lemma run_op : forall o c s, pair_punct o c = false -> run (InOp o) (String c s) =
  match run Idle (String c s) with Some (t, st) => Some (TP (chr1 o) :: t, st) | None => None end.
Proof.
  intros o c s H. cbn [run]. unfold step. rewrite H. destruct (start c) as [st|]; [|reflexivity].
  cbn [flush app]. destruct (run st s) as [[t s']|]; reflexivity.
Qed.

(** * Access paths *)
Definition tail_toks (l : list string) : list tok := flat_map (fun n => [TP "."; TId n]) l.
Definition path_toks (root : string) (l : list string) : list tok :=
  match l with [] => [TId root] | n :: l => TId root :: TP "->" :: TId n :: tail_toks l end.
Lemma run_tail : forall l a, Forall ident l -> exists ts st, run (InId a) (joined_tail l) = Some (ts, st) /\ ts ++ flush st = TId a :: tail_toks l.
Proof.
  induction l as [|n l IH]; intros a H; cbn [joined_tail fold_right].
  - exists [], (InId a). split; reflexivity.
  - inversion H as [|? ? H1 H2]; subst. destruct n as [|c n]; [destruct H1|].
    fold (joined_tail l). cbn [String.append]. cbn [run].
    assert (step (InId a) "." = Some ([TId a], InOp ".")) as -> by reflexivity.
    assert (E : run (InOp ".") (String c (n ++ joined_tail l)) =
      match run (InId (String c n)) (joined_tail l) with Some (t, st) => Some (TP "." :: t, st) | None => None end).
    { rewrite run_op by (apply pair_alnum, alpha_alnum; destruct H1; assumption).
      change (String c (n ++ joined_tail l)) with (String c n ++ joined_tail l)%string. rewrite run_app, (run_ident _ H1).
      destruct (run (InId (String c n)) (joined_tail l)) as [[t s]|]; reflexivity. }
    destruct (IH (String c n) H2) as (ts & st & E1 & E2). cbn [run] in E. rewrite E, E1.
    exists ([TId a] ++ TP "." :: ts), st. split; [reflexivity|]. cbn [app]. rewrite E2. reflexivity.
Qed.
Lemma lexes_path : forall root l, ident root -> Forall ident l -> lexes (joined root l) (path_toks root l).
Proof.
  intros root [|n l] R H.
  - exists [], (InId root). split; [apply run_ident; exact R|reflexivity].
  - inversion H as [|? ? H1 H2]; subst. destruct (run_tail l n H2) as (ts & st & E1 & E2).
    exists ([TId root] ++ TP "->" :: ts), st. split; [|cbn [app path_toks]; now rewrite E2].
    cbn [joined]. rewrite run_app, (run_ident _ R). cbn [app].
    assert (X : run (InId root) ("->" ++ n ++ joined_tail l) =
      match run Idle (n ++ joined_tail l) with Some (t, s) => Some (TId root :: TP "->" :: t, s) | None => None end).
    { cbn [String.append run]. assert (step (InId root) "-" = Some ([TId root], InOp "-")) as -> by reflexivity.
      assert (step (InOp "-") ">" = Some ([TP "->"], Idle)) as -> by reflexivity.
      destruct (run Idle (n ++ joined_tail l)) as [[t s]|]; reflexivity. }
    rewrite X, run_app, (run_ident _ H1), E1. reflexivity.
Qed.
Lemma derives_tail : forall l ts e, derives 0 ts e -> derives 0 (ts ++ tail_toks l) (fold_left (fun e s => CMem false e s) l e).
Proof.
  induction l as [|n l IH]; intros ts e H; cbn [tail_toks flat_map fold_left]; [now rewrite app_nil_r|].
  cbn [app]. change (ts ++ TP "." :: TId n :: flat_map (fun n => [TP "."; TId n]) l) with (ts ++ [TP "."; TId n] ++ tail_toks l).
  rewrite app_assoc. apply IH. apply d_dot. exact H.
Qed.
Lemma derives_path : forall root l, derives 0 (path_toks root l) (member root l).
Proof.
  intros root [|n l]; cbn [path_toks member]; [apply d_id|].
  apply (derives_tail l [TId root; TP "->"; TId n]). apply (d_arrow [TId root]). apply d_id.
Qed.

(** * Expressions *)
Definition prio (e : aexp) : Z := match e with ENot _ | EMinus _ => 1 | EBin op _ _ => op_prio op | _ => 0 end.
Definition wrap (b : bool) (ts : list tok) : list tok := if b then TP "(" :: ts ++ [TP ")"] else ts.
Fixpoint toks (f : list string -> list string) (root : string) (e : aexp) : list tok :=
  match e with
  | EInt n => [TNum (dec_text n)]
  | EConst _ => []
  | EReal t => [TNum t]
  | EBool b => [TId (if b then "true" else "false")%string]
  | EField p => path_toks root (f p)
  | ENot e => TP "!" :: wrap (1 <=? prio e) (toks f root e)
  | EMinus e => TP "-" :: wrap (1 <=? prio e) (toks f root e)
  | EBin op e1 e2 => wrap (op_prio op <=? prio e1) (toks f root e1) ++ TP (op_text op) :: wrap (op_prio op <=? prio e2) (toks f root e2)
  end.
Lemma lexes_paren : forall s ts, s <> ""%string -> lexes s ts -> lexes (paren s) (TP "(" :: ts ++ [TP ")"]).
Proof.
  intros [|c s] ts N (t0 & st & E & ->); [congruence|]. clear N.
  exists (TP "(" :: t0 ++ flush st), (InOp ")"). split; [|cbn [flush chr1]; now rewrite app_comm_cons].
  unfold paren. cbn [String.append run].
  assert (step Idle "(" = Some ([], InOp "(")) as -> by reflexivity.
  change (String c (s ++ ")")) with (String c s ++ ")")%string. cbn [app].
  assert (X : run (InOp "(") (String c s ++ ")") = Some (TP "(" :: t0 ++ flush st, InOp ")")); [|cbn [String.append run] in X; rewrite X; reflexivity].
  rewrite run_app, run_op; [|unfold pair_punct; reflexivity]. rewrite E. cbn [run].
  rewrite step_close. rewrite app_nil_r. reflexivity.
Qed.
Lemma lexes_unary : forall o c s ts, (o = "!" \/ o = "-")%char -> pair_punct o c = false -> lexes (String c s) ts ->
  lexes (String o (String c s)) (TP (chr1 o) :: ts).
Proof.
  intros o c s ts O P (t0 & st & E & ->). exists (TP (chr1 o) :: t0), st. split; [|reflexivity].
  assert (step Idle o = Some ([], InOp o)) as X by (destruct O as [-> | ->]; reflexivity).
  change (run Idle (String o (String c s))) with
    (match step Idle o with None => None | Some (t, st') => match run st' (String c s) with None => None | Some (ts, st'') => Some (t ++ ts, st'') end end).
  rewrite X, run_op, E by exact P. reflexivity.
Qed.
Lemma lexes_binary : forall op s1 s2 t1 t2, lexes s1 t1 -> lexes s2 t2 ->
  lexes (s1 ++ " " ++ op_text op ++ " " ++ s2) (t1 ++ TP (op_text op) :: t2).
Proof.
  intros op s1 s2 t1 t2 (a & st1 & E1 & ->) (b & st2 & E2 & ->).
  exists (a ++ flush st1 ++ TP (op_text op) :: b), st2. split; [|rewrite <- !app_assoc; reflexivity].
  rewrite run_app, E1. cbn [String.append run]. rewrite step_space.
  assert (X : run Idle (op_text op ++ String " " s2) = Some (TP (op_text op) :: b, st2)).
  { destruct op; cbn [op_text String.append run]; repeat
      (match goal with |- context [step ?st ?c] => let r := eval vm_compute in (step st c) in change (step st c) with r end; cbv beta iota zeta; cbn [run]);
      rewrite E2; reflexivity. }
  rewrite X. reflexivity.
Qed.
Lemma back_good : forall seq p l, good_names (ASeq seq) -> back_path seq p = Some l -> Forall ident l.
Proof.
  intros seq p. revert seq. induction p as [|x p IH]; intros seq l G H; cbn [back_path] in H; [discriminate|].
  destruct (find _ seq) as [[ch k]|] eqn:F; [|discriminate]. apply find_some in F as [F _].
  assert (ident (cback ch) /\ good_names k) as [G1 G2].
  { clear -G F. cbn [good_names] in G. induction seq as [|[c k'] seq IHs]; [destruct F|].
    destruct G as (A & B & C). destruct F as [F|F]; [|now apply IHs]. assert (c = ch) by congruence. assert (k' = k) by congruence. subst. auto. }
  destruct (cacn ch); [discriminate|]. destruct k; try discriminate; try (assert (l = [cback ch]) by congruence; subst; repeat constructor; exact G1).
  destruct (1 <? List.length p)%nat; [|discriminate]. destruct (back_path l0 p) as [l1|] eqn:E; [|discriminate].
  assert (l = cback ch :: l1) by (cbn in H; congruence). subst. constructor; [exact G1|]. eapply IH; [|exact E]. exact G2.
Qed.
Lemma ident_cons : forall s, ident s -> exists c s', s = String c s' /\ is_alnum c = true.
Proof. intros [|c s] H; [destruct H|]. exists c, s. split; [reflexivity|]. apply alpha_alnum. apply H. Qed.

Lemma print_lexes : forall seq root base e p s, plain e -> good_names (ASeq seq) -> ident root -> Forall ident base ->
  print_exp seq root base e = Some (p, s) ->
  p = prio e /\ lexes s (toks (resolve seq base) root e) /\ exists c s', s = String c s' /\ (p = 0 -> is_alnum c = true).
Proof.
  intros seq root base e. induction e as [n|s0|t|b|q|e IH|e IH|op e1 IH1 e2 IH2]; intros p s P G R B H; cbn [print_exp] in H; cbn [plain] in P.
  - assert (p = 0 /\ s = dec_text n) as [-> ->] by (split; congruence). split; [reflexivity|]. split; [apply lexes_dec; exact P|].
    destruct (dec_digits n P) as (c & s & -> & D & _). exists c, s. split; [reflexivity|]. intros _. now apply digit_alnum.
  - destruct P.
  - assert (p = 0 /\ s = t) as [-> ->] by (split; congruence). split; [reflexivity|]. split; [apply lexes_real; exact P|].
    destruct P as (a & i & f & sg & x & A & _ & _ & _ & _ & ->). eexists a, _. split; [reflexivity|]. intros _. now apply digit_alnum.
  - assert (p = 0 /\ s = (if b then "true" else "false")%string) as [-> ->] by (split; congruence).
    split; [reflexivity|]. destruct b.
    + split; [eexists; eexists; split; reflexivity|]. eexists _, _. split; [reflexivity|reflexivity].
    + split; [eexists; eexists; split; reflexivity|]. eexists _, _. split; [reflexivity|reflexivity].
  - destruct (back_path seq q) as [l|] eqn:E; [|discriminate]. assert (p = 0 /\ s = joined root (base ++ l)) as [-> ->] by (split; congruence).
    split; [reflexivity|]. assert (F : Forall ident (base ++ l)) by (apply Forall_app; split; [exact B|eapply back_good; eauto]).
    split; [cbn [toks]; unfold resolve; rewrite E; apply lexes_path; assumption|].
    destruct (ident_cons _ R) as (c & s' & -> & A). destruct (base ++ l); cbn [joined String.append]; eexists c, _; (split; [reflexivity|auto]).
  - destruct (print_exp seq root base e) as [[p1 s1]|] eqn:E; [|discriminate]. destruct (IH _ _ P G R B eq_refl) as (-> & L & c & s' & -> & A).
    cbn [printUnary fst snd] in H. unfold printUnary in H. cbn [fst snd] in H. cbn [toks prio].
    destruct (1 <=? prio e) eqn:Q; cbn [wrap].
    + assert (p = 1 /\ s = String "!" (paren (String c s'))) as [-> ->] by (split; unfold paren; cbn [String.append] in *; congruence).
      split; [reflexivity|]. split; [|eexists _, _; split; [reflexivity|lia]].
      unfold paren. cbn [String.append]. apply lexes_unary; [auto|apply pair_open|]. apply (lexes_paren (String c s')); [discriminate|exact L].
    + assert (p = 1 /\ s = String "!" (String c s')) as [-> ->] by (split; cbn [String.append] in *; congruence).
      split; [reflexivity|]. split; [|eexists _, _; split; [reflexivity|lia]].
      apply lexes_unary; [auto| |exact L]. apply pair_alnum. apply A. destruct e; cbn [prio] in *; try lia. destruct op; cbn in *; lia.
  - destruct (print_exp seq root base e) as [[p1 s1]|] eqn:E; [|discriminate]. destruct (IH _ _ P G R B eq_refl) as (-> & L & c & s' & -> & A).
    unfold printUnary in H. cbn [fst snd] in H. cbn [toks prio].
    destruct (1 <=? prio e) eqn:Q; cbn [wrap].
    + assert (p = 1 /\ s = String "-" (paren (String c s'))) as [-> ->] by (split; unfold paren; cbn [String.append] in *; congruence).
      split; [reflexivity|]. split; [|eexists _, _; split; [reflexivity|lia]].
      unfold paren. cbn [String.append]. apply lexes_unary; [auto|apply pair_open|]. apply (lexes_paren (String c s')); [discriminate|exact L].
    + assert (p = 1 /\ s = String "-" (String c s')) as [-> ->] by (split; cbn [String.append] in *; congruence).
      split; [reflexivity|]. split; [|eexists _, _; split; [reflexivity|lia]].
      apply lexes_unary; [auto| |exact L]. apply pair_alnum. apply A. destruct e; cbn [prio] in *; try lia. destruct op; cbn in *; lia.
  - destruct P as [P1 P2]. destruct (print_exp seq root base e1) as [[p1 s1]|]; [|discriminate].
    destruct (print_exp seq root base e2) as [[p2 s2]|]; [|discriminate].
    destruct (IH1 _ _ P1 G R B eq_refl) as (-> & L1 & c1 & r1 & -> & _). destruct (IH2 _ _ P2 G R B eq_refl) as (-> & L2 & c2 & r2 & -> & _).
    unfold printBinary in H. cbn [fst snd] in H. cbn [toks prio].
    assert (W : forall b c r ts, lexes (String c r) ts -> lexes (if (b : bool) then paren (String c r) else String c r) (wrap b ts)).
    { intros [] c r ts X; [|exact X]. apply lexes_paren; [discriminate|exact X]. }
    assert (p = op_prio op) by congruence. subst p. split; [reflexivity|].
    match type of H with Some (_, ?x) = _ => assert (s = x) by congruence end. subst s. clear H.
    split; [apply lexes_binary; apply W; assumption|].
    destruct (op_prio op <=? prio e1); unfold paren; cbn [String.append]; eexists _, _; (split; [reflexivity|destruct op; cbn; lia]).
Qed.

Definition glevel (e : aexp) : nat :=
  match e with ENot _ | EMinus _ => 1 | EBin OOr _ _ => 7 | EBin op _ _ => Z.to_nat (op_prio op) | _ => 0 end.
Lemma toks_derive : forall f root e, plain e -> derives (glevel e) (toks f root e) (tree_of f root e).
Proof.
  intros f root e. induction e as [n|s0|t|b|q|e IH|e IH|op e1 IH1 e2 IH2]; intros P; cbn [plain] in P; cbn [toks tree_of].
  - apply d_num.
  - destruct P.
  - apply d_num.
  - apply d_id.
  - apply derives_path.
  - apply d_un; [cbn; tauto|]. unfold wrap. destruct (1 <=? prio e) eqn:Q.
    + apply d_up. apply d_paren. eapply derives_up; [|exact (IH P)]. destruct e as [| | | | | | |[]]; cbn; lia.
    + eapply derives_up; [|exact (IH P)]. destruct e as [| | | | | | |[]]; cbn in *; lia.
  - apply d_un; [cbn; tauto|]. unfold wrap. destruct (1 <=? prio e) eqn:Q.
    + apply d_up. apply d_paren. eapply derives_up; [|exact (IH P)]. destruct e as [| | | | | | |[]]; cbn; lia.
    + eapply derives_up; [|exact (IH P)]. destruct e as [| | | | | | |[]]; cbn in *; lia.
  - destruct P as [P1 P2].
    assert (W : forall e, derives (glevel e) (toks f root e) (tree_of f root e) -> derives (Z.to_nat (op_prio op - 1)) (wrap (op_prio op <=? prio e) (toks f root e)) (tree_of f root e)).
    { intros e D. unfold wrap. destruct (op_prio op <=? prio e) eqn:Q.
      - apply (derives_up 0); [lia|]. apply d_paren. eapply derives_up; [|exact D]. destruct e as [| | | | | | |[]]; cbn; lia.
      - eapply derives_up; [|exact D]. destruct op, e as [| | | | | | |[]]; cbn in *; lia. }
    specialize (W e1 (IH1 P1)) as W1. specialize (W e2 (IH2 P2)) as W2. clear W.
    assert (X : op_text op = c_op op) by (destruct op; reflexivity). rewrite X. clear X.
    destruct op; apply d_bin; try reflexivity; (eapply derives_up; [|eassumption]; cbn; lia).
Qed.
Lemma text : forall seq root base e s, plain e -> good_names (ASeq seq) -> ident root -> Forall ident base ->
  acnExpressionToBackendExpression seq root base e = Some s -> means s (tree_of (resolve seq base) root e).
Proof.
  intros seq root base e s P G R B H. unfold acnExpressionToBackendExpression in H.
  destruct (print_exp seq root base e) as [[p s']|] eqn:E; [|discriminate].
  assert (s' = s) by (cbn in H; congruence). subst s'.
  destruct (print_lexes _ _ _ _ _ _ P G R B E) as (_ & L & _).
  exists (toks (resolve seq base) root e). split; [apply lexes_tokens; exact L|].
  assert (D : derives 7 (toks (resolve seq base) root e) (tree_of (resolve seq base) root e)).
  { eapply derives_up; [|apply toks_derive; exact P]. destruct e as [| | | | | | |[]]; cbn; lia. }
  intros e'. split; [intros D'; eapply unambiguous; eassumption|intros ->; exact D].
Qed.
