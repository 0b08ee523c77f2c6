(** Proofs about the printed constants: the grammar of initializers is unambiguous, and the
    lexical structure of the printed pieces. *)
From Verif Require Import Base Bits CExpr AcnExpr AcnExprSpec AcnExprProofs CInit Consts ConstsSpec.
From Coq Require Import String Ascii.
From Coq Require DecimalString DecimalZ DecimalFacts.
Local Open Scope Z_scope.

(** * The grammar is unambiguous *)
Scheme reads_mut := Minimality for reads Sort Prop
  with items_mut := Minimality for items Sort Prop
  with item_mut := Minimality for item Sort Prop.
Combined Scheme reads_all from reads_mut, items_mut, item_mut.
Lemma no_close : forall gnu,
  (forall ts i rest, reads gnu ts i rest -> forall r, ts <> KP "}" :: r) /\
  (forall ts l rest, items gnu ts l rest -> forall r, ts <> KP "}" :: r) /\
  (forall ts x rest, item gnu ts x rest -> forall r, ts <> KP "}" :: r).
Proof. intros gnu. apply reads_all; intros; try discriminate; auto. Qed.
Lemma no_dot : forall gnu ts i rest, reads gnu ts i rest -> forall r, ts <> KP "." :: r.
Proof. intros gnu ts i rest H. destruct H; discriminate. Qed.
Lemma reads_det : forall gnu,
  (forall ts i rest, reads gnu ts i rest -> forall i' rest', reads gnu ts i' rest' -> i' = i /\ rest' = rest) /\
  (forall ts l rest, items gnu ts l rest -> forall l' rest', items gnu ts l' rest' -> l' = l /\ rest' = rest) /\
  (forall ts x rest, item gnu ts x rest -> forall x' rest', item gnu ts x' rest' -> x' = x /\ rest' = rest).
Proof.
  intros gnu. apply reads_all.
  - intros s ts i' rest' H. inversion H; subst. auto.
  - intros s ts i' rest' H. inversion H; subst. auto.
  - intros s ts K i' rest' H. inversion H; subst. auto.
  - intros l ts l' ts' A i' rest' H. inversion H; subst. assert (X : (l'0, rest') = (l', ts')) by congruence.
    injection X as -> ->. auto.
  - intros ts l rest H IH i' rest' H'. inversion H'; subst.
    + match goal with X : items _ _ _ rest' |- _ => destruct (IH _ _ X) as [-> ->] end. auto.
    + exfalso. eapply (proj1 (proj2 (no_close _))); [exact H|reflexivity].
  - intros rest G i' rest' H'. inversion H'; subst; auto.
    exfalso. match goal with X : items _ _ _ _ |- _ => eapply (proj1 (proj2 (no_close _))); [exact X|reflexivity] end.
  - intros ts x rest H IH l' rest' H'. inversion H'; subst;
      match goal with X : item _ _ _ _ |- _ => destruct (IH _ _ X) as [E1 E2] end; try discriminate E2.
    injection E2 as ->. subst. auto.
  - intros ts x rest H IH l' rest' H'. inversion H'; subst;
      match goal with X : item _ _ _ _ |- _ => destruct (IH _ _ X) as [E1 E2] end; try discriminate E2.
    + injection E2 as ->. subst. auto.
    + exfalso. injection E2 as ->. match goal with X : items _ _ _ _ |- _ => eapply (proj1 (proj2 (no_close _))); [exact X|reflexivity] end.
  - intros ts x ts' l rest H IH Hl IHl l' rest' H'. inversion H'; subst;
      match goal with X : item _ _ _ _ |- _ => destruct (IH _ _ X) as [E1 E2] end; try discriminate E2.
    + exfalso. injection E2 as <-. eapply (proj1 (proj2 (no_close _))); [exact Hl|reflexivity].
    + injection E2 as ->. match goal with X : items _ _ _ _ |- _ => destruct (IHl _ _ X) as [-> ->] end. subst. auto.
  - intros ts i rest H IH x' rest' H'. inversion H'; subst.
    + match goal with X : reads _ _ _ _ |- _ => destruct (IH _ _ X) as [-> ->] end. auto.
    + exfalso. exact (no_dot _ _ _ _ H _ eq_refl).
  - intros m ts i rest K H IH x' rest' H'. inversion H'; subst.
    + exfalso. match goal with X : reads _ _ _ _ |- _ => exact (no_dot _ _ _ _ X _ eq_refl) end.
    + match goal with X : reads _ _ _ _ |- _ => destruct (IH _ _ X) as [-> ->] end. auto.
Qed.
Lemma declares_det : forall gnu text T x i i', declares gnu text T x i -> declares gnu text T x i' -> i' = i.
Proof.
  intros gnu text T x i i' (_ & _ & ts & E & R) (_ & _ & ts' & E' & R'). rewrite E in E'. injection E' as <-.
  destruct (reads_det gnu) as (D & _). exact (proj1 (D _ _ _ R _ _ R')).
Qed.

(** * Lexical structure *)
Definition breaker (c : ascii) : bool := is_blank c || existsb (fun d => (c =? d)%char) [","; "}"; ";"]%char.
(** [s] gives the tokens [ts] wherever a separator follows. *)
Definition lexes (s : string) (ts : list ktok) : Prop :=
  forall c rest ts', breaker c = true -> klex LIdle (String c rest) = Some ts' ->
    klex LIdle (s ++ String c rest) = Some (ts ++ ts').
Lemma fresh_step : forall st c, breaker c = true ->
  (st = LIdle \/ (exists a, st = LId a) \/ (exists a l, st = LNum a l) \/ (exists o, st = LOp o)) ->
  kstep st c = match kstart c with Some st' => Some (kflush st, st') | None => None end.
Proof.
  intros st c B H. assert (C : In c [" "; "009"; "010"; "013"; ","; "}"; ";"]%char).
  { revert B. clear. destruct c as [[] [] [] [] [] [] [] []]; intro B; first [discriminate B | cbn; tauto]. }
  destruct H as [->|[(a & ->)|[(a & l & ->)|(o & ->)]]]; unfold kstep; [reflexivity| | |].
  - cbn in C. repeat (destruct C as [<-|C]; [reflexivity|]). destruct C.
  - cbn in C. repeat (destruct C as [<-|C]; [cbn; rewrite ?andb_false_r; reflexivity|]). destruct C.
  - cbn in C. repeat (destruct C as [<-|C]; [unfold kpair; cbn [existsb fst snd]; cbn; rewrite ?andb_false_r; reflexivity|]). destruct C.
Qed.
Lemma flush_break : forall st c rest ts', breaker c = true ->
  (st = LIdle \/ (exists a, st = LId a) \/ (exists a l, st = LNum a l) \/ (exists o, st = LOp o)) ->
  klex LIdle (String c rest) = Some ts' -> klex st (String c rest) = Some (kflush st ++ ts').
Proof.
  intros st c rest ts' B H E. cbn [klex] in *. rewrite (fresh_step st c B H).
  rewrite (fresh_step LIdle c B (or_introl eq_refl)) in E. destruct (kstart c) as [st'|]; [|discriminate].
  cbn [kflush app] in E. destruct (klex st' rest) as [ts|]; [|discriminate]. injection E as <-. reflexivity.
Qed.
Lemma klex_id : forall s a rest, all_chars is_alnum s = true -> klex (LId a) (s ++ rest) = klex (LId (a ++ s)) rest.
Proof.
  induction s as [|c s IH]; intros a rest H; [now rewrite append_nil_r|].
  cbn [all_chars] in H. apply andb_true_iff in H as [H1 H2].
  change ((String c s ++ rest)%string) with (String c (s ++ rest)). cbn [klex]. unfold kstep. rewrite H1. cbn [app].
  rewrite IH by assumption. rewrite app_one. destruct (klex _ rest); reflexivity.
Qed.
Lemma klex_num : forall s a l rest, all_chars is_alnum s = true -> exists l', klex (LNum a l) (s ++ rest) = klex (LNum (a ++ s) l') rest.
Proof.
  induction s as [|c s IH]; intros a l rest H; [exists l; now rewrite append_nil_r|].
  cbn [all_chars] in H. apply andb_true_iff in H as [H1 H2].
  change ((String c s ++ rest)%string) with (String c (s ++ rest)). cbn [klex]. unfold kstep. rewrite H1. cbn [orb app].
  destruct (IH (a ++ chr1 c)%string c rest H2) as (l' & ->). exists l'. rewrite app_one. destruct (klex _ rest); reflexivity.
Qed.
Lemma alpha_kstart : forall c, is_alpha c = true -> kstart c = Some (LId (chr1 c)).
Proof. intros [[] [] [] [] [] [] [] []] H; first [discriminate H | reflexivity]. Qed.
Lemma digit_kstart : forall c, is_digit c = true -> kstart c = Some (LNum (chr1 c) c).
Proof. intros [[] [] [] [] [] [] [] []] H; first [discriminate H | reflexivity]. Qed.
Lemma lexes_ident : forall s, ident s -> lexes s [KId s].
Proof.
  intros [|c s] H; [destruct H|]. destruct H as [H1 H2]. intros b rest ts' B E.
  change ((String c s ++ String b rest)%string) with (String c (s ++ String b rest)). cbn [klex]. unfold kstep.
  rewrite (alpha_kstart _ H1). cbn [kflush app]. rewrite klex_id by assumption. change (chr1 c ++ s)%string with (String c s).
  rewrite (flush_break _ b rest ts'); auto. right. left. eauto.
Qed.
Lemma lexes_num : forall c s, is_digit c = true -> all_chars is_alnum s = true -> lexes (String c s) [KNum (String c s)].
Proof.
  intros c s H1 H2 b rest ts' B E.
  change ((String c s ++ String b rest)%string) with (String c (s ++ String b rest)). cbn [klex]. unfold kstep.
  rewrite (digit_kstart _ H1). cbn [kflush app]. destruct (klex_num s (chr1 c) c (String b rest) H2) as (l' & ->).
  change (chr1 c ++ s)%string with (String c s).
  rewrite (flush_break _ b rest ts'); auto. right. right. left. eauto.
Qed.
Lemma string_assoc : forall a b c : string, ((a ++ b) ++ c = a ++ (b ++ c))%string.
Proof. induction a as [|x a IH]; intros b c; cbn; [reflexivity|]. now rewrite IH. Qed.
(** A text that follows other tokens. *)
Lemma lexes_app : forall s1 ts1 c s2 ts2, breaker c = true -> lexes s1 ts1 -> lexes (String c s2) ts2 -> lexes (s1 ++ String c s2) (ts1 ++ ts2).
Proof.
  intros s1 ts1 c s2 ts2 B H1 H2 b rest ts' Bb E. rewrite string_assoc.
  change ((String c s2 ++ String b rest)%string) with (String c (s2 ++ String b rest)).
  rewrite <- app_assoc. apply H1; [exact B|]. apply (H2 b rest ts' Bb E).
Qed.
(** Texts before another: a blank or separator at the end. *)
Definition opens (s : string) (ts : list ktok) : Prop :=
  forall rest ts', klex LIdle rest = Some ts' -> klex LIdle (s ++ rest) = Some (ts ++ ts').
Lemma opens_lexes : forall s1 ts1 s2 ts2, opens s1 ts1 -> lexes s2 ts2 -> lexes (s1 ++ s2) (ts1 ++ ts2).
Proof.
  intros s1 ts1 s2 ts2 H1 H2 b rest ts' B E. rewrite string_assoc, <- app_assoc. apply H1. now apply H2.
Qed.
Lemma opens_app : forall s1 ts1 s2 ts2, opens s1 ts1 -> opens s2 ts2 -> opens (s1 ++ s2) (ts1 ++ ts2).
Proof. intros s1 ts1 s2 ts2 H1 H2 rest ts' E. rewrite string_assoc, <- app_assoc. apply H1. now apply H2. Qed.
Lemma lexes_opens : forall s1 ts1 c s2 ts2, breaker c = true -> lexes s1 ts1 -> opens (String c s2) ts2 -> opens (s1 ++ String c s2) (ts1 ++ ts2).
Proof.
  intros s1 ts1 c s2 ts2 B H1 H2 rest ts' E. rewrite string_assoc, <- app_assoc.
  change ((String c s2 ++ rest)%string) with (String c (s2 ++ rest)). apply H1; [exact B|]. now apply H2.
Qed.
Lemma opens_nil : opens "" [].
Proof. intros rest ts' E. exact E. Qed.
(** A brace or comma, whatever follows. *)
Definition solo (c : ascii) : bool := existsb (fun d => (c =? d)%char) ["{"; "}"; ","; ";"]%char.
Lemma solo_pair : forall c d, solo c = true -> kpair c d = false.
Proof.
  intros c d H. assert (In c ["{"; "}"; ","; ";"]%char) as C.
  { revert H. clear. destruct c as [[] [] [] [] [] [] [] []]; intro B; first [discriminate B | cbn; tauto]. }
  cbn in C. repeat (destruct C as [<-|C]; [reflexivity|]). destruct C.
Qed.
Lemma klex_solo : forall c rest, solo c = true -> klex (LOp c) rest = match klex LIdle rest with Some ts => Some (KP c :: ts) | None => None end.
Proof.
  intros c [|d rest] H; [reflexivity|]. cbn [klex]. unfold kstep. rewrite (solo_pair _ _ H).
  destruct (kstart d) as [st|]; [|reflexivity]. cbn [kflush app]. destruct (klex st rest); reflexivity.
Qed.
Lemma opens_solo : forall c, solo c = true -> opens (String c "") [KP c].
Proof.
  intros c H rest ts' E. change ((String c "" ++ rest)%string) with (String c rest). cbn [klex]. unfold kstep.
  assert (kstart c = Some (LOp c)) as ->.
  { revert H. clear. destruct c as [[] [] [] [] [] [] [] []]; intro B; first [discriminate B | reflexivity]. }
  cbn [kflush]. rewrite (klex_solo _ _ H), E. reflexivity.
Qed.
Lemma opens_blank : forall c, is_blank c = true -> opens (String c "") [].
Proof.
  intros c H rest ts' E. change ((String c "" ++ rest)%string) with (String c rest). cbn [klex]. unfold kstep, kstart. rewrite H.
  cbn [kflush app]. now rewrite E.
Qed.
Lemma opens_lexes0 : forall s ts, opens s ts -> lexes s ts.
Proof. intros s ts H c rest ts' B E. now apply H. Qed.
(** A constant piece of a template, of separators and members. *)
Fixpoint pieces (l : list string) : string := match l with [] => EmptyString | x :: l => (x ++ pieces l)%string end.
Lemma opens_eq : opens "= " [KP "="].
Proof. intros rest ts' E. change ("= " ++ rest)%string with (String "=" (String " " rest)). cbn [klex].
  change (kstep LIdle "=") with (Some (@nil ktok, LOp "=")). cbv iota beta.
  change (kstep (LOp "=") " ") with (Some ([KP "="], LIdle)). cbv iota beta. rewrite E. reflexivity. Qed.
Lemma opens_member : forall m, ident m -> opens ("." ++ m ++ " = ") [KP "."; KId m; KP "="].
Proof.
  intros m H rest ts' E. rewrite !string_assoc. change ("." ++ m ++ " = " ++ rest)%string with (String "." (m ++ String " " ("= " ++ rest))).
  cbn [klex]. change (kstep LIdle ".") with (Some (@nil ktok, LOp ".")). cbv iota beta.
  assert (X : klex LIdle (m ++ String " " ("= " ++ rest)) = Some ([KId m] ++ [KP "="] ++ ts')).
  { apply lexes_ident; [assumption|reflexivity|]. change (String " " ("= " ++ rest)) with ((String " " "") ++ ("= " ++ rest))%string.
    apply (opens_blank " " eq_refl). now apply opens_eq. }
  destruct m as [|c m]; [destruct H|]. destruct H as [H1 H2].
  change ((String c m ++ String " " ("= " ++ rest))%string) with (String c (m ++ String " " ("= " ++ rest))) in X |- *.
  cbn [klex] in X |- *. unfold kstep in X |- *. rewrite (alpha_kstart _ H1) in X |- *. cbn [kflush app] in X |- *.
  assert (kpair "." c = false) as ->.
  { unfold kpair. cbn. destruct c as [[] [] [] [] [] [] [] []]; first [discriminate H1 | reflexivity]. }
  destruct (klex (LId (chr1 c)) _); [|discriminate]. injection X as ->. reflexivity.
Qed.
