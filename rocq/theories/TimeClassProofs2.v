(** More proofs about the SETTINGS of TIME types: words with blanks between them, fractions. *)
From Coq Require Import List Ascii Bool Arith ZArith Lia String Permutation.
From Verif Require Import Time TimeSpec TimeProofs TimeClass TimeClassSpec TimeClassProofs.
Import ListNotations.
Local Open Scope list_scope.

(** * Words with blanks after them *)
Lemma filter_all : forall A (f : A -> bool) l, (forall x, In x l -> f x = true) -> filter f l = l.
Proof.
  induction l as [|x l IH]; intros H; [reflexivity|]. cbn [filter]. rewrite (H x (or_introl eq_refl)). f_equal. apply IH.
  intros y Y. apply H. now right.
Qed.
Lemma spaced_squash : forall c p (n : nat -> nat) i, (forall w, In w p -> In w (words c)) ->
  squash (spaced n i p) = List.concat (map list_ascii_of_string p) /\ forall x, In x (spaced n i p) -> other_space x = false.
Proof.
  intros c p n. induction p as [|w p IH]; intros i H; [split; [reflexivity|intros; contradiction]|].
  cbn [spaced map List.concat]. destruct (IH (S i) (fun w' W => H w' (or_intror W))) as (A & B').
  pose proof (words_no_space c w (H w (or_introl eq_refl))) as NS. split.
  - unfold squash in *. rewrite !filter_app, A. f_equal.
    + apply filter_all. intros x X. now rewrite (NS x X).
    + replace (filter _ (repeat " "%char (n i))) with (@nil ascii); [reflexivity|]. clear. induction (n i) as [|k IH]; [reflexivity|exact IH].
  - intros x X. apply in_app_or in X as [X|X]; [|apply in_app_or in X as [X|X]].
    + apply NS in X. rewrite space_other in X. now apply orb_false_iff in X.
    + apply repeat_spec in X. now subst.
    + now apply B'.
Qed.
Theorem settings_words : forall c p n, precision c = 0%Z -> Permutation (words c) p -> settings (spaced n 0 p) = TOk c.
Proof.
  intros c p n P W. destruct (spaced_squash c p n 0) as (A & B').
  { intros w I. eapply Permutation_in; [apply Permutation_sym; exact W|exact I]. }
  apply settings_iff. split; [apply laid_runs; apply others_fine; [now left|exact B']|].
  split; [exact P|]. exists p. split; [exact W|]. now apply dense_spec.
Qed.

(** * Fractions *)
Fixpoint tight (prev : ascii) (s : text) : bool :=
  match s with
  | [] => true
  | c :: r => negb ((prev =? "=")%char && is_space c) && negb (is_space prev && (c =? "=")%char) && tight c r
  end.
Lemma tight_app : forall a p x y b, tight p (a ++ [x; y] ++ b) = true -> (x = "="%char /\ is_space y = true) \/ (is_space x = true /\ y = "="%char) -> False.
Proof.
  induction a as [|c a IH]; intros p x y b H D.
  - cbn [app tight] in H. rewrite !andb_true_iff, !negb_true_iff in H. destruct H as (_ & ((H1 & H2) & _)).
    destruct D as [(-> & S)|(S & ->)]; rewrite S in *; rewrite ?Ascii.eqb_refl in *; discriminate.
  - cbn [app tight] in H. rewrite andb_true_iff in H. destruct H as (_ & H). exact (IH c x y b H D).
Qed.
Lemma tight_clean : forall p s, tight p s = true -> clean s.
Proof.
  intros p s H q I. destruct (contains q s) eqn:C; [|reflexivity]. exfalso. apply index_spec in C as (a & b & ->).
  cbn [In patterns] in I. unfold eqc in I.
  destruct I as [<-|[<-|[<-|[<-|[<-|[<-|[<-|[<-|[<-|[<-|[]]]]]]]]]]];
    try solve [eapply tight_app; [exact H|auto]].
  change (a ++ [cr; lf; "="%char] ++ b) with (a ++ [cr] ++ [lf; "="%char] ++ b) in H. rewrite app_assoc in H.
  eapply tight_app; [exact H|]. right. split; reflexivity.
Qed.
Lemma tight_step : forall a p b, tight p (a ++ b) = tight p a && tight (last a p) b.
Proof.
  induction a as [|c a IH]; intros p b; [reflexivity|]. cbn [app tight]. rewrite IH, andb_assoc. f_equal.
  destruct a as [|d a]; [reflexivity|]. cbn [last]. clear. revert d. induction a as [|e a IH]; intros d; [reflexivity|]. cbn [last]. apply IH.
Qed.
Lemma digits_tight : forall d p, (p =? "=")%char = false -> is_space p = false -> (forall x, In x d -> exists z, digit_char x z) ->
  tight p d = true /\ (last d p =? "=")%char = false /\ is_space (last d p) = false.
Proof.
  induction d as [|c d IH]; intros p A B' H; [cbn; auto|].
  destruct (H c (or_introl eq_refl)) as (z & D). assert (C1 : (c =? "=")%char = false) by (apply Ascii.eqb_neq; exact (digit_ne _ _ "="%char D eq_refl)).
  assert (C2 : is_space c = false).
  { destruct (is_space c) eqn:S; [|reflexivity]. apply is_space_spec in S. exfalso.
    destruct S as [->|[->|[->| ->]]]; apply digit_spec in D; discriminate D. }
  destruct (IH c C1 C2 (fun x X => H x (or_intror X))) as (T & L1 & L2). split.
  - cbn [tight]. now rewrite A, B', T.
  - replace (last (c :: d) p) with (last d c); [split; assumption|]. destruct d as [|e d]; [reflexivity|]. cbn [last]. clear.
    revert e. induction d as [|g d IH]; intros e; [reflexivity|]. cbn [last]. apply IH.
Qed.
Theorem settings_fraction : forall d, (forall x, In x d -> exists z, digit_char x z) ->
  settings (TimeClass.tx "Basic=Time Time=HMSF" ++ d ++ TimeClass.tx " Local-or-UTC=L") = Crash.
Proof.
  intros d D. change (TimeClass.tx "Basic=Time Time=HMSF") with (TimeClass.tx "Basic=Time " ++ TimeClass.tx "Time=HMSF"). rewrite <- app_assoc.
  apply settings_crash; [discriminate| |reflexivity].
  apply (tight_clean "x"). rewrite app_assoc, tight_step. apply andb_true_iff. split; [reflexivity|].
  change (last (TimeClass.tx "Basic=Time " ++ TimeClass.tx "Time=HMSF") "x"%char) with "F"%char.
  destruct (digits_tight d "F"%char eq_refl eq_refl D) as (T & L1 & L2). rewrite tight_step, T. cbn [andb].
  set (l := last d "F"%char) in *. change (TimeClass.tx " Local-or-UTC=L") with (" "%char :: TimeClass.tx "Local-or-UTC=L").
  cbn [tight]. rewrite L1, L2. reflexivity.
Qed.
Theorem settings_precision : forall s c, settings s = TOk c -> precision c = 0%Z.
Proof. intros s c H. apply settings_iff in H. now destruct H as (_ & P & _). Qed.
