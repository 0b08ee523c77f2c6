(** Proofs about the printed constants: numbers, bytes and strings. *)
From Verif Require Import Base Bits CExpr AcnExpr AcnExprSpec AcnExprProofs AcnExprProofs2 AcnExprProofs3 CInit Consts ConstsSpec ConstsProofs.
From Coq Require Import String Ascii.
From Coq Require DecimalString DecimalZ DecimalFacts.
Local Open Scope Z_scope.

(** * Decimal numbers *)
Lemma dec_shape : forall n, 0 < n -> exists c s, dec_text n = String c s /\ is_digit c = true /\ c <> "0"%char /\ all_chars is_digit s = true.
Proof.
  intros n H. unfold dec_text.
  assert (exists d, Z.to_int n = Decimal.Pos d) as (d & E) by (destruct n; [lia|eexists; reflexivity|lia]).
  assert (N : Decimal.norm (Z.to_int n) = Z.to_int n) by (rewrite <- DecimalZ.to_of, DecimalZ.of_to; reflexivity).
  rewrite E in N. cbn [Decimal.norm] in N. unfold Decimal.unorm in N.
  assert (NZ : forall u, d <> Decimal.D0 u).
  { intros u ->. cbn [Decimal.nzhead] in N. destruct (Decimal.nzhead u) eqn:Z0.
    - injection N as <-. assert (n = Z.of_int (Z.to_int n)) by (symmetry; apply DecimalZ.of_to).
      rewrite E in H0. cbn in H0. lia.
    - injection N as N. eapply DecimalFacts.nzhead_nonzero. rewrite Z0. reflexivity.
    - discriminate N. - discriminate N. - discriminate N. - discriminate N. - discriminate N.
    - discriminate N. - discriminate N. - discriminate N. - discriminate N. }
  assert (NN : d <> Decimal.Nil).
  { intros ->. discriminate N. }
  rewrite E. cbn [DecimalString.NilZero.string_of_int]. unfold DecimalString.NilZero.string_of_uint.
  destruct d; [congruence|exfalso; eapply NZ; reflexivity|..];
    match goal with |- exists c s, ?t = _ /\ _ => let t' := eval cbn in t in
      match t' with String ?c ?s => exists c, s end end;
    (split; [reflexivity|split; [reflexivity|split; [intros X; discriminate X|apply uint_digits]]]).
Qed.
Lemma dec_back : forall n, DecimalString.NilZero.int_of_string (dec_text n) = Some (Z.to_int n).
Proof. intros n. unfold dec_text. apply AcnExprProofs2.dec_of. Qed.
Lemma dec_neg : forall n, 0 < n -> dec_text (- n) = String "-" (dec_text n).
Proof. intros n H. destruct n; try lia. reflexivity. Qed.
Lemma dec_zero : dec_text 0 = "0"%string.
Proof. reflexivity. Qed.
Lemma all_digits_eq : forall s, all_digits s = all_chars is_digit s.
Proof. induction s as [|c s IH]; cbn; [reflexivity|]. now rewrite IH. Qed.
Lemma dec_val_nz : forall c s, c <> "0"%char ->
  dec_val (String c s) = if all_digits (String c s) then option_map Z.of_int (DecimalString.NilZero.int_of_string (String c s)) else None.
Proof. intros [[] [] [] [] [] [] [] []] s H; try reflexivity. congruence. Qed.
Lemma dec_val_text : forall n, 0 <= n -> dec_val (dec_text n) = Some n.
Proof.
  intros n H. assert (n = 0 \/ 0 < n) as [->|P] by lia; [reflexivity|].
  destruct (dec_shape n P) as (c & s & E & D & Z0 & A). rewrite E, dec_val_nz by assumption.
  cbn [all_digits]. rewrite all_digits_eq, D, A. cbn [andb]. rewrite <- E, dec_back. cbn [option_map]. now rewrite DecimalZ.of_to.
Qed.
Lemma digit_not : forall c d, is_digit c = true -> is_digit d = false -> (c =? d)%char = false.
Proof. intros c d H1 H2. apply Ascii.eqb_neq. intros ->. congruence. Qed.
Lemma unsuffix_app : forall d suf s, is_digit d = false -> all_chars is_digit s = true ->
  unsuffix (String d suf) (s ++ String d suf) = Some s.
Proof.
  intros d suf s D. induction s as [|c s IH]; intros H.
  - cbn [append]. unfold unsuffix. rewrite String.eqb_refl. reflexivity.
  - cbn [all_chars] in H. apply andb_true_iff in H as [H1 H2].
    change ((String c s ++ String d suf)%string) with (String c (s ++ String d suf)). cbn [unsuffix].
    assert (String.eqb (String c (s ++ String d suf)) (String d suf) = false) as ->.
    { apply String.eqb_neq. intros E. injection E as E _. subst. congruence. }
    rewrite IH by assumption. reflexivity.
Qed.
Lemma unsuffix_other : forall s, all_chars is_digit s = true -> unsuffix "UL" (s ++ "LL") = None.
Proof.
  induction s as [|c s IH]; intros H; [reflexivity|]. cbn [all_chars] in H. apply andb_true_iff in H as [H1 H2].
  change ((String c s ++ "LL")%string) with (String c (s ++ "LL")). cbn [unsuffix].
  assert (String.eqb (String c (s ++ "LL")) "UL" = false) as ->.
  { apply String.eqb_neq. intros E. injection E as E _. subst. discriminate H1. }
  rewrite IH by assumption. reflexivity.
Qed.
Lemma not_digits : forall s d t, is_digit d = false -> all_digits (s ++ String d t) = false.
Proof. induction s as [|c s IH]; intros d t H; cbn; [now rewrite H|]. rewrite IH by assumption. apply andb_false_r. Qed.
Lemma num_val_nz : forall c s, c <> "0"%char ->
  num_val (String c s) =
      match dec_val (String c s) with
      | Some n => first_type [int32; int64] n
      | None =>
          match unsuffix "UL" (String c s) with
          | Some d => match dec_val d with Some n => first_type [uint64] n | None => None end
          | None =>
              match unsuffix "LL" (String c s) with
              | Some d => match dec_val d with Some n => first_type [int64] n | None => None end
              | None => None
              end
          end
      end.
Proof. intros [[] [] [] [] [] [] [] []] s H; try reflexivity. congruence. Qed.
Lemma num_plain : forall n, 0 <= n -> num_val (dec_text n) = first_type [int32; int64] n.
Proof.
  intros n H. assert (n = 0 \/ 0 < n) as [->|P] by lia; [reflexivity|].
  destruct (dec_shape n P) as (c & s & E & D & Z0 & A). rewrite E, num_val_nz by assumption. rewrite <- E, dec_val_text by assumption. reflexivity.
Qed.
Lemma num_ul : forall n, 0 <= n -> num_val (dec_text n ++ "UL") = first_type [uint64] n.
Proof.
  intros n H. assert (n = 0 \/ 0 < n) as [->|P] by lia; [reflexivity|].
  destruct (dec_shape n P) as (c & s & E & D & Z0 & A). rewrite E. change ((String c s ++ "UL")%string) with (String c (s ++ "UL")).
  rewrite num_val_nz, dec_val_nz by assumption.
  change (String c (s ++ "UL")) with ((String c s ++ "UL")%string). rewrite (not_digits (String c s) "U" "L" eq_refl).
  rewrite unsuffix_app; [|reflexivity|cbn [all_chars]; now rewrite D, A]. rewrite <- E, dec_val_text by assumption. reflexivity.
Qed.
Lemma num_ll : forall n, 0 <= n -> num_val (dec_text n ++ "LL") = first_type [int64] n.
Proof.
  intros n H. assert (n = 0 \/ 0 < n) as [->|P] by lia; [reflexivity|].
  destruct (dec_shape n P) as (c & s & E & D & Z0 & A). rewrite E. change ((String c s ++ "LL")%string) with (String c (s ++ "LL")).
  rewrite num_val_nz, dec_val_nz by assumption.
  change (String c (s ++ "LL")) with ((String c s ++ "LL")%string). rewrite (not_digits (String c s) "L" "L" eq_refl).
  rewrite unsuffix_other by (cbn [all_chars]; now rewrite D, A).
  rewrite unsuffix_app; [|reflexivity|cbn [all_chars]; now rewrite D, A]. rewrite <- E, dec_val_text by assumption. reflexivity.
Qed.
Lemma all_chars_app : forall f a b, all_chars f (a ++ b) = all_chars f a && all_chars f b.
Proof. induction a as [|c a IH]; intros b; cbn; [reflexivity|]. rewrite IH. apply andb_assoc. Qed.
Lemma digits_alnum : forall s, all_chars is_digit s = true -> all_chars is_alnum s = true.
Proof.
  induction s as [|c s IH]; intros H; [reflexivity|]. cbn [all_chars] in *. apply andb_true_iff in H as [H1 H2].
  now rewrite (digit_alnum _ H1), IH.
Qed.
Lemma lexes_nat : forall n suf, 0 <= n -> all_chars is_alnum suf = true -> lexes (dec_text n ++ suf) [KNum (dec_text n ++ suf)].
Proof.
  intros n suf H S. destruct (dec_digits n H) as (c & s & E & H1 & H2). rewrite E.
  change ((String c s ++ suf)%string) with (String c (s ++ suf)). apply lexes_num; [assumption|].
  rewrite all_chars_app, S, digits_alnum by assumption. reflexivity.
Qed.
Lemma minus_digit : forall c, is_digit c = true -> kpair "-" c = false.
Proof. intros [[] [] [] [] [] [] [] []] H; first [discriminate H | reflexivity]. Qed.
Lemma lexes_minus : forall c s, is_digit c = true -> lexes (String c s) [KNum (String c s)] -> lexes (String "-" (String c s)) [KP "-"; KNum (String c s)].
Proof.
  intros c s D L b rest ts' B E. specialize (L b rest ts' B E).
  change ((String "-" (String c s) ++ String b rest)%string) with (String "-" (String c (s ++ String b rest))).
  change ((String c s ++ String b rest)%string) with (String c (s ++ String b rest)) in L.
  cbn [klex] in *. change (kstep LIdle "-") with (Some (@nil ktok, LOp "-")). cbv iota beta.
  unfold kstep in *. rewrite (minus_digit _ D). rewrite (digit_kstart _ D) in *. cbn [kflush app] in *.
  destruct (klex (LNum (chr1 c) c) _); [|discriminate]. injection L as ->. reflexivity.
Qed.
Lemma lexes_neg : forall n suf, 0 < n -> all_chars is_alnum suf = true -> lexes (dec_text (- n) ++ suf) [KP "-"; KNum (dec_text n ++ suf)].
Proof.
  intros n suf H S. rewrite (dec_neg n H). destruct (dec_digits n ltac:(lia)) as (c & s & E & H1 & H2).
  change ((String "-" (dec_text n) ++ suf)%string) with (String "-" (dec_text n ++ suf)).
  pose proof (lexes_nat n suf ltac:(lia) S) as L. rewrite E in *. change ((String c s ++ suf)%string) with (String c (s ++ suf)) in *.
  now apply lexes_minus.
Qed.
