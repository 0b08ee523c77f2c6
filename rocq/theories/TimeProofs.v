(** Proofs about the texts of TIME values: what is read. *)
From Coq Require Import List Ascii Bool Arith ZArith Lia ZifyBool ZifyNat String.
From Verif Require Import AcnExpr Time TimeSpec.
Import ListNotations.
Local Open Scope list_scope.
Local Open Scope Z_scope.

(** * Digits and numbers *)
Lemma digit_spec : forall c d, digit c = Some d <-> digit_char c d.
Proof.
  intros c d. unfold digit, digit_char. cbv zeta.
  destruct ((48 <=? Z.of_nat (nat_of_ascii c)) && (Z.of_nat (nat_of_ascii c) <=? 57)) eqn:E; split; intros H.
  - injection H as H. lia.
  - f_equal. lia.
  - discriminate H.
  - lia.
Qed.
Lemma is_digit_spec : forall c, is_digit c = true <-> exists d, digit_char c d.
Proof.
  intros c. unfold is_digit. destruct (digit c) as [d|] eqn:E; split; intros H; try discriminate; auto.
  - exists d. now apply digit_spec.
  - destruct H as (d & H). apply digit_spec in H. congruence.
Qed.
Lemma number_app : forall s acc t, number acc (s ++ t) = match number acc s with Some n => number n t | None => None end.
Proof.
  induction s as [|c s IH]; intros acc t; cbn [app number]; [reflexivity|]. destruct (digit c); [apply IH|reflexivity].
Qed.
Lemma number_spec : forall s n, number 0 s = Some n <-> numeral s n.
Proof.
  intros s n. split.
  - revert n. induction s as [|c s IH] using rev_ind; intros n H.
    + injection H as <-. constructor.
    + rewrite number_app in H. destruct (number 0 s) as [m|]; [|discriminate H].
      cbn [number] in H. destruct (digit c) as [d|] eqn:D; [|discriminate H]. injection H as <-.
      constructor; [now apply IH|now apply digit_spec].
  - induction 1 as [|s n c d N IH D]; [reflexivity|]. rewrite number_app, IH. cbn [number].
    apply digit_spec in D. now rewrite D.
Qed.
Lemma numeral_bound : forall s n, numeral s n -> 0 <= n < 10 ^ Z.of_nat (List.length s).
Proof.
  induction 1 as [|s n c d N IH [_ D]]; [cbn; lia|].
  rewrite app_length. cbn [List.length]. rewrite Nat.add_1_r, Nat2Z.inj_succ, Z.pow_succ_r by lia. lia.
Qed.
Lemma numeral_digits : forall s n, numeral s n -> forall x, In x s -> exists d, digit_char x d.
Proof.
  induction 1 as [|s n c d N IH D]; intros x X; [contradiction|].
  apply in_app_or in X as [X|[<-|[]]]; [auto|eauto].
Qed.
Lemma digit_ne : forall c d x, digit_char c d -> digit x = None -> c <> x.
Proof. intros c d x D N ->. apply digit_spec in D. congruence. Qed.
Lemma numeral_no : forall s n x, numeral s n -> digit x = None -> ~ In x s.
Proof. intros s n x N D I. destruct (numeral_digits _ _ N _ I) as (d & E). now apply (digit_ne _ _ _ E D). Qed.
Lemma digit_not_white : forall c d, digit_char c d -> white c = false.
Proof. intros c d [H1 H2]. unfold white. cbv zeta. lia. Qed.

Ltac nochar := first [eapply digit_ne; [eassumption|reflexivity]|eapply numeral_no; [eassumption|reflexivity]].
(** * Plain texts: no blanks and no signs *)
Definition plain (s : text) : Prop := forall c, In c s -> white c = false /\ c <> "+"%char /\ c <> "-"%char.
Lemma skip_id : forall s, (forall c, In c s -> white c = false) -> skip_white s = s.
Proof. intros [|c s] H; [reflexivity|]. cbn [skip_white]. now rewrite (H c (or_introl eq_refl)). Qed.
Lemma try_parse_plain : forall s, plain s -> try_parse s = match s with [] => None | _ => number 0 s end.
Proof.
  intros s P. unfold try_parse. cbv zeta. rewrite (skip_id s) by (intros c C; now apply P).
  rewrite (skip_id (rev s)) by (intros c C; apply P; now apply in_rev). rewrite rev_involutive.
  destruct s as [|c s]; [reflexivity|]. destruct (P c (or_introl eq_refl)) as (_ & A & B).
  apply Ascii.eqb_neq in A, B. now rewrite A, B.
Qed.
Lemma numeral_plain : forall s n, numeral s n -> plain s.
Proof.
  intros s n N c C. destruct (numeral_digits _ _ N _ C) as (d & D). split; [eapply digit_not_white; eauto|].
  split; nochar.
Qed.
Lemma pr_plain : forall s size lo hi n, plain s ->
  pr s size lo hi = TOk n <-> numeral s n /\ s <> [] /\ List.length s = size /\ lo <= n <= hi.
Proof.
  intros s size lo hi n P. unfold pr. rewrite (try_parse_plain s P). split.
  - destruct (Nat.eqb_spec (List.length s) size) as [L|L]; [|discriminate].
    destruct s as [|c s]; [discriminate|].
    destruct (number 0 (c :: s)) as [m|] eqn:E; [|discriminate].
    destruct ((lo <=? m) && (m <=? hi)) eqn:B; [|discriminate].
    intros H. injection H as <-. split; [now apply number_spec|]. split; [discriminate|]. split; [exact L|lia].
  - intros (N & NE & L & B). rewrite L, Nat.eqb_refl. destruct s as [|c s]; [congruence|].
    apply number_spec in N. rewrite N. replace ((lo <=? n) && (n <=? hi)) with true by lia. reflexivity.
Qed.
Lemma pr_two : forall s lo hi n, plain s -> pr s 2 lo hi = TOk n <-> two s lo hi n.
Proof.
  intros s lo hi n P. rewrite pr_plain by exact P. unfold two. split.
  - tauto.
  - intros (A & B & C). split; [exact A|]. split; [intros ->; discriminate B|]. tauto.
Qed.
Lemma pr_total : forall s size lo hi, pr s size lo hi = Invalid \/ exists n, pr s size lo hi = TOk n.
Proof.
  intros. unfold pr. destruct (_ =? _)%nat; [|now left]. destruct (try_parse s); [|now left].
  destruct (_ && _); [right; eauto|now left].
Qed.
Lemma two_pr : forall s lo hi n, two s lo hi n -> pr s 2 lo hi = TOk n.
Proof. intros s lo hi n T. apply pr_two; [destruct T as (N & _); eapply numeral_plain; eauto|exact T]. Qed.

(** * Splitting *)
Lemma split_none : forall c s, ~ In c s -> split c s = [s].
Proof.
  induction s as [|x s IH]; intros H; [reflexivity|]. cbn [split].
  assert ((x =? c)%char = false) as -> by (apply Ascii.eqb_neq; intros ->; apply H; now left).
  rewrite IH by (intros X; apply H; now right). reflexivity.
Qed.
Lemma split_app : forall c a b, ~ In c a -> split c (a ++ [c] ++ b) = a :: split c b.
Proof.
  induction a as [|x a IH]; intros b H.
  - cbn [app split]. now rewrite Ascii.eqb_refl.
  - cbn [app split]. assert ((x =? c)%char = false) as -> by (apply Ascii.eqb_neq; intros ->; apply H; now left).
    cbn [app] in IH. rewrite IH by (intros X; apply H; now right). reflexivity.
Qed.
Lemma split_inv : forall c s, exists p ps, split c s = p :: ps /\ ~ In c p /\
  ((ps = [] /\ s = p) \/ exists r, s = p ++ [c] ++ r /\ ps = split c r).
Proof.
  intros c s. destruct (in_dec ascii_dec c s) as [I|I].
  - assert (exists p r, s = p ++ [c] ++ r /\ ~ In c p) as (p & r & -> & N).
    { clear -I. induction s as [|x s IH]; [contradiction|].
      destruct (ascii_dec x c) as [->|E]; [exists [], s; now split|].
      destruct I as [->|I]; [congruence|]. destruct (IH I) as (p & r & -> & N). exists (x :: p), r.
      split; [reflexivity|]. intros [X|X]; [congruence|contradiction]. }
    exists p, (split c r). rewrite split_app by exact N. split; [reflexivity|]. split; [exact N|]. right. now exists r.
  - exists s, []. rewrite split_none by exact I. split; [reflexivity|]. split; [exact I|]. now left.
Qed.
Ltac split_case c s p ps E N := destruct (split_inv c s) as (p & ps & E & N & [(-> & ->)|(?r & -> & ->)]).

(** * Seconds *)
Inductive lsec : text -> Z -> option (Z * Z) -> Prop :=
| ls_whole : forall a S, two a 0 59 S -> lsec a S None
| ls_point : forall a S, two a 0 59 S -> lsec (a ++ ["."%char]) S None
| ls_points : forall a S r, two a 0 59 S -> made_of "." r -> lsec (a ++ ["."%char; "."%char] ++ r) S None
| ls_frac : forall a S b F mx, two a 0 59 S -> numeral b F -> b <> [] -> mx + 1 = 10 ^ Z.of_nat (List.length b) ->
    lsec (a ++ ["."%char] ++ b) S (Some (F, mx))
| ls_more : forall a S b F mx r, two a 0 59 S -> numeral b F -> b <> [] -> mx + 1 = 10 ^ Z.of_nat (List.length b) ->
    made_of "." r -> lsec (a ++ ["."%char] ++ b ++ ["."%char] ++ r) S (Some (F, mx)).
Lemma mem_char_spec : forall c s, mem_char c s = true <-> In c s.
Proof.
  intros c s. unfold mem_char. rewrite existsb_exists. split.
  - intros (x & I & E). apply Ascii.eqb_eq in E. now subst.
  - intros I. exists c. split; [exact I|apply Ascii.eqb_refl].
Qed.
Lemma made_plain : forall s, made_of "." s -> plain s.
Proof.
  intros s M c C. destruct (M c C) as [->|(d & D)]; [repeat split; discriminate|].
  split; [eapply digit_not_white; eauto|]. split; nochar.
Qed.
Lemma plain_app : forall s t, plain (s ++ t) -> plain s /\ plain t.
Proof. intros s t P. split; intros c C; apply P; apply in_or_app; auto. Qed.
Lemma two_no : forall s lo hi n x, two s lo hi n -> digit x = None -> ~ In x s.
Proof. intros s lo hi n x (N & _) D. eapply numeral_no; eauto. Qed.
Ltac nochar ::= first [eapply digit_ne; [eassumption|reflexivity]|eapply numeral_no; [eassumption|reflexivity]|eapply two_no; [eassumption|reflexivity]].
Lemma part0 : forall a l, part (a :: l) 0 = TOk a. Proof. reflexivity. Qed.
Lemma part1 : forall a b l, part (a :: b :: l) 1 = TOk b. Proof. reflexivity. Qed.
Lemma part2 : forall a b c l, part (a :: b :: c :: l) 2 = TOk c. Proof. reflexivity. Qed.
Lemma made_app : forall c s t, made_of c (s ++ t) -> made_of c s /\ made_of c t.
Proof. intros c s t P. split; intros x X; apply P; apply in_or_app; auto. Qed.
Lemma fraction_of : forall b, plain b -> b <> [] -> 
  forall F mx, pr b (List.length b) 0 mx = TOk F /\ mx = 10 ^ Z.of_nat (List.length b) - 1 <->
  numeral b F /\ mx + 1 = 10 ^ Z.of_nat (List.length b).
Proof.
  intros b P NE F mx. split.
  - intros (H & ->). apply pr_plain in H; [|exact P]. split; [tauto|lia].
  - intros (N & E). pose proof (numeral_bound _ _ N). split; [|lia].
    apply pr_plain; [exact P|]. split; [exact N|]. split; [exact NE|]. split; [reflexivity|lia].
Qed.
Lemma seconds_read : forall s S f, made_of "." s -> parse_seconds s = TOk (S, f) -> lsec s S f.
Proof.
  intros s S f M H. unfold parse_seconds in H. destruct (mem_char "." s) eqn:C.
  2:{ destruct (pr s 2 0 59) as [x| |] eqn:E; cbn [tbind] in H; try discriminate. injection H as -> <-.
      constructor. apply pr_two; [now apply made_plain|exact E]. }
  apply mem_char_spec in C. cbv zeta in H.
  destruct (split_inv "." s) as (p & ps & E & N & [(-> & ->)|(r & -> & ->)]); [contradiction|].
  rewrite E in H. rewrite part0 in H. cbn [tbind] in H.
  apply made_app in M as [Mp Mr]. apply made_app in Mr as [_ Mr].
  destruct (pr p 2 0 59) as [x| |] eqn:X; cbn [tbind] in H; try discriminate.
  apply pr_two in X; [|now apply made_plain].
  destruct (split_inv "." r) as (q & qs & E2 & N2 & Q). rewrite E2 in H. rewrite part1 in H. cbn [tbind] in H.
  destruct q as [|q0 q].
  - injection H as -> <-. destruct Q as [(-> & ->)|(r2 & -> & _)].
    + cbn [app]. now apply ls_point.
    + cbn [app]. apply (ls_points p S r2 X). apply made_app in Mr as [_ Mr]. now apply made_app in Mr as [_ Mr].
  - assert (Pq : plain (q0 :: q)).
    { destruct Q as [(-> & ->)|(r2 & -> & _)]; [now apply made_plain|]. apply made_app in Mr as [Mr _]. now apply made_plain. }
    destruct (pr (q0 :: q) _ 0 _) as [y| |] eqn:Y; cbn [tbind] in H; try discriminate. injection H as -> <-.
    destruct (proj1 (fraction_of _ Pq ltac:(discriminate) _ _) (conj Y eq_refl)) as (A & B).
    destruct Q as [(-> & ->)|(r2 & -> & _)].
    + apply ls_frac; try assumption; try discriminate.
    + apply made_app in Mr as [_ Mr]. apply made_app in Mr as [_ Mr].
      apply ls_more; try assumption; try discriminate.
Qed.
Lemma read_seconds : forall s S f, lsec s S f -> parse_seconds s = TOk (S, f).
Proof.
  intros s S f L. unfold parse_seconds.
  assert (Y : forall a b, mem_char "." (a ++ "."%char :: b) = true).
  { intros. apply mem_char_spec. apply in_or_app. right. now left. }
  destruct L as [a S T|a S T|a S r T R|a S b F mx T N NE E|a S b F mx r T N NE E R]; cbv zeta.
  - destruct (mem_char "." a) eqn:C.
    + apply mem_char_spec in C. exfalso. revert C. nochar.
    + rewrite (two_pr _ _ _ _ T). reflexivity.
  - rewrite Y. pose proof (split_app "." a [] (two_no _ _ _ _ "."%char T eq_refl)) as X. cbn [app] in X. rewrite X.
    cbn [split]. rewrite part0, part1. cbn [tbind]. now rewrite (two_pr _ _ _ _ T).
  - cbn [app]. rewrite Y. pose proof (split_app "." a ("."%char :: r) (two_no _ _ _ _ "."%char T eq_refl)) as X. cbn [app] in X. rewrite X.
    cbn [split]. rewrite Ascii.eqb_refl, part0, part1. cbn [tbind]. now rewrite (two_pr _ _ _ _ T).
  - cbn [app]. rewrite Y. pose proof (split_app "." a b (two_no _ _ _ _ "."%char T eq_refl)) as X. cbn [app] in X. rewrite X.
    rewrite split_none by (nochar). rewrite part0, part1. cbn [tbind]. rewrite (two_pr _ _ _ _ T). cbn [tbind].
    destruct (proj2 (fraction_of b (numeral_plain _ _ N) NE F mx) (conj N E)) as (A & B). rewrite <- B, A.
    destruct b; [congruence|]. reflexivity.
  - cbn [app]. rewrite Y. pose proof (split_app "." a (b ++ ["."%char] ++ r) (two_no _ _ _ _ "."%char T eq_refl)) as X. cbn [app] in X. rewrite X.
    pose proof (split_app "." b r (numeral_no _ _ "."%char N eq_refl)) as X2. cbn [app] in X2. rewrite X2.
    rewrite part0, part1. cbn [tbind]. rewrite (two_pr _ _ _ _ T). cbn [tbind].
    destruct (proj2 (fraction_of b (numeral_plain _ _ N) NE F mx) (conj N E)) as (A & B). rewrite <- B, A.
    destruct b; [congruence|]. reflexivity.
Qed.
Lemma seconds_total : forall s, parse_seconds s <> Crash.
Proof.
  intros s. unfold parse_seconds. destruct (mem_char "." s) eqn:C.
  - apply mem_char_spec in C. cbv zeta.
    destruct (split_inv "." s) as (p & ps & E & N & [(-> & ->)|(r & -> & ->)]); [contradiction|].
    rewrite E, part0. cbn [tbind]. destruct (pr_total p 2 0 59) as [->|(n & ->)]; [discriminate|]. cbn [tbind].
    destruct (split_inv "." r) as (q & qs & E2 & _). rewrite E2, part1. cbn [tbind]. destruct q as [|q0 q]; [discriminate|].
    destruct (pr_total (q0 :: q) (List.length (q0 :: q)) 0 (10 ^ Z.of_nat (List.length (q0 :: q)) - 1)) as [->|(m & ->)]; discriminate.
  - destruct (pr_total s 2 0 59) as [->|(n & ->)]; discriminate.
Qed.

(** * Times *)
Lemma ltime_iff : forall s t, ltime s t <-> exists h m r,
  s = h ++ [":"%char] ++ m ++ [":"%char] ++ r /\ two h 0 23 (hours t) /\ two m 0 59 (mins t) /\ lsec r (secs t) (fraction t).
Proof.
  intros s t. split.
  - intros L. destruct L as [s t W|s t r W FR R|s t W FR|s t r W FR R]; destruct W as [h m s' H M S A B C|h m s' f H M S F mx A B C D E G];
      cbn [hours mins secs fraction] in *; try congruence.
    + exists h, m, s'. split; [reflexivity|]. split; [exact A|]. split; [exact B|]. now apply ls_whole.
    + exists h, m, (s' ++ ["."%char] ++ f). split; [reflexivity|]. split; [exact A|]. split; [exact B|]. now apply ls_frac.
    + exists h, m, (s' ++ ["."%char] ++ f ++ ["."%char] ++ r). split; [now rewrite <- !app_assoc|].
      split; [exact A|]. split; [exact B|]. now apply ls_more.
    + exists h, m, (s' ++ ["."%char]). split; [now rewrite <- !app_assoc|]. split; [exact A|]. split; [exact B|]. now apply ls_point.
    + exists h, m, (s' ++ ["."%char; "."%char] ++ r). split; [now rewrite <- !app_assoc|]. split; [exact A|]. split; [exact B|]. now apply ls_points.
  - destruct t as [H M S f]. cbn [hours mins secs fraction]. intros (h & m & r & -> & A & B & L).
    destruct L as [a S T|a S T|a S r T R|a S b F mx T N NE E|a S b F mx r T N NE E R].
    + apply lt_written. now constructor.
    + pose proof (lt_point _ _ (wt_whole _ _ _ _ _ _ A B T) eq_refl) as X. now rewrite <- !app_assoc in X.
    + pose proof (lt_points _ _ r (wt_whole _ _ _ _ _ _ A B T) eq_refl R) as X. now rewrite <- !app_assoc in X.
    + apply lt_written. now constructor.
    + pose proof (lt_fraction _ _ r (wt_fraction _ _ _ _ _ _ _ _ _ A B T N NE E)) as X. cbn [fraction] in X.
      specialize (X ltac:(discriminate) R). now rewrite <- !app_assoc in X.
Qed.
Definition time_char (c : ascii) : bool := is_digit c || (c =? ":")%char || (c =? ".")%char.
Lemma time_char_spec : forall c, time_char c = true <-> c = ":"%char \/ c = "."%char \/ exists d, digit_char c d.
Proof.
  intros c. unfold time_char. rewrite !orb_true_iff, !Ascii.eqb_eq, is_digit_spec. tauto.
Qed.
Lemma time_made : forall s, (forall c, In c s -> time_char c = true) -> ~ In ":"%char s -> made_of "." s.
Proof.
  intros s H N x X. destruct (proj1 (time_char_spec x) (H x X)) as [->|[->|D]]; [contradiction|now left|now right].
Qed.
Lemma lsec_made : forall s S f, lsec s S f -> made_of "." s.
Proof.
  assert (T2 : forall a lo hi S, two a lo hi S -> made_of "." a).
  { intros a lo hi S (N & _) x X. right. eapply numeral_digits; eauto. }
  assert (N2 : forall a S, numeral a S -> made_of "." a).
  { intros a S N x X. right. eapply numeral_digits; eauto. }
  assert (P : forall a b, made_of "." a -> made_of "." b -> made_of "." (a ++ b)).
  { intros a b A B x X. apply in_app_or in X as [X|X]; auto. }
  assert (D : made_of "." ["."%char]) by (intros x [<-|[]]; now left).
  assert (DD : made_of "." ["."%char; "."%char]) by (intros x [<-|[<-|[]]]; now left).
  intros s S f L. destruct L; repeat first [apply P | assumption | eapply T2; eassumption | eapply N2; eassumption].
Qed.
Lemma time_read : forall s t, parse_time s = TOk t -> ltime s t.
Proof.
  intros s t H. unfold parse_time in H. fold time_char in H. unfold only in H.
  destruct (forallb _ s) eqn:C; [|discriminate H]. pose proof (proj1 (forallb_forall _ _) C) as C'. cbv beta in C'.
  change (forall c, In c s -> time_char c = true) in C'. clear C. cbv zeta in H.
  destruct (split_inv ":" s) as (p & ps & E & N & Q). rewrite E in H.
  destruct Q as [(-> & ->)|(r & -> & ->)]; [discriminate H|].
  destruct (split_inv ":" r) as (p2 & ps2 & E2 & N2 & Q2). rewrite E2 in H.
  destruct Q2 as [(-> & ->)|(r2 & -> & ->)]; [discriminate H|].
  destruct (split_inv ":" r2) as (p3 & ps3 & E3 & N3 & Q3). rewrite E3 in H.
  destruct Q3 as [(-> & ->)|(r3 & -> & ->)].
  2:{ destruct (split_inv ":" r3) as (p4 & ps4 & E4 & _). rewrite E4 in H. discriminate H. }
  cbn [List.length Nat.eqb] in H. rewrite part0, part1, part2 in H. cbn [tbind] in H.
  assert (M1 : made_of "." p) by (apply time_made; [intros c I; apply C'; apply in_or_app; now left|exact N]).
  assert (M2 : made_of "." p2).
  { apply time_made; [|exact N2]. intros c I. apply C'. apply in_or_app. right. apply in_or_app. right. apply in_or_app. now left. }
  assert (M3 : made_of "." p3).
  { apply time_made; [|exact N3]. intros c I. apply C'. apply in_or_app. right. apply in_or_app. right. apply in_or_app. right.
    apply in_or_app. now right. }
  destruct (parse_seconds p3) as [[sec f]| |] eqn:S; cbn [tbind] in H; try discriminate.
  destruct (pr p 2 0 23) as [h| |] eqn:A; cbn [tbind] in H; try discriminate.
  destruct (pr p2 2 0 59) as [m| |] eqn:B; cbn [tbind] in H; try discriminate. injection H as <-.
  apply ltime_iff. exists p, p2, p3. cbn [hours mins secs fraction]. split; [reflexivity|].
  split; [apply pr_two; [now apply made_plain|exact A]|]. split; [apply pr_two; [now apply made_plain|exact B]|].
  now apply seconds_read.
Qed.
Lemma ltime_chars : forall s t, ltime s t -> forall c, In c s -> time_char c = true.
Proof.
  intros s t L c C. apply ltime_iff in L as (h & m & r & -> & (A & _) & (B & _) & S). apply time_char_spec.
  rewrite !in_app_iff in C. destruct C as [C|[[<-|[]]|[C|[[<-|[]]|C]]]]; auto.
  - right. right. exact (numeral_digits _ _ A _ C).
  - right. right. exact (numeral_digits _ _ B _ C).
  - apply lsec_made in S. destruct (S c C); auto.
Qed.
Lemma read_time : forall s t, ltime s t -> parse_time s = TOk t.
Proof.
  intros s t L. unfold parse_time, only.
  assert (C : forallb (fun c => is_digit c || (c =? ":")%char || (c =? ".")%char) s = true).
  { apply forallb_forall. intros c C. exact (ltime_chars _ _ L c C). }
  rewrite C. clear C. apply ltime_iff in L as (h & m & r & -> & A & B & S). cbv zeta.
  rewrite split_app by (nochar). rewrite split_app by (nochar). 
  rewrite split_none.
  2:{ intros I. apply lsec_made in S. destruct (S _ I) as [X|(d & X)]; [discriminate X|]. exact (digit_ne _ _ ":"%char X eq_refl eq_refl). }
  cbn [List.length Nat.eqb]. rewrite part0, part1, part2. cbn [tbind]. rewrite (read_seconds _ _ _ S). cbn [tbind].
  rewrite (two_pr _ _ _ _ A), (two_pr _ _ _ _ B). cbn [tbind]. now destruct t.
Qed.
Theorem time_iff : forall s t, parse_time s = TOk t <-> ltime s t.
Proof. intros s t. split; [apply time_read|apply read_time]. Qed.
Lemma time_total : forall s, parse_time s <> Crash.
Proof.
  intros s. unfold parse_time. destruct (only _ s); [|discriminate]. cbv zeta.
  destruct (split ":" s) as [|p0 [|p1 [|p2 [|p3 ps]]]]; try discriminate. cbn [List.length Nat.eqb].
  rewrite part0, part1, part2. cbn [tbind].
  destruct (parse_seconds p2) as [[sec f]| |] eqn:S; cbn [tbind]; [|discriminate|now apply seconds_total in S].
  destruct (pr_total p0 2 0 23) as [->|(h & ->)]; [discriminate|]. cbn [tbind].
  destruct (pr_total p1 2 0 59) as [->|(m & ->)]; discriminate.
Qed.
Lemma ltime_nonempty : forall t, ~ ltime [] t.
Proof. intros t L. apply ltime_iff in L as (h & m & r & E & _). destruct h; discriminate E. Qed.

(** * With a Z *)
Lemma utc_snoc : forall s c, parse_utc (s ++ [c]) = if (c =? "Z")%char then parse_time s else Invalid.
Proof.
  intros s c. unfold parse_utc. rewrite rev_app_distr. cbn [rev app]. rewrite app_length. cbn [List.length].
  replace (List.length s + 1 - 1)%nat with (List.length s) by lia. rewrite firstn_app, firstn_all, Nat.sub_diag.
  cbn [firstn]. now rewrite app_nil_r.
Qed.
Theorem utc_iff : forall s t, parse_utc s = TOk t <-> exists r, s = r ++ ["Z"%char] /\ ltime r t.
Proof.
  intros s t. split.
  - destruct s as [|c s] using rev_ind; [discriminate|]. rewrite utc_snoc. destruct (Ascii.eqb_spec c "Z") as [->|]; [|discriminate].
    intros H. exists s. split; [reflexivity|now apply time_iff].
  - intros (r & -> & L). rewrite utc_snoc, Ascii.eqb_refl. now apply time_iff.
Qed.
Lemma utc_total : forall s, parse_utc s <> Crash.
Proof.
  intros s. destruct s as [|c s] using rev_ind; [discriminate|]. rewrite utc_snoc. destruct (c =? "Z")%char; [apply time_total|discriminate].
Qed.

(** * Zones *)
Lemma white_blank : forall c, white c = true <-> blank c.
Proof.
  intros c. unfold white, blank. cbv zeta. split; intros H.
  - assert ((9 <= nat_of_ascii c <= 13)%nat \/ nat_of_ascii c = 32%nat) as [E|E] by lia; [now left|right].
    rewrite <- (ascii_nat_embedding c), E. reflexivity.
  - destruct H as [H| ->]; [lia|reflexivity].
Qed.
Lemma digit_char_facts : forall c d, digit_char c d ->
  white c = false /\ (c =? "-")%char = false /\ (c =? "+")%char = false /\ digit c = Some d /\ 0 <= d <= 9.
Proof.
  intros c d D. split; [eapply digit_not_white; eauto|]. split; [apply Ascii.eqb_neq; nochar|].
  split; [apply Ascii.eqb_neq; nochar|]. split; [now apply digit_spec|]. now destruct D.
Qed.
Lemma digit_zero : forall c, digit_char c 0 -> c = "0"%char.
Proof. intros c [H _]. rewrite <- (ascii_nat_embedding c). replace (nat_of_ascii c) with 48%nat by lia. reflexivity. Qed.
Lemma try_parse_two : forall s n, List.length s = 2%nat -> (try_parse s = Some n /\ 0 <= n) <-> loose s n.
Proof.
  intros s n L. destruct s as [|a [|b [|c s]]]; try discriminate L. split.
  - unfold try_parse. cbv zeta. cbn [skip_white]. destruct (white a) eqn:WA; cbn [skip_white].
    + destruct (white b) eqn:WB.
      * cbn. intros (X & _). discriminate X.
      * cbn [rev app skip_white]. rewrite WB. cbn [rev app]. 
        destruct (b =? "-")%char; [intros (X & _); discriminate X|]. destruct (b =? "+")%char; [intros (X & _); discriminate X|].
        cbn [number]. destruct (digit b) as [d|] eqn:D; [|intros (X & _); discriminate X]. intros (X & _). injection X as X.
        apply digit_spec in D. replace n with d by lia. apply lo_before; [now apply white_blank|exact D].
    + cbn [rev app skip_white]. destruct (white b) eqn:WB.
      * cbn [skip_white]. rewrite WA. cbn [rev app]. 
        destruct (a =? "-")%char; [intros (X & _); discriminate X|]. destruct (a =? "+")%char; [intros (X & _); discriminate X|].
        cbn [number]. destruct (digit a) as [d|] eqn:D; [|intros (X & _); discriminate X]. intros (X & _). injection X as X.
        apply digit_spec in D. replace n with d by lia. apply lo_after; [now apply white_blank|exact D].
      * cbn [rev app]. destruct (Ascii.eqb_spec a "-") as [->|NA].
        -- cbn [number]. destruct (digit b) as [d|] eqn:D; cbn [option_map]; [|intros (X & _); discriminate X]. intros (X & Y). injection X as X.
           apply digit_spec in D. pose proof D as [_ R]. assert (d = 0) by lia. subst d. apply digit_zero in D. subst b.
           replace n with 0 by lia. apply lo_minus.
        -- destruct (Ascii.eqb_spec a "+") as [->|NP].
           ++ cbn [number]. destruct (digit b) as [d|] eqn:D; [|intros (X & _); discriminate X]. intros (X & Y). injection X as X.
              apply digit_spec in D. replace n with d by lia. now apply lo_plus.
           ++ intros (X & _). apply lo_two; [now apply number_spec|reflexivity].
  - intros LO. inversion LO as [s n' N L2 E1 E2|b0 c d B D E1 E2|b0 c d B D E1 E2|c d D E1 E2|E1 E2]; subst.
    + split; [|apply (numeral_bound _ _ N)]. rewrite try_parse_plain by (eapply numeral_plain; eauto). now apply number_spec.
    + apply white_blank in B. destruct (digit_char_facts _ _ D) as (W & NM & NP & DI & R). split; [|lia].
      unfold try_parse. cbv zeta. cbn [skip_white]. rewrite B. cbn [skip_white]. rewrite W. cbn [rev app skip_white]. rewrite W.
      cbn [rev app]. rewrite NM, NP. cbn [number]. rewrite DI. f_equal; lia.
    + apply white_blank in B. destruct (digit_char_facts _ _ D) as (W & NM & NP & DI & R). split; [|lia].
      unfold try_parse. cbv zeta. cbn [skip_white]. rewrite W. cbn [rev app skip_white]. rewrite B. cbn [skip_white]. rewrite W.
      cbn [rev app]. rewrite NM, NP. cbn [number]. rewrite DI. f_equal; lia.
    + destruct (digit_char_facts _ _ D) as (W & NM & NP & DI & R). split; [|lia].
      unfold try_parse. cbv zeta. change (skip_white ["+"%char; b]) with ["+"%char; b]. cbn [rev app skip_white]. rewrite W. cbn [rev app].
      change ("+" =? "-")%char with false. change ("+" =? "+")%char with true. cbv iota. cbn [number]. rewrite DI. f_equal; lia.
    + split; [reflexivity|lia].
Qed.
Lemma pr_loose : forall s hi n, pr s 2 0 hi = TOk n <-> loose s n /\ n <= hi.
Proof.
  intros s hi n. unfold pr. destruct (Nat.eqb_spec (List.length s) 2) as [L|L].
  - rewrite <- (try_parse_two s n L). destruct (try_parse s) as [m|].
    + destruct ((0 <=? m) && (m <=? hi)) eqn:B; split; intros H; try discriminate H.
      * injection H as ->. repeat split; lia.
      * destruct H as ((E & _) & _). injection E as ->. reflexivity.
      * destruct H as ((E & A) & C). injection E as ->. lia.
    + split; [discriminate|]. intros ((X & _) & _). discriminate X.
  - split; [discriminate|]. intros (H & _). exfalso. apply L. destruct H; cbn; auto.
Qed.
Lemma zone_app : forall a c tz, List.length tz = 5%nat -> a <> [] ->
  parse_zone (a ++ [c] ++ tz) =
    if (c =? "-")%char || (c =? "+")%char then
      tbind (parse_time a) (fun t =>
      let p := split ":" tz in
      tbind (part p 0) (fun p0 => tbind (pr p0 2 0 23) (fun h =>
      tbind (part p 1) (fun p1 => tbind (pr p1 2 0 59) (fun m =>
      TOk (t, mkzone (if (c =? "+")%char then 1 else -1) h m))))))
    else Invalid.
Proof.
  intros a c tz L NE. unfold parse_zone. cbv zeta. rewrite !app_length. cbn [List.length]. rewrite L.
  assert (0 < List.length a)%nat by (destruct a; [congruence|cbn; lia]).
  destruct (Nat.leb_spec (List.length a + (1 + 5)) 6); [lia|].
  replace (List.length a + (1 + 5) - 6)%nat with (List.length a) by lia.
  replace (List.length a + (1 + 5) - 5)%nat with (List.length a + 1)%nat by lia.
  rewrite app_nth2, Nat.sub_diag by lia. cbn [nth app].
  rewrite firstn_app, firstn_all, Nat.sub_diag. cbn [firstn]. rewrite app_nil_r.
  rewrite skipn_app. rewrite skipn_all2 by lia. replace (List.length a + 1 - List.length a)%nat with 1%nat by lia. cbn [skipn app].
  rewrite L. reflexivity.
Qed.
Lemma zone_form : forall s : text, (6 < List.length s)%nat -> exists (a : text) (c : ascii) (tz : text), s = a ++ [c] ++ tz /\ List.length tz = 5%nat /\ a <> [].
Proof.
  intros s H. exists (firstn (List.length s - 6) s).
  pose proof (firstn_skipn (List.length s - 6) s) as E. pose proof (skipn_length (List.length s - 6) s) as L.
  destruct (skipn (List.length s - 6) s) as [|c tz]; [cbn in L; lia|]. exists c, tz. split; [symmetry; exact E|]. split; [cbn in L; lia|].
  intros X. pose proof (firstn_length (List.length s - 6) s) as Y. rewrite X in Y. cbn [List.length] in Y. lia.
Qed.
Lemma loose_length : forall s n, loose s n -> List.length s = 2%nat.
Proof. intros s n L. destruct L; auto. Qed.
Lemma loose_no_colon : forall s n x, loose s n -> x = ":"%char \/ x = "T"%char -> ~ In x s.
Proof.
  assert (BL : forall b x, blank b -> x = ":"%char \/ x = "T"%char -> b <> x).
  { intros b x B X ->. apply white_blank in B. destruct X as [->| ->]; discriminate B. }
  assert (DG : forall c d x, digit_char c d -> x = ":"%char \/ x = "T"%char -> c <> x).
  { intros c d x D X. apply (digit_ne c d x D). destruct X as [->| ->]; reflexivity. }
  intros s n x L X. destruct L as [s n N L2|b c d B D|b c d B D|c d D|].
  - apply (numeral_no _ _ _ N). destruct X as [->| ->]; reflexivity.
  - intros [I|[I|[]]]; [now apply (BL b x)|now apply (DG c d x)].
  - intros [I|[I|[]]]; [now apply (DG c d x)|now apply (BL b x)].
  - intros [I|[I|[]]]; [destruct X as [->| ->]; discriminate I|now apply (DG c d x)].
  - intros [I|[I|[]]]; destruct X as [->| ->]; discriminate I.
Qed.
Theorem zone_iff : forall s t z, parse_zone s = TOk (t, z) <-> exists a r, s = a ++ r /\ ltime a t /\ lzone r z.
Proof.
  intros s t z. split.
  - intros H. assert (6 < List.length s)%nat as L.
    { unfold parse_zone in H. cbv zeta in H. destruct (Nat.leb_spec (List.length s) 6) as [X|X]; [discriminate H|exact X]. }
    destruct (zone_form s L) as (a & c & tz & -> & L5 & NE). rewrite zone_app in H by assumption.
    destruct ((c =? "-")%char || (c =? "+")%char) eqn:C; [|discriminate H].
    destruct (parse_time a) as [t'| |] eqn:A; cbn [tbind] in H; try discriminate. cbv zeta in H.
    destruct (split_inv ":" tz) as (p & ps & E & N & Q). rewrite E, part0 in H. cbn [tbind] in H.
    destruct (pr p 2 0 23) as [h| |] eqn:PH; cbn [tbind] in H; try discriminate. apply pr_loose in PH as (PH & BH).
    destruct Q as [(-> & ->)|(r & -> & ->)].
    { apply loose_length in PH. lia. }
    destruct (split_inv ":" r) as (q & qs & E2 & N2 & Q2). rewrite E2, part1 in H. cbn [tbind] in H.
    destruct (pr q 2 0 59) as [m| |] eqn:PM; cbn [tbind] in H; try discriminate. apply pr_loose in PM as (PM & BM).
    injection H as <- <-. exists a, ([c] ++ p ++ [":"%char] ++ r). split; [reflexivity|]. split; [now apply time_iff|].
    destruct Q2 as [(-> & ->)|(r2 & -> & ->)].
    2:{ apply loose_length in PH, PM. rewrite !app_length in L5. cbn [List.length] in L5. lia. }
    constructor; try assumption. apply orb_true_iff in C as [C|C]; apply Ascii.eqb_eq in C; subst c; [now right|now left].
  - intros (a & r & -> & A & Z). destruct Z as [c s h m H M SG LH BH LM BM].
    pose proof (loose_length _ _ LH) as L1. pose proof (loose_length _ _ LM) as L2.
    rewrite zone_app.
    2:{ rewrite !app_length. cbn [List.length]. lia. }
    2:{ intros ->. now apply ltime_nonempty in A. }
    assert ((c =? "-")%char || (c =? "+")%char = true) as -> by (destruct SG as [(-> & _)|(-> & _)]; reflexivity).
    apply time_iff in A. rewrite A. cbn [tbind]. cbv zeta.
    rewrite split_app by (eapply loose_no_colon; eauto). rewrite split_none by (eapply loose_no_colon; eauto).
    rewrite part0, part1. cbn [tbind]. rewrite (proj2 (pr_loose h 23 H) (conj LH BH)). cbn [tbind].
    rewrite (proj2 (pr_loose m 59 M) (conj LM BM)). cbn [tbind].
    destruct SG as [(-> & ->)|(-> & ->)]; reflexivity.
Qed.
Lemma zone_total : forall s, parse_zone s <> Crash.
Proof.
  intros s. destruct (Nat.leb_spec (List.length s) 6) as [X|X].
  - unfold parse_zone. cbv zeta. destruct (Nat.leb_spec (List.length s) 6); [discriminate|lia].
  - destruct (zone_form s X) as (a & c & tz & -> & L5 & NE). rewrite zone_app by assumption.
    destruct (_ || _); [|discriminate]. destruct (parse_time a) as [t| |] eqn:A; cbn [tbind]; [|discriminate|now apply time_total in A].
    cbv zeta. destruct (split_inv ":" tz) as (p & ps & E & N & Q). rewrite E, part0. cbn [tbind].
    destruct (pr p 2 0 23) as [h| |] eqn:PH; cbn [tbind]; [|discriminate|destruct (pr_total p 2 0 23) as [Y|(? & Y)]; congruence].
    apply pr_loose in PH as (PH & BH). apply loose_length in PH.
    destruct Q as [(-> & ->)|(r & -> & ->)]; [lia|].
    destruct (split_inv ":" r) as (q & qs & E2 & _). rewrite E2, part1. cbn [tbind].
    destruct (pr_total q 2 0 59) as [->|(m & ->)]; discriminate.
Qed.

(** * Dates *)
Lemma date_chars : forall s, only (fun c => is_digit c || (c =? "-")%char) s = true <-> made_of "-" s.
Proof.
  intros s. unfold only, made_of. rewrite forallb_forall. split; intros H x X; specialize (H x X).
  - rewrite orb_true_iff, is_digit_spec, Ascii.eqb_eq in H. tauto.
  - rewrite orb_true_iff, is_digit_spec, Ascii.eqb_eq. tauto.
Qed.
Lemma made_no : forall s, made_of "-" s -> ~ In "-"%char s -> plain s.
Proof.
  intros s M N c C. destruct (M c C) as [->|(d & D)]; [contradiction|].
  split; [eapply digit_not_white; eauto|]. split; nochar.
Qed.
Lemma numeral_made : forall s n c, numeral s n -> made_of c s.
Proof. intros s n c N x X. right. eapply numeral_digits; eauto. Qed.
Lemma made_join : forall c a b, made_of c a -> made_of c b -> made_of c (a ++ b).
Proof. intros c a b A B x X. apply in_app_or in X as [X|X]; auto. Qed.
Lemma made_one : forall c, made_of c [c].
Proof. intros c x [<-|[]]. now left. Qed.
Lemma ldate_iff : forall s d, ldate s d <-> exists y m x, numeral y (years d) /\ y <> [] /\ years d <= 9999999999 /\
  two m 1 12 (months d) /\ two x 1 31 (days d) /\
  (s = y ++ ["-"%char] ++ m ++ ["-"%char] ++ x \/ exists r, s = y ++ ["-"%char] ++ m ++ ["-"%char] ++ x ++ ["-"%char] ++ r /\ made_of "-" r).
Proof.
  intros s d. split.
  - intros [s' d' W|s' d' r W R]; destruct W as [y m x Y M D A B C E F]; exists y, m, x; cbn [years months days];
      (split; [exact A|split; [exact B|split; [exact C|split; [exact E|split; [exact F|]]]]]).
    + now left.
    + right. exists r. split; [now rewrite <- !app_assoc|exact R].
  - destruct d as [Y M D]. cbn [years months days]. intros (y & m & x & A & B & C & E & F & [->|(r & -> & R)]).
    + apply ld_written. now constructor.
    + pose proof (ld_more _ _ r (wd _ _ _ _ _ _ A B C E F) R) as X. now rewrite <- !app_assoc in X.
Qed.
Lemma year_pr : forall y Y, numeral y Y -> y <> [] -> Y <= 9999999999 -> pr y (List.length y) 0 9999999999 = TOk Y.
Proof.
  intros y Y A B C. apply pr_plain; [eapply numeral_plain; eauto|]. pose proof (numeral_bound _ _ A). repeat split; auto; lia.
Qed.
Theorem date_iff : forall s d, parse_date s = TOk d <-> ldate s d.
Proof.
  intros s d. unfold parse_date. split.
  - intros H. destruct (only _ s) eqn:C; [|discriminate H]. apply date_chars in C. cbv zeta in H.
    destruct (split_inv "-" s) as (p & ps & E & N & Q). rewrite E, part0 in H. cbn [tbind] in H.
    destruct (pr p _ 0 _) as [y| |] eqn:PY; cbn [tbind] in H; try discriminate.
    destruct Q as [(-> & ->)|(r & -> & ->)]; [discriminate H|].
    apply made_app in C as [C1 C]. apply made_app in C as [_ C].
    destruct (split_inv "-" r) as (p2 & ps2 & E2 & N2 & Q2). rewrite E2, part1 in H. cbn [tbind] in H.
    destruct (pr p2 2 1 12) as [m| |] eqn:PM; cbn [tbind] in H; try discriminate.
    destruct Q2 as [(-> & ->)|(r2 & -> & ->)]; [discriminate H|].
    apply made_app in C as [C2 C]. apply made_app in C as [_ C].
    destruct (split_inv "-" r2) as (p3 & ps3 & E3 & N3 & Q3). rewrite E3, part2 in H. cbn [tbind] in H.
    destruct (pr p3 2 1 31) as [x| |] eqn:PD; cbn [tbind] in H; try discriminate. injection H as <-.
    assert (C3 : made_of "-" p3) by (destruct Q3 as [(-> & ->)|(r3 & -> & _)]; [exact C|now apply made_app in C]).
    apply pr_plain in PY; [|now apply made_no]. apply pr_two in PM; [|now apply made_no]. apply pr_two in PD; [|now apply made_no].
    apply ldate_iff. exists p, p2, p3. cbn [years months days]. repeat (split; [tauto|]).
    destruct Q3 as [(-> & ->)|(r3 & -> & _)]; [now left|right]. exists r3. split; [reflexivity|].
    apply made_app in C as [_ C]. now apply made_app in C.
  - intros L. apply ldate_iff in L as (y & m & x & A & B & C & E & F & G).
    pose proof (numeral_no _ _ "-"%char A eq_refl) as N1. pose proof (two_no _ _ _ _ "-"%char E eq_refl) as N2.
    pose proof (two_no _ _ _ _ "-"%char F eq_refl) as N3.
    assert (M : made_of "-" s).
    { destruct E as (E & _), F as (F & _).
      destruct G as [->|(r & -> & R)]; repeat first [apply made_join | apply made_one | eapply numeral_made; eassumption | assumption]. }
    apply date_chars in M. rewrite M. clear M. cbv zeta.
    destruct G as [->|(r & -> & R)].
    + rewrite split_app, split_app, split_none by assumption. rewrite part0, part1, part2. cbn [tbind].
      rewrite (year_pr _ _ A B C), (two_pr _ _ _ _ E), (two_pr _ _ _ _ F). cbn [tbind]. now destruct d.
    + rewrite split_app, split_app, split_app by assumption. rewrite part0, part1, part2. cbn [tbind].
      rewrite (year_pr _ _ A B C), (two_pr _ _ _ _ E), (two_pr _ _ _ _ F). cbn [tbind]. now destruct d.
Qed.
Theorem date_crash : forall s, parse_date s = Crash <-> cut_date s.
Proof.
  intros s. unfold parse_date. split.
  - intros H. destruct (only _ s) eqn:C; [|discriminate H]. apply date_chars in C. cbv zeta in H.
    destruct (split_inv "-" s) as (p & ps & E & N & Q). rewrite E, part0 in H. cbn [tbind] in H.
    destruct (pr p _ 0 _) as [y| |] eqn:PY; cbn [tbind] in H; try discriminate.
    2:{ destruct (pr_total p (List.length p) 0 9999999999) as [X|(? & X)]; congruence. }
    assert (C1 : made_of "-" p) by (destruct Q as [(-> & ->)|(r & -> & _)]; [exact C|now apply made_app in C]).
    apply pr_plain in PY; [|now apply made_no].
    destruct Q as [(-> & ->)|(r & -> & ->)]; [econstructor; intuition eauto|].
    apply made_app in C as [_ C]. apply made_app in C as [_ C].
    destruct (split_inv "-" r) as (p2 & ps2 & E2 & N2 & Q2). rewrite E2, part1 in H. cbn [tbind] in H.
    destruct (pr p2 2 1 12) as [m| |] eqn:PM; cbn [tbind] in H; try discriminate.
    2:{ destruct (pr_total p2 2 1 12) as [X|(? & X)]; congruence. }
    assert (C2 : made_of "-" p2) by (destruct Q2 as [(-> & ->)|(r2 & -> & _)]; [exact C|now apply made_app in C]).
    apply pr_two in PM; [|now apply made_no].
    destruct Q2 as [(-> & ->)|(r2 & -> & ->)]; [eapply cd_month; intuition eauto|].
    destruct (split_inv "-" r2) as (p3 & ps3 & E3 & N3 & Q3). rewrite E3, part2 in H. cbn [tbind] in H.
    destruct (pr p3 2 1 31) as [x| |] eqn:PD; cbn [tbind] in H; try discriminate.
    destruct (pr_total p3 2 1 31) as [X|(? & X)]; congruence.
  - intros L. destruct L as [y Y A B C|y m Y M A B C E].
    + assert (G : made_of "-" y) by (eapply numeral_made; eauto). apply date_chars in G. rewrite G. cbv zeta.
      rewrite split_none by (nochar). rewrite part0. cbn [tbind]. now rewrite (year_pr _ _ A B C).
    + assert (G : made_of "-" (y ++ ["-"%char] ++ m)).
      { destruct E as (E & _). repeat first [apply made_join | apply made_one | eapply numeral_made; eassumption]. }
      apply date_chars in G. rewrite G. cbv zeta.
      rewrite split_app by (nochar). rewrite split_none by (nochar). rewrite part0, part1. cbn [tbind].
      rewrite (year_pr _ _ A B C). cbn [tbind]. now rewrite (two_pr _ _ _ _ E).
Qed.
Lemma date_no_T : forall s, made_of "-" s -> ~ In "T"%char s.
Proof. intros s M I. destruct (M _ I) as [X|(d & D)]; [discriminate X|]. now apply (digit_ne _ _ "T"%char D eq_refl). Qed.
Lemma date_made : forall s, parse_date s <> Invalid -> made_of "-" s.
Proof. intros s H. unfold parse_date in H. destruct (only _ s) eqn:C; [now apply date_chars|congruence]. Qed.

(** * A date and a time *)
Lemma and_app : forall A (f : text -> tres A) a b, ~ In "T"%char a -> ~ In "T"%char b ->
  date_and (a ++ ["T"%char] ++ b) f = tbind (parse_date a) (fun d => tbind (f b) (fun x => TOk (d, x))).
Proof.
  intros A f a b NA NB. unfold date_and. cbv zeta. rewrite split_app, split_none by assumption. reflexivity.
Qed.
Lemma and_form : forall A (f : text -> tres A) s, date_and s f <> Invalid ->
  exists a b, s = a ++ ["T"%char] ++ b /\ ~ In "T"%char a /\ ~ In "T"%char b.
Proof.
  intros A f s H. unfold date_and in H. cbv zeta in H.
  destruct (split_inv "T" s) as (p & ps & E & N & Q). rewrite E in H.
  destruct Q as [(-> & ->)|(r & -> & ->)]; [now elim H|].
  destruct (split_inv "T" r) as (q & qs & E2 & N2 & Q2). rewrite E2 in H.
  destruct Q2 as [(-> & ->)|(r2 & -> & ->)]; [now exists p, q|].
  destruct (split_inv "T" r2) as (q3 & qs3 & E3 & _). rewrite E3 in H. now elim H.
Qed.
Lemma and_iff : forall A (f : text -> tres A) s d x, (forall b y, f b = TOk y -> ~ In "T"%char b) ->
  date_and s f = TOk (d, x) <-> exists a b, s = a ++ ["T"%char] ++ b /\ ldate a d /\ f b = TOk x.
Proof.
  intros A f s d x NT. split.
  - intros H. destruct (and_form _ f s) as (a & b & -> & NA & NB); [congruence|].
    rewrite and_app in H by assumption. destruct (parse_date a) as [d'| |] eqn:D; cbn [tbind] in H; try discriminate.
    destruct (f b) as [y| |] eqn:F; cbn [tbind] in H; try discriminate. injection H as -> ->.
    exists a, b. split; [reflexivity|]. split; [now apply date_iff|exact F].
  - intros (a & b & -> & D & F). apply date_iff in D. rewrite and_app.
    + rewrite D. cbn [tbind]. now rewrite F.
    + apply date_no_T. apply date_made. congruence.
    + eapply NT; eauto.
Qed.
Lemma and_crash : forall A (f : text -> tres A) s, (forall b, f b <> Crash) ->
  date_and s f = Crash <-> exists a b, s = a ++ ["T"%char] ++ b /\ cut_date a /\ ~ In "T"%char b.
Proof.
  intros A f s NC. split.
  - intros H. destruct (and_form _ f s) as (a & b & -> & NA & NB); [congruence|].
    rewrite and_app in H by assumption. exists a, b. split; [reflexivity|]. split; [|exact NB]. apply date_crash.
    destruct (parse_date a) as [d'| |] eqn:D; cbn [tbind] in H; try discriminate; [|reflexivity].
    destruct (f b) as [y| |] eqn:F; cbn [tbind] in H; try discriminate. now apply NC in F.
  - intros (a & b & -> & D & NB). apply date_crash in D. rewrite and_app; [now rewrite D|apply date_no_T, date_made; congruence|exact NB].
Qed.
Lemma ltime_no_T : forall s t, ltime s t -> ~ In "T"%char s.
Proof. intros s t L I. apply (ltime_chars _ _ L) in I. discriminate I. Qed.
Lemma lzone_no_T : forall s z, lzone s z -> ~ In "T"%char s.
Proof.
  intros s z L I. destruct L as [c s h m H M SG LH BH LM BM]. rewrite !in_app_iff in I.
  destruct I as [[I|[]]|[I|[[I|[]]|I]]].
  - destruct SG as [(-> & _)|(-> & _)]; discriminate I.
  - revert I. eapply loose_no_colon; eauto.
  - discriminate I.
  - revert I. eapply loose_no_colon; eauto.
Qed.

Lemma time_nT : forall b y, parse_time b = TOk y -> ~ In "T"%char b.
Proof. intros b y B. apply time_iff in B. eapply ltime_no_T; eauto. Qed.
Lemma utc_nT : forall b y, parse_utc b = TOk y -> ~ In "T"%char b.
Proof.
  intros b y B I. apply utc_iff in B as (r & -> & L). apply in_app_or in I as [I|[I|[]]]; [|discriminate I]. eapply ltime_no_T; eauto.
Qed.
Lemma zone_nT : forall b y, parse_zone b = TOk y -> ~ In "T"%char b.
Proof.
  intros b [t z] B I. apply zone_iff in B as (p & r & -> & L & Z). apply in_app_or in I as [I|I];
    [eapply ltime_no_T; eauto|eapply lzone_no_T; eauto].
Qed.

(** * All classes *)
Theorem read_iff : forall c s v, read c s = TOk v <-> accepted c s v.
Proof.
  intros c s v. destruct c as [n|n|n| |n|n|n]; unfold read; split.
  - destruct (parse_time s) as [t| |] eqn:E; cbn [tbind]; try discriminate. intros H. injection H as <-. constructor. now apply time_iff.
  - intros H. inversion H; subst. rewrite (proj2 (time_iff _ _)) by eassumption. reflexivity.
  - destruct (parse_utc s) as [t| |] eqn:E; cbn [tbind]; try discriminate. intros H. injection H as <-.
    apply utc_iff in E as (r & -> & L). now constructor.
  - intros H. inversion H; subst. rewrite (proj2 (utc_iff _ _)) by (eexists; split; [reflexivity|eassumption]). reflexivity.
  - destruct (parse_zone s) as [[t z]| |] eqn:E; cbn [tbind]; try discriminate. intros H. injection H as <-.
    apply zone_iff in E as (a & r & -> & A & B). now constructor.
  - intros H. inversion H as [| |n' a t r z A B| | | |]; subst. rewrite (proj2 (zone_iff _ t z)); [reflexivity|]. now exists a, r.
  - destruct (parse_date s) as [t| |] eqn:E; cbn [tbind]; try discriminate. intros H. injection H as <-. constructor. now apply date_iff.
  - intros H. inversion H; subst. rewrite (proj2 (date_iff _ _)) by eassumption. reflexivity.
  - destruct (date_and s _) as [[d t]| |] eqn:E; cbn [tbind]; try discriminate. intros H. injection H as <-.
    apply and_iff in E as (a & b & -> & A & B); [|exact time_nT].
    constructor; [exact A|now apply time_iff].
  - intros H. inversion H as [| | | |n' a d b t A B| |]; subst. rewrite (proj2 (and_iff _ _ _ d t time_nT)); [reflexivity|].
    exists a, b. split; [reflexivity|]. split; [exact A|now apply time_iff].
  - destruct (date_and s _) as [[d t]| |] eqn:E; cbn [tbind]; try discriminate. intros H. injection H as <-.
    apply and_iff in E as (a & b & -> & A & B).
    2:{ exact utc_nT. }
    apply utc_iff in B as (r & -> & L). now constructor.
  - intros H. inversion H as [| | | | |n' a d b t A B|]; subst. rewrite (proj2 (and_iff _ _ _ d t utc_nT)); [reflexivity|].
    exists a, (b ++ ["Z"%char]). split; [reflexivity|]. split; [exact A|]. apply utc_iff. now exists b.
  - destruct (date_and s _) as [[d [t z]]| |] eqn:E; cbn [tbind]; try discriminate. intros H. injection H as <-.
    apply and_iff in E as (a & b & -> & A & B).
    2:{ exact zone_nT. }
    apply zone_iff in B as (p & r & -> & L & Z). now constructor.
  - intros H. inversion H as [| | | | | |n' a d b t r z A B C]; subst. rewrite (proj2 (and_iff _ _ _ d (t, z) zone_nT)); [reflexivity|].
    exists a, (b ++ r). split; [reflexivity|]. split; [exact A|]. apply zone_iff. now exists b, r.
Qed.
Theorem read_crash : forall c s, read c s = Crash <-> cut c s.
Proof.
  intros c s. destruct c as [n|n|n| |n|n|n]; unfold read, cut.
  - destruct (parse_time s) as [t| |] eqn:E; cbn [tbind]; split; try discriminate; try contradiction. now apply time_total in E.
  - destruct (parse_utc s) as [t| |] eqn:E; cbn [tbind]; split; try discriminate; try contradiction. now apply utc_total in E.
  - destruct (parse_zone s) as [[t z]| |] eqn:E; cbn [tbind]; split; try discriminate; try contradiction. now apply zone_total in E.
  - rewrite <- date_crash. destruct (parse_date s); cbn [tbind]; split; congruence.
  - rewrite <- (and_crash _ parse_time s time_total). destruct (date_and s parse_time) as [[d t]| |]; cbn [tbind]; split; congruence.
  - rewrite <- (and_crash _ parse_utc s utc_total). destruct (date_and s parse_utc) as [[d t]| |]; cbn [tbind]; split; congruence.
  - rewrite <- (and_crash _ parse_zone s zone_total). destruct (date_and s parse_zone) as [[d [t z]]| |]; cbn [tbind]; split; congruence.
Qed.
Lemma wzone_lzone : forall s z, wzone s z -> lzone s z.
Proof. intros s z [c s' h m H M SG (A & B & C) (D & E & F)]. constructor; try assumption; try lia; now constructor. Qed.
Theorem read_written : forall c s v, written c s v -> read c s = TOk v.
Proof.
  intros c s v W. apply read_iff. unfold accepted.
  assert (T : forall s t, wtime s t -> ltime s t) by (intros; now constructor).
  assert (D : forall s t, wdate s t -> ldate s t) by (intros; now constructor).
  pose proof wzone_lzone as Z. destruct W; constructor; auto.
Qed.
