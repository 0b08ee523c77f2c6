(** Proofs about the SETTINGS of TIME types. *)
From Coq Require Import List Ascii Bool Arith ZArith Lia String Permutation.
From Verif Require Import Time TimeSpec TimeProofs TimeClass TimeClassSpec.
Import ListNotations.
Local Open Scope list_scope.

(** * All orders *)
Lemma nth_split : forall A (l : list A) i x, nth_error l i = Some x ->
  Permutation l (x :: firstn i l ++ skipn (S i) l) /\ List.length l = S (List.length (firstn i l ++ skipn (S i) l)).
Proof.
  induction l as [|y l IH]; intros [|i] x H; try discriminate H.
  - injection H as ->. cbn [firstn skipn app]. split; [apply Permutation_refl|reflexivity].
  - cbn [nth_error] in H. destruct (IH i x H) as (P & L). change (firstn (S i) (y :: l)) with (y :: firstn i l).
    change (skipn (S (S i)) (y :: l)) with (skipn (S i) l). cbn [app List.length]. split; [|now rewrite L].
    etransitivity; [apply perm_skip; exact P|apply perm_swap].
Qed.
Lemma combos_spec : forall A f (l p : list A), List.length l = f -> l <> [] -> (In p (combos f l) <-> Permutation l p).
Proof.
  induction f as [|f IH]; intros l p L NE.
  { apply length_zero_iff_nil in L. contradiction. }
  cbn [combos]. rewrite filter_In, in_flat_map, Nat.eqb_eq. split.
  - intros ((i & _ & H) & _). destruct (nth_error l i) as [x|] eqn:E; [|contradiction].
    destruct (nth_split _ _ _ _ E) as (P & LP). rewrite P. set (l' := firstn i l ++ skipn (S i) l) in *.
    assert (L' : List.length l' = f) by lia.
    destruct (combos f l') as [|r rs] eqn:C.
    + destruct H as [<-|[]]. destruct l' as [|a l']; [reflexivity|]. exfalso.
      assert (X : In (a :: l') (combos f (a :: l'))) by (apply IH; [exact L'|discriminate|reflexivity]). rewrite C in X. contradiction.
    + apply in_map_iff in H as (q & <- & Q). apply perm_skip. apply IH; [exact L'| |rewrite C; exact Q].
      intros E'. rewrite E' in L', C. cbn in L'. subst f. discriminate C.
  - intros P. pose proof (Permutation_length P) as LP. split; [|lia].
    destruct p as [|x p]; [apply Permutation_sym, Permutation_nil in P; contradiction|].
    assert (I : In x l) by (eapply Permutation_in; [apply Permutation_sym; exact P|now left]).
    apply In_nth_error in I as (i & E). exists i. split.
    { apply in_seq. split; [lia|]. apply nth_error_Some. congruence. }
    rewrite E. destruct (nth_split _ _ _ _ E) as (P2 & LP2). set (l' := firstn i l ++ skipn (S i) l) in *.
    assert (P3 : Permutation l' p) by (eapply Permutation_cons_inv; etransitivity; [apply Permutation_sym; exact P2|exact P]).
    assert (L' : List.length l' = f) by lia.
    destruct l' as [|a l'].
    + apply Permutation_nil in P3. subst p. cbn in L'. subst f. cbn. now left.
    + assert (X : In p (combos f (a :: l'))) by (apply IH; [exact L'|discriminate|exact P3]).
      destruct (combos f (a :: l')) as [|r rs]; [contradiction|]. now apply in_map.
Qed.
Theorem combinations_spec : forall A (l p : list A), l <> [] -> (In p (combinations l) <-> Permutation l p).
Proof. intros A l p NE. now apply combos_spec. Qed.

(** * Replacing *)
Lemma starts_spec : forall p s, starts p s = true <-> exists r, s = p ++ r.
Proof.
  induction p as [|x p IH]; intros s; cbn [starts].
  - split; [intros _; now exists s|reflexivity].
  - destruct s as [|y s].
    + split; [discriminate|intros (r & E); discriminate E].
    + rewrite andb_true_iff, Ascii.eqb_eq, IH. split.
      * intros (-> & r & ->). now exists r.
      * intros (r & E). injection E as -> E. split; [reflexivity|now exists r].
Qed.
Lemma starts_skip : forall p s, starts p s = true -> s = p ++ skipn (List.length p) s.
Proof.
  intros p s H. apply starts_spec in H as (r & ->). rewrite skipn_app, skipn_all, Nat.sub_diag. reflexivity.
Qed.
Lemma index_spec : forall p s, contains p s = true <-> exists a b, s = a ++ p ++ b.
Proof.
  intros p s. unfold contains. induction s as [|c s IH]; cbn [index_of].
  - destruct (starts p []) eqn:S.
    + apply starts_spec in S as (r & S). split; [|reflexivity]. intros _. now exists [], r.
    + split; [discriminate|]. intros (a & b & E). symmetry in E. apply app_eq_nil in E as (-> & E). exfalso.
      assert (starts p [] = true) by (apply starts_spec; now exists b). congruence.
  - destruct (starts p (c :: s)) eqn:S.
    + apply starts_spec in S as (r & S). split; [|reflexivity]. intros _. now exists [], r.
    + destruct (index_of p s) as [i|]; cbn [option_map].
      * split; [|reflexivity]. intros _. destruct (proj1 IH eq_refl) as (a & b & ->). now exists (c :: a), b.
      * split; [discriminate|]. intros ([|x a] & b & E).
        -- exfalso. assert (starts p (c :: s) = true) by (apply starts_spec; now exists b). congruence.
        -- injection E as <- E. apply IH. now exists a, b.
Qed.
(** What a replacement keeps: any function of the text that does not tell pattern from replacement. *)
Lemma replace_run : forall St (run : St -> text -> St) p q,
  (forall st a b, run st (a ++ b) = run (run st a) b) -> (forall st, run st p = run st q) ->
  forall f s st, run st (replace f p q s) = run st s.
Proof.
  intros St run p q A E. induction f as [|f IH]; intros s st; [reflexivity|]. destruct s as [|c s]; [reflexivity|]. cbn [replace].
  destruct (starts p (c :: s)) eqn:H.
  - rewrite A, IH. rewrite (starts_skip _ _ H) at 2. rewrite A. now rewrite E.
  - change (c :: replace f p q s) with ([c] ++ replace f p q s). change (c :: s) with ([c] ++ s). now rewrite !A, IH.
Qed.
Lemma replace_short : forall p q, (List.length q < List.length p)%nat ->
  forall f s, (List.length (replace f p q s) <= List.length s)%nat.
Proof.
  intros p q L. induction f as [|f IH]; intros s; [reflexivity|]. destruct s as [|c s]; [reflexivity|]. cbn [replace].
  destruct (starts p (c :: s)) eqn:H.
  - rewrite app_length. pose proof (IH (skipn (List.length p) (c :: s))) as X. 
    pose proof (f_equal (@List.length ascii) (starts_skip _ _ H)) as Y. rewrite app_length in Y. lia.
  - cbn [List.length]. specialize (IH s). lia.
Qed.
Lemma replace_shorter : forall p q, (List.length q < List.length p)%nat ->
  forall f s, (List.length s <= f)%nat -> contains p s = true -> (List.length (replace f p q s) < List.length s)%nat.
Proof.
  intros p q L. induction f as [|f IH]; intros s F C; apply index_spec in C as (a & b & E).
  { exfalso. subst s. rewrite !app_length in F. lia. }
  destruct s as [|c s]. { exfalso. pose proof (f_equal (@List.length ascii) E) as X. rewrite !app_length in X. cbn [List.length] in X. lia. }
  cbn [replace]. destruct (starts p (c :: s)) eqn:H.
  - rewrite app_length. pose proof (replace_short p q L f (skipn (List.length p) (c :: s))) as X.
    pose proof (f_equal (@List.length ascii) (starts_skip _ _ H)) as Y. rewrite app_length in Y. lia.
  - cbn [List.length] in *. destruct a as [|x a].
    + exfalso. assert (starts p (c :: s) = true) by (apply starts_spec; now exists b). congruence.
    + injection E as <- E. assert (contains p s = true) by (apply index_spec; now exists a, b). specialize (IH s ltac:(lia) H0). lia.
Qed.

(** * Spaces *)
Definition is_space (c : ascii) : bool := (c =? " ")%char || (c =? tab)%char || (c =? cr)%char || (c =? lf)%char.
Lemma is_space_spec : forall c, is_space c = true <-> space c.
Proof. intros c. unfold is_space, space. rewrite !orb_true_iff, !Ascii.eqb_eq. unfold tab, cr, lf. tauto. Qed.
Lemma is_space_no : forall c, is_space c = false <-> ~ space c.
Proof. intros c. rewrite <- is_space_spec. destruct (is_space c); split; congruence. Qed.
Definition squash (s : text) : text := filter (fun c => negb (is_space c)) s.
Lemma dense_spec : forall s t, dense s t <-> squash s = t.
Proof.
  intros s t. split.
  - induction 1 as [|c s t C D IH|c s t C D IH]; [reflexivity|..]; unfold squash in *; cbn [filter].
    + apply is_space_spec in C. now rewrite C.
    + apply is_space_no in C. rewrite C. cbn [negb]. now rewrite IH.
  - intros <-. unfold squash. induction s as [|c s IH]; cbn [filter]; [constructor|]. destruct (is_space c) eqn:C; cbn [negb].
    + apply de_space; [now apply is_space_spec|exact IH].
    + apply de_char; [now apply is_space_no|exact IH].
Qed.
Lemma replace_squash : forall f p q s, squash p = squash q -> squash (replace f p q s) = squash s.
Proof.
  intros f p q s E. pose proof (replace_run text (fun st s => st ++ squash s) p q) as X. cbv beta in X.
  specialize (X ltac:(intros; unfold squash; rewrite filter_app; now rewrite app_assoc) ltac:(intros; now rewrite E) f s []). exact X.
Qed.
Lemma patterns_squash : forall p, In p patterns -> squash p = [eqc].
Proof. intros p H. cbn [In patterns] in H. repeat (destruct H as [<-|H]; [reflexivity|]). contradiction. Qed.
Lemma patterns_long : forall p, In p patterns -> (List.length [eqc] < List.length p)%nat.
Proof. intros p H. cbn [In patterns] in H. repeat (destruct H as [<-|H]; [cbn; lia|]). contradiction. Qed.
Lemma around_keeps : forall (P : text -> Prop), (forall p s, In p patterns -> P s -> P (replace_all p [eqc] s)) ->
  forall f s, P s -> P (around f s).
Proof.
  intros P H. induction f as [|f IH]; intros s PS; cbn [around]; [exact PS|].
  destruct (find _ patterns) as [p|] eqn:F; [|exact PS]. apply find_some in F as (I & _). apply IH. now apply H.
Qed.
Lemma around_squash : forall s, squash (remove_around s) = squash s.
Proof.
  intros s. unfold remove_around. apply (around_keeps (fun t => squash t = squash s)); [|reflexivity].
  intros p t I E. unfold replace_all. rewrite replace_squash; [exact E|]. now rewrite (patterns_squash p I).
Qed.
Definition clean (s : text) : Prop := forall p, In p patterns -> contains p s = false.
Lemma around_clean : forall f s, (List.length s < f)%nat -> clean (around f s).
Proof.
  induction f as [|f IH]; intros s L; [lia|]. cbn [around]. destruct (find _ patterns) as [p|] eqn:F.
  - apply find_some in F as (I & C). apply IH. unfold replace_all.
    pose proof (replace_shorter p [eqc] (patterns_long p I) (List.length s) s (le_n _) C). lia.
  - intros p I. exact (find_none _ _ F p I).
Qed.
Lemma remove_clean : forall s, clean (remove_around s).
Proof. intros s. apply around_clean. lia. Qed.

(** * Layout *)
Inductive state := N | E | B | Bad.
Definition step (st : state) (c : ascii) : state :=
  match st with
  | N => if (c =? "=")%char then E else if (c =? " ")%char then N else if is_space c then B else N
  | E => if (c =? "=")%char then E else if is_space c then E else N
  | B => if (c =? "=")%char then E else if is_space c then B else Bad
  | Bad => Bad
  end.
Definition runs (st : state) (s : text) : state := fold_left step s st.
Definition fine (st : state) : Prop := st = N \/ st = E.
Lemma bad_runs : forall s, runs Bad s = Bad.
Proof. induction s as [|c s IH]; [reflexivity|exact IH]. Qed.
Lemma around_runs : forall s, runs N (remove_around s) = runs N s.
Proof.
  intros s. unfold remove_around. apply (around_keeps (fun t => runs N t = runs N s)); [|reflexivity].
  intros p t I <-. unfold replace_all. apply replace_run.
  - intros st a b. unfold runs. now rewrite fold_left_app.
  - intros st. cbn [In patterns] in I. repeat (destruct I as [<-|I]; [destruct st; reflexivity|]). contradiction.
Qed.
Definition other_space (c : ascii) : bool := (c =? tab)%char || (c =? cr)%char || (c =? lf)%char.
Lemma space_other : forall c, is_space c = (c =? " ")%char || other_space c.
Proof. intros c. unfold is_space, other_space. now rewrite !orb_assoc. Qed.
Lemma other_not_blank : forall c, other_space c = true -> (c =? " ")%char = false /\ (c =? "=")%char = false.
Proof.
  intros c H. unfold other_space in H. rewrite !orb_true_iff, !Ascii.eqb_eq in H.
  destruct H as [[->| ->]| ->]; split; reflexivity.
Qed.
Lemma clean_tail : forall c s, clean (c :: s) -> clean s.
Proof.
  intros c s H p I. destruct (contains p s) eqn:C; [|reflexivity]. apply index_spec in C as (a & b & ->).
  rewrite <- (H p I). symmetry. apply index_spec. now exists (c :: a), b.
Qed.
Lemma clean_before : forall c s, is_space c = true -> ~ clean (c :: "="%char :: s).
Proof.
  intros c s S H. apply is_space_spec in S. assert (I : In [c; eqc] patterns).
  { unfold patterns. destruct S as [->|[->|[->| ->]]]; cbn; auto 12. }
  specialize (H _ I). rewrite (proj2 (index_spec _ _)) in H; [discriminate H|]. now exists [], s.
Qed.
Lemma clean_after : forall c s, is_space c = true -> ~ clean ("="%char :: c :: s).
Proof.
  intros c s S H. apply is_space_spec in S. assert (I : In [eqc; c] patterns).
  { unfold patterns. destruct S as [->|[->|[->| ->]]]; cbn; auto 12. }
  specialize (H _ I). rewrite (proj2 (index_spec _ _)) in H; [discriminate H|]. now exists [], s.
Qed.
Lemma clean_B : forall s k, is_space k = true -> clean (k :: s) -> ~ fine (runs B s).
Proof.
  induction s as [|c s IH]; intros k K C F.
  - destruct F as [F|F]; discriminate F.
  - unfold runs in F. cbn [fold_left step] in F. destruct (Ascii.eqb_spec c "=") as [->|NE]; [now apply (clean_before _ _ K C)|].
    destruct (is_space c) eqn:S.
    + apply clean_tail in C. exact (IH c S C F).
    + fold (runs Bad s) in F. rewrite bad_runs in F. destruct F as [F|F]; discriminate F.
Qed.
Lemma clean_fine : forall s,
  (clean s -> fine (runs N s) -> forall c, In c s -> other_space c = false) /\
  (clean ("="%char :: s) -> fine (runs E s) -> forall c, In c s -> other_space c = false).
Proof.
  induction s as [|x s [IHN IHE]]; [split; intros; contradiction|]. split; intros C F c I.
  - unfold runs in F. cbn [fold_left step] in F. destruct (Ascii.eqb_spec x "=") as [->|NE].
    + destruct I as [<-|I]; [reflexivity|]. exact (IHE C F c I).
    + destruct (Ascii.eqb_spec x " ") as [->|NB].
      * destruct I as [<-|I]; [reflexivity|]. exact (IHN (clean_tail _ _ C) F c I).
      * destruct (is_space x) eqn:S; [exfalso; exact (clean_B s x S C F)|].
        destruct I as [<-|I]; [|exact (IHN (clean_tail _ _ C) F c I)]. rewrite space_other in S. now apply orb_false_iff in S.
  - unfold runs in F. cbn [fold_left step] in F. destruct (Ascii.eqb_spec x "=") as [->|NE].
    + destruct I as [<-|I]; [reflexivity|]. exact (IHE (clean_tail _ _ C) F c I).
    + destruct (is_space x) eqn:S; [exfalso; exact (clean_after _ _ S C)|].
      destruct I as [<-|I]; [|exact (IHN (clean_tail _ _ (clean_tail _ _ C)) F c I)]. rewrite space_other in S. now apply orb_false_iff in S.
Qed.
Lemma others_fine : forall s st, fine st -> (forall c, In c s -> other_space c = false) -> fine (runs st s).
Proof.
  induction s as [|c s IH]; intros st F H; [exact F|]. unfold runs. cbn [fold_left]. apply IH; [|intros d D; apply H; now right].
  assert (O : other_space c = false) by (apply H; now left). unfold fine, step. rewrite space_other, O, orb_false_r.
  destruct F as [->| ->]; destruct (c =? "=")%char; auto; destruct (c =? " ")%char; auto.
Qed.
Lemma N_to_E : forall s, fine (runs N s) -> fine (runs E s).
Proof.
  induction s as [|c s IH]; intros F; [now right|]. unfold runs in *. cbn [fold_left step] in *.
  destruct (c =? "=")%char; [exact F|]. rewrite space_other in *. destruct (c =? " ")%char eqn:SP; cbn [orb] in *.
  - apply IH. exact F.
  - destruct (other_space c); [|exact F]. clear SP IH. revert F. generalize s. clear.
    induction s as [|c s IH]; intros F; [now right|]. unfold runs in *. cbn [fold_left step] in *.
    destruct (c =? "=")%char; [exact F|]. destruct (is_space c); [now apply IH|].
    fold (runs Bad s) in F. rewrite bad_runs in F. destruct F as [F|F]; discriminate F.
Qed.
Lemma runs_app : forall st a b, runs st (a ++ b) = runs (runs st a) b.
Proof. intros. unfold runs. now rewrite fold_left_app. Qed.
Lemma space_not_eq : forall c, space c -> (c =? "=")%char = false.
Proof. intros c [->|[->|[->| ->]]]; reflexivity. Qed.
Lemma spaces_E : forall v, Forall space v -> runs E v = E.
Proof.
  induction 1 as [|c v C V IH]; [reflexivity|]. unfold runs in *. cbn [fold_left step].
  rewrite (space_not_eq c C), (proj2 (is_space_spec c) C). exact IH.
Qed.
Lemma spaces_N : forall v, Forall space v -> forall st, st = N \/ st = B -> runs st v = N \/ runs st v = B.
Proof.
  induction 1 as [|c v C V IH]; intros st S; [exact S|]. unfold runs in *. cbn [fold_left]. apply IH.
  destruct S as [->| ->]; cbn [step]; rewrite (space_not_eq c C), (proj2 (is_space_spec c) C); [|now right].
  destruct (c =? " ")%char; auto.
Qed.
Lemma laid_runs : forall s, laid s <-> fine (runs N s).
Proof.
  intros s. split.
  - induction 1 as [|c s C L IH|s L IH|u v s U V L IH].
    + now left.
    + unfold runs. cbn [fold_left step]. apply is_space_no in C. rewrite C. destruct (c =? "=")%char; [now apply N_to_E|].
      destruct (c =? " ")%char; exact IH.
    + exact IH.
    + rewrite runs_app. assert (X : runs (runs N u) (["="%char] ++ v ++ s) = runs E s).
      { rewrite !runs_app. replace (runs (runs N u) ["="%char]) with E; [now rewrite spaces_E|].
        destruct (spaces_N u U N (or_introl eq_refl)) as [->| ->]; reflexivity. }
      rewrite X. now apply N_to_E.
  - assert (G : forall s, (fine (runs N s) -> laid s) /\
      (fine (runs E s) -> exists v r, s = v ++ r /\ Forall space v /\ laid r) /\
      (fine (runs B s) -> exists u v r, s = u ++ ["="%char] ++ v ++ r /\ Forall space u /\ Forall space v /\ laid r)).
    { clear s. induction s as [|c s (HN & HE & HB)].
      - split; [constructor|]. split; [intros _; exists [], []; repeat split; constructor|]. intros [F|F]; discriminate F.
      - unfold runs in *. cbn [fold_left]. split; [|split]; cbn [step]; destruct (Ascii.eqb_spec c "=") as [->|NE].
        + intros F. destruct (HE F) as (v & r & -> & V & R). exact (la_equals [] v r (Forall_nil _) V R).
        + destruct (Ascii.eqb_spec c " ") as [->|NB].
          * intros F. apply la_blank. now apply HN.
          * destruct (is_space c) eqn:S.
            -- intros F. destruct (HB F) as (u & v & r & -> & U & V & R). apply is_space_spec in S.
               exact (la_equals (c :: u) v r (Forall_cons _ S U) V R).
            -- intros F. apply la_char; [now apply is_space_no|now apply HN].
        + intros F. destruct (HE F) as (v & r & -> & V & R). exists [], (["="%char] ++ v ++ r). repeat split; [constructor|].
          exact (la_equals [] v r (Forall_nil _) V R).
        + destruct (is_space c) eqn:S.
          * intros F. destruct (HE F) as (v & r & -> & V & R). exists (c :: v), r. apply is_space_spec in S. repeat split; auto.
          * intros F. exists [], (c :: s). repeat split; [constructor|]. apply la_char; [now apply is_space_no|now apply HN].
        + intros F. destruct (HE F) as (v & r & -> & V & R). exists [], v, r. repeat split; auto.
        + destruct (is_space c) eqn:S.
          * intros F. destruct (HB F) as (u & v & r & -> & U & V & R). apply is_space_spec in S. exists (c :: u), v, r. repeat split; auto.
          * intros F. fold (runs Bad s) in F. rewrite bad_runs in F. destruct F as [F|F]; discriminate F. }
    apply G.
Qed.

(** * The map *)
Lemma text_eqb_spec : forall a b, text_eqb a b = true <-> a = b.
Proof.
  induction a as [|x a IH]; intros [|y b]; cbn [text_eqb]; try (split; [discriminate|discriminate]); [tauto|].
  rewrite andb_true_iff, Ascii.eqb_eq, IH. split; [intros (-> & ->); reflexivity|intros H; injection H as -> ->; tauto].
Qed.
Definition code (c : tclass) : Z * Z :=
  match c with
  | LocalTime n => (1, n) | UtcTime n => (2, n) | ZoneTime n => (3, n) | DateOnly => (4, 0)
  | DateLocal n => (5, n) | DateUtc n => (6, n) | DateZone n => (7, n)
  end%Z.
Lemma code_inj : forall c d, code c = code d -> c = d.
Proof. intros [] [] H; cbn in H; try discriminate H; try reflexivity; injection H as ->; reflexivity. Qed.
Definition code_eqb (c d : tclass) : bool := (fst (code c) =? fst (code d))%Z && (snd (code c) =? snd (code d))%Z.
Lemma code_eqb_eq : forall c d, code_eqb c d = true -> c = d.
Proof.
  intros c d H. apply code_inj. unfold code_eqb in H. apply andb_true_iff in H as (A & B'). apply Z.eqb_eq in A, B'.
  destruct (code c), (code d). cbn in *. congruence.
Qed.
Definition good (m : list (text * tclass)) : bool :=
  let r := rev m in
  forallb (fun e => match option_map snd (find (fun x => text_eqb (fst x) (fst e)) r) with Some c => code_eqb c (snd e) | None => false end &&
    negb (contains (TimeClass.tx "Time=HMSF") (fst e))) m.
Lemma map_good : good class_map = true.
Proof. vm_compute. reflexivity. Qed.
Definition look_in (m : list (text * tclass)) (s : text) : option tclass :=
  option_map snd (find (fun e => text_eqb (fst e) s) (rev m)).
Lemma good_in : forall m s c, good m = true -> In (s, c) m ->
  match look_in m s with Some d => code_eqb d c | None => false end = true /\ contains (TimeClass.tx "Time=HMSF") s = false.
Proof.
  intros m s c G I. unfold good in G. cbv zeta in G.
  pose proof (proj1 (forallb_forall _ _) G (s, c) I) as H. clear G. cbv beta in H. cbn [fst snd] in H.
  apply andb_true_iff in H as (H1 & H2). apply negb_true_iff in H2. split; [exact H1|exact H2].
Qed.
Lemma look_in_spec : forall m s c, good m = true -> (look_in m s = Some c <-> In (s, c) m).
Proof.
  intros m s c G. split.
  - unfold look_in. destruct (find _ (rev m)) as [[k d]|] eqn:F; cbn [option_map]; [|discriminate]. intros H. injection H as <-.
    apply find_some in F as (I & T). cbn [fst] in T. apply text_eqb_spec in T. subst k. now apply in_rev.
  - intros I. destruct (good_in m s c G I) as (H & _). destruct (look_in m s) as [d|]; [|discriminate H].
    apply code_eqb_eq in H. now subst.
Qed.
Lemma look_spec : forall s c, look s = Some c <-> In (s, c) class_map.
Proof. intros s c. exact (look_in_spec class_map s c map_good). Qed.
Lemma key_no_fraction : forall s c, In (s, c) class_map -> contains (TimeClass.tx "Time=HMSF") s = false.
Proof. intros s c I. exact (proj2 (good_in class_map s c map_good I)). Qed.
Lemma lists_words : forall s c, In (s, c) setting_lists -> precision c = 0%Z /\ split " " s = map list_ascii_of_string (words c).
Proof. intros s c I. cbn [In setting_lists] in I. repeat (destruct I as [X|I]; [injection X as <- <-; split; reflexivity|]). contradiction. Qed.
Lemma words_lists : forall c, precision c = 0%Z -> exists s, In (s, c) setting_lists.
Proof.
  intros [n|n|n| |n|n|n] H; cbn [precision] in H; try subst n; unfold setting_lists; cbn [In]; eexists; eauto 12.
Qed.
Lemma words_nonempty : forall c, words c <> [].
Proof. intros []; discriminate. Qed.
Lemma map_spec : forall s c, In (s, c) class_map <->
  precision c = 0%Z /\ exists p, Permutation (words c) p /\ s = List.concat (map list_ascii_of_string p).
Proof.
  intros s c. unfold class_map. rewrite in_flat_map. split.
  - intros ([k d] & I & H). apply in_map_iff in H as (l & H & L). injection H as <- ->.
    destruct (lists_words _ _ I) as (P & W). split; [exact P|]. rewrite W in L. apply combinations_spec in L.
    2:{ intros X. apply map_eq_nil in X. now apply words_nonempty in X. }
    apply Permutation_sym in L. apply Permutation_map_inv in L as (p & -> & L). exists p. split; [exact L|reflexivity].
  - intros (P & p & W & ->). destruct (words_lists c P) as (k & I). exists (k, c). split; [exact I|].
    destruct (lists_words _ _ I) as (_ & E). apply in_map_iff. exists (map list_ascii_of_string p). split; [reflexivity|].
    rewrite E. apply combinations_spec; [intros X; apply map_eq_nil in X; now apply words_nonempty in X|]. now apply Permutation_map.
Qed.

(** * Reading *)
Lemma replace_blank : forall f s, (List.length s <= f)%nat -> replace f [" "%char] [] s = filter (fun c => negb (c =? " ")%char) s.
Proof.
  induction f as [|f IH]; intros s L; destruct s as [|c s]; try reflexivity; [cbn in L; lia|].
  cbn [replace starts filter]. rewrite andb_true_r, Ascii.eqb_sym. cbn [List.length] in L.
  destruct (c =? " ")%char; cbn [negb app List.length skipn]; [apply IH; lia|]. f_equal. apply IH. lia.
Qed.
Lemma squash_blank : forall s, (forall c, In c s -> other_space c = false) -> filter (fun c => negb (c =? " ")%char) s = squash s.
Proof.
  intros s H. unfold squash. apply filter_ext_in. intros c C. rewrite space_other, (H c C). now rewrite orb_false_r.
Qed.
Lemma words_no_space : forall c w, In w (words c) -> forall x, In x (list_ascii_of_string w) -> is_space x = false.
Proof.
  assert (X : forall c, forallb (fun w => forallb (fun x => negb (is_space x)) (list_ascii_of_string w)) (words c) = true)
    by (intros []; reflexivity).
  intros c w W x I. pose proof (proj1 (forallb_forall _ _) (X c) w W) as Y. cbv beta in Y.
  pose proof (proj1 (forallb_forall _ _) Y x I) as Z. now apply negb_true_iff in Z.
Qed.
Lemma key_no_space : forall s c, In (s, c) class_map -> forall x, In x s -> is_space x = false.
Proof.
  intros s c I x X. apply map_spec in I as (_ & p & P & ->). apply in_concat in X as (l & L & X).
  apply in_map_iff in L as (w & <- & W). apply (words_no_space c w); [|exact X]. eapply Permutation_in; [apply Permutation_sym; exact P|exact W].
Qed.
Theorem settings_iff : forall s c, settings s = TOk c <-> laid s /\ says s c.
Proof.
  intros s c. unfold settings. cbv zeta. unfold replace_all. rewrite replace_blank by lia. set (t := remove_around s).
  assert (SQ : squash t = squash s) by apply around_squash.
  split.
  - intros H. assert (H' : look (filter (fun x => negb (x =? " ")%char) t) = Some c).
    { destruct (index_of _ t) as [[|i]|]; [|discriminate H|]; (destruct (look _) as [d|]; [|discriminate H]); injection H as ->; reflexivity. }
    clear H. apply look_spec in H'.
    assert (O : forall x, In x t -> other_space x = false).
    { intros x X. destruct (other_space x) eqn:OX; [|reflexivity]. destruct (other_not_blank x OX) as (NB & _).
      assert (I : In x (filter (fun x => negb (x =? " ")%char) t)) by (apply filter_In; rewrite NB; now split).
      apply (key_no_space _ _ H') in I. rewrite space_other, OX, orb_true_r in I. discriminate I. }
    rewrite squash_blank, SQ in H' by exact O. split.
    + apply laid_runs. rewrite <- around_runs. apply others_fine; [now left|exact O].
    + apply map_spec in H' as (P & p & W & E'). split; [exact P|]. exists p. split; [exact W|]. now apply dense_spec.
  - intros (L & P & p & W & D). apply dense_spec in D. apply laid_runs in L. rewrite <- around_runs in L. fold t in L.
    assert (O : forall x, In x t -> other_space x = false) by (apply (proj1 (clean_fine t)); [apply remove_clean|exact L]).
    rewrite squash_blank by exact O.
    assert (I : In (squash s, c) class_map) by (apply map_spec; split; [exact P|]; exists p; now split).
    pose proof (key_no_fraction _ _ I) as NF. apply look_spec in I. rewrite SQ, I.
    destruct (index_of _ t) as [i|] eqn:IX; [|reflexivity]. exfalso.
    assert (C : contains (TimeClass.tx "Time=HMSF") t = true) by (unfold contains; now rewrite IX).
    apply index_spec in C as (a & b & C). assert (X : contains (TimeClass.tx "Time=HMSF") (squash s) = true); [|congruence].
    apply index_spec. exists (squash a), (squash b). rewrite <- SQ, C. unfold squash. now rewrite !filter_app.
Qed.
Theorem settings_crash : forall a b, a <> [] -> clean (a ++ TimeClass.tx "Time=HMSF" ++ b) -> starts (TimeClass.tx "Time=HMSF") (a ++ TimeClass.tx "Time=HMSF" ++ b) = false ->
  settings (a ++ TimeClass.tx "Time=HMSF" ++ b) = Crash.
Proof.
  intros a b NE C ST. unfold settings. cbv zeta.
  assert (R : remove_around (a ++ TimeClass.tx "Time=HMSF" ++ b) = a ++ TimeClass.tx "Time=HMSF" ++ b).
  { unfold remove_around. cbn [around]. destruct (find _ patterns) as [p|] eqn:F; [|reflexivity].
    apply find_some in F as (I & F). rewrite (C p I) in F. discriminate F. }
  rewrite R. assert (X : contains (TimeClass.tx "Time=HMSF") (a ++ TimeClass.tx "Time=HMSF" ++ b) = true) by (apply index_spec; now exists a, b).
  unfold contains in X. destruct (index_of _ _) as [[|i]|] eqn:IX; [|reflexivity|discriminate X]. exfalso.
  destruct a as [|x a]; [congruence|]. cbn [app index_of] in IX, ST. rewrite ST in IX.
  destruct (index_of _ (a ++ _)); discriminate IX.
Qed.
