(** Proofs for C65: the repeated calls. *)
From Verif Require Import Names NamesSpec NamesProofs NamesProofs2.
From Coq Require Import String Ascii List Bool Arith Lia Permutation.
Import ListNotations.
Local Open Scope string_scope.
Local Open Scope list_scope.

(** Induction over the calls. *)
Lemma run_ind : forall (f : nroot -> call) (P : nroot -> nroot -> Prop),
  (forall r, f r = Return r -> P r r) -> (forall r r1 r', f r = Again r1 -> P r1 r' -> P r r') -> (forall r x, f r = Return x -> x = r) ->
  forall n r r', run f n r = Some (Done r') -> P r r'.
Proof.
  intros f P H0 H1 H2. induction n as [|n IH]; intros r r' H; [discriminate|]. cbn [run] in H. destruct (f r) as [x|r1|] eqn:E.
  - assert (x = r') by congruence. subst. pose proof (H2 _ _ E). subst. now apply H0.
  - eapply H1; [exact E|]. now apply IH.
  - discriminate.
Qed.
Lemma call_inv : forall dup c r, (dup = [] /\ call_of dup c r = Return r) \/
  (dup <> [] /\ match c dup r with Some r' => call_of dup c r = Again r' | None => call_of dup c r = Raise end).
Proof. intros [|d dup] c r; cbn; [left; auto|right]. split; [discriminate|]. destruct (c (d :: dup) r); reflexivity. Qed.
Lemma enums_return : forall pol r x, handleEnums pol r = Return x -> x = r /\ NoDup (doubleEnumNames0 r ++ c_keywords).
Proof.
  intros pol r x H. unfold handleEnums in H. destruct (call_inv (keepDuplicates String.eqb (doubleEnumNames0 r ++ c_keywords)) (fun dup => clone (enum_type pol dup)) r) as [[D E]|[D E]].
  - rewrite E in H. split; [congruence|]. now apply eqb_pairs, dup_nil.
  - destruct (clone _ r); rewrite E in H; discriminate.
Qed.
Lemma enums_again : forall pol r x, handleEnums pol r = Again x -> let dup := keepDuplicates String.eqb (doubleEnumNames0 r ++ c_keywords) in
  dup <> [] /\ clone (enum_type pol dup) r = Some x.
Proof.
  intros pol r x H. unfold handleEnums in H. destruct (call_inv (keepDuplicates String.eqb (doubleEnumNames0 r ++ c_keywords)) (fun dup => clone (enum_type pol dup)) r) as [[D E]|[D E]].
  - rewrite E in H. discriminate.
  - split; [exact D|]. destruct (clone _ r); rewrite E in H; congruence.
Qed.
Lemma choices_return : forall pol r x, handleEnumChoices pol r = Return x ->
  x = r /\ ForallOrdPairs (fun a b => icompare a b = false) (names_of choice_names r).
Proof.
  intros pol r x H. unfold handleEnumChoices in H. destruct (call_inv (keepDuplicates icompare (names_of choice_names r)) (fun dup => clone (choice_type pol dup)) r) as [[D E]|[D E]].
  - rewrite E in H. split; [congruence|]. now apply dup_nil.
  - destruct (clone _ r); rewrite E in H; discriminate.
Qed.
Lemma choices_again : forall pol r x, handleEnumChoices pol r = Again x -> let dup := keepDuplicates icompare (names_of choice_names r) in
  dup <> [] /\ clone (choice_type pol dup) r = Some x.
Proof.
  intros pol r x H. unfold handleEnumChoices in H. destruct (call_inv (keepDuplicates icompare (names_of choice_names r)) (fun dup => clone (choice_type pol dup)) r) as [[D E]|[D E]].
  - rewrite E in H. discriminate.
  - split; [exact D|]. destruct (clone _ r); rewrite E in H; congruence.
Qed.
Lemma enums_done : forall pol n r r', run (handleEnums pol) n r = Some (Done r') ->
  NoDup (doubleEnumNames0 r' ++ c_keywords) /\ root_shape r' = root_shape r /\ names_of choice_names r' = names_of choice_names r /\
  flat_map mvalues r' = flat_map mvalues r /\ (cleans (names_of enum_names r) -> cleans (names_of enum_names r')).
Proof.
  intros pol. apply run_ind.
  - intros r H. apply enums_return in H as [_ H]. auto.
  - intros r r1 r' H (A & B & C & D & E). apply enums_again in H as [_ H]. cbv zeta in H. split; [exact A|].
    split; [rewrite B; eapply clone_shape; [exact H|]; intros key t t' K; eapply enum_keep; exact K|].
    split; [rewrite C; eapply clone_names; [exact H|]; intros key t t' K; eapply enum_keep; exact K|].
    split; [rewrite D; eapply clone_values; exact H|].
    intros G. apply E. eapply clone_cleans; [exact H| |exact G]. intros key t t' K. eapply enum_keep. exact K.
  - intros r x H. now apply enums_return in H.
Qed.
Lemma choices_done : forall pol n r r', run (handleEnumChoices pol) n r = Some (Done r') ->
  ForallOrdPairs (fun a b => icompare a b = false) (names_of choice_names r') /\ root_shape r' = root_shape r /\
  names_of enum_names r' = names_of enum_names r /\
  flat_map mvalues r' = flat_map mvalues r /\ (cleans (names_of choice_names r) -> cleans (names_of choice_names r')).
Proof.
  intros pol. apply run_ind.
  - intros r H. apply choices_return in H as [_ H]. auto.
  - intros r r1 r' H (A & B & C & D & E). apply choices_again in H as [_ H]. cbv zeta in H. split; [exact A|].
    split; [rewrite B; eapply clone_shape; [exact H|]; intros key t t' K; eapply choice_keep; exact K|].
    split; [rewrite C; eapply clone_names; [exact H|]; intros key t t' K; eapply choice_keep; exact K|].
    split; [rewrite D; eapply clone_values; exact H|].
    intros G. apply E. eapply clone_cleans; [exact H| |exact G]. intros key t t' K. eapply choice_keep. exact K.
  - intros r x H. now apply choices_return in H.
Qed.

(** * The initial names *)
Lemma initial_enum : forall t, cleans (enum_names (initial t)).
Proof.
  intros t. induction t as [items|l IH|l IH|t IH|] using nty_rect'; cbn [initial enum_names].
  - rewrite map_map. cbn [snd]. apply Forall_forall. intros s I. apply in_map_iff in I as (x & <- & _). apply ToC_clean.
  - rewrite flat_map_concat_map, map_map. cbn [snd]. rewrite <- flat_map_concat_map. apply Forall_flat_map. exact IH.
  - rewrite flat_map_concat_map, map_map. cbn [snd]. rewrite <- flat_map_concat_map. apply Forall_flat_map. exact IH.
  - exact IH.
  - constructor.
Qed.
Lemma initial_choice : forall t, cleans (choice_names (initial t)).
Proof.
  intros t. induction t as [items|l IH|l IH|t IH|] using nty_rect'; cbn [initial choice_names].
  - constructor.
  - rewrite flat_map_concat_map, map_map. cbn [snd]. rewrite <- flat_map_concat_map. apply Forall_flat_map. exact IH.
  - apply Forall_app. split.
    + rewrite map_map. cbn [fst snd]. apply Forall_forall. intros s I. apply in_map_iff in I as (x & <- & _). apply ToC_clean.
    + rewrite flat_map_concat_map, map_map. cbn [snd]. rewrite <- flat_map_concat_map. apply Forall_flat_map. exact IH.
  - exact IH.
  - constructor.
Qed.
Lemma initial_names : forall g r, (forall t, cleans (g (initial t))) -> cleans (names_of g (initial_root r)).
Proof.
  intros g r H. unfold names_of, initial_root. rewrite flat_map_concat_map, map_map. rewrite <- flat_map_concat_map. apply Forall_flat_map.
  apply Forall_forall. intros m _. cbn [mtypes]. rewrite flat_map_concat_map, map_map. cbn [snd]. rewrite <- flat_map_concat_map.
  apply Forall_flat_map. apply Forall_forall. intros a _. apply H.
Qed.
Lemma initial_values : forall r, flat_map mvalues (initial_root r) = flat_map mvalues r.
Proof. intros r. unfold initial_root. induction r as [|m r IH]; cbn; [reflexivity|]. now rewrite IH. Qed.
Lemma shape_initial : forall t, shape (initial t) = shape t.
Proof.
  intros t. induction t as [items|l IH|l IH|t IH|] using nty_rect'; cbn [initial shape]; try reflexivity; rewrite ?map_map; cbn [fst snd]; f_equal; try reflexivity.
  - apply map_ext_in. intros c I. rewrite Forall_forall in IH. now rewrite (IH _ I).
  - apply map_ext_in. intros c I. rewrite Forall_forall in IH. now rewrite (IH _ I).
  - exact IH.
Qed.
Lemma root_shape_initial : forall r, root_shape (initial_root r) = root_shape r.
Proof.
  intros r. unfold root_shape, initial_root. rewrite map_map. apply map_ext. intros m. cbn [mname mtypes mvalues]. f_equal. rewrite map_map. apply map_ext.
  intros a. cbn [fst snd]. now rewrite shape_initial.
Qed.
Lemma clean_map : forall l, cleans l -> map ToC l = l.
Proof. intros l H. induction H as [|s l A H IH]; cbn; [reflexivity|]. now rewrite ToC_id, IH. Qed.
Lemma sapp_inj_r : forall a b c, (a ++ c = b ++ c)%string -> a = b.
Proof.
  assert (L : forall a b, String.length (a ++ b)%string = String.length a + String.length b) by (induction a as [|x a IH]; intros b; cbn; [reflexivity|now rewrite IH]).
  induction a as [|x a IH]; intros b c H.
  - destruct b as [|y b]; [reflexivity|]. apply (f_equal String.length) in H. rewrite !L in H. cbn in H. lia.
  - destruct b as [|y b].
    + apply (f_equal String.length) in H. rewrite !L in H. cbn in H. lia.
    + cbn in H. assert (x = y) by congruence. assert ((a ++ c = b ++ c)%string) as E by congruence. apply IH in E. congruence.
Qed.
Lemma presents_nodup : forall l, cleans l -> ForallOrdPairs (fun a b => icompare a b = false) l -> NoDup (map (fun p => (ToC p ++ "_PRESENT")%string) l).
Proof.
  intros l C H. induction H as [|x l A H IH]; cbn; [constructor|]. inversion C as [|? ? C1 C2]; subst. constructor; [|auto].
  intros I. apply in_map_iff in I as (y & E & I). apply sapp_inj_r in E. unfold cleans in C2. rewrite Forall_forall in C2, A.
  rewrite (ToC_id x C1), (ToC_id y (C2 _ I)) in E. subst. specialize (A _ I). rewrite icompare_refl in A. discriminate.
Qed.
Lemma nodup_perm_app : forall (A : Type) (l1 l2 l3 : list A), Permutation l1 l2 -> NoDup (l1 ++ l3) -> NoDup (l2 ++ l3).
Proof. intros A l1 l2 l3 P H. eapply Permutation_NoDup; [|exact H]. now apply Permutation_app_tail. Qed.
Lemma nodup_mid : forall (A : Type) (l1 l2 l3 : list A), NoDup ((l1 ++ l2) ++ l3) -> NoDup (l1 ++ l3) /\ forall x, In x l2 -> ~ In x l1 /\ ~ In x l3.
Proof.
  intros A l1 l2 l3 H. split.
  - rewrite <- app_assoc in H. induction l1 as [|a l1 IH]; cbn in *.
    + induction l2 as [|b l2 IH]; cbn in H; [exact H|]. inversion H; auto.
    + inversion H as [|? ? N K]; subst. constructor; [|auto]. rewrite !in_app_iff in *. intuition.
  - intros x I. split; intros J.
    + rewrite <- app_assoc in H. apply in_split in J as (a & b & ->). rewrite <- app_assoc in H. apply NoDup_remove_2 in H. apply H.
      rewrite !in_app_iff. auto.
    + apply in_split in J as (a & b & ->). rewrite app_assoc in H. apply NoDup_remove_2 in H. apply H. rewrite !in_app_iff. auto.
Qed.
Lemma names_done : forall pol n r r', DoWork pol n (initial_root r) = Some (Done r') ->
  NoDup (enumerators r' ++ c_keywords) /\ NoDup (presents r') /\ root_shape r' = root_shape r /\
  forall v, In v (flat_map mvalues r) -> ~ In v (enumerators r').
Proof.
  intros pol n r r' H. unfold DoWork in H. destruct (run (handleEnumChoices pol) n (initial_root r)) as [[r1|]|] eqn:E; try discriminate.
  apply choices_done in E as (A1 & A2 & A3 & A4 & A5). apply enums_done in H as (B1 & B2 & B3 & B4 & B5).
  specialize (A5 (initial_names _ r initial_choice)). rewrite A3 in B5. specialize (B5 (initial_names _ r initial_enum)).
  unfold enumerators. rewrite (clean_map _ B5). apply (nodup_perm_app _ _ _ _ (double_perm r')) in B1. apply nodup_mid in B1 as [B1 B6].
  split; [exact B1|]. split; [unfold presents; rewrite B3; now apply presents_nodup|]. split; [now rewrite B2, A2, root_shape_initial|].
  intros v I. rewrite B4, A4, initial_values in B6. now apply B6.
Qed.

(** * Termination *)
Definition mu1 (x : list string * string) : nat := List.length (filter (fun k => negb (contains k (snd x))) (map ToC (fst x))).
Fixpoint mu (l : list (list string * string)) : nat := match l with [] => 0 | x :: l => mu1 x + mu l end.
Lemma filter_le : forall (A : Type) (f g : A -> bool) l, (forall x, In x l -> f x = true -> g x = true) -> List.length (filter f l) <= List.length (filter g l).
Proof.
  induction l as [|x l IH]; intros H; cbn; [lia|]. assert (List.length (filter f l) <= List.length (filter g l)) by (apply IH; intros; apply H; [now right|assumption]).
  destruct (f x) eqn:E; [rewrite (H x (or_introl eq_refl) E); cbn; lia|]. destruct (g x); cbn; lia.
Qed.
Lemma filter_lt : forall (A : Type) (f g : A -> bool) l x, In x l -> f x = false -> g x = true ->
  (forall x, In x l -> f x = true -> g x = true) -> List.length (filter f l) < List.length (filter g l).
Proof.
  induction l as [|y l IH]; intros x I F G H; [destruct I|]. cbn.
  destruct I as [->|I].
  - rewrite F, G. cbn. pose proof (filter_le A f g l ltac:(intros; apply H; [now right|assumption])). lia.
  - assert (List.length (filter f l) < List.length (filter g l)) by (eapply IH; [exact I|exact F|exact G|intros; apply H; [now right|assumption]]).
    destruct (f y) eqn:E; [rewrite (H y (or_introl eq_refl) E); cbn; lia|]. destruct (g y); cbn; lia.
Qed.
Lemma mu_renamed : forall key name p, newPrefix key name = Some p -> mu1 (key, (p ++ "_" ++ name)%string) < mu1 (key, name).
Proof.
  intros key name p H. apply newPrefix_in in H as (k & I & -> & C). unfold mu1. cbn [fst snd].
  apply (filter_lt _ _ _ _ (ToC k)).
  - now apply in_map.
  - now rewrite contains_head.
  - now rewrite C.
  - intros x _ N. apply negb_true_iff in N. apply negb_true_iff. destruct (contains x name) eqn:D; [|reflexivity].
    rewrite (contains_more x name (ToC k ++ "_")%string D) in N || (rewrite <- sapp_assoc in N; rewrite (contains_more x name _ D) in N). discriminate.
Qed.
Lemma mu_new : forall f dup key name q, new_name f dup key name = Some q ->
  mu1 (key, q) <= mu1 (key, name) /\ (existsb (f name) dup = true -> mu1 (key, q) < mu1 (key, name)).
Proof.
  intros f dup key name q H. unfold new_name in H. destruct (existsb (f name) dup).
  - optinv H. apply mu_renamed in E. split; [lia|auto].
  - assert (q = name) by congruence. subst. split; [lia|discriminate].
Qed.
Lemma mu_ToC : forall key q, mu1 (key, ToC q) <= mu1 (key, q).
Proof.
  intros key q. unfold mu1. cbn [fst snd]. apply filter_le. intros x I N. apply in_map_iff in I as (k & <- & _).
  apply negb_true_iff in N. apply negb_true_iff. destruct (contains (ToC k) q) eqn:C; [|reflexivity]. now rewrite (contains_ToC k q C) in N.
Qed.
Lemma stepE_mu : forall dup a b, stepE dup a b -> mu1 b <= mu1 a /\ (existsb (String.eqb (snd a)) dup = true -> mu1 b < mu1 a).
Proof. intros dup [k n] [k' n'] [E N]. cbn [fst snd] in *. subst k'. now apply (mu_new _ dup). Qed.
Lemma stepC_mu : forall dup a b, stepC dup a b -> mu1 b <= mu1 a /\ (existsb (icompare (snd a)) dup = true -> mu1 b < mu1 a).
Proof.
  intros dup [k n] [k' n'] (E & q & N & Q). cbn [fst snd] in *. subst k' n'. apply mu_new in N as [N0 N]. pose proof (mu_ToC k q). split; [lia|]. intros X. specialize (N X). lia.
Qed.
Lemma mu_le : forall (R : list string * string -> list string * string -> Prop) l l', Forall2 R l l' -> (forall a b, R a b -> mu1 b <= mu1 a) -> mu l' <= mu l.
Proof. intros R l l' H K. induction H as [|a b l l' q H IH]; cbn [mu]; [lia|]. pose proof (K _ _ q) as K1. lia. Qed.
Lemma mu_lt : forall (R : list string * string -> list string * string -> Prop) l l' x, Forall2 R l l' -> In x l ->
  (forall a b, R a b -> mu1 b <= mu1 a) -> (forall b, R x b -> mu1 b < mu1 x) -> mu l' < mu l.
Proof.
  intros R l l' x H. induction H as [|a b l l' q H IH]; intros I K X; [destruct I|]. cbn [mu].
  destruct I as [->|I].
  - specialize (X _ q). pose proof (mu_le R l l' H K) as L. lia.
  - specialize (IH I K X). specialize (K _ _ q). lia.
Qed.
Lemma finish_by : forall (f : nroot -> call) (inv : nroot -> Prop) (m : nroot -> nat),
  (forall r r', inv r -> f r = Again r' -> inv r' /\ m r' < m r) -> forall r, inv r -> finishes f r.
Proof.
  intros f inv m H r. remember (m r) as k eqn:K. revert r K. induction k as [k IH] using lt_wf_ind. intros r -> I.
  destruct (f r) as [x|r1|] eqn:E.
  - exists 1, (Done x). cbn. now rewrite E.
  - destruct (H _ _ I E) as [I1 L]. destruct (IH _ L r1 eq_refl I1) as (n & x & R). exists (S n), x. cbn. now rewrite E.
  - exists 1, Error. cbn. now rewrite E.
Qed.
Lemma in_exists : forall f l (x : string), f x x = true -> In x l -> existsb (f x) l = true.
Proof. intros f l x F I. apply existsb_exists. exists x. auto. Qed.
Lemma choices_finish : forall r, finishes (handleEnumChoices SelectiveEnumerants) r.
Proof.
  intros r. apply (finish_by _ (fun _ => True) (fun r => mu (items_of choice_items r))); [|exact I]. clear r. intros r r' _ H. split; [exact I|].
  apply choices_again in H as [D H]. cbv zeta in *. set (dup := keepDuplicates icompare (names_of choice_names r)) in *.
  destruct dup as [|d ds] eqn:ED; [congruence|].
  assert (J : In d (names_of choice_names r)) by (eapply dup_in; fold dup; unfold dup in ED; unfold keepDuplicates in ED; rewrite ED; now left).
  rewrite <- names_items_c in J. apply in_map_iff in J as (x & <- & J).
  pose proof (clone_items (stepC (snd x :: ds)) _ choice_items r r' H ltac:(intros key t t' K; now apply choice_step)) as F.
  apply (mu_lt _ _ _ x F J).
  - intros a b R. apply (stepC_mu _ _ _ R).
  - intros b R. apply (stepC_mu _ _ _ R). apply in_exists; [apply icompare_refl|now left].
Qed.
Lemma enums_finish : forall r, NoDup (flat_map mvalues r ++ c_keywords) -> finishes (handleEnums SelectiveEnumerants) r.
Proof.
  intros r. apply (finish_by _ (fun r => NoDup (flat_map mvalues r ++ c_keywords)) (fun r => mu (items_of enum_items r))). clear r.
  intros r r' N H. apply enums_again in H as [D H]. cbv zeta in *. split; [now rewrite (clone_values _ _ _ H)|].
  set (dup := keepDuplicates String.eqb (doubleEnumNames0 r ++ c_keywords)) in *.
  destruct dup as [|d ds] eqn:ED; [congruence|].
  assert (J : In d (names_of enum_names r)).
  { assert (T : 2 <= cnt (doubleEnumNames0 r ++ c_keywords) d).
    { eapply dup_twice. unfold dup, keepDuplicates in ED. rewrite ED. now left. }
    assert (E : cnt (doubleEnumNames0 r ++ c_keywords) d = cnt (names_of enum_names r) d + cnt (flat_map mvalues r ++ c_keywords) d).
    { unfold cnt. rewrite !count_occ_app. rewrite (proj1 (Permutation_count_occ string_dec _ _) (double_perm r) d). rewrite count_occ_app. lia. }
    assert (O : cnt (flat_map mvalues r ++ c_keywords) d <= 1) by (apply (proj1 (NoDup_count_occ string_dec _)); exact N).
    apply (count_occ_In string_dec). unfold cnt in *. lia. }
  rewrite <- names_items in J. apply in_map_iff in J as (x & <- & J).
  pose proof (clone_items (stepE (snd x :: ds)) _ enum_items r r' H ltac:(intros key t t' K; now apply enum_step)) as F.
  apply (mu_lt _ _ _ x F J).
  - intros a b R. apply (stepE_mu _ _ _ R).
  - intros b R. apply (stepE_mu _ _ _ R). apply in_exists; [apply String.eqb_refl|now left].
Qed.
Lemma run_more : forall f n r x m, run f n r = Some x -> n <= m -> run f m r = Some x.
Proof.
  induction n as [|n IH]; intros r x m H L; [discriminate|]. destruct m as [|m]; [lia|]. cbn [run] in *. destruct (f r); try exact H. apply IH; [exact H|lia].
Qed.
Lemma work_finish : forall r, NoDup (flat_map mvalues r ++ c_keywords) -> exists n x, DoWork SelectiveEnumerants n r = Some x.
Proof.
  intros r N. destruct (choices_finish r) as (n & x & H). destruct x as [r1|].
  - assert (V : flat_map mvalues r1 = flat_map mvalues r) by (eapply choices_done; exact H).
    destruct (enums_finish r1 ltac:(now rewrite V)) as (m & y & K). exists (n + m), y. unfold DoWork.
    rewrite (run_more _ _ _ _ (n + m) H) by lia. apply (run_more _ _ _ _ _ K). lia.
  - exists n, Error. unfold DoWork. now rewrite H.
Qed.

(** * The new names *)
Lemma prefixed_trans : forall key a b c, prefixed key a b -> prefixed key b c -> prefixed key a c.
Proof. intros key a b c H K. induction K as [|k s s' I K IH]; [exact H|]. constructor; auto. Qed.
Lemma only_trans : forall a b c, only_prefixed a b -> only_prefixed b c -> only_prefixed a c.
Proof. intros a b c [E1 P1] [E2 P2]. split; [congruence|]. rewrite <- E1 in P2. eapply prefixed_trans; eassumption. Qed.
Lemma Forall2_trans' : forall (A : Type) (R : A -> A -> Prop) l1 l2 l3, (forall a b c, R a b -> R b c -> R a c) -> Forall2 R l1 l2 -> Forall2 R l2 l3 -> Forall2 R l1 l3.
Proof. intros A R l1 l2 l3 T H. revert l3. induction H as [|a b l1 l2 q H IH]; intros l3 K; inversion K; subst; constructor; eauto. Qed.
Lemma Forall2_refl' : forall (A : Type) (R : A -> A -> Prop) l, (forall a, R a a) -> Forall2 R l l.
Proof. induction l; constructor; auto. Qed.
Lemma Forall2_impl' : forall (A B : Type) (R Q : A -> B -> Prop) l l', (forall a b, R a b -> Q a b) -> Forall2 R l l' -> Forall2 Q l l'.
Proof. intros A B R Q l l' H K. induction K; constructor; auto. Qed.
Lemma new_prefixed : forall f dup key name q, new_name f dup key name = Some q -> prefixed key name q.
Proof.
  intros f dup key name q H. unfold new_name in H. destruct (existsb _ _).
  - optinv H. apply newPrefix_in in E as (k & I & -> & _). apply px_more; [exact I|constructor].
  - assert (q = name) by congruence. subst. constructor.
Qed.
Lemma enums_prefixed : forall n r r', run (handleEnums SelectiveEnumerants) n r = Some (Done r') ->
  Forall2 only_prefixed (items_of enum_items r) (items_of enum_items r').
Proof.
  apply run_ind.
  - intros r _. apply Forall2_refl'. intros a. split; [reflexivity|constructor].
  - intros r r1 r' H K. apply enums_again in H as [_ H]. cbv zeta in H.
    eapply Forall2_trans'; [exact only_trans| |exact K].
    pose proof (clone_items _ _ enum_items r r1 H ltac:(intros key t t' J; apply enum_step; exact J)) as F.
    eapply Forall2_impl'; [|exact F]. intros a b [E N]. split; [exact E|]. eapply new_prefixed. exact N.
  - intros r x H. now apply enums_return in H.
Qed.
Lemma Forall2_clean : forall dup l l', cleans (map snd l) -> Forall2 (stepC dup) l l' -> Forall2 only_prefixed l l'.
Proof.
  intros dup l l' C H. induction H as [|a b l l' q H IH]; constructor.
  - destruct q as [E (s & N & S)]. split; [exact E|]. inversion C as [|? ? C1 _]; subst. rewrite S, ToC_id.
    + eapply new_prefixed. exact N.
    + eapply new_name_clean; [exact N|exact C1].
  - apply IH. now inversion C.
Qed.
Lemma choices_prefixed : forall n r r', run (handleEnumChoices SelectiveEnumerants) n r = Some (Done r') -> cleans (names_of choice_names r) ->
  Forall2 only_prefixed (items_of choice_items r) (items_of choice_items r').
Proof.
  apply (run_ind _ (fun r r' => cleans (names_of choice_names r) -> Forall2 only_prefixed (items_of choice_items r) (items_of choice_items r'))).
  - intros r _ _. apply Forall2_refl'. intros a. split; [reflexivity|constructor].
  - intros r r1 r' H K C. apply choices_again in H as [_ H]. cbv zeta in H.
    eapply Forall2_trans'; [exact only_trans| |apply K; eapply clone_cleans; [exact H| |exact C]; intros key t t' J; eapply choice_keep; exact J].
    pose proof (clone_items _ _ choice_items r r1 H ltac:(intros key t t' J; apply choice_step; exact J)) as F.
    eapply Forall2_clean; [|exact F]. now rewrite names_items_c.
  - intros r x H. now apply choices_return in H.
Qed.
