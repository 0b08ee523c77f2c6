(** Proofs about Modules.v: the imports of a module. *)
From Coq Require Import List Ascii String Bool Arith Lia Permutation.
From Verif Require Import Topo TopoSpec Modules ModulesSpec ModulesProofs.
From Verif Require TopoProofs.
Import ListNotations.
Local Open Scope list_scope.

Lemma distinct_aux : forall l acc x, In x (fold_left (fun acc x => if mem x acc then acc else acc ++ [x]) l acc) <-> In x acc \/ In x l.
Proof.
  induction l as [|a l IH]; intros acc x; cbn [fold_left]; [cbn; tauto|]. rewrite IH. destruct (mem a acc) eqn:E.
  - apply mem_In in E. split; [intros [H|H]; [left; exact H|right; right; exact H]|]. intros [H|[<-|H]]; auto.
  - rewrite in_app_iff. cbn. tauto.
Qed.
Lemma distinct_In : forall l x, In x (distinct l) <-> In x l.
Proof. intros. unfold distinct. rewrite distinct_aux. cbn. tauto. Qed.

Definition has (f : clause -> list string) (l : list clause) (b x : string) : Prop := exists c, In c l /\ c_mod c = b /\ In x (f c).
Lemma same_clause : forall l c d, NoDup (map c_mod l) -> In c l -> In d l -> c_mod c = c_mod d -> c = d.
Proof.
  induction l as [|a l IH]; [intros ? ? _ []|]. cbn [map]. intros c d N I J E. inversion N as [|? ? NI N']; subst.
  destruct I as [->|I], J as [->|J]; auto.
  - destruct NI. rewrite E. apply in_map, J.
  - destruct NI. rewrite <- E. apply in_map, I.
Qed.
Lemma merge_ok : forall cur i, NoDup (map c_mod cur) -> c_vals i = [] ->
  NoDup (map c_mod (merge1 cur i)) /\
  (forall b x, has c_types (merge1 cur i) b x <-> has c_types cur b x \/ c_mod i = b /\ In x (c_types i)) /\
  (forall b x, has c_vals (merge1 cur i) b x <-> has c_vals cur b x).
Proof.
  intros cur i N V. unfold merge1. destruct (find _ cur) as [e|] eqn:F.
  - apply find_some in F. destruct F as [I E]. apply String.eqb_eq in E.
    assert (FI : forall c, In c (filter (fun z => negb (String.eqb (c_mod z) (c_mod e))) cur) <-> In c cur /\ c_mod c <> c_mod e).
    { intros c. rewrite filter_In, negb_true_iff, String.eqb_neq. reflexivity. }
    split; [|split].
    + cbn [map c_mod]. constructor.
      * intros K. apply in_map_iff in K. destruct K as (c & Ec & K). apply FI in K. tauto.
      * clear - N. induction cur as [|a cur IH]; [constructor|]. cbn [map filter] in *. inversion N as [|? ? NI N']; subst.
        destruct (negb _); [|auto]. cbn [map]. constructor; [|auto]. intros K. apply NI. apply in_map_iff in K.
        destruct K as (c & Ec & K). apply filter_In in K. rewrite <- Ec. apply in_map, K.
    + intros b x. split.
      * intros (c & [<-|K] & Eb & X).
        -- cbn [c_mod c_types] in *. rewrite distinct_In in X. apply in_app_or in X. destruct X as [X|X]; [left; exists e; auto|right; split; congruence].
        -- apply FI in K. left. exists c. tauto.
      * intros [(c & K & Eb & X)|[Eb X]].
        -- destruct (string_dec (c_mod c) (c_mod e)) as [D|D].
           ++ assert (c = e) by (apply (same_clause cur); assumption). subst c. eexists. split; [left; reflexivity|]. cbn [c_mod c_types].
              split; [exact Eb|]. apply distinct_In, in_or_app. left. exact X.
           ++ exists c. split; [right; apply FI; auto|auto].
        -- eexists. split; [left; reflexivity|]. cbn [c_mod c_types]. split; [congruence|]. apply distinct_In, in_or_app. right. exact X.
    + intros b x. split.
      * intros (c & [<-|K] & Eb & X); [exists e; auto|]. apply FI in K. exists c. tauto.
      * intros (c & K & Eb & X). destruct (string_dec (c_mod c) (c_mod e)) as [D|D].
        -- assert (c = e) by (apply (same_clause cur); assumption). subst c. eexists. split; [left; reflexivity|]. auto.
        -- exists c. split; [right; apply FI; auto|auto].
  - split; [|split].
    + cbn [map]. constructor; [|exact N]. intros K. apply in_map_iff in K. destruct K as (c & Ec & K).
      pose proof (proj1 (find_none _ _ _) F c K) as X. cbv beta in X. apply String.eqb_neq in X. auto.
    + intros b x. split.
      * intros (c & [<-|K] & Eb & X); [right; auto|left; exists c; auto].
      * intros [(c & K & Eb & X)|[Eb X]]; [exists c; split; [right; exact K|auto]|exists i; split; [left; reflexivity|auto]].
    + intros b x. split.
      * intros (c & [<-|K] & Eb & X); [rewrite V in X; destruct X|exists c; auto].
      * intros (c & K & Eb & X). exists c. split; [right; exact K|auto].
Qed.
Lemma merges_ok : forall l cur, NoDup (map c_mod cur) -> (forall i, In i l -> c_vals i = []) ->
  (forall b x, has c_types (fold_left merge1 l cur) b x <-> has c_types cur b x \/ has c_types l b x) /\
  (forall b x, has c_vals (fold_left merge1 l cur) b x <-> has c_vals cur b x).
Proof.
  induction l as [|i l IH]; intros cur N V; cbn [fold_left].
  - split; [|reflexivity]. intros b x. split; [auto|]. intros [H|(c & [] & _)]. exact H.
  - destruct (merge_ok cur i N (V i (or_introl eq_refl))) as (N1 & T1 & V1).
    destruct (IH _ N1 (fun j J => V j (or_intror J))) as [T2 V2]. split; intros b x; [|rewrite V2; apply V1].
    rewrite T2, T1. split.
    + intros [[H|[H1 H2]]|(c & K & R)]; [auto|right; exists i; split; [left; reflexivity|auto]|right; exists c; split; [right; exact K|exact R]].
    + intros [H|(c & [->|K] & Eb & X)]; [auto|auto|right; exists c; auto].
Qed.
Lemma implicit_ok : forall ms md, (forall i, In i (implicitlyImports ms md) -> c_vals i = []) /\
  forall b x, has c_types (implicitlyImports ms md) b x <-> refers ms md b x.
Proof.
  intros ms md. unfold implicitlyImports. set (rl := flat_map _ (allTasses ms)). split.
  - intros i I. apply in_map_iff in I. destruct I as (k & <- & _). reflexivity.
  - assert (RL : forall b x, In (b, x) rl <-> refers ms md b x).
    { intros b x. unfold rl. rewrite in_flat_map. split.
      - intros ([[k n] l] & I & J). cbn [fst snd] in J. destruct (String.eqb k md) eqn:E; [|destruct J]. apply String.eqb_eq in E. subst k.
        apply filter_In in J. destruct J as [J NE]. cbn [fst] in NE. apply negb_true_iff, String.eqb_neq in NE. split; [exact NE|].
        unfold allTasses in I. apply in_flat_map in I. destruct I as (m & I & K). apply in_map_iff in K. destruct K as ([a t] & E & K).
        cbn [fst snd] in E. injection E as Em Ea El. subst l. apply in_map_iff in J. destruct J as (r & Er & J). apply refs_uses in J.
        apply denotes_exact in Er. exists m, a, t, r. auto.
      - intros (NE & m & n & t & r & I & Em & J & U & Er). subst md. apply denotes_exact in Er. eexists. split; [apply (tasses ms m n t I J)|]. cbn [fst snd].
        rewrite String.eqb_refl. apply filter_In. split; [|cbn [fst]; apply negb_true_iff, String.eqb_neq; exact NE].
        rewrite <- Er. apply in_map. apply refs_uses, U. }
    intros b x. rewrite <- RL. split.
    + intros (c & I & Eb & X). apply in_map_iff in I. destruct I as (k & <- & I). cbn [c_mod c_types] in *. subst k.
      apply (distinct_In (map snd (filter (fun r => String.eqb (fst r) b) rl)) x) in X. apply in_map_iff in X. destruct X as ([b' x'] & Ex & X). cbn in Ex. subst x'. apply filter_In in X.
      destruct X as [X E]. cbn in E. apply String.eqb_eq in E. subst b'. exact X.
    + intros I. eexists. split; [apply in_map_iff; exists b; split; [reflexivity|]|].
      * apply distinct_In. apply (in_map fst _ _ I).
      * cbn [c_mod c_types]. split; [reflexivity|]. apply distinct_In. apply in_map_iff. exists (b, x). split; [reflexivity|].
        apply filter_In. split; [exact I|]. cbn. apply String.eqb_refl.
Qed.
Theorem merged_imports : forall ms m, NoDup (map c_mod (m_imports m)) ->
  (forall b x, imports (CreateAsn1Module ms m) b x <-> imports m b x \/ refers ms (m_name m) b x) /\
  (forall b x, imports_val (CreateAsn1Module ms m) b x <-> imports_val m b x).
Proof.
  intros ms m N. destruct (implicit_ok ms (m_name m)) as [V T]. destruct (merges_ok _ _ N V) as [T1 V1]. split; intros b x.
  - rewrite <- T. apply T1.
  - apply V1.
Qed.
(** An import of a module that does not exist is always reported as a cycle. *)
Theorem never_missing : forall ada ast b, CheckFiles ada ast <> Some (NoImported b).
Proof.
  intros ada ast b H. unfold CheckFiles in H. destruct (checkForCyclicModules ast) as [e|] eqn:C; cbn [andthen] in H.
  - unfold checkForCyclicModules in C. destruct (sort_nodes _ _ _) as [[?|?]|]; congruence.
  - destruct (CheckForDuplicates (map m_name ast)) as [e|] eqn:D; cbn [andthen] in H.
    + unfold CheckForDuplicates in D. destruct (find _ _); congruence.
    + apply dups in D. apply (order_ok ast D) in C. destruct C as (order & S & _ & A).
      assert (F : forall A (f : A -> option err) l e, first_err f l = Some e -> exists x, In x l /\ f x = Some e).
      { clear. intros A f l e. induction l as [|a l IH]; cbn; [discriminate|]. destruct (f a) eqn:E.
        - intros X. injection X as ->. eauto.
        - intros X. destruct (IH X) as (x & I & Ex). eauto. }
      apply F in H. destruct H as (m & I & H). unfold CheckModule in H.
      assert (DU : forall l b, CheckForDuplicates l <> Some (NoImported b)) by (intros l b0; unfold CheckForDuplicates; destruct (find _ l); congruence).
      assert (DC : forall l b, CheckForDuplicatesCI ada l <> Some (NoImported b)) by (intros l b0; unfold CheckForDuplicatesCI; destruct (negb ada); [congruence|]; destruct (find _ l); congruence).
      assert (CT : forall (l : list (string * stype (string * string))) b, first_err (fun p => CheckType ast (snd p)) l <> Some (NoImported b)).
      { intros l b0 X. apply F in X. destruct X as (p & _ & X). unfold CheckType in X. apply F in X. destruct X as (r & _ & X).
        destruct (find_module _ _); [|congruence]. destruct (mem _ _); congruence. }
      assert (AT : forall a c, andthen a c = Some (NoImported b) -> a = Some (NoImported b) \/ c = Some (NoImported b)) by (intros [?|] c; cbn; auto).
      repeat (apply AT in H; destruct H as [H|H]; [exfalso; first [eapply DU; exact H|eapply DC; exact H|eapply CT; exact H]|]).
      apply F in H. destruct H as (c & J & H). unfold checkImport in H. destruct (find_module ast (c_mod c)) as [im|] eqn:FM.
      * apply AT in H. destruct H as [H|H]; apply F in H; destruct H as (n & _ & H); destruct (mem n _); [destruct (mem n _)| |destruct (mem n _)|]; congruence.
      * destruct (A m I) as (l1 & l2 & E & IN). assert (K : In (c_mod c) order) by (rewrite E; apply in_or_app; left; apply IN, in_map, J).
        apply S in K. apply in_map_iff in K. destruct K as (im & E' & K). rewrite <- E' in FM. rewrite (module_found ast im D K) in FM. discriminate.
Qed.
(** Two modules that import a name from each other: the search does not end. *)
Definition loop_ast : list amodule :=
  [SMod "A" [] [] [Clause "B" ["T"%string] []] None; SMod "B" [] [] [Clause "A" ["T"%string] []] None]%string.
Lemma loops : forall fuel m, In m loop_ast -> GetTypeAssignmentByName fuel loop_ast m "T" = Endless.
Proof.
  induction fuel as [|f IH]; intros m I; [reflexivity|]. destruct I as [<-|[<-|[]]]; cbn [GetTypeAssignmentByName m_types m_imports find mem existsb c_types c_mod].
  - change (String.eqb "T" "T") with true. cbn [orb]. change (find_module loop_ast "B") with (Some (nth 1 loop_ast (nth 0 loop_ast (SMod "" [] [] [] None)))).
    apply IH. right. left. reflexivity.
  - change (String.eqb "T" "T") with true. cbn [orb]. change (find_module loop_ast "A") with (Some (nth 0 loop_ast (SMod "" [] [] [] None))).
    apply IH. left. reflexivity.
Qed.
(** What the front end accepts. *)
Theorem front_exact : forall ada ms ast, NoDup (map m_name ms) -> (forall m, In m ms -> NoDup (map fst (m_types m))) ->
  front_end ada ms = inr ast <->
  (forall m n t r b x, In m ms -> In (n, t) (m_types m) -> uses t r -> denotes m r b x ->
    exists m', In m' ms /\ m_name m' = b /\ defines m' x) /\
  (exists order, NoDup order /\ (forall b n, In (b, n) order <-> exists m, In m ms /\ m_name m = b /\ defines m n) /\
    forall m n t, In m ms -> In (n, t) (m_types m) ->
      exists before rest, order = before ++ (m_name m, n) :: rest /\
        forall r b x, uses t r -> denotes m r b x -> In (b, x) before) /\
  ast = map (CreateAsn1Module ms) ms /\ well_formed ada ast.
Proof.
  intros ada ms ast ND NT. split.
  - intros H. split; [intros m n t r b x; eapply target; exact H|]. split; [exact (types_ordered _ _ _ H)|].
    apply accepted in H. destruct H as (_ & _ & E & C). split; [exact E|]. apply check_exact, C.
  - intros (T & (order & NO & MO & AO) & -> & W). unfold front_end.
    assert (O : orphans ms = None).
    { unfold orphans. apply first_none. intros [b x] I. apply in_flat_map in I. destruct I as ([k l] & I & J). cbn [snd] in J.
      unfold allTasses in I. apply in_flat_map in I. destruct I as (m & I & K). apply in_map_iff in K. destruct K as ([n t] & E & K).
      cbn [fst snd] in E. injection E as <- <-. apply in_map_iff in J. destruct J as (r & Er & J). apply refs_uses in J. apply denotes_exact in Er.
      pose proof (T m n t r b x I K J Er) as X. apply tas_names in X.
      replace (existsb (fun p => pair_eqb p (b, x)) (map fst (allTasses ms))) with true; [reflexivity|]. symmetry. apply existsb_exists.
      exists (b, x). split; [exact X|]. apply pair_eq. reflexivity. }
    assert (C : cyclic_types ms = None).
    { unfold cyclic_types. destruct (TopoProofs.nodes_complete pair_eqb pair_eq [] (allTasses ms) order) as [out Ho].
      - cbn [app]. apply tasses_nodup; assumption.
      - cbn [app]. apply NoDup_Permutation; [apply tasses_nodup; assumption|exact NO|]. intros [b n]. rewrite tas_names. symmetry. apply MO.
      - intros k l I. unfold allTasses in I. apply in_flat_map in I. destruct I as (m & I & K). apply in_map_iff in K. destruct K as ([n t] & E & K).
        cbn [fst snd] in E. injection E as <- <-. destruct (AO m n t I K) as (l1 & l2 & E & IN). exists l1, l2. split; [exact E|].
        intros [b x] J. apply in_map_iff in J. destruct J as (r & Er & J). apply refs_uses in J. apply denotes_exact in Er. exact (IN r b x J Er).
      - rewrite Ho. reflexivity. }
    rewrite O, C. cbn [andthen]. apply check_exact in W. rewrite W. reflexivity.
Qed.
