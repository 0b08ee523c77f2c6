(** Proofs about Modules.v. *)
From Coq Require Import List Ascii String Bool Arith Lia Permutation.
From Verif Require Import Topo TopoSpec Modules ModulesSpec.
From Verif Require TopoProofs.
Import ListNotations.
Local Open Scope list_scope.

Lemma first_none : forall A (f : A -> option err) l, first_err f l = None <-> forall x, In x l -> f x = None.
Proof.
  intros A f l. induction l as [|a l IH]; cbn [first_err]; [split; [intros _ x []|reflexivity]|].
  destruct (f a) eqn:E.
  - split; [discriminate|]. intros H. rewrite (H a (or_introl eq_refl)) in E. discriminate.
  - rewrite IH. split; intros H; [intros x [<-|I]; auto|intros x I; apply H; right; exact I].
Qed.
Lemma then_none : forall a b, andthen a b = None <-> a = None /\ b = None.
Proof. intros [a|] b; cbn; split; intros H; [discriminate|destruct H; discriminate|split; [reflexivity|exact H]|exact (proj2 H)]. Qed.
Lemma mem_In : forall n l, mem n l = true <-> In n l.
Proof.
  intros. unfold mem. rewrite existsb_exists. split.
  - intros (x & I & E). apply String.eqb_eq in E. subst. exact I.
  - intros I. exists n. split; [exact I|apply String.eqb_refl].
Qed.
Lemma str_eq : equality String.eqb.
Proof. intros x y. apply String.eqb_eq. Qed.
Lemma pair_eq : equality pair_eqb.
Proof.
  intros [a b] [c d]. unfold pair_eqb. cbn. rewrite andb_true_iff, !String.eqb_eq. split; [intros [-> ->]; reflexivity|].
  intros E. injection E. auto.
Qed.

(** Duplicates *)
Lemma count_in : forall n l, In n l -> 0 < count n l.
Proof.
  intros n l. induction l as [|x l IH]; [intros []|]. unfold count in *. cbn [filter]. intros [->|I].
  - rewrite String.eqb_refl. cbn. lia.
  - destruct (String.eqb n x); cbn; specialize (IH I); lia.
Qed.
Lemma count_out : forall n l, ~ In n l -> count n l = 0.
Proof.
  intros n l H. unfold count. replace (filter (String.eqb n) l) with (@nil name); [reflexivity|].
  induction l as [|x l IH]; [reflexivity|]. cbn [filter]. destruct (String.eqb n x) eqn:E.
  - apply String.eqb_eq in E. subst. destruct H. left. reflexivity.
  - apply IH. intros I. apply H. right. exact I.
Qed.
Lemma nodup_count : forall l, NoDup l <-> forall n, In n l -> count n l <= 1.
Proof.
  induction l as [|x l IH]; [split; [intros _ n []|constructor]|]. split.
  - intros N. inversion N as [|? ? NI N']; subst. intros n I. unfold count. cbn [filter].
    destruct (String.eqb n x) eqn:E.
    + apply String.eqb_eq in E. subst n. pose proof (count_out x l NI) as C. unfold count in C. cbn. lia.
    + destruct I as [->|I]; [rewrite String.eqb_refl in E; discriminate|]. apply IH; assumption.
  - intros H. constructor.
    + intros I. specialize (H x (or_introl eq_refl)). unfold count in H. cbn [filter] in H. rewrite String.eqb_refl in H.
      pose proof (count_in x l I) as C. unfold count in C. cbn in H. lia.
    + apply IH. intros n I. specialize (H n (or_intror I)). unfold count in *. cbn [filter] in H.
      destruct (String.eqb n x); cbn in H; lia.
Qed.
Lemma find_none : forall A (f : A -> bool) l, find f l = None <-> forall x, In x l -> f x = false.
Proof.
  intros A f l. split; [apply find_none|]. intros H. induction l as [|a l IH]; [reflexivity|]. cbn.
  rewrite (H a (or_introl eq_refl)). apply IH. intros; apply H; right; assumption.
Qed.
Lemma dups : forall l, CheckForDuplicates l = None <-> NoDup l.
Proof.
  intros l. unfold CheckForDuplicates. rewrite nodup_count. destruct (find _ l) as [n|] eqn:E.
  - apply find_some in E. destruct E as [I E]. apply Nat.ltb_lt in E. split; [discriminate|]. intros H.
    specialize (H n I). lia.
  - split; [intros _ n I|reflexivity]. pose proof (proj1 (find_none _ _ _) E n I) as F. cbv beta in F. apply Nat.ltb_ge in F. exact F.
Qed.
Lemma dups_ci : forall ada l, CheckForDuplicatesCI ada l = None <-> (ada = true -> NoDup (map lower l)).
Proof.
  intros [|] l; unfold CheckForDuplicatesCI; cbn [negb]; [|split; [intros _ H; discriminate|reflexivity]].
  rewrite nodup_count. destruct (find _ l) as [n|] eqn:E.
  - apply find_some in E. destruct E as [I E]. apply Nat.ltb_lt in E. split; [discriminate|]. intros H.
    specialize (H eq_refl (lower n) (in_map lower _ _ I)). lia.
  - split; [intros _ _ n I|reflexivity]. apply in_map_iff in I. destruct I as (x & <- & I).
    pose proof (proj1 (find_none _ _ _) E x I) as F. cbv beta in F. apply Nat.ltb_ge in F. exact F.
Qed.
Lemma nodup_app : forall (l m : list name), NoDup (l ++ m) -> NoDup l /\ NoDup m.
Proof.
  induction l as [|x l IH]; cbn; intros m H; [split; [constructor|exact H]|].
  inversion H as [|? ? NI N]; subst. destruct (IH m N) as [A B]. split; [constructor; [|exact A]|exact B].
  intros I. apply NI. apply in_or_app. left. exact I.
Qed.

(** References *)
Lemma refs_uses : forall R (t : stype R) r, In r (refs t) <-> uses t r.
Proof.
  intros R. fix IH 1. intros t r. destruct t as [|t|ts|s]; cbn [refs].
  - split; [intros []|intros H; inversion H].
  - rewrite IH. split; [apply u_of|intros H; inversion H; assumption].
  - rewrite in_flat_map. split.
    + intros (t & I & U). apply (u_seq ts t r I). clear - IH I U. induction ts as [|x ts IHs]; [destruct I|].
      destruct I as [<-|I]; [apply IH; exact U|auto].
    + intros H. inversion H as [| |? t ? I U]; subst. exists t. split; [exact I|]. clear - IH I U.
      induction ts as [|x ts IHs]; [destruct I|]. destruct I as [<-|I]; [apply IH; exact U|auto].
  - split; [intros [<-|[]]; constructor|intros H; inversion H; left; reflexivity].
Qed.
Lemma defines_names : forall R (m : smodule R) n, In n (map fst (m_types m)) <-> defines m n.
Proof. intros R m n. unfold defines. rewrite in_map_iff. split; [intros ([a t] & <- & I); eauto|intros (t & I); exists (n, t); auto]. Qed.
Lemma defines_vals : forall R (m : smodule R) n, In n (map fst (m_vals m)) <-> defines_val m n.
Proof. intros R m n. unfold defines_val. rewrite in_map_iff. split; [intros ([a t] & <- & I); eauto|intros (t & I); exists (n, t); auto]. Qed.
Lemma imported : forall m n, In n (imported_types m) <-> exists b, imports m b n.
Proof.
  intros m n. unfold imported_types, imports. rewrite in_flat_map. split.
  - intros (c & I & J). eauto.
  - intros (b & c & I & _ & J). eauto.
Qed.
Lemma shown : forall m n, mem n (ExportedTypes m) = true <-> shows_type m n.
Proof.
  intros m n. rewrite mem_In. unfold ExportedTypes, shows_type. destruct (m_exports m) as [l|].
  - apply filter_In.
  - rewrite in_app_iff, defines_names, imported. reflexivity.
Qed.
Lemma shown_val : forall m n, mem n (ExportedVars m) = true <-> shows_val m n.
Proof.
  intros m n. rewrite mem_In. unfold ExportedVars, shows_val. destruct (m_exports m) as [l|].
  - rewrite filter_In, negb_true_iff. reflexivity.
  - apply defines_vals.
Qed.
Lemma module_found : forall (ast : list amodule) m, NoDup (map m_name ast) -> In m ast -> find_module ast (m_name m) = Some m.
Proof.
  intros ast m. unfold find_module. induction ast as [|a ast IH]; [intros _ []|]. cbn [map find]. intros N I.
  inversion N as [|? ? NI N']; subst. destruct I as [->|I]; [rewrite String.eqb_refl; reflexivity|].
  destruct (String.eqb (m_name a) (m_name m)) eqn:E; [|auto]. apply String.eqb_eq in E. destruct NI. rewrite E.
  apply in_map. exact I.
Qed.
Lemma module_some : forall (ast : list amodule) b m, find_module ast b = Some m -> In m ast /\ m_name m = b.
Proof. intros ast b m H. apply find_some in H. destruct H as [I E]. apply String.eqb_eq in E. auto. Qed.

Lemma type_ok : forall ast t, NoDup (map m_name ast) -> CheckType ast t = None <-> visible ast t.
Proof.
  intros ast t N. unfold CheckType, visible. rewrite first_none. split.
  - intros H b n U. apply refs_uses in U. specialize (H _ U). cbn [fst snd] in H.
    destruct (find_module ast b) as [m|] eqn:F; [|discriminate]. apply module_some in F. destruct F as [I E].
    destruct (mem n (ExportedTypes m)) eqn:S; [|discriminate]. apply shown in S. eauto.
  - intros H [b n] I. apply refs_uses in I. destruct (H b n I) as (m & J & <- & S). cbn [fst snd].
    rewrite (module_found ast m N J). apply shown in S. rewrite S. reflexivity.
Qed.
Lemma import_ok : forall ast c, NoDup (map m_name ast) -> checkImport ast c = None <->
  exists im, In im ast /\ m_name im = c_mod c /\
      (forall n, In n (c_types c) -> defines im n /\ shows_type im n) /\
      (forall n, In n (c_vals c) -> defines_val im n /\ shows_val im n).
Proof.
  intros ast c N. unfold checkImport. split.
  - destruct (find_module ast (c_mod c)) as [im|] eqn:F; [|discriminate]. apply module_some in F. destruct F as [I E].
    rewrite then_none, !first_none. intros [T V]. exists im. repeat split; try assumption.
    + specialize (T n H). destruct (mem n (map fst (m_types im))) eqn:D; [|discriminate]. apply mem_In in D. apply defines_names, D.
    + specialize (T n H). destruct (mem n (map fst (m_types im))) eqn:D; [|discriminate].
      destruct (mem n (ExportedTypes im)) eqn:S; [|discriminate]. apply shown, S.
    + specialize (V n H). destruct (mem n (map fst (m_vals im))) eqn:D; [|discriminate]. apply mem_In in D. apply defines_vals, D.
    + specialize (V n H). destruct (mem n (map fst (m_vals im))) eqn:D; [|discriminate].
      destruct (mem n (ExportedVars im)) eqn:S; [|discriminate]. apply shown_val, S.
  - intros (im & I & E & T & V). rewrite <- E, (module_found ast im N I). rewrite then_none, !first_none. split; intros n J.
    + destruct (T n J) as [D S]. apply defines_names, mem_In in D. apply shown in S. rewrite D, S. reflexivity.
    + destruct (V n J) as [D S]. apply defines_vals, mem_In in D. apply shown_val in S. rewrite D, S. reflexivity.
Qed.
Lemma named_ok : forall ada own imp, well_named ada own imp <->
  CheckForDuplicates own = None /\ CheckForDuplicatesCI ada own = None /\ CheckForDuplicates imp = None /\ CheckForDuplicates (own ++ imp) = None.
Proof.
  intros ada own imp. unfold well_named. rewrite !dups, dups_ci. split.
  - intros [N C]. destruct (nodup_app _ _ N). auto.
  - intros (_ & C & _ & N). auto.
Qed.
Lemma order_ok : forall ast, NoDup (map m_name ast) -> checkForCyclicModules ast = None <->
  exists order, (forall x, In x order <-> In x (map m_name ast)) /\ NoDup order /\
    forall m, In m ast -> after order (m_name m) (map c_mod (m_imports m)).
Proof.
  intros ast N. unfold checkForCyclicModules. match goal with |- context [sort_nodes _ _ ?x] => set (nodes := x) end.
  assert (F : map fst nodes = map m_name ast) by (unfold nodes; rewrite map_map; reflexivity).
  destruct (sort_nodes String.eqb [] nodes) as [r|] eqn:Hr; [|destruct (TopoProofs.nodes_total String.eqb [] nodes); congruence]. split.
  - intros H. destruct r as [out|rest]; [|discriminate].
    destruct (TopoProofs.nodes_sorted String.eqb str_eq [] nodes out Hr) as [P A]. cbn [app] in P. rewrite F in P.
    exists out. split; [intros x; split; intros I; [apply (Permutation_in _ (Permutation_sym P) I)|apply (Permutation_in _ P I)]|].
    split; [apply (Permutation_NoDup P N)|]. intros m I. apply A. unfold nodes. apply (in_map (fun m : amodule => (m_name m, map c_mod (m_imports m)))), I.
  - intros (order & S & ND & A). destruct (TopoProofs.nodes_complete String.eqb str_eq [] nodes order) as [out H].
    + cbn [app]. rewrite F. exact N.
    + cbn [app]. rewrite F. apply NoDup_Permutation; [exact N|exact ND|]. intros x. symmetry. apply S.
    + intros n l I. unfold nodes in I. apply in_map_iff in I. destruct I as (m & E & I). injection E as <- <-. apply A, I.
    + rewrite Hr in H. injection H as ->. reflexivity.
Qed.
Theorem check_exact : forall ada ast, CheckFiles ada ast = None <-> well_formed ada ast.
Proof.
  intros ada ast. unfold CheckFiles. rewrite !then_none, dups, first_none. split.
  - intros (C & N & M). apply (order_ok ast N) in C.
    assert (M' : forall m, In m ast -> well_named ada (map fst (m_types m)) (imported_types m) /\ well_named ada (map fst (m_vals m)) (imported_vals m) /\
      (forall p, In p (m_types m) -> CheckType ast (snd p) = None) /\ (forall p, In p (m_vals m) -> CheckType ast (snd p) = None) /\
      forall c, In c (m_imports m) -> checkImport ast c = None).
    { intros m I. specialize (M m I). unfold CheckModule in M. rewrite !then_none, !first_none in M. rewrite !named_ok. tauto. }
    constructor; try assumption.
    + intros m I. apply M', I.
    + intros m I. apply M', I.
    + intros m n t I J. destruct (M' m I) as (_ & _ & T & V & _). destruct J as [J|J]; apply (type_ok ast t N); [apply (T _ J)|apply (V _ J)].
    + intros m c I J. apply (import_ok ast c N). apply (M' m I), J.
  - intros [N C T V R I]. split; [apply order_ok; assumption|]. split; [exact N|]. intros m J.
    specialize (T m J). specialize (V m J). apply named_ok in T. apply named_ok in V. unfold CheckModule.
    rewrite !then_none, !first_none. destruct T as (T1 & T2 & T3 & T4). destruct V as (V1 & V2 & V3 & V4).
    repeat split; try assumption.
    + intros [n t] K. apply (type_ok ast t N). apply (R m n t J). left. exact K.
    + intros [n t] K. apply (type_ok ast t N). apply (R m n t J). right. exact K.
    + intros c K. apply (import_ok ast c N). apply (I m c J K).
Qed.

(** A name cannot be looked for in vain or for ever. *)
Lemma find_type : forall (l : list (name * stype (name * name))) n t, NoDup (map fst l) -> In (n, t) l ->
  find (fun p => String.eqb (fst p) n) l = Some (n, t).
Proof.
  induction l as [|[a u] l IH]; [intros ? ? _ []|]. intros n t N I. cbn [map find fst] in *. inversion N as [|? ? NI N']; subst.
  destruct I as [E|I]; [injection E as <- <-; rewrite String.eqb_refl; reflexivity|].
  destruct (String.eqb a n) eqn:E; [|auto]. apply String.eqb_eq in E. subst a. destruct NI. apply (in_map fst _ _ I).
Qed.
Lemma own_found : forall ada ast m n t f, well_formed ada ast -> In m ast -> In (n, t) (m_types m) ->
  GetTypeAssignmentByName (S f) ast m n = Found (m_name m) t.
Proof.
  intros ada ast m n t f W I J. cbn [GetTypeAssignmentByName]. pose proof (proj1 (wf_types _ _ W m I)) as N. apply nodup_app in N.
  rewrite (find_type _ n t (proj1 N) J). reflexivity.
Qed.
Theorem lookup_exact : forall ada ast m n f, CheckFiles ada ast = None -> In m ast ->
  (forall b t, GetTypeAssignmentByName (S (S f)) ast m n = Found b t <->
    exists m', In m' ast /\ m_name m' = b /\ In (n, t) (m_types m') /\ (m' = m \/ imports m b n)) /\
  (GetTypeAssignmentByName (S (S f)) ast m n = NotDefined <-> ~ defines m n /\ forall b, ~ imports m b n) /\
  GetTypeAssignmentByName (S (S f)) ast m n <> Endless /\
  (forall b, GetTypeAssignmentByName (S (S f)) ast m n <> UnknownModule b).
Proof.
  intros ada ast m n f C I. apply check_exact in C. pose proof (wf_names _ _ C) as ND.
  pose proof (proj1 (wf_types _ _ C m I)) as NT.
  destruct (find (fun p => String.eqb (fst p) n) (m_types m)) as [[a u]|] eqn:F.
  - apply find_some in F. destruct F as [J E]. cbn in E. apply String.eqb_eq in E. subst a.
    rewrite (own_found ada ast m n u (S f) C I J).
    assert (NI : forall b, ~ imports m b n).
    { intros b H. assert (K : In n (imported_types m)) by (apply imported; eauto). unfold imported_types in K.
      assert (D : In n (map fst (m_types m))) by (apply defines_names; exists u; exact J).
      apply in_split in D. destruct D as (l1 & l2 & D). rewrite D in NT. rewrite <- app_assoc in NT. cbn in NT.
      apply NoDup_remove_2 in NT. apply NT. rewrite !in_app_iff. auto. }
    repeat split; try discriminate.
    + intros E. injection E as <- <-. exists m. auto.
    + intros (m' & I' & <- & J' & [->|H]); [|destruct (NI _ H)].
      apply nodup_app in NT. pose proof (find_type _ _ _ (proj1 NT) J) as F1. pose proof (find_type _ _ _ (proj1 NT) J') as F2. congruence.
    + intros [H _]. destruct H. exists u. exact J.
  - assert (NO : ~ defines m n).
    { intros (t & J). pose proof (proj1 (find_none _ _ _) F _ J) as E. cbn in E. rewrite String.eqb_refl in E. discriminate. }
    cbn [GetTypeAssignmentByName]. rewrite F.
    destruct (find (fun c => mem n (c_types c)) (m_imports m)) as [c|] eqn:G.
    + apply find_some in G. destruct G as [J K]. apply mem_In in K. destruct (wf_imports _ _ C m c I J) as (im & I' & E & T & _).
      destruct (T n K) as [[t D] _]. rewrite <- E, (module_found ast im ND I').
      pose proof (own_found ada ast im n t f C I' D) as O. cbn [GetTypeAssignmentByName] in O. rewrite O.
      assert (U : forall b, imports m b n -> b = c_mod c).
      { intros b (c' & J' & <- & K'). clear - NT J K J' K'. apply nodup_app in NT. destruct NT as [_ NT].
        induction (m_imports m) as [|x l IH]; [destruct J|]. cbn [flat_map] in NT.
        assert (X : forall y, In y l -> In n (c_types y) -> In n (c_types x) -> False).
        { intros y Y1 Y2 Y3. apply in_split in Y3. destruct Y3 as (l1 & l2 & E). rewrite E, <- app_assoc in NT. cbn in NT.
          apply NoDup_remove_2 in NT. apply NT. rewrite !in_app_iff. right. right. apply in_flat_map. eauto. }
        destruct J as [->|J], J' as [->|J']; try reflexivity; try (exfalso; eauto; fail).
        apply nodup_app in NT. apply IH; tauto. }
      repeat split; try discriminate.
      * intros X. injection X as <- <-. exists im. repeat split; try assumption. right. exists c. auto.
      * intros (m' & I1 & <- & D' & [->|H]); [destruct NO; exists t0; exact D'|].
        pose proof (U _ H) as E'. rewrite <- E in E'. pose proof (module_found ast m' ND I1) as F1. pose proof (module_found ast im ND I') as F2.
        rewrite E' in F1. assert (m' = im) by congruence. subst m'.
        pose proof (own_found ada ast im n _ f C I' D') as O'. pose proof (own_found ada ast im n _ f C I' D) as O''. rewrite O' in O''. injection O'' as ->.
        reflexivity.
      * intros [_ H]. destruct (H (c_mod c)). exists c. auto.
    + assert (NI : forall b, ~ imports m b n).
      { intros b (c & J & _ & K). pose proof (proj1 (find_none _ _ _) G c J) as E. cbv beta in E. apply mem_In in K. congruence. }
      repeat split; try discriminate; try assumption.
      intros (m' & _ & _ & D & [->|H]); [destruct NO; exists t; exact D|destruct (NI _ H)].
Qed.

(** From the source *)
Lemma denotes_exact : forall m r b x, CreateRefTypeContent (m_name m) (m_imports m) r = (b, x) <-> denotes m r b x.
Proof.
  assert (SP : forall c x, mem x (c_mod c :: c_types c) = true <-> speaks c x).
  { intros c x. rewrite mem_In. reflexivity. }
  assert (NS : forall c x, mem x (c_mod c :: c_types c) = false <-> ~ speaks c x).
  { intros c x. rewrite <- SP. destruct (mem _ _); split; congruence. }
  assert (FI : forall l c x, find (fun c => mem x (c_mod c :: c_types c)) l = Some c <->
    exists l1 l2, l = l1 ++ c :: l2 /\ (forall d, In d l1 -> ~ speaks d x) /\ speaks c x).
  { intros l c x. induction l as [|a l IH]; [split; [discriminate|intros ([|? ?] & ? & E & _); discriminate]|].
    cbn [find]. destruct (mem x (c_mod a :: c_types a)) eqn:E.
    - split.
      + intros H. injection H as ->. exists [], l. repeat split; [intros d []|apply SP, E].
      + intros ([|y l1] & l2 & El & N & _); [cbn in El; congruence|]. injection El as -> _. apply SP in E. destruct (N y (or_introl eq_refl) E).
    - rewrite IH. split.
      + intros (l1 & l2 & -> & N & S). exists (a :: l1), l2. repeat split; [|exact S]. intros d [<-|I]; [apply NS, E|auto].
      + intros ([|y l1] & l2 & El & N & S); injection El as -> ->; [apply SP in S; congruence|].
        exists l1, l2. repeat split; [|exact S]. intros d I. apply N. right. exact I. }
  intros m r b x. destruct r as [n|b' n]; cbn [CreateRefTypeContent].
  - destruct (find _ (m_imports m)) as [c|] eqn:F.
    + split.
      * intros E. injection E as <- <-. apply FI in F. destruct F as (l1 & l2 & El & N & S). exact (d_imported m l1 c l2 n El N S).
      * intros D. inversion D as [|l1 c' l2 ? El N S|? N]; subst.
        -- assert (G : find (fun c => mem x (c_mod c :: c_types c)) (m_imports m) = Some c') by (apply FI; eauto). congruence.
        -- apply find_some in F. destruct F as [I F]. apply SP in F. destruct (N c I F).
    + split.
      * intros E. injection E as <- <-. apply d_own. intros c I. apply NS. exact (proj1 (find_none _ _ _) F c I).
      * intros D. inversion D as [|l1 c' l2 ? El N S|? N]; subst; [|reflexivity].
        assert (G : find (fun c => mem x (c_mod c :: c_types c)) (m_imports m) = Some c') by (apply FI; eauto). congruence.
  - split; [intros E; injection E as -> ->; constructor|intros D; inversion D; reflexivity].
Qed.
Lemma tasses : forall ms m n t, In m ms -> In (n, t) (m_types m) ->
  In ((m_name m, n), map (CreateRefTypeContent (m_name m) (m_imports m)) (refs t)) (allTasses ms).
Proof.
  intros ms m n t I J. unfold allTasses. apply in_flat_map. exists m. split; [exact I|].
  apply (in_map (fun p => ((m_name m, fst p), map (CreateRefTypeContent (m_name m) (m_imports m)) (refs (snd p)))) _ (n, t) J).
Qed.
Lemma tas_names : forall ms b n, In (b, n) (map fst (allTasses ms)) <-> exists m, In m ms /\ m_name m = b /\ defines m n.
Proof.
  intros ms b n. rewrite in_map_iff. split.
  - intros ([k l] & E & I). cbn in E. subst k. unfold allTasses in I. apply in_flat_map in I. destruct I as (m & I & J).
    apply in_map_iff in J. destruct J as ([a t] & E & J). cbn in E. injection E as <- <- _. exists m. repeat split; [exact I|]. exists t. exact J.
  - intros (m & I & <- & t & J). eexists. split; [|apply (tasses ms m n t I J)]. reflexivity.
Qed.
Lemma accepted : forall ada ms ast, front_end ada ms = inr ast ->
  orphans ms = None /\ cyclic_types ms = None /\ ast = map (CreateAsn1Module ms) ms /\ CheckFiles ada ast = None.
Proof.
  intros ada ms ast H. unfold front_end in H. destruct (andthen (orphans ms) (cyclic_types ms)) eqn:E; [discriminate|].
  apply then_none in E. destruct (CheckFiles ada (map (CreateAsn1Module ms) ms)) eqn:F; [discriminate|]. injection H as <-. tauto.
Qed.
Lemma accepted_names : forall ada ms ast, front_end ada ms = inr ast -> NoDup (map m_name ms) /\
  forall m, In m ms -> NoDup (map fst (m_types m)).
Proof.
  intros ada ms ast H. apply accepted in H. destruct H as (_ & _ & -> & C). apply check_exact in C. split.
  - pose proof (wf_names _ _ C) as N. rewrite map_map in N. exact N.
  - intros m I. pose proof (wf_types _ _ C _ (in_map (CreateAsn1Module ms) _ _ I)) as [N _]. apply nodup_app in N. destruct N as [N _].
    cbn [CreateAsn1Module m_types] in N. rewrite map_map in N. exact N.
Qed.
Lemma target_defined : forall ada ms ast m n t r, front_end ada ms = inr ast -> In m ms -> In (n, t) (m_types m) -> uses t r ->
  let p := CreateRefTypeContent (m_name m) (m_imports m) r in exists m', In m' ms /\ m_name m' = fst p /\ defines m' (snd p).
Proof.
  intros ada ms ast m n t r H I J U p. apply accepted in H. destruct H as (O & _). unfold orphans in O. rewrite first_none in O.
  assert (K : In p (flat_map snd (allTasses ms))).
  { apply in_flat_map. eexists. split; [apply (tasses ms m n t I J)|]. cbn [snd]. apply in_map. apply refs_uses, U. }
  specialize (O p K). destruct (existsb _ _) eqn:E; [|discriminate]. apply existsb_exists in E. destruct E as (q & Q & E).
  apply pair_eq in E. subst q. destruct p as [b x]. apply tas_names in Q. exact Q.
Qed.
Theorem target : forall ada ms ast m n t r b x, front_end ada ms = inr ast -> In m ms -> In (n, t) (m_types m) -> uses t r ->
  denotes m r b x -> exists m', In m' ms /\ m_name m' = b /\ defines m' x.
Proof.
  intros ada ms ast m n t r b x H I J U D. pose proof (target_defined ada ms ast m n t r H I J U) as T. apply denotes_exact in D. rewrite D in T. exact T.
Qed.
Theorem plain : forall ada ms ast m n t x, front_end ada ms = inr ast -> In m ms -> In (n, t) (m_types m) -> uses t (Plain x) ->
  (forall c, In c (m_imports m) -> c_mod c <> x) ->
  (exists b m', imports m b x /\ In m' ms /\ m_name m' = b /\ defines m' x) \/ (forall b, ~ imports m b x) /\ defines m x.
Proof.
  intros ada ms ast m n t x H I J U NM. pose proof (target_defined ada ms ast m n t (Plain x) H I J U) as T. cbn [CreateRefTypeContent] in T.
  destruct (find (fun c => mem x (c_mod c :: c_types c)) (m_imports m)) as [c|] eqn:F; cbv zeta in T; cbn [fst snd] in T.
  - apply find_some in F. destruct F as [K M]. apply mem_In in M. destruct M as [M|M]; [destruct (NM c K M)|].
    destruct T as (m' & I' & E & D). left. exists (c_mod c), m'. repeat split; try assumption. exists c. auto.
  - right. split.
    + intros b (c & K & _ & M). pose proof (proj1 (find_none _ _ _) F c K) as E. cbv beta in E.
      assert (mem x (c_mod c :: c_types c) = true) by (apply mem_In; right; exact M). congruence.
    + destruct T as (m' & I' & E & D). destruct (accepted_names _ _ _ H) as [ND _].
      assert (m' = m); [|subst; exact D]. clear - ND I I' E. induction ms as [|a ms IH]; [destruct I|]. cbn in ND. inversion ND as [|? ? NI N]; subst.
      destruct I as [->|I], I' as [->|I']; try reflexivity; auto.
      * destruct NI. rewrite <- E. apply in_map, I'.
      * destruct NI. rewrite E. apply in_map, I.
Qed.
Lemma tasses_nodup : forall ms : list (smodule rname), NoDup (map m_name ms) -> (forall m, In m ms -> NoDup (map fst (m_types m))) ->
  NoDup (map fst (allTasses ms)).
Proof.
  intros ms ND NT. unfold allTasses. induction ms as [|m ms IH]; [constructor|]. cbn [flat_map map] in *.
  rewrite map_app, map_map. cbn [fst]. inversion ND as [|? ? NI N]; subst.
  assert (Y : forall b, (forall x, In x ms -> m_name x <> b) -> forall n, ~ In (b, n) (map fst (allTasses ms))).
  { intros b Hb n K. apply tas_names in K. destruct K as (m' & I & E & _). destruct (Hb m' I E). }
  specialize (Y (m_name m)). assert (Z : forall x, In x ms -> m_name x <> m_name m) by (intros x I E; apply NI; rewrite <- E; apply in_map, I).
  specialize (Y Z). specialize (NT m (or_introl eq_refl)) as N1. specialize (IH N (fun x I => NT x (or_intror I))).
  clear - Y N1 IH. fold (allTasses ms) in *. induction (m_types m) as [|[a t] l IHl]; [exact IH|]. cbn [map fst] in *.
  inversion N1 as [|? ? NI N]; subst. cbn [app]. constructor; [|exact (IHl N)].
  rewrite in_app_iff. intros [K|K]; [|exact (Y a K)]. apply in_map_iff in K. destruct K as ([a' t'] & E & K). cbn in E. injection E as ->.
  apply NI. apply (in_map fst _ _ K).
Qed.
(** No type needs itself. *)
Theorem types_ordered : forall ada ms ast, front_end ada ms = inr ast ->
  exists order, NoDup order /\ (forall b n, In (b, n) order <-> exists m, In m ms /\ m_name m = b /\ defines m n) /\
    forall m n t, In m ms -> In (n, t) (m_types m) ->
      exists before rest, order = before ++ (m_name m, n) :: rest /\
        forall r b x, uses t r -> denotes m r b x -> In (b, x) before.
Proof.
  intros ada ms ast H. pose proof (accepted_names _ _ _ H) as [ND NT]. apply accepted in H. destruct H as (_ & C & _). unfold cyclic_types in C.
  destruct (sort_nodes pair_eqb [] (allTasses ms)) as [[out|rest]|] eqn:S; try discriminate.
  destruct (TopoProofs.nodes_sorted pair_eqb pair_eq [] _ out S) as [P A]. cbn [app] in P. exists out. split; [|split].
  - apply (Permutation_NoDup P). apply tasses_nodup; assumption.
  - intros b n. rewrite <- tas_names. split; intros K; [apply (Permutation_in _ (Permutation_sym P) K)|apply (Permutation_in _ P K)].
  - intros m n t I J. destruct (A _ _ (tasses ms m n t I J)) as (l1 & l2 & E & IN). exists l1, l2. split; [exact E|].
    intros r b x U D. apply IN. apply in_map_iff. exists r. split; [apply denotes_exact, D|apply refs_uses, U].
Qed.
