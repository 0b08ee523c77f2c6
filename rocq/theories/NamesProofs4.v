(** Proofs for C65: when two calls are enough, and when no number of calls is. *)
From Verif Require Import Names NamesSpec NamesProofs NamesProofs2 NamesProofs3.
From Coq Require Import String Ascii List Bool Arith Lia Permutation.
Import ListNotations.
Local Open Scope string_scope.
Local Open Scope list_scope.

Lemma omap_total : forall (A B : Type) (f : A -> option B) l, (forall x, In x l -> f x <> None) -> omap f l <> None.
Proof.
  induction l as [|x l IH]; intros H; [discriminate|].
  assert (E : omap f (x :: l) = match f x, omap f l with Some y, Some l' => Some (y :: l') | _, _ => None end) by reflexivity. rewrite E. clear E.
  destruct (f x) eqn:E; [|exfalso; exact (H x (or_introl eq_refl) E)].
  assert (K : omap f l <> None) by (apply IH; intros; apply H; now right). destruct (omap f l); [discriminate|congruence].
Qed.
Lemma option_map_total : forall (A B : Type) (f : A -> B) o, o <> None -> option_map f o <> None.
Proof. intros A B f [x|] H; cbn; congruence. Qed.
Lemma enum_total : forall dup t key, (forall x, In x (enum_items key t) -> new_name String.eqb dup (fst x) (snd x) <> None) ->
  enum_type SelectiveEnumerants dup key t <> None.
Proof.
  intros dup t. induction t as [items|l IH|l IH|t IH|] using nty_rect'; intros key H; cbn [enum_type].
  - assert (K : omap (copyItem dup key) items <> None).
    { apply omap_total. intros it I. unfold copyItem. apply option_map_total. apply (H (key, snd it)). cbn [enum_items]. now apply (in_map (fun it => (key, snd it))). }
    destruct (omap _ items); [discriminate|congruence].
  - apply option_map_total, omap_total. intros c I. apply option_map_total. rewrite Forall_forall in IH. apply (IH _ I). intros x J. apply H.
    cbn [enum_items]. apply in_flat_map. exists c. auto.
  - apply option_map_total, omap_total. intros c I. apply option_map_total. rewrite Forall_forall in IH. apply (IH _ I). intros x J. apply H.
    cbn [enum_items]. apply in_flat_map. exists c. auto.
  - apply option_map_total. apply IH. exact H.
  - discriminate.
Qed.
Lemma clone_total : forall dup r, (forall x, In x (items_of enum_items r) -> new_name String.eqb dup (fst x) (snd x) <> None) ->
  clone (enum_type SelectiveEnumerants dup) r <> None.
Proof.
  intros dup r H. unfold clone. apply omap_total. intros m I. apply option_map_total, omap_total. intros a J. apply option_map_total, enum_total.
  intros x K. apply H. unfold items_of. apply in_flat_map. exists m. split; [exact I|]. apply in_flat_map. exists a. auto.
Qed.
Lemma newPrefix_last : forall key name, key <> [] -> contains (ToC (last key "")) name = false -> newPrefix key name = Some (ToC (last key "")).
Proof.
  intros key name N C. destruct (exists_last N) as (l & x & ->). rewrite last_last in *. unfold newPrefix. rewrite rev_app_distr. cbn [rev app map find].
  now rewrite C.
Qed.
Lemma nodup_pairs : forall (A B : Type) (f : A -> B) l, (forall l1 x l2 y l3, l = l1 ++ x :: l2 ++ y :: l3 -> f x <> f y) -> NoDup (map f l).
Proof.
  induction l as [|x l IH]; intros H; cbn; constructor.
  - intros I. apply in_map_iff in I as (y & E & I). apply in_split in I as (l2 & l3 & ->). apply (H [] x l2 y l3 eq_refl). congruence.
  - apply IH. intros l1 a l2 b l3 ->. apply (H (x :: l1) a l2 b l3). reflexivity.
Qed.
Lemma nodup_split : forall (A : Type) (l1 l2 : list A), NoDup l1 -> NoDup l2 -> (forall x, In x l1 -> ~ In x l2) -> NoDup (l1 ++ l2).
Proof.
  induction l1 as [|x l1 IH]; intros l2 H K D; cbn; [exact K|]. inversion H; subst. constructor.
  - rewrite in_app_iff. intros [I|I]; [contradiction|]. apply (D x (or_introl eq_refl) I).
  - apply IH; auto. intros y I. apply D. now right.
Qed.
(** Renaming all that occur twice, with fresh names. *)
Lemma fresh_nodup : forall (A : Type) (a c : A -> string) (f : A -> string) l W, let old := map a l ++ W in
  NoDup W -> NoDup (map c l) -> (forall x, In x l -> ~ In (c x) old) ->
  (forall x, In x l -> f x = if Nat.leb 2 (cnt old (a x)) then c x else a x) -> NoDup (map f l ++ W).
Proof.
  intros A a c f l W old HW HC HF Hf.
  assert (one : forall x, In x l -> (Nat.leb 2 (cnt old (a x))) = false -> ~ In (a x) W).
  { intros x I L J. apply Nat.leb_gt in L. unfold cnt, old in L. rewrite count_occ_app in L. apply (in_map a) in I.
    apply (count_occ_In string_dec) in I. apply (count_occ_In string_dec) in J. lia. }
  apply nodup_split; [|exact HW|].
  - apply nodup_pairs. intros l1 x l2 y l3 E.
    assert (Ix : In x l) by (rewrite E, in_app_iff; right; now left). assert (Iy : In y l) by (rewrite E, in_app_iff; right; right; rewrite in_app_iff; right; now left).
    rewrite (Hf _ Ix), (Hf _ Iy). destruct (Nat.leb 2 (cnt old (a x))) eqn:Lx; destruct (Nat.leb 2 (cnt old (a y))) eqn:Ly; intros Q.
    + rewrite E, map_app in HC. cbn [map] in HC. apply NoDup_remove_2 in HC. apply HC. rewrite Q, map_app. cbn [map]. rewrite !in_app_iff. right. right. now left.
    + apply (HF _ Ix). rewrite Q. unfold old. rewrite in_app_iff. left. now apply in_map.
    + apply (HF _ Iy). rewrite <- Q. unfold old. rewrite in_app_iff. left. now apply in_map.
    + apply Nat.leb_gt in Lx. unfold cnt, old in Lx. rewrite E, !map_app in Lx. cbn [map] in Lx. rewrite !map_app in Lx. cbn [map] in Lx.
      rewrite !count_occ_app in Lx. cbn [count_occ] in Lx. rewrite <- Q in Lx. destruct (string_dec (a x) (a x)); [|congruence].
      rewrite count_occ_app in Lx. cbn [count_occ] in Lx. destruct (string_dec (a x) (a x)); [lia|congruence].
  - intros s I J. apply in_map_iff in I as (x & <- & I). rewrite (Hf _ I) in J. destruct (Nat.leb 2 (cnt old (a x))) eqn:L.
    + apply (HF _ I). unfold old. rewrite in_app_iff. auto.
    + now apply (one x I L).
Qed.
Lemma eqb_in : forall x l, existsb (String.eqb x) l = true <-> In x l.
Proof.
  intros x l. rewrite existsb_exists. split; [intros (y & I & E); apply String.eqb_eq in E; congruence|intros I; exists x; split; [exact I|apply String.eqb_refl]].
Qed.
Lemma Forall2_map_fun : forall (A B C : Type) (R : A -> B -> Prop) (f : A -> C) (g : B -> C) l l', Forall2 R l l' -> (forall a b, In a l -> R a b -> g b = f a) -> map g l' = map f l.
Proof. intros A B C R f g l l' H. induction H as [|a b l l' q H IH]; intros K; cbn; [reflexivity|]. f_equal; [apply K; [now left|exact q]|]. apply IH. intros. apply K; [now right|assumption]. Qed.
Lemma two_calls : forall r, NoDup (flat_map mvalues r ++ c_keywords) -> NoDup (map candidate (items_of enum_items r)) ->
  (forall x, In x (items_of enum_items r) -> ~ In (candidate x) (doubleEnumNames0 r ++ c_keywords)) ->
  (forall x, In x (items_of enum_items r) -> fst x <> [] /\ contains (ToC (last (fst x) "")) (snd x) = false) ->
  exists r', run (handleEnums SelectiveEnumerants) 2 r = Some (Done r').
Proof.
  intros r V U F K. set (dup := keepDuplicates String.eqb (doubleEnumNames0 r ++ c_keywords)).
  destruct (handleEnums SelectiveEnumerants r) as [x|r1|] eqn:E.
  - exists x. cbn [run]. now rewrite E.
  - cbn [run]. rewrite E. assert (R : handleEnums SelectiveEnumerants r1 = Return r1).
    2:{ rewrite R. exists r1. reflexivity. }
    apply enums_again in E as [_ E]. cbv zeta in E. fold dup in E.
    pose proof (clone_items (stepE dup) _ enum_items r r1 E ltac:(intros key t t' J; now apply enum_step)) as S.
    assert (N : NoDup (doubleEnumNames0 r1 ++ c_keywords)).
    { apply (Permutation_NoDup (l := map snd (items_of enum_items r1) ++ (flat_map mvalues r1 ++ c_keywords))).
      - rewrite names_items, app_assoc. apply Permutation_app_tail. apply Permutation_sym, double_perm.
      - rewrite (clone_values _ _ _ E).
        assert (P : forall x, cnt (doubleEnumNames0 r ++ c_keywords) x = cnt (map snd (items_of enum_items r) ++ (flat_map mvalues r ++ c_keywords)) x).
        { intros x. unfold cnt. rewrite names_items, app_assoc, (count_occ_app string_dec (doubleEnumNames0 r)), (count_occ_app string_dec (_ ++ _)).
          now rewrite (proj1 (Permutation_count_occ string_dec _ _) (double_perm r) x). }
        set (f := fun x : list string * string => if Nat.leb 2 (cnt (map snd (items_of enum_items r) ++ (flat_map mvalues r ++ c_keywords)) (snd x)) then candidate x else snd x).
        replace (map snd (items_of enum_items r1)) with (map f (items_of enum_items r)).
        + apply (fresh_nodup _ snd candidate); [exact V|exact U| |reflexivity].
          intros x I J. apply (F x I). apply (count_occ_In string_dec). apply (count_occ_In string_dec) in J. fold (cnt (doubleEnumNames0 r ++ c_keywords) (candidate x)).
          rewrite P. exact J.
        + symmetry. apply (Forall2_map_fun _ _ _ _ _ _ _ _ S). intros a b I [Q1 Q2]. unfold new_name in Q2. unfold f. rewrite <- P.
          destruct (K _ I) as [K1 K2]. destruct (existsb (String.eqb (snd a)) dup) eqn:D.
          * apply eqb_in in D. apply dup_twice in D. destruct (Nat.leb_spec 2 (cnt (doubleEnumNames0 r ++ c_keywords) (snd a))); [|lia].
            rewrite (newPrefix_last _ _ K1 K2) in Q2. cbn [option_map] in Q2. unfold candidate. congruence.
          * destruct (Nat.leb_spec 2 (cnt (doubleEnumNames0 r ++ c_keywords) (snd a))) as [L|L]; [|congruence].
            apply (twice_dup _ _ _ (le_n _)) in L. apply eqb_in in L. unfold dup, keepDuplicates in D. congruence. }
    unfold handleEnums. apply eqb_pairs, dup_nil in N. rewrite N. reflexivity.
  - exfalso. unfold handleEnums in E. fold dup in E. destruct (call_inv dup (fun dup => clone (enum_type SelectiveEnumerants dup)) r) as [[D Q]|[D Q]]; [congruence|].
    assert (T : clone (enum_type SelectiveEnumerants dup) r <> None).
    { apply clone_total. intros x I. unfold new_name. destruct (existsb _ _); [|discriminate]. destruct (K _ I) as [K1 K2]. rewrite (newPrefix_last _ _ K1 K2). discriminate. }
    destruct (clone (enum_type SelectiveEnumerants dup) r); [congruence|contradiction].
Qed.
Lemma nothing_to_do : forall pol r, NoDup (doubleEnumNames0 r ++ c_keywords) -> ForallOrdPairs (fun a b => icompare a b = false) (names_of choice_names r) ->
  DoWork pol 1 r = Some (Done r).
Proof.
  intros pol r H K. unfold DoWork. cbn [run]. unfold handleEnumChoices, handleEnums. apply dup_nil in K. rewrite K. cbn [call_of].
  apply eqb_pairs, dup_nil in H. rewrite H. reflexivity.
Qed.

(** * Without end *)
Lemma hang_by : forall f (inv : nroot -> Prop), (forall r, inv r -> exists r', f r = Again r' /\ inv r') -> forall r, inv r -> hangs f r.
Proof.
  intros f inv H r I n. revert r I. induction n as [|n IH]; intros r I; [reflexivity|]. destruct (H r I) as (r' & E & I'). cbn [run]. rewrite E. now apply IH.
Qed.
Lemma hang_same : forall f r, f r = Again r -> hangs f r.
Proof. intros f r E. apply (hang_by f (fun x => x = r)); [|reflexivity]. intros x ->. exists r. auto. Qed.
Fixpoint rep (k : nat) : string := match k with O => "" | S k => String "T" (String "_" (rep k)) end.
Definition two (k : nat) : nroot := [mkmod "M" [("Ta", NEnum [("a", (rep k ++ "a")%string)]); ("Taa", NEnum [("a", (rep k ++ "a")%string)])] []].
Lemma rep_contains : forall x k, contains (String "T" (String "a" x)) (rep k ++ "a")%string = false.
Proof.
  intros x k. induction k as [|k IH]; [reflexivity|].
  assert (E : contains (String "T" (String "a" x)) (rep (S k) ++ "a")%string = contains (String "T" (String "a" x)) (rep k ++ "a")%string) by reflexivity.
  now rewrite E.
Qed.
Lemma rep_delete : forall k, delete "a" 0 (rep k ++ "a")%string = rep k.
Proof.
  induction k as [|k IH]; [reflexivity|].
  assert (E : delete "a" 0 (rep (S k) ++ "a")%string = String "T" (String "_" (delete "a" 0 (rep k ++ "a")%string))) by reflexivity.
  now rewrite E, IH.
Qed.
Lemma rep_app : forall j k, (rep j ++ rep k)%string = rep (j + k).
Proof. induction j as [|j IH]; intros k; cbn; [reflexivity|]. now rewrite IH. Qed.
Lemma two_dup : forall k, exists ds, keepDuplicates String.eqb (doubleEnumNames0 (two k) ++ c_keywords) = (rep k ++ "a")%string :: ds.
Proof.
  intros k. assert (E : doubleEnumNames0 (two k) ++ c_keywords = (rep k ++ "a")%string :: (rep k ++ "a")%string :: c_keywords) by reflexivity. rewrite E.
  generalize (rep k ++ "a")%string. generalize c_keywords. intros l x. unfold keepDuplicates. cbn [List.length keepDup filter].
  rewrite String.eqb_refl. eexists. reflexivity.
Qed.
Lemma two_copy : forall x ds name, newPrefix ["M"; name] x = Some name -> omap (copyItem (x :: ds) ["M"; name]) [("a", x)] = Some [("a", (name ++ "_" ++ x)%string)].
Proof. intros x ds name P. cbn [omap]. unfold copyItem, new_name. cbn [existsb fst snd]. rewrite String.eqb_refl. cbn [orb]. rewrite P. reflexivity. Qed.
Lemma two_delete : forall k name, name = "Ta" \/ name = "Taa" -> delete (ToC "a") 0 (name ++ "_" ++ rep k ++ "a")%string = rep (S k).
Proof.
  intros k name [->| ->].
  - assert (E : delete (ToC "a") 0 ("Ta" ++ "_" ++ rep k ++ "a")%string = String "T" (String "_" (delete "a" 0 (rep k ++ "a")%string))) by reflexivity.
    now rewrite E, rep_delete.
  - assert (E : delete (ToC "a") 0 ("Taa" ++ "_" ++ rep k ++ "a")%string = String "T" (String "_" (delete "a" 0 (rep k ++ "a")%string))) by reflexivity.
    now rewrite E, rep_delete.
Qed.
Lemma two_prefix : forall k name, name = "Ta" \/ name = "Taa" -> newPrefix ["M"; name] (rep k ++ "a")%string = Some name.
Proof.
  intros k name [->| ->]; unfold newPrefix; cbn [rev app map].
  - replace (ToC "Ta") with "Ta" by reflexivity. generalize (rep_contains "" k). generalize (rep k ++ "a")%string. intros x C. cbn [find]. now rewrite C.
  - replace (ToC "Taa") with "Taa" by reflexivity. generalize (rep_contains "a" k). generalize (rep k ++ "a")%string. intros x C. cbn [find]. now rewrite C.
Qed.
Lemma two_type : forall ds k name, name = "Ta" \/ name = "Taa" ->
  enum_type AllEnumerants ((rep k ++ "a")%string :: ds) ["M"; name] (NEnum [("a", (rep k ++ "a")%string)]) = Some (NEnum [("a", (rep (S k + k) ++ "a")%string)]).
Proof.
  intros ds k name H. pose proof (two_copy _ ds _ (two_prefix k name H)) as C. pose proof (two_delete k name H) as L. pose proof (sapp_assoc (rep (S k)) (rep k) "a") as A.
  rewrite rep_app in A. rewrite A. revert C L. generalize (rep k ++ "a")%string. intros x C L. cbn [enum_type]. rewrite C. cbn [map longest fold_left fst snd]. rewrite L. reflexivity.
Qed.
Lemma two_again : forall k, handleEnums AllEnumerants (two k) = Again (two (S k + k)).
Proof.
  intros k. destruct (two_dup k) as [ds D]. unfold handleEnums. rewrite D. unfold two. pose proof (two_type ds k "Ta" ltac:(auto)) as A.
  pose proof (two_type ds k "Taa" ltac:(auto)) as B. clear D. revert A B. generalize (rep k ++ "a")%string (rep (S k + k) ++ "a")%string. intros x y A B.
  unfold call_of, clone. cbn [omap mname mtypes mvalues fst snd]. rewrite A, B. reflexivity.
Qed.
Lemma two_hangs : hangs (handleEnums AllEnumerants) (two 0).
Proof. apply (hang_by _ (fun r => exists k, r = two k)); [|now exists 0]. intros r [k ->]. exists (two (S k + k)). split; [apply two_again|eauto]. Qed.
