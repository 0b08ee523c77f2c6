(** The automatic prefixes of FieldNames.v. *)
From Verif Require Import Names NamesSpec NamesProofs NamesProofs2 NamesProofs5 FieldNames FieldNamesSpec FieldNamesProofs.
From Coq Require Import String Ascii List Bool Arith Lia.
Import ListNotations.
Local Open Scope string_scope.
Local Open Scope list_scope.

Definition stepped (bad : list string) (x y : list string * string * string) : Prop :=
  fst x = fst y /\ new_name String.eqb bad (fst (fst x)) (snd x) = Some (snd y).
Lemma auto_step : forall bad t key t', auto_type bad key t = Some t' -> Forall2 (stepped bad) (paths key t) (paths key t').
Proof.
  intros bad.
  assert (K : forall key (l l' : list (string * string * fty)),
    Forall (fun c => forall key t', auto_type bad key (snd c) = Some t' -> Forall2 (stepped bad) (paths key (snd c)) (paths key t')) l ->
    omap (fun c => let '(n, p, ty) := c in
      match auto_type bad (key ++ [n]) ty, new_name String.eqb bad key p with Some ty', Some p' => Some (n, p', ty') | _, _ => None end) l = Some l' ->
    Forall2 (stepped bad) (map (fun c => (key, fst (fst c), snd (fst c))) l ++ flat_map (fun c => paths (key ++ [fst (fst c)]) (snd c)) l)
      (map (fun c => (key, fst (fst c), snd (fst c))) l' ++ flat_map (fun c => paths (key ++ [fst (fst c)]) (snd c)) l')).
  { intros key l l' IH H. apply omap_some in H. rewrite Forall_forall in IH. apply Forall2_app.
    - apply (Forall2_map_l _ _ _ _ _ _ _ _ _ _ H). intros [[n p] ty] b _ Q. destruct (auto_type bad (key ++ [n]) ty); [|discriminate].
      destruct (new_name String.eqb bad key p) as [q|] eqn:N; [|discriminate]. injection Q as <-. split; [reflexivity|exact N].
    - apply (Forall2_flat_map _ _ _ _ _ _ _ _ _ _ H). intros [[n p] ty] b I Q. destruct (auto_type bad (key ++ [n]) ty) eqn:A; [|discriminate].
      destruct (new_name String.eqb bad key p) as [q|]; [|discriminate]. injection Q as <-. exact (IH _ I _ _ A). }
  induction t as [l IH|l IH|t IH|] using fty_rect'; intros key t' H; cbn [auto_type] in H.
  - optinv H. cbn [paths]. now apply K.
  - optinv H. cbn [paths]. now apply K.
  - optinv H. cbn [paths]. now apply IH.
  - injection H as <-. constructor.
Qed.
Lemma clone_step : forall bad r r', clonef (auto_type bad) r = Some r' -> Forall2 (stepped bad) (all_paths r) (all_paths r').
Proof.
  intros bad r r' H. unfold clonef in H. apply omap_some in H. apply (Forall2_flat_map _ _ _ _ _ _ _ _ _ _ H). intros m m' _ Q. optinv Q. cbn [f_name f_types].
  apply omap_some in E. apply (Forall2_flat_map _ _ _ _ _ _ _ _ _ _ E). intros t t' _ Q. optinv Q. cbn [fst snd]. now apply auto_step.
Qed.
Lemma names_paths : forall t key, map snd (paths key t) = field_names t.
Proof.
  assert (K : forall key (l : list (string * string * fty)), Forall (fun c => forall key, map snd (paths key (snd c)) = field_names (snd c)) l ->
    map snd (map (fun c => (key, fst (fst c), snd (fst c))) l ++ flat_map (fun c => paths (key ++ [fst (fst c)]) (snd c)) l) =
    map (fun c => snd (fst c)) l ++ flat_map (fun c => field_names (snd c)) l).
  { intros key l IH. rewrite map_app, map_map. f_equal. rewrite map_flat_map. apply flat_map_ext'. rewrite Forall_forall in *. intros c I. now apply IH. }
  induction t as [l IH|l IH|t IH|] using fty_rect'; intros key; cbn [paths field_names]; auto.
Qed.
Lemma bad_paths : forall r, invalidComponentNames r = filter (fun n => mems n c_keywords) (map snd (all_paths r)).
Proof.
  intros r. unfold invalidComponentNames, all_paths. f_equal. rewrite map_flat_map. apply flat_map_ext'. apply Forall_forall. intros m _.
  rewrite map_flat_map. apply flat_map_ext'. apply Forall_forall. intros t _. symmetry. apply names_paths.
Qed.
Lemma bad_in : forall r x, In x (all_paths r) -> existsb (String.eqb (snd x)) (invalidComponentNames r) = true <-> In (snd x) c_keywords.
Proof.
  intros r x I. fold (mems (snd x) (invalidComponentNames r)). rewrite mems_in, bad_paths, filter_In, mems_in. split; [tauto|]. intros K. split; [|exact K].
  now apply in_map.
Qed.
Lemma prefixed_not_keyword : forall p s, ~ In (p ++ "_" ++ s)%string c_keywords.
Proof.
  intros p s H. apply keyword_char in H as [_ H]. assert (O : contains "_" (p ++ "_" ++ s) = true) by (apply contains_spec; exists p, s; reflexivity). congruence.
Qed.
Lemma step_renamed : forall r r', clonef (auto_type (invalidComponentNames r)) r = Some r' -> Forall2 auto_renamed (all_paths r) (all_paths r').
Proof.
  intros r r' H. apply clone_step in H. pose proof (bad_in r) as B. revert H B. generalize (all_paths r') (all_paths r) (invalidComponentNames r). clear.
  intros l' l bad H. induction H as [|x y l l' [E S] H IH]; intros B; constructor; [|apply IH; intros; apply B; now right].
  specialize (B x (or_introl eq_refl)). split; [exact E|]. unfold new_name in S. destruct (existsb _ bad).
  - split; [intros N; destruct N; now apply B|]. intros _. optinv S. destruct (newPrefix_some _ _ _ E0) as (k1 & k & k2 & A1 & A2 & A3 & ->).
    exists (ToC k). split; [exists k1, k, k2; auto|reflexivity].
  - split; [congruence|]. intros K. apply B in K. discriminate.
Qed.
Lemma renamed_no_keyword : forall l l', Forall2 auto_renamed l l' -> forall y, In y l' -> ~ In (snd y) c_keywords.
Proof.
  intros l l' H. induction H as [|x y l l' (E & A & B) H IH]; intros z I; [destruct I|]. destruct I as [<-|I]; [|now apply IH].
  destruct (in_dec string_dec (snd x) c_keywords) as [K|K].
  - destruct (B K) as (p & _ & ->). apply prefixed_not_keyword.
  - rewrite (A K). exact K.
Qed.
Lemma no_bad : forall r, (forall y, In y (all_paths r) -> ~ In (snd y) c_keywords) <-> invalidComponentNames r = [].
Proof.
  intros r. rewrite bad_paths. split.
  - intros H. destruct (filter _ _) as [|n l] eqn:E; [reflexivity|]. assert (I : In n (n :: l)) by now left. rewrite <- E in I.
    apply filter_In in I as [I K]. apply in_map_iff in I as (y & <- & I). apply mems_in in K. destruct (H _ I K).
  - intros H y I K. assert (J : In (snd y) []); [|exact J]. rewrite <- H. apply filter_In. split; [now apply in_map|now apply mems_in].
Qed.
Lemma same_renamed : forall l, (forall y, In y l -> ~ In (snd y) c_keywords) -> Forall2 auto_renamed l l.
Proof.
  induction l as [|x l IH]; intros H; constructor; [|apply IH; intros; apply H; now right].
  split; [reflexivity|]. split; [reflexivity|]. intros K. destruct (H x (or_introl eq_refl) K).
Qed.
Lemma auto_unfold : forall n r, auto (S n) r = match invalidComponentNames r with
  | [] => Some (FDone r)
  | _ => match clonef (auto_type (invalidComponentNames r)) r with Some r' => auto n r' | None => Some FRaise end
  end.
Proof. intros n r. cbn [auto]. destruct (invalidComponentNames r); reflexivity. Qed.
Lemma auto_fixed : forall n r, invalidComponentNames r = [] -> auto (S n) r = Some (FDone r).
Proof. intros n r H. rewrite auto_unfold, H. reflexivity. Qed.
Lemma auto_ok : forall n r r', auto n r = Some (FDone r') -> Forall2 auto_renamed (all_paths r) (all_paths r').
Proof.
  intros [|n] r r' H; [discriminate|]. rewrite auto_unfold in H. destruct (invalidComponentNames r) as [|b bad] eqn:E.
  - injection H as <-. apply same_renamed, no_bad, E.
  - rewrite <- E in H. destruct (clonef _ r) as [r1|] eqn:C; [|discriminate]. pose proof (step_renamed _ _ C) as S.
    destruct n as [|n]; [discriminate|]. rewrite auto_fixed in H by (apply no_bad, (renamed_no_keyword _ _ S)). injection H as <-. exact S.
Qed.
Lemma auto_keywords : forall n r r', auto n r = Some (FDone r') -> forall x, In x (all_paths r') -> ~ In (snd x) c_keywords.
Proof. intros n r r' H. exact (renamed_no_keyword _ _ (auto_ok _ _ _ H)). Qed.
Lemma auto_ends : forall n r, exists x, auto (S (S n)) r = Some x.
Proof.
  intros n r. rewrite auto_unfold. destruct (invalidComponentNames r) as [|b bad] eqn:E; [eexists; reflexivity|]. rewrite <- E.
  destruct (clonef _ r) as [r1|] eqn:C; [|eexists; reflexivity]. rewrite auto_fixed; [eexists; reflexivity|].
  apply no_bad, (renamed_no_keyword _ _ (step_renamed _ _ C)).
Qed.

(** * No exception *)
Fixpoint nocap (s : string) : bool :=
  match s with "" => true | String c s => negb ((65 <=? nat_of_ascii c)%nat && (nat_of_ascii c <=? 90)%nat) && nocap s end.
Lemma nocap_app : forall a b, nocap (a ++ b) = nocap a && nocap b.
Proof. induction a as [|c a IH]; intros b; cbn [append nocap]; [reflexivity|]. now rewrite IH, andb_assoc. Qed.
Lemma nocap_keyword : forall s, In s c_keywords -> nocap s = true.
Proof. intros s H. repeat (destruct H as [<-|H]; [reflexivity|]). destruct H. Qed.
Lemma capital_toc : forall k, capital k = true -> nocap (ToC k) = false.
Proof.
  intros [|c k] H; [discriminate|]. cbn [capital ToC] in *. rewrite nocap_app. replace (nocap (toc_char c)) with false; [reflexivity|].
  destruct c as [[] [] [] [] [] [] [] []]; vm_compute in H |- *; congruence.
Qed.
Lemma prefix_found : forall key k n, In k key -> capital k = true -> In n c_keywords -> newPrefix key n <> None.
Proof.
  intros key k n I C K H. apply newPrefix_none in H. rewrite Forall_forall in H. destruct (H k I) as (u & v & E).
  apply nocap_keyword in K. rewrite E, !nocap_app, (capital_toc _ C) in K. cbn in K. rewrite andb_false_r in K. discriminate.
Qed.
Lemma omap_total : forall A B (f : A -> option B) l, (forall x, In x l -> exists y, f x = Some y) -> exists l', omap f l = Some l'.
Proof.
  intros A B f. induction l as [|x l IH]; intros H; [exists []; reflexivity|].
  destruct (H x (or_introl eq_refl)) as [y E]. destruct IH as [l' E']; [intros; apply H; now right|]. exists (y :: l').
  change (match f x, omap f l with Some y, Some l' => Some (y :: l') | _, _ => None end = Some (y :: l')). now rewrite E, E'.
Qed.
Lemma auto_type_total : forall bad, (forall n, In n bad -> In n c_keywords) -> forall t key k, In k key -> capital k = true -> exists t', auto_type bad key t = Some t'.
Proof.
  intros bad B.
  assert (K : forall key k (l : list (string * string * fty)), In k key -> capital k = true ->
    Forall (fun c => forall key k, In k key -> capital k = true -> exists t', auto_type bad key (snd c) = Some t') l ->
    exists l', omap (fun c => let '(n, p, ty) := c in
      match auto_type bad (key ++ [n]) ty, new_name String.eqb bad key p with Some ty', Some p' => Some (n, p', ty') | _, _ => None end) l = Some l').
  { intros key k l I C IH. apply omap_total. intros [[n p] ty] J. rewrite Forall_forall in IH.
    destruct (IH _ J (key ++ [n]) k) as [ty' E]; [apply in_or_app; now left|exact C|]. cbn [snd] in E. rewrite E.
    unfold new_name. destruct (existsb (String.eqb p) bad) eqn:X; [|eexists; reflexivity]. fold (mems p bad) in X. apply mems_in, B in X.
    destruct (newPrefix key p) as [q|] eqn:N; [eexists; reflexivity|]. destruct (prefix_found _ _ _ I C X N). }
  induction t as [l IH|l IH|t IH|] using fty_rect'; intros key k I C; cbn [auto_type].
  - destruct (K key k l I C IH) as [l' ->]. eexists; reflexivity.
  - destruct (K key k l I C IH) as [l' ->]. eexists; reflexivity.
  - destruct (IH (key ++ ["#"]) k) as [t' ->]; [apply in_or_app; now left|exact C|]. eexists; reflexivity.
  - eexists; reflexivity.
Qed.
Lemma auto_total : forall n r, (forall m, In m r -> capital (f_name m) = true) -> exists r', auto (S (S n)) r = Some (FDone r').
Proof.
  intros n r H. rewrite auto_unfold. destruct (invalidComponentNames r) as [|b bad] eqn:E; [eexists; reflexivity|]. rewrite <- E.
  destruct (clonef (auto_type (invalidComponentNames r)) r) as [r1|] eqn:C.
  - exists r1. apply auto_fixed, no_bad, (renamed_no_keyword _ _ (step_renamed _ _ C)).
  - exfalso. assert (T : exists r1, clonef (auto_type (invalidComponentNames r)) r = Some r1); [|destruct T; congruence].
    unfold clonef. apply omap_total. intros m I.
    destruct (omap_total _ _ (fun t => option_map (fun ty => (fst t, ty)) (auto_type (invalidComponentNames r) [f_name m; fst t] (snd t))) (f_types m)) as [ts ->]; [|eexists; reflexivity].
    intros t _. destruct (auto_type_total (invalidComponentNames r)) with (t := snd t) (key := [f_name m; fst t]) (k := f_name m) as [t' ->];
      [intros x Ix; unfold invalidComponentNames in Ix; apply filter_In in Ix as [_ Ix]; now apply mems_in|now left|now apply H|eexists; reflexivity].
Qed.
(** The names of the AST as read. *)
Lemma within_initial : forall t ch l, within ch l (initial_fields t) -> cnames l = map ToC (fnames l).
Proof.
  induction t as [m IH|m IH|t IH|] using fty_rect'; intros ch l W; cbn [initial_fields] in W.
  - inversion W as [| |? ? c ? I W'| |]; subst; [unfold cnames, fnames; rewrite !map_map; reflexivity|].
    apply in_map_iff in I as (c' & <- & I). rewrite Forall_forall in IH. exact (IH _ I _ _ W').
  - inversion W as [| | |? ? c ? I W'|]; subst; [unfold cnames, fnames; rewrite !map_map; reflexivity|].
    apply in_map_iff in I as (c' & <- & I). rewrite Forall_forall in IH. exact (IH _ I _ _ W').
  - inversion W as [| | | |? ? ? W']; subst. exact (IH _ _ W').
  - inversion W.
Qed.
Lemma start_read : forall r, as_read (start r).
Proof.
  intros r m ch l (I & t & It & W). apply in_map_iff in I as (m0 & <- & _). cbn [f_types] in It. apply in_map_iff in It as (t0 & <- & _). exact (within_initial _ _ _ W).
Qed.

(** * Distinct names with automatic prefixes *)
Definition child_step (bad key : list string) (c c' : string * string * fty) : Prop :=
  fst (fst c) = fst (fst c') /\ new_name String.eqb bad key (snd (fst c)) = Some (snd (fst c')).
Lemma Forall2_in_r : forall A B (R : A -> B -> Prop) l l' y, Forall2 R l l' -> In y l' -> exists x, In x l /\ R x y.
Proof.
  intros A B R l l' y H. induction H as [|a b l l' r H IH]; [intros []|]. intros [<-|I]; [exists a; split; [now left|exact r]|].
  destruct (IH I) as (x & J & S). exists x. split; [now right|exact S].
Qed.
Lemma within_auto : forall bad t key t' ch l', auto_type bad key t = Some t' -> within ch l' t' ->
  exists key' l, within ch l t /\ Forall2 (child_step bad key') l l'.
Proof.
  intros bad.
  assert (K : forall key (l l' : list (string * string * fty)),
    omap (fun c => let '(n, p, ty) := c in
      match auto_type bad (key ++ [n]) ty, new_name String.eqb bad key p with Some ty', Some p' => Some (n, p', ty') | _, _ => None end) l = Some l' ->
    Forall2 (child_step bad key) l l' /\ forall c', In c' l' -> exists c k, In c l /\ auto_type bad k (snd c) = Some (snd c')).
  { intros key l l' H. apply omap_some in H. split.
    - induction H as [|[[n p] ty] b l l' Q H IH]; constructor; [|exact IH]. destruct (auto_type bad (key ++ [n]) ty); [|discriminate].
      destruct (new_name String.eqb bad key p) as [q|] eqn:N; [|discriminate]. injection Q as <-. split; [reflexivity|exact N].
    - intros c' I. destruct (Forall2_in_r _ _ _ _ _ _ H I) as ([[n p] ty] & J & Q). exists (n, p, ty), (key ++ [n]). split; [exact J|].
      cbn [snd]. destruct (auto_type bad (key ++ [n]) ty) eqn:E; [|discriminate]. destruct (new_name String.eqb bad key p); [|discriminate]. injection Q as <-. reflexivity. }
  induction t as [m IH|m IH|t IH|] using fty_rect'; intros key t' ch l' H W; cbn [auto_type] in H.
  - optinv H. destruct (K _ _ _ E) as [S C]. inversion W as [| |? ? c ? I W'| |]; subst; [exists key, m; split; [constructor|exact S]|].
    destruct (C _ I) as (c0 & k & J & Q). rewrite Forall_forall in IH. destruct (IH _ J _ _ _ _ Q W') as (key' & l & W0 & S0).
    exists key', l. split; [exact (w_seq_in _ _ _ _ J W0)|exact S0].
  - optinv H. destruct (K _ _ _ E) as [S C]. inversion W as [| | |? ? c ? I W'|]; subst; [exists key, m; split; [constructor|exact S]|].
    destruct (C _ I) as (c0 & k & J & Q). rewrite Forall_forall in IH. destruct (IH _ J _ _ _ _ Q W') as (key' & l & W0 & S0).
    exists key', l. split; [exact (w_choice_in _ _ _ _ J W0)|exact S0].
  - optinv H. inversion W as [| | | |? ? ? W']; subst. destruct (IH _ _ _ _ E W') as (key' & l & W0 & S0). exists key', l. split; [constructor; exact W0|exact S0].
  - injection H as <-. inversion W.
Qed.
Lemma plain_toc : forall s, identifier s = true -> contains "-" s = false -> ToC s = s /\ contains "_" s = false.
Proof.
  induction s as [|c s IH]; cbn [identifier]; [intros _ _; split; reflexivity|]. intros A C. apply andb_true_iff in A as [A1 A2].
  cbn [contains] in C |- *. apply orb_false_iff in C as [C1 C2]. destruct (IH A2 C2) as [T U]. cbn [ToC]. rewrite (id_char_toc _ A1), T, U, orb_false_r.
  destruct (c =? "-")%char eqn:E.
  - apply Ascii.eqb_eq in E. subst c. exfalso. destruct s; vm_compute in C1; discriminate.
  - split; [reflexivity|]. destruct s; destruct c as [[] [] [] [] [] [] [] []]; vm_compute in A1 |- *; congruence.
Qed.
Lemma us_absurd : forall p s, contains "_" (p ++ String "_" s) = false -> False.
Proof. intros p s H. assert (C : contains "_" (p ++ String "_" s) = true) by (apply contains_spec; exists p, s; reflexivity). congruence. Qed.
(** The last underscore. *)
Lemma last_us : forall p q a b, contains "_" a = false -> contains "_" b = false -> (p ++ "_" ++ a = q ++ "_" ++ b)%string -> a = b.
Proof.
  induction p as [|c p IH]; intros [|d q] a b A B E; cbn [append] in E.
  - congruence.
  - injection E as E1 E2. subst a. destruct (us_absurd _ _ A).
  - injection E as E1 E2. subst b. destruct (us_absurd _ _ B).
  - injection E as E1 E2. exact (IH _ _ _ A B E2).
Qed.
Lemma new_name_inj : forall bad key x y z, contains "_" x = false -> contains "_" y = false ->
  new_name String.eqb bad key x = Some z -> new_name String.eqb bad key y = Some z -> x = y.
Proof.
  intros bad key x y z X Y HX HY. unfold new_name in *. destruct (existsb (String.eqb x) bad); destruct (existsb (String.eqb y) bad).
  - optinv HX. apply option_map_some in HY as (p & _ & HY). exact (last_us _ _ _ _ X Y HY).
  - optinv HX. injection HY as ->. destruct (us_absurd _ _ Y).
  - optinv HY. injection HX as ->. destruct (us_absurd _ _ X).
  - congruence.
Qed.
Lemma step_nodup : forall bad key l l', Forall2 (child_step bad key) l l' -> (forall n, In n (cnames l) -> contains "_" n = false) -> NoDup (cnames l) -> NoDup (cnames l').
Proof.
  intros bad key l l' H. induction H as [|c c' l l' [_ S] H IH]; intros U N; [constructor|]. cbn [cnames map] in *. inversion N as [|? ? NI N']; subst. constructor.
  - intros I. apply in_map_iff in I as (d' & E & I). destruct (Forall2_in_r _ _ _ _ _ _ H I) as (d & J & [_ S2]). rewrite E in S2.
    apply NI. assert (Jn : In (snd (fst d)) (cnames l)) by (unfold cnames; apply (in_map (fun c => snd (fst c)) _ _ J)).
    rewrite (new_name_inj bad key (snd (fst c)) (snd (fst d)) (snd (fst c'))); [exact Jn| | |exact S|exact S2]; apply U; [now left|now right].
  - apply IH; [|exact N']. intros n I. apply U. now right.
Qed.
Lemma auto_names : forall a r r' n, a_field a = Some PrefixAuto -> identifiers r -> as_read r -> CheckAllFields a r = None ->
  (forall m ch l x, structs_of r m ch l -> In x (fnames l) -> contains "-" x = false) ->
  FieldWork a n r = Some (FDone r') -> forall m ch l, structs_of r' m ch l -> NoDup (cnames l).
Proof.
  intros a r r' n F ID AR H HY W m ch l S. unfold FieldWork in W. rewrite F in W. destruct n as [|n]; [discriminate|].
  assert (ND : forall m ch l, structs_of r m ch l -> NoDup (cnames l)).
  { intros m0 ch0 l0 S0. rewrite (AR _ _ _ S0). eapply distinct_read; [exact (proj1 (check_ok a r) H _ _ _ S0)|exact (ID _ _ _ S0)]. }
  rewrite auto_unfold in W. destruct (invalidComponentNames r) as [|b bad] eqn:E; [injection W as <-; exact (ND _ _ _ S)|]. rewrite <- E in W.
  destruct (clonef _ r) as [r1|] eqn:C; [|discriminate]. destruct n as [|n]; [discriminate|].
  rewrite auto_fixed in W by (apply no_bad, (renamed_no_keyword _ _ (step_renamed _ _ C))). injection W as <-.
  destruct S as (I & t & It & Wt). unfold clonef in C. apply omap_some in C. destruct (Forall2_in_r _ _ _ _ _ _ C I) as (m0 & I0 & Q). optinv Q.
  cbn [f_types] in It. apply omap_some in E0. destruct (Forall2_in_r _ _ _ _ _ _ E0 It) as (t0 & It0 & Q). optinv Q. cbn [snd] in Wt.
  destruct (within_auto _ _ _ _ _ _ E1 Wt) as (key & l0 & W0 & S0). assert (SO : structs_of r m0 ch l0) by (split; [exact I0|]; exists t0; auto).
  apply (step_nodup _ _ _ _ S0); [|exact (ND _ _ _ SO)]. intros y Iy. rewrite (AR _ _ _ SO) in Iy. apply in_map_iff in Iy as (z & <- & Iz).
  destruct (plain_toc z) as [-> U]; [exact (ID _ _ _ SO _ Iz)|exact (HY _ _ _ _ SO Iz)|exact U].
Qed.

Lemma accepted_work : forall a r n, a_field a = None -> identifiers r -> as_read r -> CheckAllFields a r = None ->
  exists r', FieldWork a n r = Some (FDone r') /\ all_paths r' = all_paths r /\
  forall m ch l, structs_of r' m ch l -> NoDup (cnames l) /\ (a_keyw a = true -> forall n, In n (cnames l) -> ~ In n c_keywords).
Proof.
  intros a r n F ID AR H. exists r. unfold FieldWork. rewrite F. split; [reflexivity|]. split; [reflexivity|]. exact (accepted_names a r F ID AR H).
Qed.
Lemma ada_words : forall w, In w ada_keywords <-> In w ada2012.
Proof.
  assert (A : forallb (fun w => mems w ada2012) ada_keywords = true) by reflexivity.
  assert (B : forallb (fun w => mems w ada_keywords) ada2012 = true) by reflexivity.
  rewrite forallb_forall in A, B. intros w. split; intros I; apply mems_in; auto.
Qed.
