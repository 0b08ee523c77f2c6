(** Proofs about FieldNames.v. *)
From Verif Require Import Names NamesSpec NamesProofs NamesProofs2 FieldNames FieldNamesSpec.
From Coq Require Import String Ascii List Bool Arith Lia.
Import ListNotations.
Local Open Scope string_scope.
Local Open Scope list_scope.

Lemma fty_rect' : forall P : fty -> Prop,
  (forall l, Forall (fun c => P (snd c)) l -> P (FSeq l)) -> (forall l, Forall (fun c => P (snd c)) l -> P (FChoice l)) ->
  (forall t, P t -> P (FOf t)) -> P FOther -> forall t, P t.
Proof.
  intros P HS HC HO HX. fix go 1. intros [l|l|t|].
  - apply HS. induction l as [|c l IH]; constructor; [apply go|exact IH].
  - apply HC. induction l as [|c l IH]; constructor; [apply go|exact IH].
  - apply HO, go.
  - exact HX.
Qed.

(** * The check *)
Lemma thenf_none : forall a b, thenf a b = None <-> a = None /\ b = None.
Proof. intros [e|] b; cbn; split; [discriminate|intros [H _]; discriminate|auto|tauto]. Qed.
Lemma iterf_none : forall A (f : A -> option ferr) l, iterf f l = None <-> forall x, In x l -> f x = None.
Proof.
  intros A f. induction l as [|x l IH]; [split; [intros _ x []|reflexivity]|].
  change (iterf f (x :: l)) with (thenf (f x) (iterf f l)). rewrite thenf_none, IH. cbn [In]. split.
  - intros [A1 A2] y [<-|I]; auto.
  - intros H. split; [apply H; now left|intros; apply H; now right].
Qed.
Lemma mems_in : forall n l, mems n l = true <-> In n l.
Proof.
  intros n l. unfold mems. rewrite existsb_exists. split.
  - intros (x & I & E). apply String.eqb_eq in E. congruence.
  - intros I. exists n. split; [exact I|apply String.eqb_refl].
Qed.
Lemma times_in : forall n l, In n l <-> 1 <= times n l.
Proof.
  intros n l. unfold times. induction l as [|x l IH]; cbn [filter]; [split; [intros []|cbn; lia]|].
  destruct (String.eqb n x) eqn:E.
  - apply String.eqb_eq in E. subst. split; [cbn; lia|now left].
  - rewrite <- IH. cbn [In]. split; [intros [->|I]; [rewrite String.eqb_refl in E; discriminate|exact I]|auto].
Qed.
Lemma nodup_times : forall l, NoDup l <-> forall n, In n l -> times n l <= 1.
Proof.
  induction l as [|x l IH]; [split; [intros _ n []|constructor]|]. split.
  - intros N. inversion N as [|? ? NI N']; subst. intros n I. unfold times. cbn [filter]. rewrite times_in in NI.
    destruct (String.eqb n x) eqn:E.
    + apply String.eqb_eq in E. subst n. unfold times in NI. cbn [List.length]. lia.
    + destruct I as [->|I]; [rewrite String.eqb_refl in E; discriminate|]. apply IH; assumption.
  - intros H. constructor.
    + rewrite times_in. specialize (H x (or_introl eq_refl)). unfold times in *. cbn [filter] in H. rewrite String.eqb_refl in H. cbn [List.length] in H. lia.
    + apply IH. intros n I. specialize (H n (or_intror I)). unfold times in *. cbn [filter] in H. destruct (String.eqb n x); cbn [List.length] in H; lia.
Qed.
Lemma find_none' : forall A (f : A -> bool) l, find f l = None <-> forall x, In x l -> f x = false.
Proof.
  intros A f l. split; [apply find_none|]. intros H. induction l as [|a l IH]; [reflexivity|]. cbn.
  rewrite (H a (or_introl eq_refl)). apply IH. intros; apply H; right; assumption.
Qed.
Lemma dup_ok : forall l, dup_fields l = None <-> NoDup l.
Proof.
  intros l. rewrite nodup_times. unfold dup_fields. destruct (find _ l) as [n|] eqn:E.
  - apply find_some in E as [I E]. apply Nat.ltb_lt in E. split; [discriminate|]. intros H. specialize (H n I). lia.
  - split; [|reflexivity]. intros _ n I. pose proof (proj1 (find_none' _ _ _) E n I) as F. now apply Nat.ltb_ge in F.
Qed.
Lemma dup_ci_ok : forall l, dup_fields_ci l = None <-> NoDup (map lowers l).
Proof.
  intros l. rewrite nodup_times. unfold dup_fields_ci. destruct (find _ l) as [n|] eqn:E.
  - apply find_some in E as [I E]. apply Nat.ltb_lt in E. split; [discriminate|]. intros H. specialize (H _ (in_map lowers _ _ I)). lia.
  - split; [|reflexivity]. intros _ n I. apply in_map_iff in I as (x & <- & I). pose proof (proj1 (find_none' _ _ _) E x I) as F. now apply Nat.ltb_ge in F.
Qed.
Lemma keyw_ok : forall k n, checkAgainstKeywords k n = None <-> (k = true -> ~ In (lowers n) c_keywords /\ ~ In (lowers n) ada_keywords).
Proof.
  intros k n. unfold checkAgainstKeywords. destruct (mems (lowers n) (c_keywords ++ ada_keywords)) eqn:E.
  - apply mems_in, in_app_iff in E. destruct k; split; try discriminate; try reflexivity. intros H. destruct (H eq_refl). tauto.
  - split; [|reflexivity]. intros _ _. assert (N : ~ In (lowers n) (c_keywords ++ ada_keywords)) by (rewrite <- mems_in; congruence).
    rewrite in_app_iff in N. tauto.
Qed.
Lemma clash_ok : forall a r m n, check_clash a r m n = None <->
  (a_field a = None -> (forall m', In m' r -> lowers (f_name m') <> ToC (lowers n)) /\
     (a_keyw a = true -> forall t, In t (f_types m) -> ToC (lowers (a_type a ++ fst t)) <> ToC (lowers n))).
Proof.
  intros a r m n. unfold check_clash. destruct (a_field a) as [p|].
  - split; [discriminate|]. intros _. destruct (find _ r); [reflexivity|]. destruct (find _ (f_types m)); [|reflexivity]. destruct (a_keyw a); reflexivity.
  - destruct (find _ r) as [m'|] eqn:E.
    + apply find_some in E as [I E]. apply String.eqb_eq in E. split; [discriminate|]. intros H. destruct (H eq_refl) as [H1 _]. destruct (H1 _ I E).
    + assert (NM : forall m', In m' r -> lowers (f_name m') <> ToC (lowers n)).
      { intros m' I. pose proof (proj1 (find_none' _ _ _) E m' I) as F. cbv beta in F. now apply String.eqb_neq in F. }
      destruct (find _ (f_types m)) as [t|] eqn:F.
      * apply find_some in F as [I F]. apply String.eqb_eq in F. destruct (a_keyw a).
        -- split; [discriminate|]. intros H. destruct (H eq_refl) as [_ H2]. destruct (H2 eq_refl _ I F).
        -- split; [|reflexivity]. intros _ _. split; [exact NM|discriminate].
      * split; [|reflexivity]. intros _ _. split; [exact NM|]. intros _ t I. pose proof (proj1 (find_none' _ _ _) F t I) as G. cbv beta in G. now apply String.eqb_neq in G.
Qed.
Lemma names_ok : forall a r m (ch : bool) l,
  thenf (if ch then dup_fields_ci (fnames l) else dup_fields (fnames l))
      (thenf (match a_field a with None => iterf (checkAgainstKeywords (a_keyw a)) (fnames l) | Some _ => None end)
         (iterf (check_clash a r m) (fnames l))) = None <-> acceptable a r m ch l.
Proof.
  intros a r m ch l. rewrite !thenf_none. unfold acceptable.
  assert (D : (if ch then dup_fields_ci (fnames l) else dup_fields (fnames l)) = None <-> (if ch then NoDup (map lowers (fnames l)) else NoDup (fnames l)))
    by (destruct ch; [apply dup_ci_ok|apply dup_ok]).
  rewrite D. clear D. apply and_iff_compat_l. rewrite iterf_none. destruct (a_field a) as [p|] eqn:E.
  - split; [intros _ H; discriminate|]. intros _. split; [reflexivity|]. intros x _. apply clash_ok. intros; congruence.
  - rewrite iterf_none. split.
    + intros [H1 H2] _ n I. split; [now apply keyw_ok, H1|]. now apply (proj1 (clash_ok a r m n) (H2 n I)).
    + intros H. specialize (H eq_refl). split; intros n I.
      * now apply keyw_ok, H.
      * apply clash_ok. intros _. now apply H.
Qed.
Lemma check_fields_ok : forall a r m t, CheckFields a r m t = None <-> forall ch l, within ch l t -> acceptable a r m ch l.
Proof.
  intros a r m. induction t as [l IH|l IH|t IH|] using fty_rect'; cbn [CheckFields].
  1,2: rewrite thenf_none, iterf_none; rewrite Forall_forall in IH.
  - pose proof (names_ok a r m false l) as N. cbv iota in N. rewrite N. clear N. split.
    + intros [H1 H2] ch l' W. inversion W as [| |? ? c ? I W'| |]; subst; [exact H1|]. exact (proj1 (IH c I) (H2 c I) _ _ W').
    + intros H. split; [apply H; constructor|]. intros c I. apply IH; [exact I|]. intros ch l' W. apply H. exact (w_seq_in _ _ _ _ I W).
  - pose proof (names_ok a r m true l) as N. cbv iota in N. rewrite N. clear N. split.
    + intros [H1 H2] ch l' W. inversion W as [| | |? ? c ? I W'|]; subst; [exact H1|]. exact (proj1 (IH c I) (H2 c I) _ _ W').
    + intros H. split; [apply H; constructor|]. intros c I. apply IH; [exact I|]. intros ch l' W. apply H. exact (w_choice_in _ _ _ _ I W).
  - rewrite IH. split; intros H ch l W; [inversion W; subst; auto|apply H; constructor; exact W].
  - split; [intros _ ch l W; inversion W|reflexivity].
Qed.
Lemma check_ok : forall a r, CheckAllFields a r = None <-> forall m ch l, structs_of r m ch l -> acceptable a r m ch l.
Proof.
  intros a r. unfold CheckAllFields. rewrite iterf_none. split.
  - intros H m ch l (I & t & It & W). specialize (H m I). cbv beta in H. rewrite iterf_none in H. specialize (H t It). now apply (proj1 (check_fields_ok a r m (snd t)) H).
  - intros H m I. rewrite iterf_none. intros t It. apply check_fields_ok. intros ch l W. apply H. split; [exact I|]. exists t. auto.
Qed.

(** * Distinct names in C *)
Lemma id_char_toc : forall c, id_char c = true -> toc_char c = String (if (c =? "-")%char then "_"%char else c) "".
Proof. intros [[] [] [] [] [] [] [] []]; vm_compute; congruence. Qed.
Lemma id_char_us : id_char "_"%char = false.
Proof. reflexivity. Qed.
Lemma ToC_inj : forall a b, identifier a = true -> identifier b = true -> ToC a = ToC b -> a = b.
Proof.
  induction a as [|c a IH]; intros [|d b]; cbn [identifier ToC]; intros A B E; [reflexivity| | |].
  - apply andb_true_iff in B as [B1 _]. rewrite (id_char_toc _ B1) in E. discriminate.
  - apply andb_true_iff in A as [A1 _]. rewrite (id_char_toc _ A1) in E. discriminate.
  - apply andb_true_iff in A as [A1 A2]. apply andb_true_iff in B as [B1 B2]. rewrite (id_char_toc _ A1), (id_char_toc _ B1) in E.
    cbn [append] in E. injection E as E1 E2. f_equal; [|now apply IH].
    destruct (c =? "-")%char eqn:C; destruct (d =? "-")%char eqn:D.
    + apply Ascii.eqb_eq in C, D. congruence.
    + subst d. rewrite id_char_us in B1. discriminate.
    + subst c. rewrite id_char_us in A1. discriminate.
    + exact E1.
Qed.
Lemma NoDup_map_inj : forall A B (f : A -> B) l, (forall x y, In x l -> In y l -> f x = f y -> x = y) -> NoDup l -> NoDup (map f l).
Proof.
  intros A B f l. induction l as [|x l IH]; intros H N; cbn; [constructor|]. inversion N as [|? ? NI N']; subst. constructor.
  - intros I. apply in_map_iff in I as (y & E & I). apply NI. rewrite (H x y); [exact I|now left|now right|congruence].
  - apply IH; [|exact N']. intros y z Iy Iz. apply H; now right.
Qed.
Lemma acceptable_nodup : forall a r m ch l, acceptable a r m ch l -> NoDup (fnames l).
Proof. intros a r m ch l [H _]. destruct ch; [|exact H]. now apply NoDup_map_inv in H. Qed.
Lemma distinct_read : forall a r m ch l, acceptable a r m ch l -> (forall n, In n (fnames l) -> identifier n = true) -> NoDup (map ToC (fnames l)).
Proof.
  intros a r m ch l H I. apply NoDup_map_inj; [|exact (acceptable_nodup _ _ _ _ _ H)]. intros x y Ix Iy E. apply ToC_inj; auto.
Qed.
(** c_keywords are written in small letters and without underscores. *)
Lemma keyword_char : forall s, In s c_keywords -> lowers s = s /\ contains "_" s = false.
Proof. intros s H. repeat (destruct H as [<-|H]; [split; reflexivity|]). destruct H. Qed.
Lemma ToC_us : forall s, identifier s = true -> contains "_" (ToC s) = false -> ToC s = s.
Proof.
  induction s as [|c s IH]; cbn [identifier ToC]; [reflexivity|]. intros A C. apply andb_true_iff in A as [A1 A2].
  rewrite (id_char_toc _ A1) in C |- *. destruct (c =? "-")%char eqn:E; cbn [append] in *.
  - exfalso. destruct (ToC s); vm_compute in C; discriminate.
  - f_equal. apply IH; [exact A2|]. cbn [contains] in C. apply orb_false_iff in C. apply C.
Qed.
Lemma ToC_keyword : forall s, identifier s = true -> In (ToC s) c_keywords -> In (lowers s) c_keywords.
Proof.
  intros s I H. pose proof (keyword_char _ H) as [L U]. rewrite (ToC_us _ I U) in H, L. rewrite L. exact H.
Qed.
Lemma accepted_names : forall a r, a_field a = None -> identifiers r -> as_read r -> CheckAllFields a r = None ->
  forall m ch l, structs_of r m ch l -> NoDup (cnames l) /\ (a_keyw a = true -> forall n, In n (cnames l) -> ~ In n c_keywords).
Proof.
  intros a r F ID AR H m ch l S. rewrite (AR _ _ _ S). pose proof (proj1 (check_ok a r) H _ _ _ S) as AC. split.
  - eapply distinct_read; [exact AC|]. exact (ID _ _ _ S).
  - intros K n I HK. apply in_map_iff in I as (x & <- & I). destruct AC as [_ AC]. destruct (AC F x I) as [AK _]. destruct (AK K) as [NK _].
    apply NK, ToC_keyword; [exact (ID _ _ _ S _ I)|exact HK].
Qed.

(** * The prefix of the user *)
Lemma omap_map : forall A B (f : A -> B) l, omap (fun x => Some (f x)) l = Some (map f l).
Proof.
  intros A B f. induction l as [|x l IH]; [reflexivity|]. change (omap (fun x => Some (f x)) (x :: l)) with
    (match omap (fun x => Some (f x)) l with Some l' => Some (f x :: l') | None => None end). rewrite IH. reflexivity.
Qed.
Lemma user_ok : forall p r, clonef (fun _ t => Some (user_type p t)) r =
  Some (map (fun m => FMod (f_name m) (map (fun t => (fst t, user_type p (snd t))) (f_types m))) r).
Proof.
  intros p r. unfold clonef. rewrite <- omap_map.
  induction r as [|m r IH]; [reflexivity|].
  match goal with |- omap ?f (m :: r) = omap ?g (m :: r) =>
    change (omap f (m :: r)) with (match f m, omap f r with Some y, Some l => Some (y :: l) | _, _ => None end);
    change (omap g (m :: r)) with (match g m, omap g r with Some y, Some l => Some (y :: l) | _, _ => None end) end.
  rewrite IH. cbv beta. change (fun t : string * fty => option_map (fun ty => (fst t, ty)) (Some (user_type p (snd t)))) with
    (fun t : string * fty => Some (fst t, user_type p (snd t))). rewrite omap_map. reflexivity.
Qed.
Lemma within_user : forall p t ch l, within ch l (user_type p t) ->
  exists l', within ch l' t /\ fnames l = fnames l' /\ (cnames l = cnames l' \/ cnames l = map (append p) (cnames l')).
Proof.
  intros p. induction t as [m IH|m IH|t IH|] using fty_rect'; intros ch l W; cbn [user_type] in W.
  - inversion W as [| |? ? c ? I W'| |]; subst.
    + exists m. split; [constructor|]. unfold fnames, cnames. rewrite !map_map. split; [reflexivity|right; reflexivity].
    + apply in_map_iff in I as (c' & <- & I). cbn [snd] in W'. exists l. split; [exact (w_seq_in _ _ _ _ I W')|auto].
  - inversion W as [| | |? ? c ? I W'|]; subst.
    + exists m. split; [constructor|]. unfold fnames, cnames. rewrite !map_map. split; [reflexivity|right; reflexivity].
    + apply in_map_iff in I as (c' & <- & I). cbn [snd] in W'. exists l. split; [exact (w_choice_in _ _ _ _ I W')|auto].
  - inversion W; subst. destruct (IH _ _ H2) as (l' & A & B). exists l'. split; [constructor; exact A|exact B].
  - inversion W.
Qed.
Lemma append_inj : forall p a b, (p ++ a)%string = (p ++ b)%string -> a = b.
Proof. induction p as [|c p IH]; cbn; intros a b H; [exact H|]. apply IH. congruence. Qed.
Lemma user_names : forall a p r r' n, a_field a = Some (PrefixUser p) -> identifiers r -> as_read r -> CheckAllFields a r = None ->
  FieldWork a n r = Some (FDone r') -> forall m ch l, structs_of r' m ch l -> NoDup (cnames l).
Proof.
  intros a p r r' n F ID AR H W m ch l S. unfold FieldWork in W. rewrite F, user_ok in W. injection W as <-.
  destruct S as (I & t & It & S). apply in_map_iff in I as (m0 & <- & I). cbn [f_types] in It. apply in_map_iff in It as (t0 & <- & It). cbn [snd] in S.
  destruct (within_user _ _ _ _ S) as (l0 & S0 & _ & C). assert (SO : structs_of r m0 ch l0) by (split; [exact I|]; exists t0; auto).
  assert (N : NoDup (cnames l0)).
  { rewrite (AR _ _ _ SO). eapply distinct_read; [exact (proj1 (check_ok a r) H _ _ _ SO)|exact (ID _ _ _ SO)]. }
  destruct C as [-> | ->]; [exact N|]. apply NoDup_map_inj; [|exact N]. intros x y _ _. apply append_inj.
Qed.
