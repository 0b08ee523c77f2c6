(** Proofs about ConAllowed.v. *)
From Coq Require Import List String Bool Arith Lia.
From Verif Require Import ConAllowed ConAllowedSpec.
Import ListNotations.
Local Open Scope list_scope.

Lemma bnd_inl : forall A B (a : chk A) (f : A -> chk B) y, bnd a f = inl y <-> exists x, a = inl x /\ f x = inl y.
Proof. intros A B [x|e] f y; cbn; split; [eauto|intros (z & E & F); congruence|discriminate|intros (z & E & _); discriminate]. Qed.
Lemma need_inl : forall b e x, need b e = inl x <-> b = true.
Proof. intros [|] e []; cbn; split; congruence. Qed.
Lemma iter_inl : forall A (f : A -> chk unit) l, iter f l = inl tt <-> forall x, In x l -> f x = inl tt.
Proof.
  intros A f l. induction l as [|a l IH]; cbn [iter]; [split; [intros _ x []|reflexivity]|].
  change ((fix go l0 := match l0 with [] => inl tt | x :: l' => bnd (f x) (fun _ => go l') end) l) with (iter f l).
  rewrite bnd_inl. split.
  - intros ([] & E & H). intros x [<-|I]; [exact E|]. apply IH; assumption.
  - intros H. exists tt. split; [apply H; left; reflexivity|]. apply IH. intros; apply H; right; assumption.
Qed.
Lemma forall_inl : forall A (f : A -> chk bool) l, forall_chk f l = inl true <-> forall x, In x l -> f x = inl true.
Proof.
  intros A f l. induction l as [|a l IH]; cbn [forall_chk]; [split; [intros _ x []|reflexivity]|]. rewrite bnd_inl. split.
  - intros (b & E & H). destruct b; [|discriminate]. intros x [<-|I]; [exact E|]. apply IH; assumption.
  - intros H. exists true. split; [apply H; left; reflexivity|]. apply IH. intros; apply H; right; assumption.
Qed.

Section proofs.
Variable V : Type.
Variable value_ok : atype -> V -> bool.
Variable tyof : string -> string -> option atype.
Notation actual := (GetActualType tyof).
Notation compat := (AreTypesCompatible tyof).
Notation check := (isConstraintAllowed V value_ok tyof).
Notation resolves := (resolves tyof).
Notation alike := (alike tyof).
Notation allowed := (allowed V value_ok tyof).

Definition is_ref (k : akind) : bool := match k with KRef _ _ => true | _ => false end.
Lemma actual_sound : forall f t u, actual f t = inl u -> resolves t u.
Proof.
  induction f as [|f IH]; intros [l k] u H; cbn [GetActualType kind_of] in H; [discriminate|].
  destruct k; try (injection H as <-; constructor; congruence). destruct (tyof m T) as [t'|] eqn:E; [|discriminate].
  eapply r_ref; eauto.
Qed.
Lemma actual_complete : forall t u, resolves t u -> exists N, forall f, N <= f -> actual f t = inl u.
Proof.
  intros t u H. induction H as [l k NR|l m T t u E R (N & IH)].
  - exists 1. intros [|f] L; [lia|]. cbn [GetActualType kind_of]. destruct k; try reflexivity. destruct (NR m T eq_refl).
  - exists (S N). intros [|f] L; [lia|]. cbn [GetActualType kind_of]. rewrite E. apply IH. lia.
Qed.
Lemma resolved : forall t u, resolves t u -> is_ref (kind_of u) = false.
Proof. intros t u H. induction H as [l k NR|]; [|assumption]. destruct k; try reflexivity. destruct (NR m T eq_refl). Qed.
Lemma resolves_det : forall t u u', resolves t u -> resolves t u' -> u = u'.
Proof.
  intros t u u' H. revert u'. induction H as [l k NR|l m T t u E R IH]; intros u' H'; inversion H'; subst; try reflexivity.
  - destruct (NR m T eq_refl).
  - match goal with X : forall a b, KRef m T <> KRef a b |- _ => destruct (X m T eq_refl) end.
  - apply IH. congruence.
Qed.
Lemma actual_mono : forall f t r, actual f t = r -> r <> inr Deep -> forall g, f <= g -> actual g t = r.
Proof.
  induction f as [|f IH]; intros t r H NR g L; cbn [GetActualType] in H; [congruence|]. destruct g as [|g]; [lia|].
  cbn [GetActualType]. destruct (kind_of t); try exact H. destruct (tyof m T); [|exact H]. apply IH; [exact H|exact NR|lia].
Qed.

Lemma compat_ref1 : forall f t u, is_ref (kind_of t) = true -> compat (S f) t u = bnd (actual (S f) t) (fun t' => compat f t' u).
Proof. intros f [l k] u H. destruct k; try discriminate. reflexivity. Qed.
Lemma compat_ref2 : forall f t u, is_ref (kind_of t) = false -> is_ref (kind_of u) = true ->
  compat (S f) t u = bnd (actual (S f) u) (fun u' => compat f t u').
Proof. intros f [l k] [l' k'] H H'. destruct k'; try discriminate. destruct k; try discriminate; reflexivity. Qed.

Lemma same_comps_spec : forall c d, same_comps c d = true <-> Forall2 one_place c d.
Proof.
  induction c as [|a c IH]; intros [|b d]; cbn [same_comps]; [split; constructor|split; [discriminate|inversion 1]|split; [discriminate|inversion 1]|].
  rewrite andb_true_iff, IH. unfold same_comp. rewrite andb_true_iff, String.eqb_eq, Nat.eqb_eq. split.
  - intros [H F]. constructor; [exact H|exact F].
  - inversion 1; subst. split; assumption.
Qed.
Lemma zipped : forall (R : atype -> atype -> Prop) (c d : list comp), List.length c = List.length d ->
  (forall p, In p (combine (map c_type c) (map c_type d)) -> R (fst p) (snd p)) <-> Forall2 (fun a b => R (snd a) (snd b)) c d.
Proof.
  intros R. induction c as [|a c IH]; intros [|b d] L; try discriminate; cbn [map combine].
  - split; [constructor|intros _ p []].
  - injection L as L. split.
    + intros H. constructor; [apply (H (_, _) (or_introl eq_refl))|]. apply IH; [exact L|]. intros; apply H; right; assumption.
    + inversion 1; subst. intros p [<-|I]; [assumption|]. revert p I. apply IH; assumption.
Qed.
Lemma same_kind_spec : forall k l, same_kind k l = true <-> k = l /\ simple k.
Proof.
  intros k l. split.
  - destruct k, l; cbn; try discriminate; intros H; try (split; [reflexivity|constructor]). apply Nat.eqb_eq in H. subst. split; [reflexivity|constructor].
  - intros [<- H]. inversion H; cbn; try reflexivity. apply Nat.eqb_refl.
Qed.
Lemma compat_sound : forall f t u, compat f t u = inl true -> alike t u.
Proof.
  induction f as [|f IH]; intros t u H; [discriminate|].
  destruct (is_ref (kind_of t)) eqn:R1.
  { rewrite compat_ref1 in H by exact R1. apply bnd_inl in H. destruct H as (t' & E & H). apply actual_sound in E.
    destruct t as [l k]. destruct k; try discriminate. eapply al_left; eauto. }
  destruct (is_ref (kind_of u)) eqn:R2.
  { rewrite compat_ref2 in H by assumption. apply bnd_inl in H. destruct H as (u' & E & H). apply actual_sound in E.
    destruct u as [l k]. destruct k; try discriminate. eapply al_right; eauto. }
  assert (Q : forall (c d : list comp), (if (List.length c =? List.length d) && same_comps c d
      then forall_chk (fun p => compat f (fst p) (snd p)) (combine (map c_type c) (map c_type d)) else inl false) = inl true ->
      Forall2 one_place c d /\ Forall2 (fun a b => alike (snd a) (snd b)) c d).
  { intros c d G. destruct (_ && _) eqn:E; [|discriminate]. apply andb_true_iff in E. destruct E as [L S].
    apply Nat.eqb_eq in L. apply same_comps_spec in S. split; [exact S|]. apply (zipped alike); [exact L|]. intros p I. apply IH. revert p I.
    apply (proj1 (forall_inl _ (fun p => compat f (fst p) (snd p)) _) G). }
  destruct t as [l k], u as [l' k']. destruct k, k'; try discriminate; cbn [AreTypesCompatible kind_of] in H;
    try (injection H as H; apply same_kind_spec in H; destruct H as [E S]; try discriminate E; injection E as <-; apply al_simple; exact S);
    try (apply al_simple; constructor); try discriminate.
  - injection H as H. apply Nat.eqb_eq in H. subst. apply al_simple. constructor.
  - injection H as H. apply andb_true_iff in H. destruct H as [H _]. apply al_enum. apply Nat.eqb_eq, H.
  - apply al_of. apply IH, H.
  - apply Q in H. apply al_seq; tauto.
  - apply Q in H. apply al_ch; tauto.
Qed.
Section alike_rec.
Variable P : atype -> atype -> Prop.
Hypothesis Hl : forall l m T t u, resolves (AT l (KRef m T)) t -> P t u -> P (AT l (KRef m T)) u.
Hypothesis Hr : forall l m T t u, resolves (AT l (KRef m T)) u -> P t u -> P t (AT l (KRef m T)).
Hypothesis Hs : forall l l' k, simple k -> P (AT l k) (AT l' k).
Hypothesis He : forall l l' i j, List.length i = List.length j -> P (AT l (KEnum i)) (AT l' (KEnum j)).
Hypothesis Ho : forall l l' t u, P t u -> P (AT l (KOf t)) (AT l' (KOf u)).
Hypothesis Hq : forall l l' c d, Forall2 one_place c d -> Forall2 (fun a b => P (snd a) (snd b)) c d -> P (AT l (KSeq c)) (AT l' (KSeq d)).
Hypothesis Hc : forall l l' c d, Forall2 one_place c d -> Forall2 (fun a b => P (snd a) (snd b)) c d -> P (AT l (KCh c)) (AT l' (KCh d)).
Fixpoint alike_rec t u (H : alike t u) : P t u :=
  let go := fix go c d (F : Forall2 (fun a b : comp => alike (snd a) (snd b)) c d) : Forall2 (fun a b => P (snd a) (snd b)) c d :=
    match F with
    | Forall2_nil _ => Forall2_nil _
    | Forall2_cons a b H F => Forall2_cons a b (alike_rec _ _ H) (go _ _ F)
    end in
  match H with
  | al_left _ l m T t u R H => Hl l m T t u R (alike_rec _ _ H)
  | al_right _ l m T t u R H => Hr l m T t u R (alike_rec _ _ H)
  | al_simple _ l l' k s => Hs l l' k s
  | al_enum _ l l' i j E => He l l' i j E
  | al_of _ l l' t u H => Ho l l' t u (alike_rec _ _ H)
  | al_seq _ l l' c d o F => Hq l l' c d o (go c d F)
  | al_ch _ l l' c d o F => Hc l l' c d o (go c d F)
  end.
End alike_rec.
Definition finally (t u : atype) : Prop := exists N, forall f, N <= f -> compat f t u = inl true.
Lemma finally_all : forall c d, Forall2 (fun a b : comp => finally (snd a) (snd b)) c d ->
  exists N, forall f, N <= f -> Forall2 (fun a b : comp => compat f (snd a) (snd b) = inl true) c d.
Proof.
  intros c d H. induction H as [|a b c d (N & A) F (M & IH)]; [exists 0; constructor|].
  exists (N + M). intros f L. constructor; [apply A; lia|apply IH; lia].
Qed.
Lemma f2_length : forall A B (R : A -> B -> Prop) l m, Forall2 R l m -> List.length l = List.length m.
Proof. intros A B R l m H. induction H; cbn; congruence. Qed.
Lemma finally_comps : forall c d, Forall2 one_place c d -> Forall2 (fun a b : comp => finally (snd a) (snd b)) c d ->
  exists N, forall f, N <= f -> (if (List.length c =? List.length d) && same_comps c d
      then forall_chk (fun p => compat f (fst p) (snd p)) (combine (map c_type c) (map c_type d)) else inl false) = inl true.
Proof.
  intros c d O F. apply finally_all in F. destruct F as (N & F). exists N. intros f L. pose proof (f2_length _ _ _ _ _ O) as E.
  apply same_comps_spec in O. rewrite O, E, Nat.eqb_refl. cbn [andb]. apply forall_inl.
  apply (zipped (fun a b => compat f a b = inl true)); [exact E|]. apply F, L.
Qed.
Lemma compat_complete : forall t u, alike t u -> finally t u.
Proof.
  apply alike_rec; unfold finally.
  - intros l m T t u R (N & IH). apply actual_complete in R. destruct R as (M & R). exists (S (N + M)). intros [|f] L; [lia|].
    rewrite compat_ref1 by reflexivity. rewrite R by lia. cbn [bnd]. apply IH. lia.
  - intros l m T t u R (N & IH). apply actual_complete in R. destruct R as (M & R). exists (S (S (S (N + M)))). intros [|[|f]] L; try lia.
    destruct (is_ref (kind_of t)) eqn:R1.
    + specialize (IH (S f) ltac:(lia)). rewrite compat_ref1 in * by exact R1. apply bnd_inl in IH. destruct IH as (t' & E & IH).
      rewrite (actual_mono _ _ _ E ltac:(discriminate)) by lia. cbn [bnd]. apply actual_sound, resolved in E.
      rewrite compat_ref2 by (exact E || reflexivity). rewrite R by lia. exact IH.
    + rewrite compat_ref2 by (exact R1 || reflexivity). rewrite R by lia. cbn [bnd]. apply IH. lia.
  - intros l l' k S. exists 1. intros [|f] L; [lia|]. pose proof (proj2 (same_kind_spec k k) (conj eq_refl S)) as E.
    inversion S; subst; cbn [AreTypesCompatible kind_of]; congruence.
  - intros l l' i j E. exists 1. intros [|f] L; [lia|]. cbn [AreTypesCompatible kind_of]. rewrite E, Nat.eqb_refl.
    destruct (list_eq_dec string_dec i i); [reflexivity|congruence].
  - intros l l' t u (N & IH). exists (S N). intros [|f] L; [lia|]. cbn [AreTypesCompatible kind_of]. apply IH. lia.
  - intros l l' c d O F. destruct (finally_comps c d O F) as (N & H). exists (S N). intros [|f] L; [lia|].
    cbn [AreTypesCompatible kind_of]. cbv zeta. apply H. lia.
  - intros l l' c d O F. destruct (finally_comps c d O F) as (N & H). exists (S N). intros [|f] L; [lia|].
    cbn [AreTypesCompatible kind_of]. cbv zeta. apply H. lia.
Qed.
Theorem compat_exact : forall t u, (exists f, compat f t u = inl true) <-> alike t u.
Proof. intros t u. split; [intros (f & H); eapply compat_sound, H|]. intros H. destruct (compat_complete t u H) as (N & F). exists N. apply F. lia. Qed.

(** Constraints *)
Lemma dup_ok : forall l, CheckForDuplicates l = inl tt <-> NoDup l.
Proof.
  intros l. unfold CheckForDuplicates.
  assert (C : forall n l, In n l -> 0 < List.length (filter (String.eqb n) l)).
  { clear. intros n l. induction l as [|x l IH]; [intros []|]. cbn [filter]. intros [->|I]; [rewrite String.eqb_refl; cbn; lia|].
    specialize (IH I). destruct (String.eqb n x); cbn; lia. }
  assert (D : NoDup l <-> forall n, In n l -> List.length (filter (String.eqb n) l) <= 1).
  { induction l as [|x l IH]; [split; [intros _ n []|constructor]|]. split.
    - intros N. inversion N as [|? ? NI N']; subst. intros n I. cbn [filter]. destruct (String.eqb n x) eqn:E.
      + apply String.eqb_eq in E. subst n. replace (filter (String.eqb x) l) with (@nil string); [cbn; lia|]. symmetry. clear - NI.
        induction l as [|y l IH]; [reflexivity|]. cbn [filter]. destruct (String.eqb x y) eqn:E; [apply String.eqb_eq in E; subst; destruct NI; left; reflexivity|].
        apply IH. intros I. apply NI. right. exact I.
      + destruct I as [->|I]; [rewrite String.eqb_refl in E; discriminate|]. apply IH; assumption.
    - intros H. constructor.
      + intros I. specialize (H x (or_introl eq_refl)). cbn [filter] in H. rewrite String.eqb_refl in H. specialize (C x l I). cbn in H. lia.
      + apply IH. intros n I. specialize (H n (or_intror I)). cbn [filter] in H. destruct (String.eqb n x); cbn in H; lia. }
  rewrite D. destruct (find _ l) as [n|] eqn:E.
  - apply find_some in E. destruct E as [I E]. apply Nat.ltb_lt in E. split; [discriminate|]. intros H. specialize (H n I). lia.
  - split; [intros _ n I|reflexivity]. pose proof (find_none _ _ E n I) as F. cbv beta in F. apply Nat.ltb_ge in F. exact F.
Qed.
Lemma component_find : forall n (l : list comp) o t, component n l o t <-> exists c, find (fun c => String.eqb (fst (fst c)) n) l = Some c /\ snd (fst c) = o /\ c_type c = t.
Proof.
  intros n l o t. induction l as [|[[n' o'] t'] l IH]; cbn [find fst].
  - split; [inversion 1|intros (c & E & _); discriminate].
  - destruct (String.eqb n' n) eqn:E.
    + apply String.eqb_eq in E. subst. split.
      * inversion 1; subst; [|congruence]. eexists. split; [reflexivity|]. split; reflexivity.
      * intros (c & X & <- & <-). injection X as <-. constructor.
    + apply String.eqb_neq in E. rewrite <- IH. split; [inversion 1; subst; [congruence|assumption]|]. intros H. constructor; assumption.
Qed.
Lemma mark_seq : forall n o m, check_mark n o m false = inl tt <-> seq_mark o m.
Proof.
  intros n o m. unfold seq_mark. split.
  - destruct o as [| | |[|]], m; cbn; try discriminate; intros _; (split; [intros X; try discriminate X|intros X; try discriminate X; split]); congruence.
  - intros [P A]. destruct o as [| | |[|]], m; cbn; try reflexivity; exfalso.
    + apply P; reflexivity.
    + destruct (A eq_refl). congruence.
    + destruct (A eq_refl). congruence.
Qed.
Lemma mark_ch : forall n o m, check_mark n o m true = inl tt <-> ch_mark m.
Proof.
  intros n o m. unfold ch_mark. destruct o as [| | |[|]], m; cbn; split; intros H; try reflexivity; try congruence; try discriminate.
Qed.
Lemma can_ok : forall f t (g : akind -> bool) e x, bnd (on_kind tyof f t g) (fun b => need b e) = inl x <-> exists l k, actual f t = inl (AT l k) /\ g k = true.
Proof.
  intros f t g e x. unfold on_kind. rewrite bnd_inl. split.
  - intros (b & H & N). apply bnd_inl in H. destruct H as ([l k] & A & H). injection H as <-. apply need_inl in N. eauto.
  - intros (l & k & A & H). exists true. rewrite A. cbn [bnd kind_of]. rewrite H. split; [reflexivity|]. destruct x. reflexivity.
Qed.
Lemma ranged_ok : forall k, CanHaveRange k = true <-> ranged k.
Proof. intros k. split; [destruct k; try discriminate; constructor|inversion 1; reflexivity]. Qed.
Lemma sized_ok : forall k, CanHaveSize k = true <-> sized k.
Proof. intros k. split; [destruct k; try discriminate; constructor|inversion 1; reflexivity]. Qed.
Lemma lettered_ok : forall k, CanHaveFrom k = true <-> lettered k.
Proof. intros k. split; [destruct k; try discriminate; constructor|inversion 1; reflexivity]. Qed.

Section acon_rec.
Variable P : acon V -> Prop.
Hypothesis H0 : forall v, P (ASingle v).
Hypothesis H1 : forall v w, P (ARange v w).
Hypothesis H2 : forall v, P (AFrom v).
Hypothesis H3 : forall v, P (ATo v).
Hypothesis H4 : P AAny.
Hypothesis H5 : forall m T, P (AIncl m T).
Hypothesis H6 : forall c, P c -> P (ASize c).
Hypothesis H7 : forall c, P c -> P (AAlpha c).
Hypothesis H8 : forall c d, P c -> P d -> P (AUnion c d).
Hypothesis H9 : forall c d, P c -> P d -> P (AInter c d).
Hypothesis H10 : forall c, P c -> P (AAllExcept c).
Hypothesis H11 : forall c d, P c -> P d -> P (AExcept c d).
Hypothesis H12 : forall c, P c -> P (ARoot c).
Hypothesis H13 : forall c d, P c -> P d -> P (ARoot2 c d).
Hypothesis H14 : forall c, P c -> P (AWith c).
Hypothesis H15 : forall l, (forall n m c, In (n, m, Some c) l -> P c) -> P (AWiths l).
Definition inside (x : string * mark * option (acon V)) : Prop := match x with (_, _, Some c) => P c | _ => True end.
Lemma inner : forall l, Forall inside l -> forall n m c, In (n, m, Some c) l -> P c.
Proof. intros l F n m c I. exact (proj1 (Forall_forall inside l) F _ I). Qed.
Fixpoint acon_rec' (c : acon V) : P c :=
  match c with
  | ASingle v => H0 v | ARange v w => H1 v w | AFrom v => H2 v | ATo v => H3 v | AAny => H4 | AIncl m T => H5 m T
  | ASize c => H6 c (acon_rec' c) | AAlpha c => H7 c (acon_rec' c)
  | AUnion c d => H8 c d (acon_rec' c) (acon_rec' d) | AInter c d => H9 c d (acon_rec' c) (acon_rec' d)
  | AAllExcept c => H10 c (acon_rec' c) | AExcept c d => H11 c d (acon_rec' c) (acon_rec' d)
  | ARoot c => H12 c (acon_rec' c) | ARoot2 c d => H13 c d (acon_rec' c) (acon_rec' d)
  | AWith c => H14 c (acon_rec' c)
  | AWiths l => H15 l (inner l ((fix go l : Forall inside l :=
      match l with
      | [] => Forall_nil inside
      | (n, m, o) :: l => Forall_cons (n, m, o) (match o return inside (n, m, o) with Some d => acon_rec' d | None => Logic.I end) (go l)
      end) l))
  end.
End acon_rec.

Lemma check_sound : forall c f t, check f t c = inl tt -> allowed t c.
Proof.
  apply (acon_rec' (fun c => forall f t, check f t c = inl tt -> allowed t c)).
  - intros v f t H. apply need_inl in H. apply w_single, H.
  - intros v w f t H. cbn [isConstraintAllowed] in H. apply bnd_inl in H. destruct H as ([] & H & G). apply can_ok in H. destruct H as (l & k & A & R).
    apply bnd_inl in G. destruct G as ([] & G1 & G2). apply need_inl in G1. apply need_inl in G2. apply actual_sound in A. apply ranged_ok in R.
    eapply w_range; eauto.
  - intros v f t H. cbn [isConstraintAllowed] in H. apply bnd_inl in H. destruct H as ([] & H & G). apply can_ok in H. destruct H as (l & k & A & R).
    apply need_inl in G. apply actual_sound in A. apply ranged_ok in R. eapply w_from; eauto.
  - intros v f t H. cbn [isConstraintAllowed] in H. apply bnd_inl in H. destruct H as ([] & H & G). apply can_ok in H. destruct H as (l & k & A & R).
    apply need_inl in G. apply actual_sound in A. apply ranged_ok in R. eapply w_to; eauto.
  - intros f t H. cbn [isConstraintAllowed] in H. apply can_ok in H. destruct H as (l & k & A & R). apply actual_sound in A. apply ranged_ok in R. eapply w_any; eauto.
  - intros m T f t H. cbn [isConstraintAllowed] in H. apply bnd_inl in H. destruct H as (i & Hi & H). apply bnd_inl in H. destruct H as (a & Ha & H).
    apply bnd_inl in H. destruct H as (b & Hb & H). apply need_inl in H. subst b. unfold GetActualTypeByName in Hi. destruct (tyof m T) as [i0|] eqn:E; [|discriminate].
    apply actual_sound in Hi. apply actual_sound in Ha. apply compat_sound in Hb. eapply w_incl; eauto.
  - intros c IH f t H. cbn [isConstraintAllowed] in H. apply bnd_inl in H. destruct H as ([] & H & G). apply can_ok in H. destruct H as (l & k & A & R).
    apply actual_sound in A. apply sized_ok in R. eapply w_size; eauto.
  - intros c IH f t H. cbn [isConstraintAllowed] in H. apply bnd_inl in H. destruct H as ([] & H & G). apply can_ok in H. destruct H as (l & k & A & R).
    apply actual_sound in A. apply lettered_ok in R. eapply w_alpha; eauto.
  - intros c d IH1 IH2 f t H. cbn [isConstraintAllowed] in H. apply bnd_inl in H. destruct H as ([] & H & G). apply w_union; eauto.
  - intros c d IH1 IH2 f t H. cbn [isConstraintAllowed] in H. apply bnd_inl in H. destruct H as ([] & H & G). apply w_inter; eauto.
  - intros c IH f t H. apply w_allexcept; eauto.
  - intros c d IH1 IH2 f t H. cbn [isConstraintAllowed] in H. apply bnd_inl in H. destruct H as ([] & H & G). apply w_except; eauto.
  - intros c IH f t H. apply w_root; eauto.
  - intros c d IH1 IH2 f t H. cbn [isConstraintAllowed] in H. apply bnd_inl in H. destruct H as ([] & H & G). apply w_root2; eauto.
  - intros c IH f t H. cbn [isConstraintAllowed] in H. apply bnd_inl in H. destruct H as (r & H & G). unfold on_kind in H. apply bnd_inl in H.
    destruct H as ([l k] & A & H). apply actual_sound in A. injection H as <-. destruct k; try discriminate. cbn [kind_of CanHaveWith] in G. eapply w_with; eauto.
  - intros nc IH f t H. cbn [isConstraintAllowed] in H. apply bnd_inl in H. destruct H as (r & H & G). unfold on_kind in H. apply bnd_inl in H.
    destruct H as ([l k] & A & H). apply actual_sound in A. injection H as <-.
    destruct k as [| | | | | | | | | | | | |comps|comps|]; try discriminate; cbn [kind_of CanHaveWiths isChoice] in G;
      apply bnd_inl in G; destruct G as ([] & D & G); apply dup_ok in D; pose proof (proj1 (iter_inl _ _ _) G) as G'; clear G.
    + apply (w_seq _ _ _ _ l comps); [exact A|exact D|]. intros n m c I. specialize (G' _ I). cbv beta iota in G'.
      destruct (find _ comps) as [ch|] eqn:F; [|discriminate]. apply bnd_inl in G'. destruct G' as ([] & C & M). apply mark_seq in M.
      exists (snd (fst ch)), (c_type ch). split; [apply component_find; eauto|]. split; [exact M|]. intros d ->. eapply IH; eauto.
    + apply (w_ch _ _ _ _ l comps); [exact A|exact D|]. intros n m c I. specialize (G' _ I). cbv beta iota in G'.
      destruct (find _ comps) as [ch|] eqn:F; [|discriminate]. apply bnd_inl in G'. destruct G' as ([] & C & M). apply mark_ch in M.
      exists (snd (fst ch)), (c_type ch). split; [apply component_find; eauto|]. split; [exact M|]. intros d ->. eapply IH; eauto.
Qed.
Definition settles (t : atype) (c : acon V) : Prop := exists N, forall f, N <= f -> check f t c = inl tt.
Lemma can_settles : forall t l k (g : akind -> bool) e, resolves t (AT l k) -> g k = true ->
  exists N, forall f, N <= f -> bnd (on_kind tyof f t g) (fun b => need b e) = inl tt.
Proof.
  intros t l k g e R G. apply actual_complete in R. destruct R as (N & R). exists N. intros f L. apply can_ok. exists l, k. split; [apply R, L|exact G].
Qed.
Lemma two_settle : forall t c d, settles t c -> settles t d -> exists N, forall f, N <= f -> bnd (check f t c) (fun _ => check f t d) = inl tt.
Proof. intros t c d (N & H) (M & G). exists (N + M). intros f L. rewrite H by lia. cbn [bnd]. apply G. lia. Qed.
Lemma list_settles : forall A (F : nat -> A -> chk unit) l, (forall x, In x l -> exists N, forall f, N <= f -> F f x = inl tt) ->
  exists N, forall f, N <= f -> iter (F f) l = inl tt.
Proof.
  intros A F l H. induction l as [|x l IH]; [exists 0; reflexivity|]. destruct (H x (or_introl eq_refl)) as (N & E).
  destruct IH as (M & G); [intros; apply H; right; assumption|]. exists (N + M). intros f L. apply iter_inl. intros y [<-|I]; [apply E; lia|].
  revert y I. apply iter_inl. apply G. lia.
Qed.
Lemma check_complete : forall c t, allowed t c -> settles t c.
Proof.
  apply (acon_rec' (fun c => forall t, allowed t c -> settles t c)); unfold settles.
  - intros v t H. inversion H; subst. exists 0. intros f _. apply need_inl. assumption.
  - intros v w t H. inversion H; subst. destruct (can_settles t l k CanHaveRange NoRange) as (N & C); [assumption|apply ranged_ok; assumption|].
    exists N. intros f L. cbn [isConstraintAllowed]. rewrite C by exact L. cbn [bnd]. unfold CheckValueType. repeat match goal with X : value_ok _ _ = true |- _ => rewrite X end. reflexivity.
  - intros v t H. inversion H; subst. destruct (can_settles t l k CanHaveRange NoRange) as (N & C); [assumption|apply ranged_ok; assumption|].
    exists N. intros f L. cbn [isConstraintAllowed]. rewrite C by exact L. cbn [bnd]. apply need_inl. assumption.
  - intros v t H. inversion H; subst. destruct (can_settles t l k CanHaveRange NoRange) as (N & C); [assumption|apply ranged_ok; assumption|].
    exists N. intros f L. cbn [isConstraintAllowed]. rewrite C by exact L. cbn [bnd]. apply need_inl. assumption.
  - intros t H. inversion H; subst. apply (can_settles t l k); [assumption|apply ranged_ok; assumption].
  - intros m T t H. inversion H as [| | | | | | | | | | | | |? ? ? i u a E R1 R2 A| | |]; subst.
    apply actual_complete in R1. destruct R1 as (N1 & R1). apply actual_complete in R2. destruct R2 as (N2 & R2).
    apply compat_complete in A. destruct A as (N3 & A). exists (N1 + N2 + N3). intros f L. cbn [isConstraintAllowed].
    unfold GetActualTypeByName. rewrite E, R1 by lia. cbn [bnd]. rewrite R2 by lia. cbn [bnd]. rewrite A by lia. reflexivity.
  - intros c IH t H. inversion H; subst. destruct (can_settles t l k CanHaveSize NoSize) as (N & C); [assumption|apply sized_ok; assumption|].
    destruct (IH _ ltac:(eassumption)) as (M & G). exists (N + M). intros f L. cbn [isConstraintAllowed]. rewrite C by lia. cbn [bnd]. apply G. lia.
  - intros c IH t H. inversion H; subst. destruct (can_settles t l k CanHaveFrom NoAlpha) as (N & C); [assumption|apply lettered_ok; assumption|].
    destruct (IH _ ltac:(eassumption)) as (M & G). exists (N + M). intros f L. cbn [isConstraintAllowed]. rewrite C by lia. cbn [bnd]. apply G. lia.
  - intros c d IH1 IH2 t H. inversion H; subst. apply two_settle; [apply IH1|apply IH2]; assumption.
  - intros c d IH1 IH2 t H. inversion H; subst. apply two_settle; [apply IH1|apply IH2]; assumption.
  - intros c IH t H. inversion H; subst. apply IH. assumption.
  - intros c d IH1 IH2 t H. inversion H; subst. apply two_settle; [apply IH1|apply IH2]; assumption.
  - intros c IH t H. inversion H; subst. apply IH. assumption.
  - intros c d IH1 IH2 t H. inversion H; subst. apply two_settle; [apply IH1|apply IH2]; assumption.
  - intros c IH t H. inversion H as [| | | | | | | | | | | | | |? l e ? R A| |]; subst. apply actual_complete in R. destruct R as (N & R).
    destruct (IH _ A) as (M & G). exists (N + M). intros f L. cbn [isConstraintAllowed]. unfold on_kind. rewrite R by lia.
    cbn [bnd kind_of CanHaveWith]. apply G. lia.
  - intros nc IH t H. inversion H as [| | | | | | | | | | | | | | |? l comps ? R D A|? l comps ? R D A]; subst;
      apply actual_complete in R; destruct R as (N & R); apply dup_ok in D.
    + destruct (list_settles _ (fun f (x : string * mark * option (acon V)) => match x with (n, mk, newC) =>
        match find (fun c => String.eqb (fst (fst c)) n) comps with
        | None => inr (BadId n)
        | Some child => bnd (match newC with Some c1 => check f (c_type child) c1 | None => inl tt end) (fun _ => check_mark n (snd (fst child)) mk false)
        end end) nc) as (M & G).
      { intros [[n m] c] I. destruct (A n m c I) as (o & u & C & K & S). apply component_find in C. destruct C as (ch & F & <- & <-). rewrite F.
        apply mark_seq with (n := n) in K. destruct c as [d|].
        - destruct (IH n m d I _ (S d eq_refl)) as (Q & E). exists Q. intros f L. rewrite E by exact L. cbn [bnd]. exact K.
        - exists 0. intros f _. cbn [bnd]. exact K. }
      exists (N + M). intros f L. cbn [isConstraintAllowed]. unfold on_kind. rewrite R by lia. cbn [bnd kind_of CanHaveWiths isChoice]. rewrite D. cbn [bnd].
      apply G. lia.
    + destruct (list_settles _ (fun f (x : string * mark * option (acon V)) => match x with (n, mk, newC) =>
        match find (fun c => String.eqb (fst (fst c)) n) comps with
        | None => inr (BadId n)
        | Some child => bnd (match newC with Some c1 => check f (c_type child) c1 | None => inl tt end) (fun _ => check_mark n (snd (fst child)) mk true)
        end end) nc) as (M & G).
      { intros [[n m] c] I. destruct (A n m c I) as (o & u & C & K & S). apply component_find in C. destruct C as (ch & F & <- & <-). rewrite F.
        apply mark_ch with (n := n) (o := snd (fst ch)) in K. destruct c as [d|].
        - destruct (IH n m d I _ (S d eq_refl)) as (Q & E). exists Q. intros f L. rewrite E by exact L. cbn [bnd]. exact K.
        - exists 0. intros f _. cbn [bnd]. exact K. }
      exists (N + M). intros f L. cbn [isConstraintAllowed]. unfold on_kind. rewrite R by lia. cbn [bnd kind_of CanHaveWiths isChoice]. rewrite D. cbn [bnd].
      apply G. lia.
Qed.
Theorem check_exact : forall t c, (exists f, check f t c = inl tt) <-> allowed t c.
Proof. intros t c. split; [intros (f & H); eapply check_sound, H|]. intros H. destruct (check_complete c t H) as (N & F). exists N. apply F. lia. Qed.

(** A type is compatible with itself. *)
Lemma self : forall t, grounded tyof t -> alike t t.
Proof.
  intros t H. induction H as [l m T u R G IH|l k S|l i|l t G IH|l c G IH|l c G IH].
  - eapply al_left; [exact R|]. eapply al_right; [exact R|exact IH].
  - apply al_simple, S.
  - apply al_enum. reflexivity.
  - apply al_of, IH.
  - apply al_seq; clear G; (induction c as [|[[n o] t] c IHc]; constructor; [|apply IHc; intros; eapply IH; right; eassumption]).
    + split; reflexivity.
    + eapply IH. left. reflexivity.
  - apply al_ch; clear G; (induction c as [|[[n o] t] c IHc]; constructor; [|apply IHc; intros; eapply IH; right; eassumption]).
    + split; reflexivity.
    + eapply IH. left. reflexivity.
Qed.
Theorem includes_itself : forall m T t l, tyof m T = Some t -> grounded tyof t -> (forall u, resolves t u -> grounded tyof u) ->
  exists f, check f (AT l (KRef m T)) (AIncl m T) = inl tt.
Proof.
  intros m T t l E G GU. apply check_exact.
  assert (R : exists u, resolves t u).
  { destruct G as [l' m' T' u R G|l' k S|l' i|l' t G|l' c G|l' c G]; [eauto| | | | |]; eexists; apply r_here; try congruence. intros; inversion S; congruence. }
  destruct R as (u & R). apply (w_incl _ _ _ _ m T t u u); [exact E|exact R|eapply r_ref; eauto|]. apply self. apply GU, R.
Qed.
Lemma grounded_end : forall t u, grounded tyof t -> resolves t u -> grounded tyof u.
Proof.
  intros t u G R. destruct G as [l m T u' R' G'|l k S|l i|l t G|l c G|l c G].
  - rewrite (resolves_det _ _ _ R R'). exact G'.
  - inversion R; subst; [apply g_simple, S|inversion S].
  - inversion R; subst. apply g_enum.
  - inversion R; subst. apply g_of, G.
  - inversion R; subst. apply g_seq, G.
  - inversion R; subst. apply g_ch, G.
Qed.
Theorem includes_self : forall m T t l, tyof m T = Some t -> grounded tyof t -> exists f, check f (AT l (KRef m T)) (AIncl m T) = inl tt.
Proof. intros m T t l E G. apply (includes_itself m T t l E G). intros u R. eapply grounded_end; eauto. Qed.
(** Components of different definitions. *)
Theorem elsewhere : forall f l l' c d, (exists n a o t n' o' t', nth_error c a = Some (n, o, t) /\ nth_error d a = Some (n', o', t') /\ loc_of t <> loc_of t') ->
  compat f (AT l (KSeq c)) (AT l' (KSeq d)) <> inl true.
Proof.
  intros f l l' c d (n & a & o & t & n' & o' & t' & A & B & NE) H. apply compat_sound in H. inversion H as [| |? ? ? S| | |? ? ? ? O F|]; subst; [inversion S|]. clear - A B NE O.
  revert a A B. induction O as [|x y c d [_ P] O IH]; intros [|a] A B; try discriminate.
  - injection A as ->. injection B as ->. apply NE, P.
  - exact (IH a A B).
Qed.

(** More fuel does not change an answer. *)
Definition le {A} (a b : chk A) : Prop := a = inr Deep \/ a = b.
Lemma le_bnd : forall A B (a a' : chk A) (f f' : A -> chk B), le a a' -> (forall x, le (f x) (f' x)) -> le (bnd a f) (bnd a' f').
Proof. intros A B a a' f f' [-> | ->] H; [left; reflexivity|]. destruct a' as [x|e]; cbn; [apply H|right; reflexivity]. Qed.
Lemma le_refl : forall A (a : chk A), le a a.
Proof. right. reflexivity. Qed.
Lemma le_actual : forall f g t, f <= g -> le (actual f t) (actual g t).
Proof.
  intros f g t L. destruct (actual f t) as [u|e] eqn:E; [right; symmetry; eapply actual_mono; eauto; discriminate|].
  destruct e; try (right; symmetry; eapply actual_mono; eauto; discriminate). left. reflexivity.
Qed.
Lemma le_forall : forall A (F G : A -> chk bool) l, (forall x, le (F x) (G x)) -> le (forall_chk F l) (forall_chk G l).
Proof. intros A F G l H. induction l as [|x l IH]; [apply le_refl|]. cbn [forall_chk]. apply le_bnd; [apply H|]. intros [|]; [exact IH|apply le_refl]. Qed.
Lemma le_iter : forall A (F G : A -> chk unit) l, (forall x, In x l -> le (F x) (G x)) -> le (iter F l) (iter G l).
Proof.
  intros A F G l H. induction l as [|x l IH]; [apply le_refl|]. cbn [iter]. apply le_bnd; [apply H; left; reflexivity|]. intros _.
  apply IH. intros; apply H; right; assumption.
Qed.
Lemma le_compat : forall f g t u, f <= g -> le (compat f t u) (compat g t u).
Proof.
  induction f as [|f IH]; intros g t u L; [left; reflexivity|]. destruct g as [|g]; [lia|].
  destruct (is_ref (kind_of t)) eqn:R1.
  { rewrite !compat_ref1 by exact R1. apply le_bnd; [apply le_actual; lia|]. intros x. apply IH. lia. }
  destruct (is_ref (kind_of u)) eqn:R2.
  { rewrite !compat_ref2 by assumption. apply le_bnd; [apply le_actual; lia|]. intros x. apply IH. lia. }
  destruct t as [l k], u as [l' k']. destruct k, k'; try discriminate; cbn [AreTypesCompatible kind_of]; cbv zeta; try apply le_refl.
  - apply IH. lia.
  - destruct (_ && _); [|apply le_refl]. apply le_forall. intros x. apply IH. lia.
  - destruct (_ && _); [|apply le_refl]. apply le_forall. intros x. apply IH. lia.
Qed.
Lemma le_kind : forall A f g t (k : akind -> A), f <= g -> le (on_kind tyof f t k) (on_kind tyof g t k).
Proof. intros. unfold on_kind. apply le_bnd; [apply le_actual; assumption|]. intros. apply le_refl. Qed.
Theorem stable : forall c f g t, f <= g -> le (check f t c) (check g t c).
Proof.
  apply (acon_rec' (fun c => forall f g t, f <= g -> le (check f t c) (check g t c))); intros; cbn [isConstraintAllowed]; try apply le_refl;
    repeat (first [apply le_refl | apply le_kind; assumption | apply le_actual; assumption | apply le_compat; assumption | solve [auto] | apply le_bnd; [|intros]]).
  - unfold GetActualTypeByName. destruct (tyof m T); [|apply le_refl]. apply le_actual. assumption.
  - destruct x; [auto|apply le_refl].
  - destruct x as [[children|] choice]; [|apply le_refl]. apply le_bnd; [apply le_refl|]. intros _. apply le_iter. intros [[n mk] [c1|]] I.
    + cbv beta iota. destruct (find (fun c => String.eqb (fst (fst c)) n) children); [|apply le_refl]. apply le_bnd; [eapply H; eauto|]. intros. apply le_refl.
    + apply le_refl.
Qed.
End proofs.
