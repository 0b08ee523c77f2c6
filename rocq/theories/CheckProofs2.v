(** Proofs about the checks of values: equality and the constraints. *)
From Verif Require Import Check CheckSpec CheckProofs.
From Coq Require Import List String Ascii Bool Arith ZArith QArith Lia ZifyBool.
Import ListNotations.
Local Open Scope string_scope.
Local Open Scope list_scope.

(** * Results from some fuel on *)
Definition ev {A} (X : nat -> res A) (a : A) : Prop := exists n, forall f, (n <= f)%nat -> X f = Done a.
Definition down {A} (X : nat -> res A) (f : nat) : res A := match f with O => Endless | S f => X f end.
Lemma ev_done : forall A (a : A), ev (fun _ => Done a) a.
Proof. intros. exists O. reflexivity. Qed.
Lemma ev_down : forall A (X Y : nat -> res A) a, (forall f, Y (S f) = X f) -> ev X a -> ev Y a.
Proof. intros A X Y a H [n E]. exists (S n). intros [|f] Hf; [lia|]. rewrite H. apply E. lia. Qed.
Lemma ev_ext : forall A (X Y : nat -> res A) a, (forall f, Y f = X f) -> ev X a -> ev Y a.
Proof. intros A X Y a H [n E]. exists n. intros f Hf. rewrite H. auto. Qed.
Lemma ev_bind : forall A B (X : nat -> res A) (F : nat -> A -> res B) a b, ev X a -> ev (fun f => F f a) b -> ev (fun f => bind (X f) (F f)) b.
Proof.
  intros A B X F a b [n E] [m E']. exists (Nat.max n m). intros f Hf. rewrite E by lia. simpl. apply E'. lia.
Qed.
(** A decision for [P]. *)
Definition decides (X : nat -> res bool) (P : Prop) : Prop := exists b, ev X b /\ (b = true <-> P).
Lemma decides_down : forall X Y P, (forall f, Y (S f) = X f) -> decides X P -> decides Y P.
Proof. intros X Y P H [b [E K]]. exists b. split; auto. exact (ev_down _ _ _ _ H E). Qed.
Lemma decides_iff : forall X P Q, (P <-> Q) -> decides X P -> decides X Q.
Proof. intros X P Q H [b [E K]]. exists b. split; auto. tauto. Qed.
Lemma decides_ext : forall X Y P, (forall f, Y f = X f) -> decides X P -> decides Y P.
Proof. intros X Y P H [b [E K]]. exists b. split; auto. exact (ev_ext _ _ _ _ H E). Qed.
Lemma decides_const : forall b (P : Prop), (b = true <-> P) -> decides (fun _ => Done b) P.
Proof. intros b P H. exists b. split; auto. apply ev_done. Qed.
Lemma decides_true : forall P : Prop, P -> decides (fun _ => Done true) P.
Proof. intros P H. apply decides_const. tauto. Qed.
Lemma decides_false : forall P : Prop, ~ P -> decides (fun _ => Done false) P.
Proof. intros P H. apply decides_const. split; [discriminate|tauto]. Qed.
Lemma decides_both : forall X Y P Q, decides X P -> (P -> decides Y Q) -> decides (fun f => bothR (X f) (Y f)) (P /\ Q).
Proof.
  intros X Y P Q [b [E K]] H. destruct b.
  - destruct H as [c [E' K']]; [tauto|]. exists c. split; [|tauto]. unfold bothR. eapply ev_bind; [exact E|]. exact E'.
  - exists false. split; [|split; [discriminate|intros [p q]; tauto]]. unfold bothR. eapply ev_bind; [exact E|]. apply ev_done.
Qed.
Lemma decides_and : forall X Y P Q, decides X P -> decides Y Q -> decides (fun f => andR (X f) (Y f)) (P /\ Q).
Proof.
  intros X Y P Q [b [E K]] [c [E' K']]. exists (b && c). split.
  - unfold andR. eapply ev_bind; [exact E|]. eapply ev_bind; [exact E'|]. apply ev_done.
  - destruct b, c; simpl; intuition discriminate.
Qed.
Lemma decides_or : forall X Y P Q, decides X P -> decides Y Q ->
  decides (fun f => bind (X f) (fun x => bind (Y f) (fun y => Done (x || y)))) (P \/ Q).
Proof.
  intros X Y P Q [b [E K]] [c [E' K']]. exists (b || c). split.
  - eapply ev_bind; [exact E|]. eapply ev_bind; [exact E'|]. apply ev_done.
  - destruct b, c; simpl; tauto.
Qed.
Lemma decides_or2 : forall X Y P Q, decides X P -> decides Y Q ->
  decides (fun f => bind (X f) (fun x => if x then Done true else Y f)) (P \/ Q).
Proof.
  intros X Y P Q [b [E K]] [c [E' K']]. exists (b || c). split.
  - eapply ev_bind; [exact E|]. destruct b; [apply ev_done|exact E'].
  - destruct b, c; simpl; tauto.
Qed.
Lemma decides_not : forall X P, decides X P -> decides (fun f => bind (X f) (fun x => Done (negb x))) (~ P).
Proof.
  intros X P [b [E K]]. exists (negb b). split; [eapply ev_bind; [exact E|]; apply ev_done|]. destruct b; simpl; split; intros H.
  - discriminate.
  - exfalso. apply H. tauto.
  - intros p. apply K in p. discriminate.
  - reflexivity.
Qed.
Lemma decides_forall : forall A (X : nat -> A -> res bool) (P : A -> Prop) l, (forall x, In x l -> decides (fun f => X f x) (P x)) ->
  decides (fun f => forallR (X f) l) (forall x, In x l -> P x).
Proof.
  intros A X P l. induction l as [|x l IH]; intros H; simpl.
  - apply decides_true. intros x [].
  - apply decides_iff with (P := P x /\ forall y, In y l -> P y).
    + split; [intros [a b] y [<-|Hy]; auto|]. intros K. split; auto.
    + apply decides_both with (X := fun f => X f x) (Y := fun f => forallR (X f) l); [apply H; left; reflexivity|]. intros _. apply IH. intros y Hy. apply H. right. exact Hy.
Qed.
Lemma decides_eventually : forall X P, decides X P -> exists n b, (forall f, (n <= f)%nat -> X f = Done b) /\ (b = true <-> P).
Proof. intros X P [b [[n E] K]]. exists n, b. auto. Qed.

Section facts.
Variable tyof : string -> string -> option xtype.
Variable valof : string -> string -> option (xtype * xval).
Notation den := (den tyof valof).
Notation den_all := (den_all tyof valof).
Notation den_fields := (den_fields tyof valof).
Notation resolves := (resolves tyof).

Ltac noref := exfalso; match goal with K : forall m T, TRef _ _ <> TRef m T |- _ => eapply K; reflexivity end.
Lemma resolves_fun : forall t k k', resolves t k -> resolves t k' -> k = k'.
Proof.
  intros t k k' H. revert k'. induction H as [k cs N|m T cs t k E H IH]; intros k' H'.
  - inversion H'; subst; [reflexivity|]. noref.
  - inversion H'; subst; [noref|]. apply IH. congruence.
Qed.
Lemma resolves_constraints : forall k cs cs' kr, resolves (XT k cs) kr -> resolves (XT k cs') kr.
Proof. intros k cs cs' kr H. inversion H; subst; [apply r_here; auto|eapply r_ref; eauto]. Qed.
Lemma den_constraints : forall s k cs cs' e v, den s (XT k cs) e v -> den s (XT k cs') e v.
Proof.
  intros s. assert (G : (forall t e v, den s t e v -> forall k cs cs', t = XT k cs -> den s (XT k cs') e v) /\
    (forall t l vs, den_all s t l vs -> True) /\ (forall c l fs, den_fields s c l fs -> True)).
  { apply den_mutual; auto; intros; try (injection H as <- <-); try (injection H0 as <- <-); try (injection H1 as <- <-);
     try (injection H2 as <- <-); try (injection H3 as <- <-); try (injection H4 as <- <-).
    all: try solve [constructor; auto].
    all: try solve [match goal with K : _ = XT _ _ |- _ => injection K as <- <- end; econstructor; eauto].
    all: try solve [econstructor; eauto]. }
  intros k cs cs' e v H. exact (proj1 G _ _ _ H _ _ _ eq_refl).
Qed.
Lemma den_resolves : forall s t e v k, den s t e v -> resolves t k -> den s (XT k []) e v.
Proof.
  intros s t e v k D H. revert D. induction H as [k cs N|m T cs t k E H IH]; intros D.
  - exact (den_constraints _ _ _ _ _ _ D).
  - inversion D; subst; try congruence. apply IH. congruence.
Qed.

(** Fields given and the components of the type. *)
Lemma fields_names : forall s comps l fs, den_fields s comps l fs -> map fst l = map fst fs /\ incl (map fst l) (map (fun c => fst (fst c)) comps) /\ NoDup (map fst l).
Proof.
  intros s. induction comps as [|[[n o] t] comps IH]; intros l fs H; inversion H; subst.
  - split; [reflexivity|]. split; [intros x []|constructor].
  - match goal with F : CheckSpec.den_fields _ _ _ comps _ _ |- _ => destruct (IH _ _ F) as [A [B C]] end. simpl. split; [congruence|]. split.
    + intros x [<-|Hx]; [left; reflexivity|right; auto].
    + constructor; auto.
  - match goal with F : CheckSpec.den_fields _ _ _ comps _ _ |- _ => destruct (IH _ _ F) as [A [B C]] end. simpl. split; [congruence|]. split; auto. intros x Hx. right. auto.
Qed.
Lemma fields_assoc : forall s n e comps l fs, NoDup (map (fun c => fst (fst c)) comps) -> den_fields s comps l fs -> assoc n l = Some e ->
  exists t v, find_comp n comps = Some t /\ assoc n fs = Some v /\ den s t e v.
Proof.
  intros s n e. induction comps as [|[[n' o] t] comps IH]; intros l fs Hnd H E;
    [inversion H; subst; discriminate|]. simpl in Hnd. inversion Hnd as [|? ? N1 N2]; subst.
  inversion H as [|? ? ? ? e' l' v' fs' D F N|? ? ? ? l' fs' O F N]; subst; unfold find_comp; simpl; simpl in E.
  - destruct (String.eqb n' n) eqn:Q.
    + injection E as <-. eauto.
    + destruct (IH _ _ N2 F E) as [t1 [v1 [A [B C]]]]. exists t1, v1. repeat split; auto.
  - destruct (String.eqb n' n) eqn:Q.
    + exfalso. apply String.eqb_eq in Q. subst n'. apply assoc_none in N. congruence.
    + destruct (IH _ _ N2 F E) as [t1 [v1 [A [B C]]]]. exists t1, v1. repeat split; auto.
Qed.
Lemma fields_assoc_none : forall s n comps l fs, den_fields s comps l fs -> assoc n l = None -> assoc n fs = None.
Proof.
  intros s n comps l fs H E. destruct (fields_names _ _ _ _ H) as [A _]. apply assoc_none. rewrite <- A. apply assoc_none. exact E.
Qed.

(** * A notation has one meaning *)
Lemma strict_fun :
  (forall t e v, den Strict t e v -> forall s w, s <> Loose -> den s t e w -> v = w) /\
  (forall t l vs, den_all Strict t l vs -> forall s ws, s <> Loose -> den_all s t l ws -> vs = ws) /\
  (forall c l fs, den_fields Strict c l fs -> forall s gs, s <> Loose -> den_fields s c l gs -> fs = gs).
Proof.
  apply den_mutual; try (intros; congruence); intros.
  all: try solve [match goal with K : CheckSpec.den _ _ _ (XT _ _) _ _ |- _ => inversion K; subst; congruence end].
  - inversion H3; subst; try noref. assert (t0 = t) by congruence. subst t0. eapply H1; eauto.
  - inversion H1; subst; [reflexivity|]. exfalso. eapply H8; eauto.
  - inversion H2; subst; f_equal; eauto.
  - inversion H3; subst; [|congruence]. f_equal; eauto.
  - inversion H3; subst. f_equal. assert (t0 = t) by congruence. subst. eauto.
  - inversion H0; subst. reflexivity.
  - inversion H4; subst. f_equal; eauto.
  - inversion H0; subst. reflexivity.
  - inversion H5; subst; [|exfalso; apply H14; left; reflexivity]. f_equal; [f_equal|]; eauto.
  - inversion H4; subst; [exfalso; apply H2; left; reflexivity|]. eauto.
Qed.
Lemma den_strict_plain :
  (forall t e v, den Strict t e v -> den Plain t e v) /\
  (forall t l vs, den_all Strict t l vs -> den_all Plain t l vs) /\
  (forall c l fs, den_fields Strict c l fs -> den_fields Plain c l fs).
Proof. apply den_mutual; try (intros; congruence); intros; try solve [econstructor; eauto]. Qed.
End facts.
