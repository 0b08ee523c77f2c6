(** Proofs about the checks of values: equality of values, constraints. *)
From Verif Require Import Check CheckSpec CheckProofs CheckProofs2.
From Coq Require Import List String Ascii Bool Arith ZArith QArith Lia ZifyBool.
Import ListNotations.
Local Open Scope string_scope.
Local Open Scope list_scope.

Lemma one_explode : forall s x, In x (explode s) -> one_char x.
Proof. induction s as [|c s IH]; simpl; intros x H; [tauto|]. destruct H as [<-|H]; [exists c; reflexivity|auto]. Qed.
Lemma explode_one : forall s x, one_char s -> (In x (explode s) <-> s = x).
Proof. intros s x [c ->]. simpl. tauto. Qed.
Lemma str_cmp_one : forall a b x y, acode a = Some x -> acode b = Some y -> str_cmp a b = Z.compare x y.
Proof.
  intros a b x y A B. destruct a as [|c [|]]; try discriminate. destruct b as [|d [|]]; try discriminate.
  unfold acode in A, B. injection A as <-. injection B as <-. cbn [str_cmp].
  rewrite Nat2Z.inj_compare.
  destruct (nat_of_ascii c ?= nat_of_ascii d)%nat; reflexivity.
Qed.
Lemma one_code : forall s, one_char s -> exists x, acode s = Some x.
Proof. intros s [c ->]. eexists. reflexivity. Qed.
Lemma low_compare : forall i x y, low i (Z.compare x y) = true <-> if i then (x <= y)%Z else (x < y)%Z.
Proof. intros i x y. unfold low. destruct (Z.compare_spec x y), i; split; intros; try lia; try discriminate; auto. Qed.
Lemma low_Qcompare : forall i x y, low i (Qcompare x y) = true <-> if i then (Qred x <= Qred y)%Q else (Qred x < Qred y)%Q.
Proof.
  intros i x y. assert (E : Qcompare x y = Qcompare (Qred x) (Qred y)) by (rewrite !Qred_correct; reflexivity). rewrite E.
  unfold low. destruct (Qcompare_spec (Qred x) (Qred y)) as [H|H|H], i; split; intros K; auto; try discriminate.
  - rewrite H. apply Qle_refl.
  - rewrite H in K. exfalso. exact (Qlt_irrefl _ K).
  - apply Qlt_le_weak. exact H.
  - exfalso. exact (Qlt_not_le _ _ H K).
  - exfalso. exact (Qlt_irrefl _ (Qlt_trans _ _ _ H K)).
Qed.

Section facts.
Variable tyof : string -> string -> option xtype.
Variable valof : string -> string -> option (xtype * xval).
Notation den := (den tyof valof).
Notation den_all := (den_all tyof valof).
Notation den_fields := (den_fields tyof valof).
Notation resolves := (resolves tyof).
Notation veq := (values_equal valof).
Notation cmp := (compare_values valof).

Lemma all_length : forall s t l vs, den_all s t l vs -> List.length l = List.length vs.
Proof. intros s t l vs H. induction H; simpl; auto. Qed.
(** * Equality *)
Definition equates (ie : bool) (t : xtype) (e : xval) (v : aval) : Prop :=
  forall e' v', den Strict t e' v' -> decides (fun f => veq f ie e e') (v = v').
Definition pairsR ie f l l' := forallR (fun p : xval * xval => veq f ie (fst p) (snd p)) (combine l l').
Definition fieldsR ie f (l l' : list (string * xval)) :=
  forallR (fun p => if String.eqb (fst (fst p)) (fst (snd p)) then veq f ie (snd (fst p)) (snd (snd p)) else Done false) (combine l l').
Lemma equal_all : forall ie,
  (forall t e v, den Strict t e v -> equates ie t e v) /\
  (forall t l vs, den_all Strict t l vs -> forall l' vs', den_all Strict t l' vs' ->
     decides (fun f => if (List.length l =? List.length l')%nat then pairsR ie f l l' else Done false) (vs = vs')) /\
  (forall c l fs, den_fields Strict c l fs -> forall l' fs', den_fields Strict c l' fs' ->
     decides (fun f => if (List.length l =? List.length l')%nat then fieldsR ie f l l' else Done false) (fs = fs')).
Proof.
  intros ie. apply den_mutual; try (intros; congruence).
  - intros m T cs t e v Ht Hd IH e' v' H. apply IH. inversion H; subst; congruence.
  - intros cs z e' v' H. inversion H; subst; try congruence. apply decides_down with (X := fun _ => Done (Z.eqb z z0)); [reflexivity|].
    apply decides_const. rewrite Z.eqb_eq. split; congruence.
  - intros cs z e' v' H. inversion H; subst; try congruence. apply decides_down with (X := fun _ => Done (Qeq_bool z q)); [reflexivity|].
    apply decides_const. rewrite Qeq_bool_iff. split; intros K.
    + f_equal. apply Qred_complete. exact K.
    + injection K as K. rewrite <- (Qred_correct z), <- (Qred_correct q), K. reflexivity.
  - intros cs z e' v' H. inversion H; subst; try congruence. apply decides_down with (X := fun _ => Done (String.eqb z x)); [reflexivity|].
    apply decides_const. rewrite String.eqb_eq. split; congruence.
  - intros cs z e' v' H. inversion H; subst; try congruence. apply decides_down with (X := fun _ => Done (Bool.eqb z b)); [reflexivity|].
    apply decides_const. rewrite Bool.eqb_true_iff. split; congruence.
  - intros cs z e' v' H. inversion H; subst; try congruence.
    apply decides_down with (X := fun _ => Done (if list_eq_dec Bool.bool_dec z l then true else false)); [reflexivity|].
    apply decides_const. destruct (list_eq_dec _ z l); split; congruence.
  - intros cs z e' v' H. inversion H; subst; try congruence.
    apply decides_down with (X := fun _ => Done (if list_eq_dec Z.eq_dec z l then true else false)); [reflexivity|].
    apply decides_const. destruct (list_eq_dec _ z l); split; congruence.
  - intros cs e' v' H. inversion H; subst; try congruence. apply decides_down with (X := fun _ => Done true); [reflexivity|].
    apply decides_true. reflexivity.
  - intros cs items m x Hin e' v' H. inversion H; subst; try congruence.
    apply decides_down with (X := fun _ => Done (String.eqb m m && String.eqb x x0)); [reflexivity|].
    apply decides_const. rewrite String.eqb_refl. simpl. rewrite String.eqb_eq. split; congruence.
  - intros cs t l vs Hd IH e' v' H. inversion H; subst; try congruence.
    apply decides_down with (X := fun f => if (List.length l =? List.length l0)%nat then pairsR ie f l l0 else Done false); [reflexivity|].
    apply decides_iff with (P := vs = vs0); [split; congruence|]. apply IH. assumption.
  - intros cs c l fs Hnd Hd IH e' v' H. inversion H; subst; try congruence.
    apply decides_down with (X := fun f => if (List.length l =? List.length l0)%nat then fieldsR ie f l l0 else Done false); [reflexivity|].
    apply decides_iff with (P := fs = fs0); [split; congruence|]. apply IH. assumption.
  - intros cs alts n t e v Ha Hd IH e' v' H. inversion H; subst; try congruence.
    apply decides_down with (X := fun f => if String.eqb n n0 then veq f ie e e0 else Done false); [reflexivity|].
    destruct (String.eqb n n0) eqn:E.
    + apply String.eqb_eq in E. subst n0. apply decides_iff with (P := v = v0); [split; congruence|]. apply IH. congruence.
    + apply String.eqb_neq in E. apply decides_false. congruence.
  - intros t l' vs' H. inversion H; subst; simpl; [apply decides_true; reflexivity|apply decides_false; discriminate].
  - intros t e l v vs Hd IH Hl IHl l' vs' H. inversion H; subst; simpl; [apply decides_false; discriminate|].
    destruct (List.length l =? List.length l0)%nat eqn:E.
    + unfold pairsR in *. simpl. apply decides_iff with (P := v = v0 /\ vs = vs0); [split; [intros []; congruence|split; congruence]|].
      apply decides_both with (Y := fun f => pairsR ie f l l0); [apply IH; assumption|]. intros _. eapply decides_ext; [|apply (IHl l0); eassumption].
      intros f. cbn beta. rewrite E. reflexivity.
    + apply decides_false. intros K. injection K as -> ->. apply Nat.eqb_neq in E. apply E.
      rewrite (all_length _ _ _ _ Hl). symmetry. eapply all_length. eassumption.
  - intros l' fs' H. inversion H; subst. apply decides_true. reflexivity.
  - intros n o t c e l v fs Hd IH Hl IHl Hn l' fs' H. inversion H as [|? ? ? ? e1 l1 v1 fs1 D F N|? ? ? ? l1 fs1 O F N]; subst.
    + simpl. destruct (List.length l =? List.length l1)%nat eqn:E.
      * unfold fieldsR. simpl. rewrite String.eqb_refl.
        apply decides_iff with (P := v = v1 /\ fs = fs1); [split; [intros []; congruence|split; congruence]|].
        apply decides_both with (Y := fun f => fieldsR ie f l l1); [apply IH; assumption|]. intros _. eapply decides_ext; [|apply (IHl l1); eassumption].
        intros f. cbn beta. rewrite E. reflexivity.
      * apply decides_false. intros K. injection K as -> ->. apply Nat.eqb_neq in E. apply E.
        destruct (fields_names _ _ _ _ _ _ Hl) as [A _]. destruct (fields_names _ _ _ _ _ _ F) as [A' _].
        rewrite <- (map_length fst l), <- (map_length fst l1). congruence.
    + destruct (fields_names _ _ _ _ _ _ F) as [A' _].
      assert (NE : (n, v) :: fs <> fs'). { intros <-. apply N. rewrite A'. left. reflexivity. }
      destruct l' as [|[n1 e1] l1]; [apply decides_false; exact NE|]. simpl. destruct (List.length l =? List.length l1)%nat; [|apply decides_false; exact NE].
      unfold fieldsR. simpl. destruct (String.eqb n n1) eqn:E; [|apply decides_false; exact NE].
      apply String.eqb_eq in E. subst. exfalso. apply N. left. reflexivity.
  - intros n o t c l fs Ho Hl IHl Hn l' fs' H. inversion H as [|? ? ? ? e1 l1 v1 fs1 D F N|? ? ? ? l1 fs1 O F N]; subst.
    + destruct (fields_names _ _ _ _ _ _ Hl) as [A' _].
      assert (NE : fs <> (n, v1) :: fs1). { intros ->. apply Hn. rewrite A'. left. reflexivity. }
      destruct l as [|[n1 e2] l]; [apply decides_false; exact NE|]. simpl. destruct (List.length l =? List.length l1)%nat; [|apply decides_false; exact NE].
      unfold fieldsR. simpl. destruct (String.eqb n1 n) eqn:E; [|apply decides_false; exact NE].
      apply String.eqb_eq in E. subst. exfalso. apply Hn. left. reflexivity.
    + apply IHl. exact F.
Qed.

(** * Order *)
Lemma order_right : forall i k e v e' v', number k -> den Strict (XT k []) e v -> den Strict (XT k []) e' v' ->
  decides (fun f => bind (cmp f e e') (fun o => Done (low i o))) (aless i v v').
Proof.
  intros i k e v e' v' [->| ->] D D'; inversion D; subst; try congruence; inversion D'; subst; try congruence.
  - apply decides_down with (X := fun _ => Done (low i (Z.compare z z0))); [reflexivity|]. apply decides_const. apply low_compare.
  - apply decides_down with (X := fun _ => Done (low i (Qcompare q q0))); [reflexivity|]. apply decides_const. apply low_Qcompare.
Qed.
Lemma plain_of_strict : forall k e v w, den Strict (XT k []) e v -> (den Plain (XT k []) e w <-> w = v).
Proof.
  intros k e v w D. split.
  - intros H. symmetry. apply (proj1 (strict_fun tyof valof) _ _ _ D Plain); [discriminate|exact H].
  - intros ->. apply (proj1 (den_strict_plain tyof valof)). exact D.
Qed.
End facts.
