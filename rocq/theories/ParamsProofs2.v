(** The copies of types mean the same, for C67. *)
From Verif Require Import Params ParamsSpec ParamsProofs.
From Coq Require Import List String Ascii Bool ZArith Lia.
Import ListNotations.
Local Open Scope string_scope.
Local Open Scope list_scope.

(** * Lookup *)
Lemma lookup_in : forall r m T a, lookup r m T = Some a -> exists md, In md r /\ In a (snd md) /\ fst md = m /\ ta_name a = T.
Proof.
  unfold lookup. intros r m T a H. destruct (assoc m r) as [l|] eqn:E; [|discriminate].
  apply assoc_in in E. apply find_some in H. destruct H as [H1 H2]. exists (m, l). simpl.
  apply String.eqb_eq in H2. auto.
Qed.
Lemma lookup_params : forall r m T a n, lookup r m T = Some a -> In n (map pname (ta_params a)) -> In n (params_of r).
Proof.
  intros r m T a n H Hn. destruct (lookup_in _ _ _ _ H) as (md & H1 & H2 & _).
  unfold params_of. apply in_flat_map. exists md. split; auto. apply in_flat_map. eauto.
Qed.

(** * Dependence on the environment *)
Definition same_arg (a b : option sarg) : Prop :=
  match a, b with None, None => True | Some a, Some b => sarg_eq a b | _, _ => False end.
Lemma sarg_eq_refl : forall a, sarg_eq a a.
Proof. intros [p|p] v; reflexivity. Qed.
Lemma same_arg_refl : forall a, same_arg a a.
Proof. intros [a|]; simpl; auto using sarg_eq_refl. Qed.
Lemma sarg_eq_sym : forall a b, sarg_eq a b -> sarg_eq b a.
Proof. intros [p|p] [q|q] H; simpl in *; try tauto; intros v; symmetry; apply H. Qed.
Lemma same_arg_sym : forall a b, same_arg a b -> same_arg b a.
Proof. intros [a|] [b|]; simpl; auto using sarg_eq_sym. Qed.

Section same.
Variable P : types.
Variable V : values.
Variables E F : senv.
Definition same_on (l : list string) : Prop := forall n, In n l -> same_arg (assoc n E) (assoc n F).
Lemma same_sub : forall l l', same_on l -> (forall n, In n l' -> In n l) -> same_on l'.
Proof. intros l l' H K n Hn. apply H, K, Hn. Qed.
Lemma value_named_same : forall m n v, same_arg (assoc n E) (assoc n F) -> (value_named V E m n v <-> value_named V F m n v).
Proof.
  intros m n v. unfold value_named. destruct (assoc n E) as [[p|p]|], (assoc n F) as [[q|q]|]; simpl; intros H; try tauto; apply H.
Qed.
Lemma type_named_same : forall m n v, same_arg (assoc n E) (assoc n F) -> (type_named P E m n v <-> type_named P F m n v).
Proof.
  intros m n v. unfold type_named. destruct (assoc n E) as [[p|p]|], (assoc n F) as [[q|q]|]; simpl; intros H; try tauto; apply H.
Qed.
Lemma denotes_same : forall e v, same_on (exp_refs e) -> (denotes V E e v <-> denotes V F e v).
Proof.
  induction e as [z|b|s|m n|l IH|l IH|n e IH] using pexp_ind'; intros v S.
  - reflexivity.
  - reflexivity.
  - reflexivity.
  - assert (K := S n (or_introl eq_refl)). pose proof (value_named_same m n v K) as J. simpl.
    destruct (assoc n E) as [a|], (assoc n F) as [b|]; simpl in K; try tauto; try exact J.
    destruct (item_of v) as [[items x]|]; [|exact J]. destruct (mem n items); [reflexivity | exact J].
  - cut (forall vs, denotes_all V E l vs <-> denotes_all V F l vs).
    { intros K. simpl. split; intros (vs & -> & H); exists vs; split; auto; apply (K vs); exact H. }
    simpl in S. induction IH as [|x l Hx _ IHl]; intros vs; [reflexivity|].
    destruct vs as [|w vs]; [reflexivity|]. simpl.
    rewrite Hx, IHl; [reflexivity| |]; (eapply same_sub; [exact S | intros; simpl; apply in_or_app; auto]).
  - cut (forall vs, denotes_fields V E l vs <-> denotes_fields V F l vs).
    { intros K. simpl. split; intros (vs & -> & H); exists vs; split; auto; apply (K vs); exact H. }
    simpl in S. induction IH as [|[n x] l Hx _ IHl]; intros vs; [reflexivity|].
    destruct vs as [|[n' [w| |w]] vs]; [reflexivity| |reflexivity|reflexivity]. simpl.
    rewrite Hx, IHl; [reflexivity| |]; (eapply same_sub; [exact S | intros; simpl; apply in_or_app; auto]).
  - simpl. split; intros (w & -> & H); exists w; split; auto; apply (IH w S); exact H.
Qed.
Ltac ss S := eapply same_sub; [exact S | intros ? ?; simpl in *; rewrite ?in_app_iff in *; simpl in *; tauto].
Lemma sat_same : forall c v, same_on (con_refs c ++ con_incl c) -> (sat P V E c v <-> sat P V F c v).
Proof.
  induction c as [e|a b i j|a i|b j|m T|c IH|c IH|c d IHc IHd|c d IHc IHd|c IH|c d IHc IHd|c IH|c d IHc IHd|c IH|l IH] using pcon_ind';
    intros v S; simpl in S.
  - apply denotes_same. ss S.
  - assert (Ka : forall x, denotes V E a x <-> denotes V F a x) by (intros x; apply denotes_same; ss S).
    assert (Kb : forall x, denotes V E b x <-> denotes V F b x) by (intros x; apply denotes_same; ss S).
    simpl. split; intros (x & y & H1 & H2 & H3); exists x, y; rewrite Ka, Kb in *; auto.
  - assert (Ka : forall x, denotes V E a x <-> denotes V F a x) by (intros x; apply denotes_same; ss S).
    simpl. split; intros (x & H1 & H2); exists x; rewrite Ka in *; auto.
  - assert (Ka : forall x, denotes V E b x <-> denotes V F b x) by (intros x; apply denotes_same; ss S).
    simpl. split; intros (x & H1 & H2); exists x; rewrite Ka in *; auto.
  - simpl. apply type_named_same, S. left. reflexivity.
  - simpl. split; intros (n & H1 & H2); exists n; split; auto; apply (IH (VInt n) S); exact H2.
  - simpl. split; intros (s & H1 & H2); exists s; split; auto; intros x Hx; apply (IH (VStr x) S); auto.
  - simpl. rewrite IHc, IHd; [reflexivity| |]; ss S.
  - simpl. rewrite IHc, IHd; [reflexivity| |]; ss S.
  - simpl. rewrite IH; [reflexivity|]. ss S.
  - simpl. rewrite IHc, IHd; [reflexivity| |]; ss S.
  - simpl. apply IH. exact S.
  - simpl. rewrite IHc, IHd; [reflexivity| |]; ss S.
  - simpl. split; intros (s & H1 & H2); exists s; split; auto; intros x Hx; apply (IH x S); auto.
  - change (sat_withs P V E v l <-> sat_withs P V F v l).
    induction IH as [|[[n k] o] l Hx _ IHl]; [reflexivity|]. simpl in Hx, S. simpl.
    destruct o as [c|].
    + rewrite IHl by (ss S).
      assert (K : (forall w, part n v = Some w -> sat P V E c w) <-> (forall w, part n v = Some w -> sat P V F c w)).
      { split; intros H w Hw; apply Hx; auto; ss S. }
      rewrite K. reflexivity.
    + rewrite IHl by exact S. reflexivity.
Qed.
Lemma sat_all_same : forall cs v, same_on (flat_map con_refs cs ++ flat_map con_incl cs) -> (sat_all P V E v cs <-> sat_all P V F v cs).
Proof.
  induction cs as [|c cs IH]; intros v S; [reflexivity|]. simpl in *.
  rewrite sat_same, IH; [reflexivity| |]; ss S.
Qed.
Hypothesis ext : forall m T a b v, Forall2 sarg_eq a b -> P m T a v -> P m T b v.
Lemma box_has_iff : forall b (p q : sem) v, (forall w, p w <-> q w) -> (box_has b p v <-> box_has b q v).
Proof.
  intros [b|] p q v H; simpl; [|apply H]. split; intros (w & -> & K); exists w; split; auto; apply H; exact K.
Qed.
Lemma opt_has_iff : forall o t f, same_on (opt_refs o) -> (forall w, has P V E t w <-> has P V F t w) ->
  (opt_has V E o (has P V E t) f <-> opt_has V F o (has P V F t) f).
Proof.
  intros o t [v| |v] S H; simpl; [apply H | reflexivity|].
  rewrite H. apply and_iff_compat_l. split; intros (e & -> & K); exists e; split; auto; apply (denotes_same e v S); exact K.
Qed.
Lemma has_same : forall t v, same_on (val_refs t ++ type_refs t) -> (has P V E t v <-> has P V F t v).
Proof.
  induction t as [b cs|l cs|t cs IH|l cs IH|l cs IH|m T b l cs IH] using ptype_ind'; intros v S; rewrite !has_eq; simpl in S;
    (rewrite (sat_all_same cs v); [apply and_iff_compat_r | ss S]).
  - reflexivity.
  - reflexivity.
  - simpl. split; intros (s & H1 & H2); exists s; split; auto; intros x Hx; apply IH; auto; ss S.
  - simpl. cut (forall fs, comps P V E l fs <-> comps P V F l fs).
    { intros K. split; intros (fs & -> & H); exists fs; split; auto; apply K; exact H. }
    assert (S' : same_on (flat_map (fun c => match c with Child _ o t => opt_refs o ++ val_refs t | CompsOf _ _ => [] end) l ++
      flat_map (fun c => match c with Child _ _ t => type_refs t | CompsOf _ T => [T] end) l)) by (ss S).
    clear S. induction IH as [|c l Hc _ IHl]; intros fs; [reflexivity|].
    destruct c as [n o t|m T].
    + simpl. destruct fs as [|[n' f] fs]; [reflexivity|].
      rewrite IHl by (ss S'). rewrite (opt_has_iff o t f); [reflexivity | ss S' | intros w; apply Hc; ss S'].
    + simpl. split; intros (a & b & -> & H1 & H2); exists a, b; (split; [reflexivity|]);
        (split; [apply (type_named_same m T); [apply S'; apply in_or_app; right; left; reflexivity | exact H1] | apply IHl; [ss S' | exact H2]]).
  - simpl. cut (forall n w, alts P V E n w l <-> alts P V F n w l).
    { intros K. split; intros (n & w & -> & H); exists n, w; split; auto; apply K; exact H. }
    assert (S' : same_on (flat_map (fun c => match c with Alt _ t => val_refs t end) l ++
      flat_map (fun c => match c with Alt _ t => type_refs t end) l)) by (ss S).
    clear S. induction IH as [|[n t] l Hc _ IHl]; intros n' w; [reflexivity|].
    simpl. rewrite (Hc w) by (ss S'). rewrite <- IHl by (ss S'). reflexivity.
  - assert (S' : same_on (flat_map (fun a => match a with AType t => val_refs t | AVal e => exp_refs e | AParam _ => [] end) l ++
      flat_map (fun a => match a with AType t => type_refs t | AVal e => [] | AParam n => [n] end) l)) by (ss S).
    unfold kind_has. destruct l as [|a0 l0] eqn:El.
    + apply box_has_iff. intros w. apply type_named_same. apply S. rewrite !in_app_iff. simpl. tauto.
    + rewrite <- El in *. apply box_has_iff. intros w.
      assert (K : Forall2 sarg_eq (map (arg_sem P V E) l) (map (arg_sem P V F) l)).
      { clear El S. induction IH as [|a l Ha _ IHl]; simpl; constructor.
        - destruct a as [t|e|n]; simpl.
          + intros x. apply Ha. ss S'.
          + intros x. apply denotes_same. ss S'.
          + assert (K : same_arg (assoc n E) (assoc n F)) by (apply S'; simpl; apply in_or_app; right; left; reflexivity).
            destruct (assoc n E), (assoc n F); simpl in K; try tauto. apply sarg_eq_refl.
        - apply IHl. ss S'. }
      split; apply ext; auto. clear -K. induction K; constructor; auto using sarg_eq_sym.
Qed.
End same.
