(** Grammars: parameterized types are gone and nothing else has changed; meanings exist. *)
From Verif Require Import Params ParamsSpec ParamsProofs ParamsProofs2 ParamsProofs3.
From Coq Require Import List String Ascii Bool ZArith Lia.
Import ListNotations.
Local Open Scope string_scope.
Local Open Scope list_scope.

(** * Assignments of the result *)
Definition is_plain (a : tas) : bool := match ta_params a with [] => true | _ => false end.
Definition done_from (r : grammar) (f : nat) (m : string) (a a' : tas) : Prop :=
  ta_name a' = ta_name a /\ ta_params a = [] /\ ta_params a' = [] /\ do_type r f m (ta_type a) = Done (ta_type a').
Definition module_from (r : grammar) (f : nat) (md md' : string * list tas) : Prop :=
  fst md' = fst md /\ Forall2 (done_from r f (fst md)) (filter is_plain (snd md)) (snd md').
Lemma do_module_from : forall r f md md', do_module r f md = Done md' -> module_from r f md md'.
Proof.
  intros r f md md' H. unfold do_module in H. bd H. injection H as <-. split; [reflexivity|].
  apply mapR_done in E. fold is_plain in E. simpl.
  assert (F : forall x, In x (filter is_plain (snd md)) -> ta_params x = []).
  { intros x Hx. apply filter_In in Hx. unfold is_plain in Hx. destruct (ta_params x); [reflexivity | destruct Hx; discriminate]. }
  revert F. change (fun a0 => match ta_params a0 with [] => true | _ :: _ => false end) with is_plain in E.
  induction E as [|x y l l' Hx _ IH]; intros F; constructor.
  - unfold do_tas in Hx. bd Hx. injection Hx as <-. split; [reflexivity|]. split; [apply F; left; reflexivity|]. split; [reflexivity | eassumption].
  - apply IH. intros z Hz. apply F. right. exact Hz.
Qed.
Lemma forall2_impl : forall A B (p q : A -> B -> Prop), (forall a b, p a b -> q a b) -> forall l l', Forall2 p l l' -> Forall2 q l l'.
Proof. intros A B p q H l l' K. induction K; constructor; auto. Qed.
Lemma do_grammar_from : forall r f r', do_grammar r f = Done r' -> Forall2 (module_from r f) r r'.
Proof.
  intros r f r' H. unfold do_grammar in H. apply mapR_done in H.
  apply (forall2_impl _ _ _ _ (do_module_from r f) _ _ H).
Qed.
Lemma find_from : forall r f m l l' T, Forall2 (done_from r f m) l l' ->
  match find (fun a => String.eqb (ta_name a) T) l, find (fun a => String.eqb (ta_name a) T) l' with
  | Some a, Some a' => done_from r f m a a'
  | None, None => True
  | _, _ => False
  end.
Proof.
  intros r f m l l' T H. induction H as [|a a' l l' Ha _ IH]; simpl; [exact I|].
  assert (E : ta_name a' = ta_name a) by apply Ha. rewrite E. destruct (ta_name a =? T)%string; auto.
Qed.
Lemma find_filter : forall l T, NoDup (map ta_name l) ->
  find (fun a => String.eqb (ta_name a) T) (filter is_plain l) =
  match find (fun a => String.eqb (ta_name a) T) l with Some a => if is_plain a then Some a else None | None => None end.
Proof.
  induction l as [|a l IH]; intros T H; [reflexivity|]. simpl in H. inversion H as [|? ? H1 H2]; subst.
  simpl. destruct (is_plain a) eqn:E; simpl.
  - destruct (String.eqb_spec (ta_name a) T); [rewrite E; reflexivity | apply IH; assumption].
  - destruct (String.eqb_spec (ta_name a) T) as [<-|]; [|apply IH; assumption]. rewrite E.
    rewrite IH by assumption. destruct (find _ l) as [b|] eqn:F; [|reflexivity].
    exfalso. apply find_some in F. destruct F as [F1 F2]. apply String.eqb_eq in F2. apply H1. rewrite <- F2. apply in_map. exact F1.
Qed.
Lemma assoc_from : forall r f m l l', Forall2 (module_from r f) l l' ->
  match assoc m l, assoc m l' with
  | Some x, Some x' => Forall2 (done_from r f m) (filter is_plain x) x'
  | None, None => True
  | _, _ => False
  end.
Proof.
  intros r f m l l' H. induction H as [|[n x] [n' x'] l l' Ha _ IH]; simpl; [exact I|].
  destruct Ha as [E Ha]. simpl in E, Ha. subst n'. destruct (String.eqb_spec n m) as [->|]; auto.
Qed.
Lemma lookup_from : forall r f r' m T, do_grammar r f = Done r' -> distinct r ->
  match lookup r m T, lookup r' m T with
  | Some a, Some a' => done_from r f m a a'
  | Some a, None => ta_params a <> []
  | None, None => True
  | None, Some _ => False
  end.
Proof.
  intros r f r' m T H D. apply do_grammar_from in H. apply (assoc_from _ _ m) in H. unfold lookup.
  destruct (assoc m r) as [x|] eqn:E, (assoc m r') as [x'|] eqn:E'; try contradiction; auto.
  apply (find_from _ _ _ _ _ T) in H. rewrite find_filter in H by (eapply D, assoc_in, E).
  destruct (find _ x) as [a|]; [|destruct (find _ x'); auto].
  unfold is_plain in H. destruct (ta_params a) eqn:Ep.
  - destruct (find _ x'); [exact H | contradiction].
  - destruct (find _ x'); [contradiction | congruence].
Qed.

Lemma forall2_in_r : forall A B (p : A -> B -> Prop) l l' y, Forall2 p l l' -> In y l' -> exists x, In x l /\ p x y.
Proof.
  intros A B p l l' y H I2. induction H as [|x z l l' Hx _ IH]; [contradiction|]. destruct I2 as [<-|I2].
  - exists x. split; [left; reflexivity | exact Hx].
  - destruct (IH I2) as (w & Hw & K). exists w. split; [right; exact Hw | exact K].
Qed.
Theorem same_meaning : forall r f r' P V, do_grammar r f = Done r' -> hygienic r -> distinct r -> model r P V -> model r' P V.
Proof.
  intros r f r' P V H Hy D M. constructor; [apply (m_ext _ _ _ M)|].
  intros m T ta' a v L. pose proof (lookup_from r f r' m T H D) as K. rewrite L in K.
  destruct (lookup r m T) as [ta|] eqn:E; [|contradiction]. destruct K as (K1 & K2 & K3 & K4).
  assert (Ti : tidy (params_of r) [] (ta_type ta)).
  { destruct (lookup_in _ _ _ _ E) as (md & H1 & H2 & _). destruct Hy as [_ Hy]. specialize (Hy md ta H1 H2). rewrite K2 in Hy. exact Hy. }
  destruct (do_type_sem r P V M Hy f m _ _ K4 Ti) as [J1 _].
  rewrite (m_def _ _ _ M m T ta a v E), K2, K3. simpl. rewrite J1. reflexivity.
Qed.
Theorem all_plain : forall r f r' md a, do_grammar r f = Done r' -> hygienic r -> forall P V, model r P V ->
  In md r' -> In a (snd md) -> ta_params a = [] /\ plain (ta_type a).
Proof.
  intros r f r' md a H Hy P V M I1 I2. apply do_grammar_from in H.
  destruct (forall2_in_r _ _ _ _ _ _ H I1) as (md0 & J1 & _ & J2).
  destruct (forall2_in_r _ _ _ _ _ _ J2 I2) as (a0 & Ka & K1 & K2 & K3 & K4). split; [exact K3|].
  apply filter_In in Ka. destruct Ka as [Ka _]. pose proof (proj2 Hy md0 a0 J1 Ka) as Ti. rewrite K2 in Ti.
  eapply do_type_sem; eassumption.
Qed.

(** * Dependence on the meaning of the types *)
Definition types_same (P Q : types) (l : list (string * string)) : Prop :=
  forall m T a v, In (m, T) l -> P m T a v <-> Q m T a v.
Definition ext (P : types) : Prop := forall m T a b v, Forall2 sarg_eq a b -> P m T a v -> P m T b v.

Section change.
Variables P Q : types.
Variable V : values.
Hypothesis eQ : ext Q.
Notation same l := (types_same P Q l).
Ltac ss S := first [exact S | let m := fresh in let T := fresh in let a := fresh in let v := fresh in let K := fresh in
  intros m T a v K; apply S; clear S; simpl; repeat (rewrite ?in_app_iff, ?in_app_iff in *; simpl in *); tauto].
Lemma type_named_types : forall env m T v, same [(m, T)] -> type_named P env m T v <-> type_named Q env m T v.
Proof. intros env m T v H. unfold type_named. destruct (assoc T env) as [[p|p]|]; try reflexivity. apply H. left. reflexivity. Qed.
Lemma sat_types : forall env c v, same (con_uses c) -> (sat P V env c v <-> sat Q V env c v).
Proof.
  intros env. induction c as [e|a b i j|a i|b j|m T|c IH|c IH|c d IHc IHd|c d IHc IHd|c IH|c d IHc IHd|c IH|c d IHc IHd|c IH|l IH] using pcon_ind';
    intros v S; simpl in S; try reflexivity.
  - simpl. apply type_named_types, S.
  - simpl. split; intros (n & H1 & H2); exists n; split; auto; apply (IH (VInt n) S); exact H2.
  - simpl. split; intros (s & H1 & H2); exists s; split; auto; intros x Hx; apply (IH (VStr x) S); auto.
  - simpl. rewrite IHc, IHd; [reflexivity| |]; ss S.
  - simpl. rewrite IHc, IHd; [reflexivity| |]; ss S.
  - simpl. rewrite IH; [reflexivity|]. ss S.
  - simpl. rewrite IHc, IHd; [reflexivity| |]; ss S.
  - simpl. apply IH. exact S.
  - simpl. rewrite IHc, IHd; [reflexivity| |]; ss S.
  - simpl. split; intros (s & H1 & H2); exists s; split; auto; intros x Hx; apply (IH x S); auto.
  - change (sat_withs P V env v l <-> sat_withs Q V env v l).
    induction IH as [|[[n k] o] l Hx _ IHl]; [reflexivity|]. simpl in Hx, S. simpl.
    destruct o as [c|].
    + rewrite IHl by (ss S).
      assert (K : (forall w, part n v = Some w -> sat P V env c w) <-> (forall w, part n v = Some w -> sat Q V env c w)).
      { split; intros H w Hw; apply Hx; auto; ss S. }
      rewrite K. reflexivity.
    + rewrite IHl by exact S. reflexivity.
Qed.
Lemma sat_all_types : forall env cs v, same (flat_map con_uses cs) -> (sat_all P V env v cs <-> sat_all Q V env v cs).
Proof.
  induction cs as [|c cs IH]; intros v S; [reflexivity|]. simpl in *.
  rewrite sat_types, IH; [reflexivity| |]; ss S.
Qed.
Lemma has_types : forall env t v, same (uses t) -> (has P V env t v <-> has Q V env t v).
Proof.
  intros env. induction t as [b cs|l cs|t cs IH|l cs IH|l cs IH|m T b l cs IH] using ptype_ind'; intros v S; rewrite !has_eq; simpl in S;
    (rewrite (sat_all_types env cs v); [apply and_iff_compat_r | ss S]).
  - reflexivity.
  - reflexivity.
  - simpl. split; intros (s & H1 & H2); exists s; split; auto; intros x Hx; apply IH; auto; ss S.
  - simpl. cut (forall fs, comps P V env l fs <-> comps Q V env l fs).
    { intros K. split; intros (fs & -> & H); exists fs; split; auto; apply K; exact H. }
    assert (S' : same (flat_map (fun c => match c with Child _ _ t => uses t | CompsOf m T => [(m, T)] end) l)) by (ss S).
    clear S. induction IH as [|c l Hc _ IHl]; intros fs; [reflexivity|].
    destruct c as [n o t|m T]; simpl in S', Hc.
    + simpl. destruct fs as [|[n' f] fs]; [reflexivity|]. rewrite IHl by (ss S').
      assert (K : forall w, has P V env t w <-> has Q V env t w) by (intros w; apply Hc; ss S').
      assert (J : opt_has V env o (has P V env t) f <-> opt_has V env o (has Q V env t) f) by (destruct f; simpl; rewrite ?K; reflexivity).
      rewrite J. reflexivity.
    + simpl. assert (K : forall w, type_named P env m T w <-> type_named Q env m T w) by (intros w; apply type_named_types; ss S').
      assert (J : forall y, comps P V env l y <-> comps Q V env l y) by (intros y; apply IHl; ss S').
      split; intros (x & y & -> & H1 & H2); exists x, y; (split; [reflexivity|]); split; (apply K || apply J); assumption.
  - simpl. cut (forall n w, alts P V env n w l <-> alts Q V env n w l).
    { intros K. split; intros (n & w & -> & H); exists n, w; split; auto; apply K; exact H. }
    assert (S' : same (flat_map (fun c => match c with Alt _ t => uses t end) l)) by (ss S).
    clear S. induction IH as [|[n t] l Hc _ IHl]; intros n' w; [reflexivity|]. simpl in S', Hc. simpl.
    rewrite IHl by (ss S'). rewrite Hc by (ss S'). reflexivity.
  - assert (S' : same (flat_map (fun a => match a with AType t => uses t | _ => [] end) l)) by (ss S).
    assert (S0 : same [(m, T)]) by (intros m' T' a v' [K|[]]; apply S; apply in_or_app; right; left; exact K). clear S.
    assert (K : Forall2 sarg_eq (map (arg_sem P V env) l) (map (arg_sem Q V env) l)).
    { clear S0. induction IH as [|a l Ha _ IHl]; simpl; constructor.
      - destruct a as [t|e|n]; [|apply sarg_eq_refl|apply sarg_eq_refl]. intros w. apply Ha. simpl in S'. ss S'.
      - apply IHl. simpl in S'. ss S'. }
    destruct l as [|a0 l].
    + simpl. apply box_has_iff. intros w. apply type_named_types, S0.
    + simpl kind_has. apply box_has_iff. intros w. split; intros H.
      * eapply eQ; [exact K|]. apply S0; [left; reflexivity | exact H].
      * apply S0; [left; reflexivity|]. eapply eQ; [|exact H].
        change (Forall2 sarg_eq (map (arg_sem Q V env) (a0 :: l)) (map (arg_sem P V env) (a0 :: l))).
        clear - K. induction K; constructor; auto using sarg_eq_sym.
Qed.
End change.

(** * Meanings of grammars without cycles *)
Section exist.
Variable r : grammar.
Variable V : values.
Fixpoint level (n : nat) : types := fun m T a v =>
  match n with
  | O => False
  | S n =>
      match lookup r m T with
      | Some ta => Forall2 suits (ta_params ta) a /\ has (level n) V (combine (map pname (ta_params ta)) a) (ta_type ta) v
      | None => False
      end
  end.
Lemma suits_eq : forall ps a b, Forall2 sarg_eq a b -> Forall2 suits ps a -> Forall2 suits ps b.
Proof.
  intros ps a b H. revert ps. induction H as [|x y a b Hx _ IH]; intros ps K; inversion K; subst; constructor; auto.
  destruct x0, x, y; simpl in *; tauto.
Qed.
Lemma combine_same : forall ns a b n, Forall2 sarg_eq a b -> same_arg (assoc n (combine ns a)) (assoc n (combine ns b)).
Proof.
  induction ns as [|x ns IH]; intros a b n H; [exact I|]. destruct H as [|p q a b Hp H]; [exact I|].
  simpl. destruct (x =? n)%string; [exact Hp | apply IH; exact H].
Qed.
Lemma level_ext : forall n, ext (level n).
Proof.
  induction n as [|n IH]; intros m T a b v H K; simpl in *; [exact K|].
  destruct (lookup r m T) as [ta|]; [|exact K]. destruct K as [K1 K2]. split; [eapply suits_eq; eassumption|].
  revert K2. apply has_same; [exact IH|]. intros x _. apply same_arg_sym, combine_same, H.
Qed.
Variable rank : string -> string -> nat.
Hypothesis R : forall m T ta m' T', lookup r m T = Some ta -> In (m', T') (uses (ta_type ta)) ->
    lookup r m' T' <> None -> rank m' T' < rank m T.
Lemma level_stable : forall k m T, rank m T < k -> forall j a v, rank m T < j -> level k m T a v <-> level j m T a v.
Proof.
  induction k as [|k IH]; intros m T L j a v J; [lia|]. destruct j as [|j]; [lia|]. simpl.
  destruct (lookup r m T) as [ta|] eqn:E; [|reflexivity]. apply and_iff_compat_l. apply has_types; [apply level_ext|].
  intros m' T' a' v' H. destruct (lookup r m' T') as [tb|] eqn:E'.
  - pose proof (R m T ta m' T' E H ltac:(congruence)). apply IH; lia.
  - destruct k, j; simpl; rewrite ?E'; reflexivity.
Qed.
Lemma model_exists : exists P, model r P V.
Proof.
  exists (fun m T => level (S (rank m T)) m T). constructor.
  - intros m T. apply level_ext.
  - intros m T ta a v E. simpl level at 1. rewrite E. apply and_iff_compat_l. apply has_types.
    + intros m' T'. apply level_ext.
    + intros m' T' a' v' H. destruct (lookup r m' T') as [tb|] eqn:E'.
      * pose proof (R m T ta m' T' E H ltac:(congruence)). apply level_stable; lia.
      * destruct (rank m T); simpl; rewrite ?E'; reflexivity.
Qed.
Lemma model_unique : forall P Q, model r P V -> model r Q V ->
  (forall m T a v, lookup r m T = None -> P m T a v <-> Q m T a v) -> forall m T a v, P m T a v <-> Q m T a v.
Proof.
  intros P Q MP MQ U. cut (forall k m T, rank m T < k -> forall a v, P m T a v <-> Q m T a v).
  { intros K m T a v. apply (K (S (rank m T))). lia. }
  induction k as [|k IH]; intros m T L a v; [lia|].
  destruct (lookup r m T) as [ta|] eqn:E; [|apply U; exact E].
  rewrite (m_def _ _ _ MP _ _ _ _ _ E), (m_def _ _ _ MQ _ _ _ _ _ E). apply and_iff_compat_l.
  apply has_types; [exact (m_ext _ _ _ MQ)|].
  intros m' T' a' v' H. destruct (lookup r m' T') as [tb|] eqn:E'; [|apply U; exact E'].
  pose proof (R m T ta m' T' E H ltac:(congruence)). apply IH. lia.
Qed.
End exist.
