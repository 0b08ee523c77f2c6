(** Lemmas on the copying of types, for C67. *)
From Verif Require Import Params ParamsSpec.
From Coq Require Import List String Ascii Bool ZArith Lia.
Import ListNotations.
Local Open Scope string_scope.
Local Open Scope list_scope.

(** * Induction *)
Lemma pexp_ind' (Q : pexp -> Prop)
  (Hi : forall z, Q (EInt z)) (Hb : forall b, Q (EBool b)) (Hs : forall s, Q (EStr s)) (Hr : forall m n, Q (ERef m n))
  (Ho : forall l, Forall Q l -> Q (EOf l)) (Hq : forall l, Forall (fun x => Q (snd x)) l -> Q (ESeq l))
  (Hc : forall n e, Q e -> Q (ECh n e)) : forall e, Q e.
Proof.
  fix IH 1. intros [z|b|s|m n|l|l|n e].
  - apply Hi.
  - apply Hb.
  - apply Hs.
  - apply Hr.
  - apply Ho. induction l as [|x l IHl]; constructor; [apply IH | exact IHl].
  - apply Hq. induction l as [|[n x] l IHl]; constructor; [apply IH | exact IHl].
  - apply Hc, IH.
Qed.

Lemma pcon_ind' (Q : pcon -> Prop)
  (H1 : forall e, Q (CSingle e)) (H2 : forall a b i j, Q (CRange a b i j)) (H3 : forall a i, Q (CFrom a i))
  (H4 : forall a i, Q (CTo a i)) (H5 : forall m T, Q (CIncl m T)) (H6 : forall c, Q c -> Q (CSize c))
  (H7 : forall c, Q c -> Q (CAlpha c)) (H8 : forall c d, Q c -> Q d -> Q (CUnion c d)) (H9 : forall c d, Q c -> Q d -> Q (CInter c d))
  (H10 : forall c, Q c -> Q (CAll c)) (H11 : forall c d, Q c -> Q d -> Q (CExcept c d)) (H12 : forall c, Q c -> Q (CRoot c))
  (H13 : forall c d, Q c -> Q d -> Q (CRoot2 c d)) (H14 : forall c, Q c -> Q (CWith c))
  (H15 : forall l, Forall (fun x => match snd x with Some c => Q c | None => True end) l -> Q (CWiths l)) : forall c, Q c.
Proof.
  fix IH 1. intros c. destruct c.
  - apply H1.
  - apply H2.
  - apply H3.
  - apply H4.
  - apply H5.
  - apply H6, IH.
  - apply H7, IH.
  - apply H8; apply IH.
  - apply H9; apply IH.
  - apply H10, IH.
  - apply H11; apply IH.
  - apply H12, IH.
  - apply H13; apply IH.
  - apply H14, IH.
  - apply H15. induction l as [|[[n m] o] l IHl]; constructor; [|exact IHl].
    simpl. destruct o; [apply IH | exact I].
Qed.

Lemma ptype_ind' (Q : ptype -> Prop)
  (H1 : forall b cs, Q (PT (KBase b) cs)) (H2 : forall l cs, Q (PT (KEnum l) cs)) (H3 : forall t cs, Q t -> Q (PT (KOf t) cs))
  (H4 : forall l cs, Forall (fun c => match c with Child _ _ t => Q t | CompsOf _ _ => True end) l -> Q (PT (KSeq l) cs))
  (H5 : forall l cs, Forall (fun c => match c with Alt _ t => Q t end) l -> Q (PT (KChoice l) cs))
  (H6 : forall m T b l cs, Forall (fun a => match a with AType t => Q t | _ => True end) l -> Q (PT (KRef m T b l) cs)) :
  forall t, Q t.
Proof.
  fix IH 1. intros [k cs]. destruct k as [b|l|t|l|l|m T b l].
  - apply H1.
  - apply H2.
  - apply H3, IH.
  - apply H4. induction l as [|c l IHl]; constructor; [|exact IHl]. destruct c; [apply IH | exact I].
  - apply H5. induction l as [|c l IHl]; constructor; [|exact IHl]. destruct c; apply IH.
  - apply H6. induction l as [|c l IHl]; constructor; [|exact IHl]. destruct c; [apply IH | exact I | exact I].
Qed.

(** * Results *)
Lemma bind_done : forall A B (x : res A) (f : A -> res B) y, bind x f = Done y -> exists a, x = Done a /\ f a = Done y.
Proof. intros A B [a| |] f y H; try discriminate. exists a. auto. Qed.
Lemma mapR_done : forall A B (f : A -> res B) l l', mapR f l = Done l' -> Forall2 (fun x y => f x = Done y) l l'.
Proof.
  intros A B f. induction l as [|x l IH]; simpl; intros l' H.
  - injection H as <-. constructor.
  - apply bind_done in H. destruct H as (y & H1 & H2). apply bind_done in H2. destruct H2 as (r & H2 & H3).
    injection H3 as <-. constructor; auto.
Qed.
Ltac bd H := let a := fresh "a" in let E := fresh "E" in apply bind_done in H; destruct H as (a & E & H).

(** * Unfolding the meaning of types *)
Section unfold.
Variable P : types.
Variable V : values.
Variable env : senv.
Fixpoint denotes_all (l : list pexp) (vs : list sval) : Prop :=
  match l, vs with [], [] => True | e :: l, w :: vs => denotes V env e w /\ denotes_all l vs | _, _ => False end.
Fixpoint denotes_fields (l : list (string * pexp)) (fs : list (string * sfield)) : Prop :=
  match l, fs with
  | [], [] => True | (n, e) :: l, (n', Given w) :: fs => n = n' /\ denotes V env e w /\ denotes_fields l fs | _, _ => False end.
Definition sat_withs (v : sval) : list (string * pmark * option pcon) -> Prop := fix all l :=
  match l with
  | [] => True
  | (n, k, oc) :: l =>
      match k with MarkPresent => part n v <> None | MarkAbsent => part n v = None | _ => True end /\
      match oc with Some c => forall w, part n v = Some w -> sat P V env c w | None => True end /\ all l
  end.
Definition sat_all (v : sval) : list pcon -> Prop := fix all cs := match cs with [] => True | c :: cs => sat P V env c v /\ all cs end.
Fixpoint comps (l : list pchild) (fs : list (string * sfield)) : Prop :=
  match l with
  | [] => fs = []
  | Child n o t :: l => match fs with (n', f) :: fs => n = n' /\ opt_has V env o (has P V env t) f /\ comps l fs | [] => False end
  | CompsOf m T :: l => exists a b, fs = a ++ b /\ type_named P env m T (VSeq a) /\ comps l b
  end.
Definition alts (n : string) (w : sval) : list palt -> Prop := fix any l :=
  match l with [] => False | Alt n' t :: l => (n = n' /\ has P V env t w) \/ any l end.
Definition arg_sem (a : parg) : sarg :=
  match a with
  | AType t => SType (has P V env t)
  | AVal e => SVal (denotes V env e)
  | AParam n => match assoc n env with Some a => a | None => SType (fun _ => False) end
  end.
Definition kind_has (k : pkind) (v : sval) : Prop :=
  match k with
  | KBase b => base_has b v
  | KEnum items => exists x, In x items /\ v = VEnum items x
  | KOf t => exists l, v = VList l /\ forall x, In x l -> has P V env t x
  | KSeq l => exists fs, v = VSeq fs /\ comps l fs
  | KChoice l => exists n w, v = VCh n w /\ alts n w l
  | KRef m T box args => match args with [] => box_has box (type_named P env m T) v | _ => box_has box (P m T (map arg_sem args)) v end
  end.
Lemma has_eq : forall k cs v, has P V env (PT k cs) v = (kind_has k v /\ sat_all v cs).
Proof.
  intros k cs v. destruct k as [b|l|t|l|l|m T box args]; try reflexivity.
  destruct args as [|a args]; [reflexivity|].
  simpl. f_equal.
  assert (E : forall l, (fix go (l : list parg) : list sarg :=
     match l with
     | [] => []
     | AType t :: l0 => SType (has P V env t) :: go l0
     | AVal e :: l0 => SVal (denotes V env e) :: go l0
     | AParam n :: l0 => match assoc n env with Some a0 => a0 | None => SType (fun _ => False) end :: go l0
     end) l = map arg_sem l).
  { induction l as [|x l IH]; [reflexivity|]. destruct x; simpl; rewrite IH; reflexivity. }
  rewrite <- E. destruct a; reflexivity.
Qed.
End unfold.

Lemma assoc_map : forall A B (f : A -> B) n l, assoc n (map (fun x => (fst x, f (snd x))) l) = option_map f (assoc n l).
Proof. intros A B f n. induction l as [|[m a] l IH]; [reflexivity|]. simpl. destruct (m =? n)%string; auto. Qed.
Lemma assoc_in : forall A n (l : list (string * A)) a, assoc n l = Some a -> In (n, a) l.
Proof.
  intros A n. induction l as [|[m b] l IH]; simpl; intros a H; [discriminate|].
  destruct (String.eqb_spec m n); [injection H as <-; subst; auto | auto].
Qed.
Lemma assoc_none : forall A n (l : list (string * A)), assoc n l = None <-> ~ In n (map fst l).
Proof.
  intros A n. induction l as [|[m b] l IH]; simpl; [tauto|].
  destruct (String.eqb_spec m n); [split; [discriminate | tauto] | rewrite IH; tauto].
Qed.

(** * Values and constraints *)
Definition agree (V : values) (E : senv) (env : list (string * parg)) (refs incl : list string) : Prop :=
  (forall n, In n refs ->
     match assoc n env with
     | Some (AVal e) => assoc n E = Some (SVal (denotes V [] e))
     | Some _ => True
     | None => assoc n E = None
     end) /\
  (forall T, In T incl -> assoc T E = None).
Lemma agree_sub : forall V E env refs incl refs' incl', agree V E env refs incl ->
  (forall n, In n refs' -> In n refs) -> (forall n, In n incl' -> In n incl) -> agree V E env refs' incl'.
Proof. intros V E env refs incl refs' incl' [A B] H1 H2. split; intros n Hn; [apply A; auto | apply B; auto]. Qed.

(** The type given for a value is ENUMERATED only if the value is an item of it. *)
Definition governed (act : ptype -> res ptype) (t : option ptype) (v : sval) : Prop :=
  forall tt a items, t = Some tt -> act tt = Done a -> kind a = KEnum items -> exists x, item_of v = Some (items, x).
Lemma governed_none : forall act v, governed act None v.
Proof. intros act v tt a items H. discriminate. Qed.

Section copying.
Variable P : types.
Variable V : values.
Variable act : ptype -> res ptype.
Variables cur old : string.
Variable env : list (string * parg).
Variable E : senv.
Notation cexp := (clone_exp act cur old env).
Notation ccon := (clone_con act cur old env).

Lemma clone_exp_sem : forall e t e' v, cexp t e = Done e' -> governed act t v -> agree V E env (exp_refs e) [] ->
  (denotes V [] e' v <-> denotes V E e v).
Proof.
  induction e as [z|b|s|m n|l IH|l IH|n e IH] using pexp_ind'; intros t e' v C G A.
  - injection C as <-. reflexivity.
  - injection C as <-. reflexivity.
  - injection C as <-. reflexivity.
  - destruct A as [A _]. specialize (A n (or_introl eq_refl)). simpl in C.
    destruct (assoc n env) as [[x|x|x]|] eqn:En; try discriminate.
    + injection C as <-. simpl. unfold value_named. rewrite A. reflexivity.
    + assert (K : forall m', m' = m -> (denotes V [] (ERef m' n) v <-> denotes V E (ERef m n) v)).
      { intros m' ->. simpl. unfold value_named. rewrite A. simpl. reflexivity. }
      destruct t as [tt|]; [|injection C as <-; apply K; reflexivity].
      bd C. destruct (kind a) as [b|items|x|x|x|a1 a2 a3 a4] eqn:Ek; try (injection C as <-; apply K; reflexivity).
      destruct (String.eqb old m && mem n items) eqn:Em; [|injection C as <-; apply K; reflexivity].
      injection C as <-. apply andb_prop in Em. destruct Em as [_ Em].
      destruct (G tt a items eq_refl E0 Ek) as (x & Hx).
      simpl. rewrite A, Hx, Em. reflexivity.
  - simpl in C. bd C. injection C as <-. apply mapR_done in E0.
    cut (forall vs, denotes_all V [] a vs <-> denotes_all V E l vs).
    { intros K. simpl. split; intros (vs & -> & H); exists vs; split; auto; apply (K vs); exact H. }
    simpl in A. revert a E0 A. induction IH as [|x l Hx _ IHl]; intros a E0 A vs; inversion E0; subst.
    + reflexivity.
    + destruct vs as [|w vs]; [reflexivity|]. simpl.
      rewrite (Hx None y w H1 (governed_none _ _)), (IHl l' H3); [reflexivity| |].
      * eapply agree_sub; [exact A | intros n0 Hn; simpl; apply in_or_app; auto | tauto].
      * eapply agree_sub; [exact A | intros n0 Hn; simpl; apply in_or_app; auto | tauto].
  - simpl in C. bd C. injection C as <-.
    cut (forall vs, denotes_fields V [] a vs <-> denotes_fields V E l vs).
    { intros K. simpl. split; intros (vs & -> & H); exists vs; split; auto; apply (K vs); exact H. }
    simpl in A. revert a E0 A. induction IH as [|[n x] l Hx _ IHl]; intros a E0 A vs.
    + injection E0 as <-. reflexivity.
    + bd E0. bd E0. injection E0 as <-.
      destruct vs as [|[n' [w| |w]] vs]; [reflexivity| |reflexivity|reflexivity].
      simpl. simpl in Hx. rewrite (Hx None a0 w E1 (governed_none _ _)), (IHl a1 E2); [reflexivity| |].
      * eapply agree_sub; [exact A | intros n0 Hn; simpl; apply in_or_app; auto | tauto].
      * eapply agree_sub; [exact A | intros n0 Hn; simpl; apply in_or_app; auto | tauto].
  - simpl in C. bd C. injection C as <-. simpl.
    split; intros (w & -> & H); exists w; split; auto; eapply (IH None a w E0 (governed_none _ _) A); exact H.
Qed.

(** A bound of a range. *)
Lemma clone_bound_sem : forall e t e' v, cexp t e = Done e' -> governed act t v -> agree V E env (exp_refs e) [] ->
  code v <> None -> forall x, (denotes V [] e' x <-> denotes V E e x).
Proof.
  intros e t e' v C G A Hv x. apply (clone_exp_sem e t e' x C); [|exact A].
  intros tt a items Ht Ha Hk. destruct (G tt a items Ht Ha Hk) as (y & Hy).
  exfalso. apply Hv. destruct v as [| |s| | | | | |]; try discriminate; reflexivity.
Qed.
Lemma below_code_r : forall i x v, below i x v -> code v <> None.
Proof. intros i x v (a & b & _ & H & _) K. congruence. Qed.
Lemma below_code_l : forall i x v, below i v x -> code v <> None.
Proof. intros i x v (a & b & H & _) K. congruence. Qed.

Ltac sub A := eapply agree_sub; [exact A | intros ? ?; simpl; rewrite ?in_app_iff; tauto | intros ? ?; simpl in *; rewrite ?in_app_iff; tauto].
Ltac subc A := eapply agree_sub; [exact A | intros ? ?; simpl; rewrite ?in_app_iff; tauto | intros ? ?; simpl in *; tauto].
Lemma clone_con_sem : forall c t c' v, ccon t c = Done c' -> governed act t v -> agree V E env (con_refs c) (con_incl c) ->
  (sat P V [] c' v <-> sat P V E c v).
Proof.
  induction c as [e|a b i j|a i|b j|m T|c IH|c IH|c d IHc IHd|c d IHc IHd|c IH|c d IHc IHd|c IH|c d IHc IHd|c IH|l IH] using pcon_ind';
    intros t c' v C G A; simpl in C; simpl con_refs in A; simpl con_incl in A.
  - bd C. injection C as <-. simpl. eapply clone_exp_sem; eassumption.
  - bd C. bd C. injection C as <-. simpl.
    assert (Aa : agree V E env (exp_refs a) []) by (sub A). assert (Ab : agree V E env (exp_refs b) []) by (sub A).
    split; intros (x & y & H1 & H2 & H3 & H4); exists x, y; pose proof (below_code_r _ _ _ H3) as Hv;
      rewrite (clone_bound_sem a t a0 v E0 G Aa Hv x), (clone_bound_sem b t a1 v E1 G Ab Hv y) in *; auto.
  - bd C. injection C as <-. simpl.
    split; intros (x & H1 & H2); exists x; pose proof (below_code_r _ _ _ H2) as Hv;
      rewrite (clone_bound_sem a t a0 v E0 G A Hv x) in *; auto.
  - bd C. injection C as <-. simpl.
    split; intros (x & H1 & H2); exists x; pose proof (below_code_l _ _ _ H2) as Hv;
      rewrite (clone_bound_sem b t a v E0 G A Hv x) in *; auto.
  - injection C as <-. simpl. unfold type_named. simpl. destruct A as [_ A]. rewrite (A T (or_introl eq_refl)). reflexivity.
  - bd C. injection C as <-. simpl. split; intros (n & H1 & H2); exists n; split; auto; apply (IH None a (VInt n) E0 (governed_none _ _) A); exact H2.
  - bd C. injection C as <-. simpl. split; intros (s & H1 & H2); exists s; split; auto; intros x Hx; apply (IH None a (VStr x) E0 (governed_none _ _) A); auto.
  - bd C. bd C. injection C as <-. simpl. rewrite (IHc t a v E0 G), (IHd t a0 v E1 G); [reflexivity| |]; sub A.
  - bd C. bd C. injection C as <-. simpl. rewrite (IHc t a v E0 G), (IHd t a0 v E1 G); [reflexivity| |]; sub A.
  - bd C. injection C as <-. simpl. rewrite (IH t a v E0 G A). reflexivity.
  - bd C. bd C. injection C as <-. simpl. rewrite (IHc t a v E0 G), (IHd t a0 v E1 G); [reflexivity| |]; sub A.
  - discriminate.
  - bd C. bd C. injection C as <-. simpl. rewrite (IHc t a v E0 G), (IHd t a0 v E1 G); [reflexivity| |]; sub A.
  - bd C. injection C as <-. simpl. split; intros (s & H1 & H2); exists s; split; auto; intros x Hx; apply (IH None a x E0 (governed_none _ _) A); auto.
  - bd C. injection C as <-.
    change (sat_withs P V [] v a <-> sat_withs P V E v l).
    revert a E0 A. induction IH as [|[[n k] o] l Hx _ IHl]; intros a E0 A.
    + injection E0 as <-. reflexivity.
    + simpl in Hx. destruct o as [c|].
      * bd E0. bd E0. injection E0 as <-. simpl.
        assert (A1 : agree V E env (con_refs c) (con_incl c)).
        { eapply agree_sub; [exact A| |]; intros; simpl; apply in_or_app; auto. }
        rewrite (IHl a1 E2) by (eapply agree_sub; [exact A| |]; intros; simpl; apply in_or_app; auto).
        assert (K : (forall w, part n v = Some w -> sat P V [] a0 w) <-> (forall w, part n v = Some w -> sat P V E c w)).
        { split; intros H w Hw; apply (Hx None a0 w E1 (governed_none _ _) A1); auto. }
        rewrite K. reflexivity.
      * bd E0. injection E0 as <-. simpl. rewrite (IHl a0 E1) by exact A. reflexivity.
Qed.
Lemma clone_cons_sem : forall t cs cs' v, clone_cons act cur old env t cs = Done cs' -> governed act (Some t) v ->
  agree V E env (flat_map con_refs cs) (flat_map con_incl cs) -> (sat_all P V [] v cs' <-> sat_all P V E v cs).
Proof.
  intros t cs cs' v C G A. apply mapR_done in C. induction C as [|c c' cs cs' H C IH]; [reflexivity|].
  simpl. rewrite (clone_con_sem c (Some t) c' v H G), IH; [reflexivity| |];
    (eapply agree_sub; [exact A| |]; intros; simpl; apply in_or_app; auto).
Qed.
End copying.
