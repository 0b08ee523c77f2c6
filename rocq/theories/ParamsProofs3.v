(** Removing the parameters preserves the meaning, for C67. *)
From Verif Require Import Params ParamsSpec ParamsProofs ParamsProofs2.
From Coq Require Import List String Ascii Bool ZArith Arith Lia.
Import ListNotations.
Local Open Scope string_scope.
Local Open Scope list_scope.

Lemma and_iff_compat_l' : forall A B C : Prop, (A -> (B <-> C)) -> (A /\ B <-> A /\ C).
Proof. tauto. Qed.
Lemma and_assoc_l : forall A B C : Prop, A /\ B /\ C <-> (A /\ B) /\ C.
Proof. tauto. Qed.
Section removal.
Variable r : grammar.
Variable P : types.
Variable V : values.
Hypothesis M : model r P V.
Hypothesis Hy : hygienic r.
Notation N := (params_of r).

Lemma box_item : forall b p v items, box_has b p v -> (forall w, p w -> exists x, item_of w = Some (items, x)) -> exists x, item_of v = Some (items, x).
Proof. intros [b|] p v items H K; simpl in H; [|auto]. destruct H as (w & -> & H). simpl. auto. Qed.

Lemma actual_enum : forall f t a items E v, actual r f t = Done a -> kind a = KEnum items ->
  (forall n, assoc n E <> None -> In n N) -> kind_has P V E (kind t) v -> exists x, item_of v = Some (items, x).
Proof.
  induction f as [|f IH]; intros [k cs] a items E v A K D H; simpl kind in H;
    destruct k as [b|l|t|l|l|m T b args]; simpl in A; try (injection A as <-; simpl in K; try discriminate K).
  - injection K as ->. destruct H as (x & _ & ->). exists x. reflexivity.
  - discriminate.
  - injection K as ->. destruct H as (x & _ & ->). exists x. reflexivity.
  - destruct (lookup r m T) as [ta|] eqn:L; [|discriminate].
    assert (Q : forall sargs w, P m T sargs w -> exists x, item_of w = Some (items, x)).
    { intros sargs w Hw. apply (m_def _ _ _ M m T ta sargs w L) in Hw. destruct Hw as [_ Hw].
      destruct (ta_type ta) as [k' cs'] eqn:Et. rewrite has_eq in Hw. destruct Hw as [Hw _]. rewrite <- Et in A.
      rewrite Et in A. apply (IH (PT k' cs') a items _ w A K) in Hw; [exact Hw|].
      intros n Hn. destruct (assoc n (combine (map pname (ta_params ta)) sargs)) as [s|] eqn:En; [|congruence].
      apply assoc_in, in_combine_l in En. eapply lookup_params; eassumption. }
    simpl in H. destruct args as [|a0 args].
    + eapply box_item; [exact H|]. intros w Hw. unfold type_named in Hw.
      destruct (assoc T E) as [s|] eqn:En.
      * destruct Hy as [Hy1 _]. rewrite (Hy1 m T) in L; [discriminate|]. apply D. congruence.
      * eapply Q, Hw.
    + eapply box_item; [exact H|]. intros w Hw. eapply Q, Hw.
Qed.

(** * Arguments *)
(** Resolved arguments: no parameter is named in their constraints and values. *)
Definition arg_ok (a : parg) : Prop :=
  match a with
  | AType x => plain x /\ apart (flat_map con_refs (cons_of x)) N
  | AVal e => apart (exp_refs e) N
  | AParam _ => False
  end.
Definition env_ok (env : list (string * parg)) : Prop := forall n a, In (n, a) env -> In n N /\ arg_ok a.
Definition env_sem (env : list (string * parg)) : senv := map (fun x => (fst x, arg_sem P V [] (snd x))) env.
Lemma env_sem_assoc : forall env n, assoc n (env_sem env) = option_map (arg_sem P V []) (assoc n env).
Proof. intros. apply assoc_map. Qed.
Lemma env_ok_dom : forall env n, env_ok env -> assoc n (env_sem env) <> None -> In n N.
Proof.
  intros env n K H. rewrite env_sem_assoc in H. destruct (assoc n env) as [a|] eqn:E; [|simpl in H; congruence].
  apply assoc_in in E. apply K in E. tauto.
Qed.
Lemma env_dom : forall (env : list (string * parg)) n a, assoc n env = Some a -> In n (map fst env).
Proof. intros env n a H. apply assoc_in in H. apply (in_map fst) in H. exact H. Qed.

Section copy.
Variable f : nat.
Variables cur old : string.
Variable env : list (string * parg).
Hypothesis Eok : env_ok env.
Notation act := (actual r f).

Lemma governed_kind : forall k cs E v, (forall n, assoc n E <> None -> In n N) -> kind_has P V E k v -> governed act (Some (PT k cs)) v.
Proof.
  intros k cs E v D H tt a items Et Ea Ek. injection Et as <-.
  exact (actual_enum f (PT k cs) a items E v Ea Ek D H).
Qed.

(** What a copied value names is neither a parameter. *)
Lemma clone_exp_refs : forall e t e', clone_exp act cur old env t e = Done e' ->
  (forall n, In n (exp_refs e) -> In n N -> In n (map fst env)) -> apart (exp_refs e') N.
Proof.
  induction e as [z|b|s|m n|l IH|l IH|n e IH] using pexp_ind'; intros t e' C A.
  - injection C as <-. intros n [].
  - injection C as <-. intros n [].
  - injection C as <-. intros n [].
  - simpl in C. destruct (assoc n env) as [[x|x|x]|] eqn:En; try discriminate.
    + injection C as <-. apply assoc_in in En. apply Eok in En. apply En.
    + assert (K : forall m', apart (exp_refs (ERef m' n)) N).
      { intros m' n' [<-|[]] Hn. apply assoc_none in En. apply En. apply A; [left; reflexivity | exact Hn]. }
      destruct t as [tt|]; [|injection C as <-; apply K].
      bd C. destruct (kind a) as [b|items|x|x|x|a1 a2 a3 a4]; try (injection C as <-; apply K).
      destruct (String.eqb old m && mem n items); injection C as <-; apply K.
  - simpl in C. bd C. injection C as <-. apply mapR_done in E. simpl in *.
    revert a E A. induction IH as [|x l Hx _ IHl]; intros a E0 A; inversion E0; subst; [intros n []|].
    simpl in *. intros n Hn. apply in_app_or in Hn. destruct Hn as [Hn|Hn].
    + revert n Hn. eapply Hx; [eassumption|]. intros n Hn. apply A. apply in_or_app. auto.
    + revert n Hn. apply IHl; [assumption|]. intros n Hn. apply A. apply in_or_app. auto.
  - simpl in C. bd C. injection C as <-. simpl in *.
    revert a E A. induction IH as [|[n0 x] l Hx _ IHl]; intros a E0 A.
    + injection E0 as <-. intros n [].
    + bd E0. bd E0. injection E0 as <-. simpl in *. intros n Hn. apply in_app_or in Hn. destruct Hn as [Hn|Hn].
      * revert n Hn. eapply Hx; [eassumption|]. intros n Hn. apply A. apply in_or_app. auto.
      * revert n Hn. apply IHl; [assumption|]. intros n Hn. apply A. apply in_or_app. auto.
  - simpl in C. bd C. injection C as <-. simpl. eapply IH; eassumption.
Qed.
Lemma apart_app : forall l l', apart l N -> apart l' N -> apart (l ++ l') N.
Proof. intros l l' H K n Hn. apply in_app_or in Hn. destruct Hn as [Hn|Hn]; [apply H | apply K]; exact Hn. Qed.
Ltac two C IHc IHd A := bd C; bd C; injection C as <-; simpl; apply apart_app;
  [eapply IHc; [eassumption | intros; apply A; auto; apply in_or_app; auto] | eapply IHd; [eassumption | intros; apply A; auto; apply in_or_app; auto]].
Lemma clone_con_refs : forall c t c', clone_con act cur old env t c = Done c' ->
  (forall n, In n (con_refs c) -> In n N -> In n (map fst env)) -> apart (con_refs c') N.
Proof.
  induction c as [e|a b i j|a i|b j|m T|c IH|c IH|c d IHc IHd|c d IHc IHd|c IH|c d IHc IHd|c IH|c d IHc IHd|c IH|l IH] using pcon_ind';
    intros t c' C A; simpl in C; simpl con_refs in A.
  - bd C. injection C as <-. simpl. eapply clone_exp_refs; eassumption.
  - two C clone_exp_refs clone_exp_refs A.
  - bd C. injection C as <-. simpl. eapply clone_exp_refs; eassumption.
  - bd C. injection C as <-. simpl. eapply clone_exp_refs; eassumption.
  - injection C as <-. intros n [].
  - bd C. injection C as <-. simpl. eapply IH; eassumption.
  - bd C. injection C as <-. simpl. eapply IH; eassumption.
  - two C IHc IHd A.
  - two C IHc IHd A.
  - bd C. injection C as <-. simpl. eapply IH; eassumption.
  - two C IHc IHd A.
  - discriminate.
  - two C IHc IHd A.
  - bd C. injection C as <-. simpl. eapply IH; eassumption.
  - bd C. injection C as <-. simpl in *. revert a E A. induction IH as [|[[n0 k] o] l Hx _ IHl]; intros a E0 A.
    + injection E0 as <-. intros n [].
    + simpl in *. destruct o as [c|].
      * bd E0. bd E0. injection E0 as <-. simpl. intros n Hn. apply in_app_or in Hn. destruct Hn as [Hn|Hn].
        -- revert n Hn. eapply Hx; [eassumption|]. intros n Hn. apply A. apply in_or_app. auto.
        -- revert n Hn. apply IHl; [assumption|]. intros n Hn. apply A. apply in_or_app. auto.
      * bd E0. injection E0 as <-. simpl. apply IHl; assumption.
Qed.
Lemma clone_cons_refs : forall t cs cs', clone_cons act cur old env t cs = Done cs' ->
  (forall n, In n (flat_map con_refs cs) -> In n N -> In n (map fst env)) -> apart (flat_map con_refs cs') N.
Proof.
  intros t cs cs' C A. apply mapR_done in C. induction C as [|c c' cs cs' H C IH]; [intros n []|].
  simpl in *. intros n Hn. apply in_app_or in Hn. destruct Hn as [Hn|Hn]; revert n Hn.
  - eapply clone_con_refs; [exact H|]. intros n Hn. apply A. apply in_or_app. auto.
  - apply IH. intros n Hn. apply A. apply in_or_app. auto.
Qed.

Lemma agree_env : forall refs incl, apart incl (map fst env) -> agree V (env_sem env) env refs incl.
Proof.
  intros refs incl A. split.
  - intros n _. rewrite env_sem_assoc. destruct (assoc n env) as [[x|x|x]|]; simpl; auto.
  - intros T HT. rewrite env_sem_assoc. destruct (assoc T env) as [x|] eqn:E; [|reflexivity].
    exfalso. apply (A T HT). eapply env_dom, E.
Qed.
(** Constraints that name no parameter. *)
Lemma agree_nil : forall refs incl, apart refs N -> agree V [] env refs incl.
Proof.
  intros refs incl A. split; [|reflexivity].
  intros n Hn. destruct (assoc n env) as [a|] eqn:E; [|reflexivity].
  exfalso. apply (A n Hn). apply assoc_in in E. apply Eok in E. tauto.
Qed.
Lemma again : forall x xs v, apart (flat_map con_refs (cons_of x)) N -> clone_cons act cur old env x (cons_of x) = Done xs ->
  (kind_has P V [] (kind x) v /\ sat_all P V [] v xs <-> has P V [] x v).
Proof.
  intros [k cs] xs v A C. simpl cons_of in *. simpl kind. rewrite has_eq. apply and_iff_compat_l'.
  intros H. eapply clone_cons_sem; [exact C | | apply agree_nil; exact A].
  eapply governed_kind; [|exact H]. intros n Hn. simpl in Hn. congruence.
Qed.

(** SpecializeRefType for the arguments of this type. *)
Variable sr : string -> string -> list parg -> res ptype.
Definition args_tidy (ps : list string) : list parg -> Prop := fix all l :=
  match l with
  | [] => True
  | AType t :: l =>
      tidy N [] t /\ apart (val_refs t) N /\ apart (type_refs t) ps /\
      (match t with PT (KRef _ _ _ (_ :: _)) _ => True | _ => plain t end) /\ all l
  | AVal e :: l => apart (exp_refs e) N /\ all l
  | AParam n :: l => In n ps /\ all l
  end.
Definition copied (E : senv) (t t' : ptype) : Prop :=
  (forall v, has P V [] t' v <-> has P V E t v) /\ plain t' /\ apart (flat_map con_refs (cons_of t')) N.
Hypothesis Sr : forall m T args s, args <> [] -> sr m T args = Done s -> args_tidy (map fst env) args ->
  (forall v, has P V [] s v <-> P m T (map (arg_sem P V (env_sem env)) args) v) /\ plain s /\ apart (flat_map con_refs (cons_of s)) N.

Lemma sat_all_app : forall E v a b, sat_all P V E v (a ++ b) <-> sat_all P V E v a /\ sat_all P V E v b.
Proof. intros E v a b. induction a as [|c a IH]; simpl; [tauto|]. rewrite IH. tauto. Qed.
Lemma dom_N : forall n, assoc n (env_sem env) <> None -> In n N.
Proof. intros n. apply env_ok_dom, Eok. Qed.
(** The parts common to all kinds. *)
Lemma finish : forall k k' cs cs', clone_cons act cur old env (PT k cs) cs = Done cs' ->
  (forall n, In n (flat_map con_refs cs) -> In n N -> In n (map fst env)) -> apart (flat_map con_incl cs) (map fst env) ->
  (forall v, kind_has P V [] k' v <-> kind_has P V (env_sem env) k v) -> plain (PT k' cs') ->
  copied (env_sem env) (PT k cs) (PT k' cs').
Proof.
  intros k k' cs cs' C T1 T2 K Pl. split; [|split].
  - intros v. rewrite !has_eq, K. apply and_iff_compat_l'. intros H.
    eapply clone_cons_sem; [exact C | | apply agree_env; exact T2].
    eapply governed_kind; [apply dom_N | exact H].
  - exact Pl.
  - eapply clone_cons_refs; eassumption.
Qed.
Lemma clone_type_sem : forall t t', clone_type act cur old env sr t = Done t' -> tidy N (map fst env) t -> copied (env_sem env) t t'.
Proof.
  induction t as [b cs|l cs|t cs IH|l cs IH|l cs IH|m T b l cs IH] using ptype_ind'; intros t' C Ti;
    simpl in C; bd C; destruct Ti as (T1 & T2 & Ti); rename a into cs', E into Ec.
  - injection C as <-. eapply finish; eauto; try reflexivity; exact I.
  - injection C as <-. eapply finish; eauto; try reflexivity; exact I.
  - bd C. injection C as <-. destruct (IH a E Ti) as (K1 & K2 & K3). eapply finish; eauto.
    intros v. simpl. split; intros (s & -> & H); exists s; (split; [reflexivity|]); intros x Hx; apply K1; auto.
  - bd C. injection C as <-.
    cut ((forall fs, comps P V [] a fs <-> comps P V (env_sem env) l fs) /\ plain (PT (KSeq a) cs')).
    { intros [K1 K2]. eapply finish; eauto. intros v. simpl. split; intros (fs & -> & H); exists fs; split; auto; apply K1; exact H. }
    clear Ec T1 T2. revert a E Ti. induction IH as [|c l Hc _ IHl]; intros a E Ti.
    + injection E as <-. split; [reflexivity | exact I].
    + destruct c as [n o t|m T].
      * bd E. bd E. bd E. injection E as <-. destruct Ti as (O & Tt & Ti).
        destruct (Hc a0 E0 Tt) as (K1 & K2 & K3). destruct (IHl a2 E2 Ti) as (K4 & K5).
        assert (J : forall f0, opt_has V [] a1 (has P V [] a0) f0 <-> opt_has V (env_sem env) o (has P V (env_sem env) t) f0).
        { intros [v| |v]; unfold opt_has.
          - apply K1.
          - destruct o; [injection E1 as <-; reflexivity | injection E1 as <-; reflexivity|].
            bd E1. injection E1 as <-. split; discriminate.
          - rewrite K1. apply and_iff_compat_l'. intros Hh. destruct o as [| |e].
            + injection E1 as <-. split; intros (e & H & _); discriminate.
            + injection E1 as <-. split; intros (e & H & _); discriminate.
            + apply bind_done in E1. destruct E1 as (e2 & E3 & E1). injection E1 as <-.
              assert (J : denotes V [] e2 v <-> denotes V (env_sem env) e v).
              { eapply clone_exp_sem; [exact E3 | | apply agree_env; intros ? []].
                apply K1 in Hh. destruct a0 as [k0 cs0]. rewrite has_eq in Hh. destruct Hh as [Hh _].
                eapply governed_kind; [|exact Hh]. intros n0 Hn0. simpl in Hn0. congruence. }
              split; intros (e' & H & K); injection H as <-; eexists; (split; [reflexivity | apply J; exact K]). }
        split; [|split; [exact K2 | exact K5]].
        intros fs. simpl. destruct fs as [|[n' f0] fs]; [reflexivity|]. rewrite J, K4. reflexivity.
      * bd E. injection E as <-. destruct Ti as (O & Ti). destruct (IHl a0 E0 Ti) as (K4 & K5).
        split; [|exact K5]. intros fs. simpl.
        assert (J : forall w, type_named P [] m T w <-> type_named P (env_sem env) m T w).
        { intros w. unfold type_named. rewrite env_sem_assoc. destruct (assoc T env) eqn:Et; [|reflexivity].
          exfalso. apply O. eapply env_dom, Et. }
        split; intros (x & y & -> & H1 & H2); exists x, y; (split; [reflexivity|]); rewrite J, K4 in *; auto.
  - bd C. injection C as <-.
    cut ((forall n w, alts P V [] n w a <-> alts P V (env_sem env) n w l) /\ plain (PT (KChoice a) cs')).
    { intros [K1 K2]. eapply finish; eauto. intros v. simpl. split; intros (n & w & -> & H); exists n, w; split; auto; apply K1; exact H. }
    clear Ec T1 T2. revert a E Ti. induction IH as [|c l Hc _ IHl]; intros a E Ti.
    + injection E as <-. split; [reflexivity | exact I].
    + destruct c as [n t]. bd E. bd E. injection E as <-. destruct Ti as (Tt & Ti).
      destruct (Hc a0 E0 Tt) as (K1 & K2 & K3). destruct (IHl a1 E1 Ti) as (K4 & K5).
      split; [|split; [exact K2 | exact K5]].
      intros n' w. simpl. rewrite <- K4, K1. reflexivity.
  - destruct l as [|a0 l0] eqn:El.
    + destruct (assoc T env) as [[x|x|x]|] eqn:Et; try discriminate.
      * bd C. injection C as <-. rewrite (Ti (env_dom _ _ _ Et)) in *.
        destruct (Eok _ _ (assoc_in _ _ _ _ Et)) as [_ [Px Ax]].
        split; [|split].
        -- intros v. rewrite !has_eq. rewrite sat_all_app, and_assoc_l. rewrite (again x a v Ax E).
           assert (J : has P V [] x v <-> kind_has P V (env_sem env) (KRef m T None []) v).
           { simpl. unfold type_named. rewrite env_sem_assoc, Et. reflexivity. }
           rewrite J. apply and_iff_compat_l'. intros H.
           eapply clone_cons_sem; [exact Ec | | apply agree_env; exact T2].
           eapply governed_kind; [apply dom_N | exact H].
        -- destruct x as [xk xcs]. destruct xk; exact Px.
        -- simpl. rewrite flat_map_app. apply apart_app.
           ++ eapply clone_cons_refs; [exact E|]. intros n Hn Hn'. exfalso. eapply Ax; eassumption.
           ++ eapply clone_cons_refs; eassumption.
      * injection C as <-. eapply finish; eauto.
        2: reflexivity. intros v. simpl. apply box_has_iff. intros w. unfold type_named. rewrite env_sem_assoc, Et. reflexivity.
    + bd C. bd C. injection C as <-. destruct Ti as [-> Ti].
      destruct (Sr m T (a0 :: l0) a ltac:(discriminate) E Ti) as (K1 & K2 & K3).
      split; [|split].
      * intros v. rewrite !has_eq. rewrite sat_all_app, and_assoc_l. rewrite (again a a1 v K3 E0), K1.
        apply and_iff_compat_l'. intros H.
        eapply clone_cons_sem; [exact Ec | | apply agree_env; exact T2].
        eapply governed_kind; [apply dom_N | exact H].
      * destruct a as [ak acs]. destruct ak; exact K2.
      * simpl. rewrite flat_map_app. apply apart_app.
        -- eapply clone_cons_refs; [exact E0|]. intros n Hn Hn'. exfalso. eapply K3; eassumption.
        -- eapply clone_cons_refs; eassumption.
Qed.
End copy.

(** * Instances *)
Definition instance_ok (s : ptype) (m T : string) (sargs : list sarg) : Prop :=
  (forall v, has P V [] s v <-> P m T sargs v) /\ plain s /\ apart (flat_map con_refs (cons_of s)) N.
Lemma dom_apart : forall env l, env_ok env -> apart l N -> same_on (env_sem env) [] l.
Proof.
  intros env l K A n Hn. simpl. destruct (assoc n (env_sem env)) as [a|] eqn:E; [|exact I].
  exfalso. apply (A n Hn). apply (env_ok_dom env n K). congruence.
Qed.
Lemma dom_apart' : forall env l, apart l (map fst env) -> same_on (env_sem env) [] l.
Proof.
  intros env l A n Hn. simpl. rewrite env_sem_assoc. destruct (assoc n env) as [a|] eqn:E; [|exact I].
  exfalso. apply (A n Hn). eapply env_dom, E.
Qed.
Lemma same_app : forall E F l l', same_on E F l -> same_on E F l' -> same_on E F (l ++ l').
Proof. intros E F l l' H K n Hn. apply in_app_or in Hn. destruct Hn; auto. Qed.

Lemma specialize_type_sem : forall sr t t',
  (forall m T args s, args <> [] -> sr m T args = Done s -> args_tidy [] args -> instance_ok s m T (map (arg_sem P V []) args)) ->
  specialize_type r sr t = Done t' -> tidy N [] t -> apart (val_refs t) N ->
  (match t with PT (KRef _ _ _ (_ :: _)) _ => True | _ => plain t end) ->
  (forall v, has P V [] t' v <-> has P V [] t v) /\ arg_ok (AType t').
Proof.
  intros sr [k cs] t' Sr C Ti A Pl.
  assert (A' : apart (flat_map con_refs cs) N) by (intros n Hn; apply A; simpl; apply in_or_app; auto).
  assert (K : t' = PT k cs -> plain (PT k cs) -> (forall v, has P V [] t' v <-> has P V [] (PT k cs) v) /\ arg_ok (AType t')).
  { intros -> Hp. split; [reflexivity|]. split; [exact Hp | exact A']. }
  destruct k as [b|l|t|l|l|m T b [|a0 l0]]; try (injection C as <-; apply K; [reflexivity | exact Pl]).
  - simpl in C. destruct (lookup r m T) as [ta|]; [|discriminate]. destruct (ta_params ta); [|discriminate].
    injection C as <-. apply K; [reflexivity | exact Pl].
  - simpl in C. bd C. injection C as <-. destruct Ti as (_ & _ & -> & Ti).
    destruct (Sr m T (a0 :: l0) a ltac:(discriminate) E Ti) as (K1 & K2 & K3). destruct a as [ak acs]. simpl kind in *. simpl cons_of in *.
    split.
    + intros v. rewrite !has_eq, sat_all_app, and_assoc_l, <- has_eq, K1. reflexivity.
    + split; [destruct ak; exact K2|]. simpl. rewrite flat_map_app. apply apart_app; assumption.
Qed.

Lemma name_args : forall ps args named, mapR name_arg (combine ps args) = Done named -> List.length ps = List.length args ->
  named = combine (map pname ps) args /\ Forall2 (fun p a => match p, a with PType _, AType _ | PVal _, AVal _ => True | _, _ => False end) ps args.
Proof.
  induction ps as [|p ps IH]; intros [|a args] named H L; try discriminate.
  - injection H as <-. split; [reflexivity | constructor].
  - cbn [combine mapR] in H. bd H. bd H. injection H as <-. injection L as L.
    destruct (IH args a1 E0 L) as [-> K]. destruct p, a; try discriminate; injection E as <-; split; try reflexivity; constructor; auto.
Qed.
Lemma combine_fst : forall A B (l : list A) (l' : list B), List.length l = List.length l' -> map fst (combine l l') = l.
Proof. induction l as [|a l IH]; intros [|b l'] H; try discriminate; [reflexivity|]. simpl. f_equal. apply IH. injection H. auto. Qed.

Lemma specialize_ref_sem : forall f cur env m T args s, specialize_ref r f cur env m T args = Done s -> env_ok env ->
  args_tidy (map fst env) args -> instance_ok s m T (map (arg_sem P V (env_sem env)) args).
Proof.
  induction f as [|f IH]; intros cur env m T args s C Eo At; [discriminate|].
  cbn [specialize_ref] in C. destruct (lookup r m T) as [ta|] eqn:L; [|discriminate].
  apply bind_done in C. destruct C as (args' & Ea & C).
  destruct (Nat.eqb_spec (List.length (ta_params ta)) (List.length args')) as [Hl|]; [|discriminate].
  apply bind_done in C. destruct C as (named & En & C).
  assert (Sr : forall m T args s, args <> [] -> specialize_ref r f cur [] m T args = Done s -> args_tidy [] args ->
            instance_ok s m T (map (arg_sem P V []) args)).
  { intros m' T' args1 s' _ H H'. exact (IH cur [] m' T' args1 s' H ltac:(intros ? ? []) H'). }
  assert (K : Forall2 sarg_eq (map (arg_sem P V (env_sem env)) args) (map (arg_sem P V []) args') /\ Forall arg_ok args').
  { apply mapR_done in Ea. clear - Ea At Eo Sr M. induction Ea as [|x y args args' Hx _ IHa]; [split; constructor|].
    destruct x as [t|e|n].
    - bd Hx. injection Hx as <-. destruct At as (A1 & A2 & A3 & A4 & At). destruct (IHa At) as [I1 I2].
      destruct (specialize_type_sem _ t a Sr E A1 A2 A4) as [J1 J2].
      split; constructor; auto. simpl. intros v. rewrite J1. apply has_same; [apply (m_ext _ _ _ M)|].
      apply same_app; [apply dom_apart; assumption | apply dom_apart'; assumption].
    - injection Hx as <-. destruct At as (A1 & At). destruct (IHa At) as [I1 I2]. split; constructor; auto.
      simpl. intros v. apply denotes_same, dom_apart; assumption.
    - destruct At as (A1 & At). destruct (IHa At) as [I1 I2]. destruct (assoc n env) as [z|] eqn:Ez; [|discriminate].
      injection Hx as <-. split; constructor; auto.
      + simpl. rewrite env_sem_assoc, Ez. apply sarg_eq_refl.
      + apply assoc_in in Ez. apply Eo in Ez. tauto. }
  destruct K as [K1 K2]. destruct (name_args _ _ _ En Hl) as [-> Su]. clear En.
  assert (Ln : List.length (map pname (ta_params ta)) = List.length args') by (rewrite map_length; exact Hl).
  assert (No : env_ok (combine (map pname (ta_params ta)) args')).
  { intros n a Ha. split.
    - apply in_combine_l in Ha. eapply lookup_params; eassumption.
    - apply in_combine_r in Ha. rewrite Forall_forall in K2. auto. }
  assert (Ti : tidy N (map fst (combine (map pname (ta_params ta)) args')) (ta_type ta)).
  { rewrite combine_fst by exact Ln. destruct (lookup_in _ _ _ _ L) as (md & H1 & H2 & _). destruct Hy as [_ Hy2]. eapply Hy2; eassumption. }
  destruct (clone_type_sem f cur m _ No _
    (fun m' T' args1 s' _ H H' => IH cur _ m' T' args1 s' H No H') _ _ C Ti) as (J1 & J2 & J3).
  split; [|split; assumption].
  intros v. rewrite J1.
  assert (Es : env_sem (combine (map pname (ta_params ta)) args') = combine (map pname (ta_params ta)) (map (arg_sem P V []) args')).
  { clear. generalize (map pname (ta_params ta)). intros l. revert args'. induction l as [|x l IH]; intros [|a args']; try reflexivity.
    cbn [combine map env_sem]. unfold env_sem in *. simpl. f_equal. apply IH. }
  rewrite Es.
  assert (Sa : Forall2 suits (ta_params ta) (map (arg_sem P V []) args')).
  { clear - Su. induction Su as [|p a ps args H _ IH]; simpl; constructor; auto. destruct p, a; simpl in *; auto. }
  split; intros H.
  - apply (m_ext _ _ _ M m T (map (arg_sem P V []) args')); [|apply (m_def _ _ _ M m T ta _ v L); auto].
    clear - K1. induction K1; constructor; auto using sarg_eq_sym.
  - apply (m_ext _ _ _ M m T _ _ v K1) in H. apply (m_def _ _ _ M m T ta _ v L) in H. tauto.
Qed.

(** * Types without parameters *)
Lemma instance_nil : forall f cur m T args s, args <> [] -> specialize_ref r f cur [] m T args = Done s -> args_tidy [] args ->
  instance_ok s m T (map (arg_sem P V []) args).
Proof. intros f cur m T args s _ H H'. exact (specialize_ref_sem f cur [] m T args s H ltac:(intros ? ? []) H'). Qed.
Lemma do_type_sem : forall f cur t t', do_type r f cur t = Done t' -> tidy N [] t ->
  (forall v, has P V [] t' v <-> has P V [] t v) /\ plain t'.
Proof.
  intros f cur. induction t as [b cs|l cs|t cs IH|l cs IH|l cs IH|m T b l cs IH] using ptype_ind'; intros t' C (T1 & T2 & Ti).
  - injection C as <-. split; [reflexivity | exact I].
  - injection C as <-. split; [reflexivity | exact I].
  - simpl in C. bd C. injection C as <-. destruct (IH a E Ti) as [K1 K2]. split; [|exact K2].
    intros v. rewrite !has_eq. apply and_iff_compat_r. simpl. split; intros (s & -> & H); exists s; (split; [reflexivity|]); intros x Hx; apply K1; auto.
  - simpl in C. bd C. injection C as <-.
    cut ((forall fs, comps P V [] a fs <-> comps P V [] l fs) /\ plain (PT (KSeq a) cs)).
    { intros [K1 K2]. split; [|exact K2]. intros v. rewrite !has_eq. apply and_iff_compat_r. simpl.
      split; intros (fs & -> & H); exists fs; split; auto; apply K1; exact H. }
    clear T1 T2. revert a E Ti. induction IH as [|c l Hc _ IHl]; intros a E Ti.
    + injection E as <-. split; [reflexivity | exact I].
    + destruct c as [n o t|m T].
      * bd E. bd E. injection E as <-. destruct Ti as (O & Tt & Ti).
        destruct (Hc a0 E0 Tt) as (K1 & K2). destruct (IHl a1 E1 Ti) as (K4 & K5).
        split; [|split; [exact K2 | exact K5]].
        intros fs. simpl. destruct fs as [|[n' f0] fs]; [reflexivity|]. rewrite K4.
        assert (J : opt_has V [] o (has P V [] a0) f0 <-> opt_has V [] o (has P V [] t) f0).
        { destruct f0; simpl; rewrite ?K1; reflexivity. }
        rewrite J. reflexivity.
      * bd E. injection E as <-. destruct Ti as (O & Ti). destruct (IHl a0 E0 Ti) as (K4 & K5).
        split; [|exact K5]. intros fs. simpl.
        split; intros (x & y & -> & H1 & H2); exists x, y; (split; [reflexivity|]); rewrite K4 in *; auto.
  - simpl in C. bd C. injection C as <-.
    cut ((forall n w, alts P V [] n w a <-> alts P V [] n w l) /\ plain (PT (KChoice a) cs)).
    { intros [K1 K2]. split; [|exact K2]. intros v. rewrite !has_eq. apply and_iff_compat_r. simpl.
      split; intros (n & w & -> & H); exists n, w; split; auto; apply K1; exact H. }
    clear T1 T2. revert a E Ti. induction IH as [|c l Hc _ IHl]; intros a E Ti.
    + injection E as <-. split; [reflexivity | exact I].
    + destruct c as [n t]. bd E. bd E. injection E as <-. destruct Ti as (Tt & Ti).
      destruct (Hc a0 E0 Tt) as (K1 & K2). destruct (IHl a1 E1 Ti) as (K4 & K5).
      split; [|split; [exact K2 | exact K5]].
      intros n' w. simpl. rewrite <- K4, K1. reflexivity.
  - destruct l as [|a0 l0].
    + simpl in C. destruct (lookup r m T) as [ta|]; [|discriminate]. destruct (ta_params ta); [|discriminate].
      injection C as <-. split; [reflexivity | reflexivity].
    + simpl in C. bd C. injection C as <-. destruct Ti as [-> Ti].
      destruct (instance_nil f cur m T (a0 :: l0) a ltac:(discriminate) E Ti) as (K1 & K2 & K3). destruct a as [ak acs].
      split; [|destruct ak; exact K2].
      intros v. simpl kind. simpl cons_of. rewrite !has_eq, sat_all_app, and_assoc_l, <- has_eq, K1. reflexivity.
Qed.
End removal.

