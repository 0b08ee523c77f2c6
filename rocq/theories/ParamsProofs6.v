(** The removal of parameters returns when no type depends on itself and no constraint is extensible. *)
From Verif Require Import Params ParamsSpec ParamsProofs ParamsProofs2 ParamsProofs3 ParamsProofs4.
From Coq Require Import List String Ascii Bool Arith Lia.
Import ListNotations.
Local Open Scope string_scope.
Local Open Scope list_scope.

Definition ne {A} (x : res A) : Prop := x <> Endless.
Lemma ne_done : forall A (a : A), ne (Done a).
Proof. discriminate. Qed.
Lemma ne_raise : forall A, ne (@Raise A).
Proof. discriminate. Qed.
Lemma ne_bind : forall A B (x : res A) (f : A -> res B), ne x -> (forall a, x = Done a -> ne (f a)) -> ne (bind x f).
Proof. intros A B [a| |] f H K; simpl; [apply K; reflexivity | discriminate | contradiction]. Qed.
Lemma ne_mapR : forall A B (f : A -> res B) l, Forall (fun x => ne (f x)) l -> ne (mapR f l).
Proof.
  induction 1; [discriminate|]. simpl. apply ne_bind; [assumption|]. intros y _. apply ne_bind; [assumption|]. discriminate.
Qed.
Create HintDb ne.
#[local] Hint Resolve ne_done ne_raise : ne.
Ltac nb := apply ne_bind; [|intros ? ?].

Section copying.
Variable act : ptype -> res ptype.
Variables cur old : string.
Variable env : list (string * parg).
Hypothesis Act : forall t, ne (act t).
Lemma clone_exp_ne : forall e t, ne (clone_exp act cur old env t e).
Proof.
  induction e as [z|b|s|m n|l IH|l IH|n e IH] using pexp_ind'; intros t; simpl; auto with ne.
  - destruct (assoc n env) as [[x|x|x]|]; auto with ne. destruct t as [t|]; auto with ne.
    nb; [apply Act|]. destruct (kind a); auto with ne. destruct (_ && _); auto with ne.
  - nb; [|auto with ne]. apply ne_mapR. eapply Forall_impl; [|exact IH]. intros a H. apply H.
  - nb; [|auto with ne]. induction IH as [|[n x] l Hx _ IHl]; [auto with ne|]. nb; [apply Hx|]. nb; [apply IHl|]. auto with ne.
  - nb; auto with ne.
Qed.
Lemma clone_con_ne : forall c t, con_closed c -> ne (clone_con act cur old env t c).
Proof.
  induction c as [e|a b i j|a i|b j|m T|c IH|c IH|c d IHc IHd|c d IHc IHd|c IH|c d IHc IHd|c IH|c d IHc IHd|c IH|l IH] using pcon_ind';
    intros t C; simpl in C |- *; auto with ne; try contradiction;
    try match type of C with con_closed _ /\ con_closed _ => destruct C as [C1 C2] end;
    try (repeat (nb; [apply clone_exp_ne || auto|]; auto with ne); fail).
  nb; [|auto with ne]. induction IH as [|[[n k] [c|]] l Hx _ IHl]; [auto with ne| |].
  - destruct C as [C1 C2]. nb; [apply Hx; exact C1|]. nb; [apply IHl, C2|]. auto with ne.
  - nb; [apply IHl, C|]. auto with ne.
Qed.
Lemma clone_cons_ne : forall cs t, Forall con_closed cs -> ne (clone_cons act cur old env t cs).
Proof. intros cs t H. apply ne_mapR. eapply Forall_impl; [|exact H]. intros c. apply clone_con_ne. Qed.
Lemma clone_con_closed : forall c t c', clone_con act cur old env t c = Done c' -> con_closed c'.
Proof.
  induction c as [e|a b i j|a i|b j|m T|c IH|c IH|c d IHc IHd|c d IHc IHd|c IH|c d IHc IHd|c IH|c d IHc IHd|c IH|l IH] using pcon_ind';
    intros t c' C; simpl in C; try discriminate; try (bd C; try bd C; injection C as <-; simpl; eauto; fail).
  - injection C as <-. exact I.
  - bd C. injection C as <-. revert a E. induction IH as [|[[n k] [c|]] l Hx _ IHl]; intros a E.
    + injection E as <-. exact I.
    + bd E. bd E. injection E as <-. split; [eapply Hx; eassumption | eapply IHl; eassumption].
    + bd E. injection E as <-. match goal with H : _ = Done _ |- _ => exact (IHl _ H) end.
Qed.
Lemma clone_cons_closed : forall cs t cs', clone_cons act cur old env t cs = Done cs' -> Forall con_closed cs'.
Proof.
  intros cs t cs' H. unfold clone_cons in H. apply mapR_done in H. induction H; constructor; auto. eapply clone_con_closed; eassumption.
Qed.
End copying.


Section returns.
Variable r : grammar.
Variable rank : string -> string -> nat.
Hypothesis R : forall m T ta m' T', lookup r m T = Some ta -> In (m', T') (uses (ta_type ta)) ->
    lookup r m' T' <> None -> rank m' T' < rank m T.
Lemma actual_ne : forall f t, f <> 0 -> (forall m T, In (m, T) (uses t) -> lookup r m T <> None -> S (rank m T) < f) -> ne (actual r f t).
Proof.
  induction f as [|f IH]; intros [k cs] Z H; [contradiction|]. destruct k as [b|l|t|l|l|m T box args]; simpl; auto with ne.
  assert (H' : lookup r m T <> None -> S (rank m T) < S f) by (apply H; simpl; apply in_or_app; right; left; reflexivity).
  destruct (lookup r m T) as [ta|] eqn:L; auto with ne. specialize (H' ltac:(discriminate)).
  apply IH; [lia|]. intros m' T' U K. pose proof (R m T ta m' T' L U K). lia.
Qed.
Hypothesis closed : no_extensions r.
Variables B S0 : nat.
Fixpoint nest (t : ptype) : nat :=
  match t with
  | PT k cs =>
      match k with
      | KBase _ | KEnum _ => 0
      | KOf t => nest t
      | KSeq l => list_max (map (fun c => match c with Child _ _ t => nest t | CompsOf _ _ => 0 end) l)
      | KChoice l => list_max (map (fun c => match c with Alt _ t => nest t end) l)
      | KRef _ _ _ args => S (list_max (map (fun a => match a with AType t => nest t | _ => 0 end) args))
      end
  end.
Definition args_nest (args : list parg) : nat := list_max (map (fun a => match a with AType t => nest t | _ => 0 end) args).
Definition args_uses (args : list parg) : list (string * string) := flat_map (fun a => match a with AType t => uses t | _ => [] end) args.
Definition args_closed := fix all (l : list parg) : Prop := match l with [] => True | AType t :: l => type_closed t /\ all l | _ :: l => all l end.
Hypothesis Bd : forall m T ta, lookup r m T = Some ta -> S (rank m T) < B /\ nest (ta_type ta) <= S0.
Definition under (n : nat) (l : list (string * string)) : Prop := forall m T, In (m, T) l -> lookup r m T <> None -> rank m T < n.
Lemma under_app : forall n l l', under n (l ++ l') <-> under n l /\ under n l'.
Proof.
  intros n l l'. split.
  - intros H. split; intros m T K; apply H, in_or_app; auto.
  - intros [H H'] m T K. apply in_app_or in K. destruct K; [apply H | apply H']; assumption.
Qed.
Lemma under_B : forall l, under B l.
Proof. intros l m T _ K. destruct (lookup r m T) as [ta|] eqn:E; [|contradiction]. apply Bd in E. lia. Qed.
Lemma act_ne : forall f t, B < f -> ne (actual r f t).
Proof.
  intros f t H. apply actual_ne; [lia|]. intros m T _ K. destruct (lookup r m T) as [ta|] eqn:E; [|contradiction]. apply Bd in E. lia.
Qed.
Lemma list_max_cons : forall a l k, list_max (a :: l) <= k <-> a <= k /\ list_max l <= k.
Proof. intros a l k. simpl. lia. Qed.
Definition env_closed (env : list (string * parg)) : Prop := forall n t, In (n, AType t) env -> Forall con_closed (cons_of t).
Definition good (x : res ptype) : Prop := ne x /\ forall s, x = Done s -> Forall con_closed (cons_of s).

Lemma clone_type_good : forall act cur old env sr n, (forall t, ne (act t)) -> env_closed env ->
  (forall m T args, under n ((m, T) :: args_uses args) -> args_nest args <= S0 -> args_closed args -> good (sr m T args)) ->
  forall t, under n (uses t) -> nest t <= S0 -> type_closed t -> good (clone_type act cur old env sr t).
Proof.
  intros act cur old env sr n Act Ec Sr.
  assert (Done_ok : forall k t cs cs', clone_cons act cur old env t cs = Done cs' -> good (Done (PT k cs'))).
  { intros k t cs cs' H. split; [discriminate|]. intros s [= <-]. eapply clone_cons_closed, H. }
  assert (Start : forall k cs (f : list pcon -> res ptype), Forall con_closed cs ->
    (forall cs', clone_cons act cur old env (PT k cs) cs = Done cs' -> good (f cs')) -> good (bind (clone_cons act cur old env (PT k cs) cs) f)).
  { intros k cs f Hc H. pose proof (clone_cons_ne act cur old env Act cs (PT k cs) Hc) as Q.
    destruct (clone_cons act cur old env (PT k cs) cs) as [cs'| |] eqn:E; [apply H; reflexivity| |contradiction].
    split; [discriminate | intros s [=]]. }
  assert (Next : forall A (x : res A) k cs', ne x -> Forall con_closed cs' -> good (bind x (fun l => Done (PT (k l) cs')))).
  { intros A x k cs' H Hc. split; [nb; [exact H | discriminate]|]. intros s H'. bd H'. injection H' as <-. exact Hc. }
  induction t as [b cs|l cs|t cs IH|l cs IH|l cs IH|m T b l cs IH] using ptype_ind'; intros U Ne [C1 C2];
    cbn [clone_type]; (apply Start; [exact C1|]); intros cs' Hcs.
  - eapply Done_ok, Hcs.
  - eapply Done_ok, Hcs.
  - simpl in U. apply under_app in U. apply (Next _ _ KOf); [|eapply clone_cons_closed, Hcs]. apply IH; [apply U | exact Ne | exact C2].
  - simpl in U. apply under_app in U. destruct U as [_ U].
    apply (Next _ _ KSeq); [|eapply clone_cons_closed, Hcs]. clear Hcs C1.
    induction IH as [|c l Hc _ IHl]; [discriminate|]. destruct c as [x o t|m T].
    + simpl in U. apply under_app in U. destruct C2 as [C2 C3]. simpl in Ne.
      nb; [apply Hc; first [exact C2 | apply U | lia]|].
      nb; [destruct o; auto with ne; nb; [apply clone_exp_ne, Act | auto with ne]|].
      nb; [apply IHl; first [exact C3 | apply U | simpl; lia]|]. discriminate.
    + apply (under_app n [(m, T)]) in U. nb; [apply IHl; first [exact C2 | apply U | simpl in *; lia] | discriminate].
  - simpl in U. apply under_app in U. destruct U as [_ U].
    apply (Next _ _ KChoice); [|eapply clone_cons_closed, Hcs]. clear Hcs C1.
    induction IH as [|[x t] l Hc _ IHl]; [discriminate|].
    simpl in U. apply under_app in U. destruct C2 as [C2 C3]. simpl in Ne.
    nb; [apply Hc; first [exact C2 | apply U | lia]|].
    nb; [apply IHl; first [exact C3 | apply U | simpl; lia]|]. discriminate.
  - simpl in U. apply under_app in U. destruct U as [_ U]. destruct l as [|a0 l].
    + destruct (assoc T env) as [[x|x|x]|] eqn:E; try (split; [discriminate | intros s H; discriminate H]).
      * apply assoc_in in E. apply Ec in E. pose proof (clone_cons_ne act cur old env Act _ x E) as Q.
        split; [nb; [exact Q | discriminate]|]. intros s H. bd H. injection H as <-. apply Forall_app.
        split; eapply clone_cons_closed; eassumption.
      * eapply Done_ok, Hcs.
    + assert (G : good (sr m T (a0 :: l))) by (apply Sr; [exact U | simpl in Ne; unfold args_nest; simpl; lia | exact C2]).
      destruct G as [G1 G2]. split.
      * nb; [exact G1|]. nb; [apply clone_cons_ne; [exact Act | apply G2; assumption] | discriminate].
      * intros s H. bd H. bd H. injection H as <-. apply Forall_app. split; eapply clone_cons_closed; eassumption.
Qed.

Lemma specialize_type_good : forall sr t, type_closed t ->
  (forall m T a0 args cs box, t = PT (KRef m T box (a0 :: args)) cs -> good (sr m T (a0 :: args))) -> good (specialize_type r sr t).
Proof.
  intros sr [k cs] [C1 C2] Sr. assert (K : good (Done (PT k cs))) by (split; [discriminate | intros s [= <-]; exact C1]).
  destruct k as [b|l|t|l|l|m T box [|a0 args]]; simpl; auto.
  - destruct (lookup r m T) as [ta|]; [destruct (ta_params ta); auto|]; (split; [discriminate | intros s H; discriminate H]).
  - destruct (Sr m T a0 args cs box eq_refl) as [G1 G2]. split; [nb; [exact G1 | discriminate]|].
    intros s H. bd H. injection H as <-. apply Forall_app. split; auto.
Qed.
Lemma specialize_ref_good : forall f cur env m T args n k, under n ((m, T) :: args_uses args) -> args_nest args <= k -> args_closed args ->
  env_closed env -> B + 2 + n * (S0 + 2) + k < f -> good (specialize_ref r f cur env m T args).
Proof.
  induction f as [|f IH]; intros cur env m T args n k U Ne C Ec F; [lia|]. cbn [specialize_ref].
  destruct (lookup r m T) as [ta|] eqn:L; [|split; [discriminate | intros s [=]]].
  assert (Rn : rank m T < n) by (apply U; [left; reflexivity | congruence]).
  assert (Ua : under n (args_uses args)) by (intros m' T' K; apply U; right; exact K). clear U.
  match goal with |- good (bind (mapR ?g args) _) => set (arg := g) end.
  assert (Ga : ne (mapR arg args) /\ forall args', mapR arg args = Done args' -> forall t, In (AType t) args' -> Forall con_closed (cons_of t)).
  { assert (G : Forall (fun a => match a with AType t => good (specialize_type r (specialize_ref r f cur []) t) | _ => True end) args).
    { clear arg. unfold args_uses, args_nest in Ua, Ne. induction args as [|a args IHa]; constructor.
      - destruct a as [t|e|x]; auto. cbn [map] in Ne. apply list_max_cons in Ne. destruct Ne as [Ne _].
        simpl in Ua. apply under_app in Ua. destruct C as [C _]. apply specialize_type_good; [exact C|].
        intros m' T' b0 bs cs box ->. destruct C as [_ C]. destruct Ua as [Ua _]. simpl in Ua. apply under_app in Ua. destruct Ua as [_ Ua].
        apply (IH cur [] m' T' (b0 :: bs) n (k - 1) Ua).
        + change (S (args_nest (b0 :: bs)) <= k) in Ne. lia.
        + exact C.
        + intros x t [].
        + change (S (args_nest (b0 :: bs)) <= k) in Ne. lia.
      - cbn [map] in Ne. apply list_max_cons in Ne. destruct Ne as [_ Ne]. simpl in Ua. apply under_app in Ua. apply IHa; [lia | destruct a; [apply C | exact C | exact C] | apply Ua]. }
    split.
    - apply ne_mapR. eapply Forall_impl; [|exact G]. intros [t|e|x] Hx; simpl; auto with ne.
      + nb; [apply Hx | discriminate].
      + destruct (assoc x env); auto with ne.
    - intros args' H t Ht. apply mapR_done in H. destruct (forall2_in_r _ _ _ _ _ _ H Ht) as (a & Ha & E).
      rewrite Forall_forall in G. specialize (G a Ha). destruct a as [t0|e|x]; simpl in E.
      + bd E. injection E as <-. apply G. assumption.
      + discriminate.
      + destruct (assoc x env) as [y|] eqn:Ex; [|discriminate]. injection E as ->. apply assoc_in in Ex. eapply Ec, Ex. }
  destruct Ga as [Ga1 Ga2].
  assert (Gb : forall args', mapR arg args = Done args' ->
    good (if (List.length (ta_params ta) =? List.length args')%nat
          then bind (mapR name_arg (combine (ta_params ta) args')) (fun named =>
               clone_type (actual r f) cur m named (specialize_ref r f cur named) (ta_type ta))
          else Raise)).
  { intros args' Ea. destruct (Nat.eqb_spec (List.length (ta_params ta)) (List.length args')) as [Hl|]; [|split; [discriminate | intros s [=]]].
    assert (Nn : ne (mapR name_arg (combine (ta_params ta) args'))).
    { apply ne_mapR. apply Forall_forall. intros [[p|p] [t|e|x]] _; simpl; auto with ne. }
    destruct (mapR name_arg (combine (ta_params ta) args')) as [named| |] eqn:En; [|split; [discriminate | intros s [=]]|contradiction].
    cbn [bind]. destruct (name_args _ _ _ En Hl) as [-> _].
    assert (Ec' : env_closed (combine (map pname (ta_params ta)) args')).
    { intros x t H. apply in_combine_r in H. eapply Ga2; eassumption. }
    destruct (Bd m T ta L) as [_ Bn]. destruct n as [|n]; [lia|].
    eapply (clone_type_good _ _ _ _ _ n).
    - intros t. apply act_ne. lia.
    - exact Ec'.
    - intros m' T' args1 U1 N1 C1. apply (IH cur _ m' T' args1 n S0 U1 N1 C1 Ec'). simpl in F. lia.
    - intros m' T' H K. pose proof (R m T ta m' T' L H K). lia.
    - exact Bn.
    - destruct (lookup_in _ _ _ _ L) as (md & J1 & J2 & _). eapply closed; eassumption. }
  split.
  - nb; [exact Ga1|]. apply Gb. assumption.
  - intros s H. apply bind_done in H. destruct H as (args' & Ea & H). apply (Gb args' Ea). exact H.
Qed.
Lemma do_type_ne : forall f cur, B + 2 + B * (S0 + 2) + S0 < f -> forall t, type_closed t -> nest t <= S (S0) -> ne (do_type r f cur t).
Proof.
  intros f cur F. induction t as [b cs|l cs|t cs IH|l cs IH|l cs IH|m T b l cs IH] using ptype_ind'; intros C Ne; simpl in Ne |- *; auto with ne.
  - nb; [apply IH; [apply C | exact Ne] | discriminate].
  - destruct C as [_ C]. nb; [|discriminate]. induction IH as [|c l Hc _ IHl]; [discriminate|]. destruct c as [n o t|m T]; simpl in Ne.
    + destruct C as [C1 C2]. nb; [apply Hc; [exact C1 | lia]|]. nb; [apply IHl; [exact C2 | lia] | discriminate].
    + nb; [apply IHl; [exact C | lia] | discriminate].
  - destruct C as [_ C]. nb; [|discriminate]. induction IH as [|[n t] l Hc _ IHl]; [discriminate|]. simpl in Ne.
    destruct C as [C1 C2]. nb; [apply Hc; [exact C1 | lia]|]. nb; [apply IHl; [exact C2 | lia] | discriminate].
  - apply (specialize_type_good (specialize_ref r f cur []) (PT (KRef m T b l) cs) C). intros m' T' a0 args cs' box E. injection E as <- <- <- -> <-.
    apply (specialize_ref_good f cur [] m T (a0 :: args) B S0); [apply under_B | unfold args_nest; simpl in *; lia | apply C | intros ? ? [] | lia].
Qed.
End returns.

Lemma bounded_list : forall (l : list tas) (g : tas -> nat), exists b, forall a, In a l -> g a < b.
Proof.
  intros l g. exists (S (list_max (map g l))). intros a H. apply Nat.lt_succ_r.
  pose proof (proj1 (list_max_le (map g l) (list_max (map g l))) (Nat.le_refl _)) as K. rewrite Forall_forall in K. apply K, in_map, H.
Qed.
Lemma bounded : forall (r : grammar) (g : string -> tas -> nat), exists b, forall m l a, In (m, l) r -> In a l -> g m a < b.
Proof.
  induction r as [|[m l] r IH]; intros g; [exists 0; intros ? ? ? []|].
  destruct (IH g) as [b Hb]. destruct (bounded_list l (g m)) as [c Hc]. exists (b + c). intros m' l' a [[= <- <-]|H] Ha.
  - specialize (Hc a Ha). lia.
  - specialize (Hb m' l' a H Ha). lia.
Qed.
Theorem returns : forall r, acyclic r -> no_extensions r -> exists f0, forall f, f0 <= f -> do_grammar r f <> Endless.
Proof.
  intros r [rank R] C. destruct (bounded r (fun m a => S (rank m (ta_name a)) + nest (ta_type a))) as [b Hb].
  assert (Bd : forall m T ta, lookup r m T = Some ta -> S (rank m T) < b /\ nest (ta_type ta) <= b).
  { intros m T ta L. apply lookup_in in L. destruct L as ([m0 l] & H1 & H2 & <- & <-). specialize (Hb _ _ _ H1 H2). simpl. lia. }
  exists (S (b + 2 + b * (b + 2) + b)). intros f F. apply ne_mapR. apply Forall_forall. intros [m l] Hm.
  unfold do_module. nb; [|discriminate]. apply ne_mapR. apply Forall_forall. intros a Ha. apply filter_In in Ha. destruct Ha as [Ha _].
  unfold do_tas. nb; [|discriminate]. apply (do_type_ne r rank R C b b Bd); [lia | eapply C; eassumption|].
  specialize (Hb m l a Hm Ha). lia.
Qed.
