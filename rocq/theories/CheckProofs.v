(** Proofs about the checks of values: the notation fits the type. *)
From Verif Require Import Check CheckSpec.
From Coq Require Import List String Ascii Bool Arith ZArith QArith Lia ZifyBool.
Import ListNotations.
Local Open Scope string_scope.
Local Open Scope list_scope.

Scheme den_min := Minimality for den Sort Prop
with den_all_min := Minimality for den_all Sort Prop
with den_fields_min := Minimality for den_fields Sort Prop.
Combined Scheme den_mutual from den_min, den_all_min, den_fields_min.

Lemma mem_in : forall n l, mem n l = true <-> In n l.
Proof.
  intros n l. unfold mem. rewrite existsb_exists. split.
  - intros [x [Hin E]]. apply String.eqb_eq in E. subst. exact Hin.
  - intros H. exists n. split; auto. apply String.eqb_refl.
Qed.
Lemma assoc_none : forall A n (l : list (string * A)), assoc n l = None <-> ~ In n (map fst l).
Proof.
  intros A n l. induction l as [|[m a] l IH]; simpl; [tauto|].
  destruct (String.eqb m n) eqn:E.
  - apply String.eqb_eq in E. split; [discriminate|]. intros H. exfalso. apply H. auto.
  - apply String.eqb_neq in E. rewrite IH. tauto.
Qed.
Lemma forallR_true : forall A (f : A -> res bool) l, forallR f l = Done true -> forall x, In x l -> f x = Done true.
Proof.
  intros A f l. induction l as [|x l IH]; simpl; intros H y Hy; [tauto|].
  destruct (f x) as [[|]| |] eqn:E; try discriminate. destruct Hy as [<-|Hy]; auto.
Qed.
Lemma forallR_done : forall A (f : A -> res bool) l b, forallR f l = Done b ->
  (forall x c, In x l -> f x = Done c -> c = true) -> b = true.
Proof.
  intros A f l. induction l as [|x l IH]; simpl; intros b H K; [congruence|].
  destruct (f x) as [c| |] eqn:E; try discriminate.
  assert (c = true) by (apply (K x); auto). subst c. simpl in H. apply (IH b H). intros y c Hy. apply K. auto.
Qed.
Lemma octet_exists : forall a b c d e f g h, exists z, byte z /\ octet_bits 8 z = [a; b; c; d; e; f; g; h].
Proof.
  intros. exists (fold_left (fun x (y : bool) => (2 * x + if y then 1 else 0)%Z) [a;b;c;d;e;f;g;h] 0%Z).
  destruct a, b, c, d, e, f, g, h; (split; [unfold byte; simpl; lia|reflexivity]).
Qed.
Lemma octets_exist : forall n l, (List.length l <= n)%nat -> exists os zs, Forall byte os /\ Forall (fun b => b = false) zs /\
  (List.length zs < 8)%nat /\ l ++ zs = flat_map (octet_bits 8) os.
Proof.
  induction n as [|n IH]; intros l Hl.
  - destruct l; [|simpl in Hl; lia]. exists [], []. (split; [|split; [|split]]); [constructor|constructor|simpl; lia|reflexivity].
  - destruct l as [|b0 [|b1 [|b2 [|b3 [|b4 [|b5 [|b6 [|b7 l]]]]]]]].
    + exists [], []. (split; [|split; [|split]]); [constructor|constructor|simpl; lia|reflexivity].
    + destruct (octet_exists b0 false false false false false false false) as [z [Hz E]].
      exists [z], [false;false;false;false;false;false;false]. cbn [flat_map app]. rewrite E. (split; [|split; [|split]]); [repeat constructor; auto; apply Hz|repeat constructor|simpl; lia|reflexivity].
    + destruct (octet_exists b0 b1 false false false false false false) as [z [Hz E]].
      exists [z], [false;false;false;false;false;false]. cbn [flat_map app]. rewrite E. (split; [|split; [|split]]); [repeat constructor; auto; apply Hz|repeat constructor|simpl; lia|reflexivity].
    + destruct (octet_exists b0 b1 b2 false false false false false) as [z [Hz E]].
      exists [z], [false;false;false;false;false]. cbn [flat_map app]. rewrite E. (split; [|split; [|split]]); [repeat constructor; auto; apply Hz|repeat constructor|simpl; lia|reflexivity].
    + destruct (octet_exists b0 b1 b2 b3 false false false false) as [z [Hz E]].
      exists [z], [false;false;false;false]. cbn [flat_map app]. rewrite E. (split; [|split; [|split]]); [repeat constructor; auto; apply Hz|repeat constructor|simpl; lia|reflexivity].
    + destruct (octet_exists b0 b1 b2 b3 b4 false false false) as [z [Hz E]].
      exists [z], [false;false;false]. cbn [flat_map app]. rewrite E. (split; [|split; [|split]]); [repeat constructor; auto; apply Hz|repeat constructor|simpl; lia|reflexivity].
    + destruct (octet_exists b0 b1 b2 b3 b4 b5 false false) as [z [Hz E]].
      exists [z], [false;false]. cbn [flat_map app]. rewrite E. (split; [|split; [|split]]); [repeat constructor; auto; apply Hz|repeat constructor|simpl; lia|reflexivity].
    + destruct (octet_exists b0 b1 b2 b3 b4 b5 b6 false) as [z [Hz E]].
      exists [z], [false]. cbn [flat_map app]. rewrite E. (split; [|split; [|split]]); [repeat constructor; auto; apply Hz|repeat constructor|simpl; lia|reflexivity].
    + destruct (octet_exists b0 b1 b2 b3 b4 b5 b6 b7) as [z [Hz E]].
      destruct (IH l) as [os [zs [A [B [C D]]]]]; [simpl in Hl; lia|].
      exists (z :: os), zs. split; [constructor; auto|]. split; [auto|]. split; [auto|]. cbn [flat_map app]. rewrite E, <- D. reflexivity.
Qed.

Section facts.
Variable tyof : string -> string -> option xtype.
Variable valof : string -> string -> option (xtype * xval).
Notation den := (den tyof valof).
Notation den_all := (den_all tyof valof).
Notation den_fields := (den_fields tyof valof).
Notation tm := (type_match tyof valof).

Definition fits (t : xtype) (e : xval) : Prop :=
  forall f g t' tn vn b, actual_type tyof g t = Done t' -> tm f t' tn e vn = Done b -> b = true.
Lemma fits_tm : forall t e f tn vn b, fits t e -> tm f t tn e vn = Done b -> b = true.
Proof.
  intros t e f tn vn b Hf H. destruct t as [k cs].
  assert (K : (exists m T, k = TRef m T) \/ forall m T, k <> TRef m T) by (destruct k; eauto; right; intros; discriminate).
  destruct K as [[m [T ->]]|K].
  - destruct f as [|f]; [discriminate|]. cbn [type_match] in H.
    destruct (match tn, vn with a :: _, b :: _ => same_name a b | _, _ => true end); [|discriminate].
    destruct (actual_type tyof f (XT (TRef m T) cs)) as [t'| |] eqn:E; try discriminate. exact (Hf _ _ _ _ _ _ E H).
  - apply (Hf f 1%nat (XT k cs) tn vn b); [|exact H]. destruct k; try reflexivity. exfalso. apply (K m T). reflexivity.
Qed.
Lemma actual_self : forall g k cs t', (forall m T, k <> TRef m T) -> actual_type tyof g (XT k cs) = Done t' -> t' = XT k cs.
Proof. intros [|g] k cs t' K H; [discriminate|]. destruct k; simpl in H; congruence. Qed.
Lemma assoc_not_in_r : forall A n m (a : A) l, n <> m -> assoc n ((m, a) :: l) = assoc n l.
Proof. intros. simpl. destruct (String.eqb m n) eqn:E; auto. apply String.eqb_eq in E. congruence. Qed.

Ltac start := let f := fresh "f" in let g := fresh "g" in let b := fresh "b" in let A := fresh "A" in let H := fresh "H" in
  intros f g t' tn vn b A H; apply actual_self in A; [|intros; discriminate]; subst t'; destruct f as [|f]; [discriminate|];
  cbn [type_match] in H;
  destruct (match tn, vn with a :: _, b :: _ => same_name a b | _, _ => true end); [|discriminate].
Lemma den_fits_all : forall s,
  (forall t e v, den s t e v -> fits t e) /\
  (forall t l vs, den_all s t l vs -> forall x, In x l -> fits t x) /\
  (forall comps l fs, den_fields s comps l fs -> NoDup (map (fun c => fst (fst c)) comps) ->
     (forall n o t, In (n, o, t) comps -> match assoc n l with Some e => fits t e | None => o <> Omust end) /\
     incl (map fst l) (map (fun c => fst (fst c)) comps)).
Proof.
  intros s. apply den_mutual.
  - intros m T cs t e v Ht Hd IH f g t' tn vn b A H.
    destruct g as [|g]; [discriminate|]. cbn [actual_type] in A. rewrite Ht in A. exact (IH _ _ _ _ _ _ A H).
  - intros. start. congruence.
  - intros. start. congruence.
  - intros. start. congruence.
  - intros. start. congruence.
  - intros. start. congruence.
  - intros. start. congruence.
  - intros. start. congruence.
  - intros. start. congruence.
  - intros. start. congruence.
  - intros. start. congruence.
  - intros cs items m x Hin. start. apply mem_in in Hin. rewrite Hin in H. congruence.
  - intros k cs m n t e v Hs Hk Hi Hv Hd IH f g t' tn vn b A H. apply actual_self in A; [|exact Hk]. subst t'.
    destruct f as [|f]; [discriminate|].
    assert (D : tm f (XT k cs) tn e (match t with XT (TRef m' T') _ => [(m', T')] | _ => [] end ++ vn) = Done b).
    { cbn [type_match] in H.
      destruct (match tn, vn with a :: _, b :: _ => same_name a b | _, _ => true end); [|discriminate].
      rewrite Hv in H. destruct t as [kt ct]. destruct k; try exact H.
      - destruct (mem n items) eqn:E; [|exact H]. apply mem_in in E. exfalso. exact (Hi _ eq_refl E).
      - exfalso. apply (Hk m0 T). reflexivity. }
    exact (fits_tm _ _ _ _ _ _ IH D).
  - intros cs t l vs Hd IH. start. apply (forallR_done _ _ _ _ H). intros x c Hx K. exact (fits_tm _ _ _ _ _ _ (IH x Hx) K).
  - intros cs comps l fs Hnd Hd IH. start. destruct (IH Hnd) as [F I].
    destruct (forallR _ comps) as [c| |] eqn:E; try discriminate. cbn [bind] in H.
    assert (c = true).
    { apply (forallR_done _ _ _ _ E). intros [[n o] t] c0 Hin K. specialize (F _ _ _ Hin). destruct (assoc n l).
      - exact (fits_tm _ _ _ _ _ _ F K).
      - destruct o; congruence. }
    subst c. assert (existsb (fun x => negb (mem (fst x) (map (fun c => fst (fst c)) comps))) l = false).
    { apply not_true_is_false. intros K. apply existsb_exists in K. destruct K as [[n e] [Hin K]]. cbn [fst] in K.
      apply negb_true_iff in K. assert (mem n (map (fun c => fst (fst c)) comps) = true).
      { apply mem_in. apply I. apply (in_map fst) in Hin. exact Hin. } congruence. }
    rewrite H0 in H. simpl in H. congruence.
  - intros cs comps l l' fs Hs Hnd Has Hd IH. start. destruct (IH Hnd) as [F I].
    destruct (forallR _ comps) as [c| |] eqn:E; try discriminate. cbn [bind] in H.
    assert (c = true).
    { apply (forallR_done _ _ _ _ E). intros [[n o] t] c0 Hin K. specialize (F _ _ _ Hin). rewrite (Has n) in K. destruct (assoc n l').
      - exact (fits_tm _ _ _ _ _ _ F K).
      - destruct o; congruence. }
    subst c. assert (existsb (fun x => negb (mem (fst x) (map (fun c => fst (fst c)) comps))) l = false).
    { apply not_true_is_false. intros K. apply existsb_exists in K. destruct K as [[n e] [Hin K]]. cbn [fst] in K.
      apply negb_true_iff in K. assert (mem n (map (fun c => fst (fst c)) comps) = true).
      { apply mem_in. apply I. destruct (in_dec string_dec n (map fst l')) as [J|J]; [exact J|].
        apply assoc_none in J. rewrite <- (Has n) in J. apply assoc_none in J. exfalso. apply J. apply (in_map fst) in Hin. exact Hin. } congruence. }
    rewrite H0 in H. simpl in H. congruence.
  - intros cs alts n t e v Ha Hd IH. start. rewrite Ha in H. exact (fits_tm _ _ _ _ _ _ IH H).
  - intros t x [].
  - intros t e l v vs Hd IH Hl IHl x [<-|Hx]; auto.
  - intros _. split; [intros n o t []|intros x []].
  - intros n o t comps e l v fs Hd IH Hl IHl Hn Hnd. simpl in Hnd. inversion Hnd as [|? ? N1 N2]; subst. destruct (IHl N2) as [F I]. split.
    + intros n' o' t' [E|Hin].
      * injection E as <- <- <-. simpl. rewrite String.eqb_refl. exact IH.
      * assert (n' <> n). { intros ->. apply N1. apply (in_map (fun c => fst (fst c))) in Hin. exact Hin. }
        rewrite assoc_not_in_r by assumption. exact (F _ _ _ Hin).
    + intros x [<-|Hx]; [left; reflexivity|]. right. apply I. exact Hx.
  - intros n o t comps l fs Ho Hl IHl Hn Hnd. simpl in Hnd. inversion Hnd as [|? ? N1 N2]; subst. destruct (IHl N2) as [F I]. split.
    + intros n' o' t' [E|Hin].
      * injection E as <- <- <-. apply assoc_none in Hn. rewrite Hn. exact Ho.
      * exact (F _ _ _ Hin).
    + intros x Hx. right. apply I. exact Hx.
Qed.

Lemma den_actual : forall s g t t' e v, actual_type tyof g t = Done t' -> den s t' e v -> den s t e v.
Proof.
  intros s. induction g as [|g IH]; intros [k cs] t' e v H D; [discriminate|].
  destruct k; try (simpl in H; injection H as <-; exact D).
  simpl in H. destruct (tyof m T) as [t1|] eqn:E; [|discriminate]. eapply d_ref; [exact E|]. exact (IH _ _ _ _ H D).
Qed.
Lemma unique_actual : forall g t t', all_unique tyof -> unique_names t -> actual_type tyof g t = Done t' -> unique_names t'.
Proof.
  induction g as [|g IH]; intros [k cs] t' Hall Hu H; [discriminate|].
  destruct k; try (simpl in H; injection H as <-; exact Hu).
  simpl in H. destruct (tyof m T) as [t1|] eqn:E; [|discriminate]. exact (IH _ _ Hall (Hall _ _ _ E) H).
Qed.
Lemma unique_comp : forall comps n o t,
  (fix all (l : list (string * xopt * xtype)) : Prop := match l with [] => True | (_, _, t) :: l => unique_names t /\ all l end) comps ->
  In (n, o, t) comps -> unique_names t.
Proof. induction comps as [|[[n' o'] t'] comps IH]; intros n o t H []; [injection H0 as <- <- <-; tauto|]. destruct H. eauto. Qed.
Lemma unique_alt : forall alts n t,
  (fix all (l : list (string * xtype)) : Prop := match l with [] => True | (_, t) :: l => unique_names t /\ all l end) alts ->
  assoc n alts = Some t -> unique_names t.
Proof.
  induction alts as [|[n' t'] alts IH]; intros n t H E; [discriminate|]. simpl in E. destruct H.
  destruct (String.eqb n' n); [congruence|eauto].
Qed.
Fixpoint given (comps : list (string * xopt * xtype)) (l : list (string * xval)) : list (string * xval) :=
  match comps with [] => [] | (n, _, _) :: comps => match assoc n l with Some e => (n, e) :: given comps l | None => given comps l end end.
Lemma given_names : forall comps l n, In n (map fst (given comps l)) -> In n (map (fun c => fst (fst c)) comps).
Proof.
  induction comps as [|[[n' o] t] comps IH]; intros l n H; simpl in *; [tauto|].
  destruct (assoc n' l); [destruct H as [H|H]|]; eauto.
Qed.
Lemma given_assoc : forall comps l n, In n (map (fun c => fst (fst c)) comps) -> NoDup (map (fun c => fst (fst c)) comps) ->
  assoc n (given comps l) = assoc n l.
Proof.
  induction comps as [|[[n' o] t] comps IH]; intros l n H Hnd; simpl in *; [tauto|]. inversion Hnd; subst.
  destruct (string_dec n' n) as [->|N].
  - destruct (assoc n l) eqn:E; [simpl; rewrite String.eqb_refl; reflexivity|].
    apply assoc_none. intros K. apply given_names in K. contradiction.
  - destruct H as [H|H]; [contradiction|]. destruct (assoc n' l); [|auto]. rewrite assoc_not_in_r by congruence. auto.
Qed.
Lemma given_fields : forall l comps, NoDup (map (fun c => fst (fst c)) comps) ->
  (forall n o t, In (n, o, t) comps -> match assoc n l with Some e => exists v, den Loose t e v | None => o <> Omust end) ->
  exists fs, den_fields Loose comps (given comps l) fs.
Proof.
  intros l. induction comps as [|[[n o] t] comps IH]; intros Hnd H; simpl.
  - exists []. constructor.
  - simpl in Hnd. inversion Hnd; subst. destruct IH as [fs Hfs]; auto. { intros n' o' t' Hin. apply (H n' o' t'). right. exact Hin. }
    assert (N : ~ In n (map fst (given comps l))) by (intros K; apply given_names in K; contradiction).
    specialize (H n o t (or_introl eq_refl)). destruct (assoc n l) as [e|].
    + destruct H as [v Hv]. exists ((n, v) :: fs). constructor; auto.
    + exists fs. apply df_absent; auto.
Qed.
Lemma tm_den : all_unique tyof -> forall f t tn e vn, unique_names t -> tm f t tn e vn = Done true -> exists v, den Loose t e v.
Proof.
  intros Hall. induction f as [|f IH]; intros t tn e vn Hu H; [discriminate|].
  assert (DR : forall k cs m n, (forall m T, k <> TRef m T) -> (forall items, k = TEnum items -> ~ In n items) -> unique_names (XT k cs) ->
     match valof m n with None => Raise | Some (XT k' _, e') => tm f (XT k cs) tn e' (match k' with TRef m' T' => [(m', T')] | _ => [] end ++ vn) end = Done true ->
     exists v, den Loose (XT k cs) (XRef m n) v).
  { intros k cs m n Hk Hi Hun K. destruct (valof m n) as [[[k' cs'] e']|] eqn:Ev; [|discriminate].
    destruct (IH _ _ _ _ Hun K) as [v Hv]. exists v. eapply d_name; eauto; discriminate. }
  cbn [type_match] in H.
  destruct (match tn, vn with a :: _, b :: _ => same_name a b | _, _ => true end); [|discriminate].
  destruct t as [k cs]. destruct k;
    try (destruct e; try discriminate H; try (apply DR; [intros; discriminate|intros; discriminate|exact Hu|exact H]);
         eexists; solve [constructor; discriminate | constructor]).
  - (* OCTET STRING *) destruct e; try discriminate H; try (apply DR; [intros; discriminate|intros; discriminate|exact Hu|exact H]).
    + destruct (octets_exist (List.length l) l (le_n _)) as [os [zs [A [B [C D]]]]]. exists (AOcts os). eapply d_octs_bits; eauto. discriminate.
    + eexists. constructor.
  - (* ENUMERATED *) destruct e; try discriminate H. destruct (mem n items) eqn:E.
    + apply mem_in in E. eexists. constructor. exact E.
    + apply DR; auto; [intros; discriminate|]. intros items' K Hin. injection K as <-. apply mem_in in Hin. congruence.
  - (* SEQUENCE OF *) destruct e; try discriminate H; try (apply DR; [intros; discriminate|intros; discriminate|exact Hu|exact H]).
    simpl in Hu. assert (K : exists vs, den_all Loose t l vs).
    { clear -H IH Hu. induction l as [|x l IHl]; [exists []; constructor|]. simpl in H.
      destruct (tm f t [] x []) as [[|]| |] eqn:E; try discriminate. destruct (IH _ _ _ _ Hu E) as [v Hv].
      destruct (IHl H) as [vs Hvs]. exists (v :: vs). constructor; auto. }
    destruct K as [vs K]. exists (AList vs). constructor. exact K.
  - (* SEQUENCE *) destruct e as [| | | | | | | | |fl|]; try discriminate H; try (apply DR; [intros; discriminate|intros; discriminate|exact Hu|exact H]).
    simpl in Hu. destruct Hu as [Hnd Hua].
    destruct (forallR _ l) as [b| |] eqn:E; try discriminate. cbn [bind] in H.
    assert (b = true) by (destruct b; [reflexivity|discriminate]). subst b. injection H as H. apply negb_true_iff in H.
    destruct (given_fields fl l Hnd) as [fs Hfs].
    { intros n o t Hin. pose proof (forallR_true _ _ _ E _ Hin) as K. cbn beta iota in K. destruct (assoc n fl) as [x|].
      - exact (IH _ _ _ _ (unique_comp _ _ _ _ Hua Hin) K).
      - destruct o; try discriminate. }
    exists (ASeq fs). apply d_seq_any with (l' := given l fl); auto. intros n.
    destruct (in_dec string_dec n (map (fun c => fst (fst c)) l)) as [I|I].
    + symmetry. apply given_assoc; auto.
    + assert (A : assoc n (given l fl) = None) by (apply assoc_none; intros K; apply given_names in K; contradiction).
      rewrite A. apply assoc_none. intros K. apply in_map_iff in K. destruct K as [[n' x] [En K]]. simpl in En. subst n'.
      assert (T : existsb (fun x => negb (mem (fst x) (map (fun c => fst (fst c)) l))) fl = true).
      { apply existsb_exists. exists (n, x). split; auto. apply negb_true_iff. apply not_true_is_false. intros M. apply mem_in in M. contradiction. }
      congruence.
  - (* CHOICE *) destruct e; try discriminate H; try (apply DR; [intros; discriminate|intros; discriminate|exact Hu|exact H]).
    destruct (assoc n l) as [t|] eqn:E; [|discriminate]. simpl in Hu.
    destruct (IH _ _ _ _ (unique_alt _ _ _ Hu E) H) as [v Hv]. exists (ACh n v). econstructor; eauto.
  - (* reference *)
    destruct (actual_type tyof f (XT (TRef m T) cs)) as [t'| |] eqn:E;
      (destruct e; try discriminate H; cbn [bind] in H;
       destruct (IH _ _ _ _ (unique_actual _ _ _ Hall Hu E) H) as [v Hv]; exists v; exact (den_actual _ _ _ _ _ _ E Hv)).
Qed.
Lemma type_match_iff : all_unique tyof -> forall f t e b, unique_names t -> tm f t [] e [] = Done b ->
  (b = true <-> exists v, den Loose t e v).
Proof.
  intros Hall f t e b Hu H. split.
  - intros ->. exact (tm_den Hall _ _ _ _ _ Hu H).
  - intros [v Hv]. exact (fits_tm _ _ _ _ _ _ (proj1 (den_fits_all Loose) _ _ _ Hv) H).
Qed.
Lemma type_match_plain : forall s f t e v b, den s t e v -> tm f t [] e [] = Done b -> b = true.
Proof. intros s f t e v b Hv H. exact (fits_tm _ _ _ _ _ _ (proj1 (den_fits_all s) _ _ _ Hv) H). Qed.
End facts.
