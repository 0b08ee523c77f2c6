(** Proofs about the checks of values: the value conforms to the type. *)
From Verif Require Import Check CheckSpec CheckProofs CheckProofs2 CheckProofs3 CheckProofs4.
From Coq Require Import List String Ascii Bool Arith ZArith QArith Lia ZifyBool.
Import ListNotations.
Local Open Scope string_scope.
Local Open Scope list_scope.

Section facts.
Variable tyof : string -> string -> option xtype.
Variable valof : string -> string -> option (xtype * xval).
Variable P : string -> string -> aval -> Prop.
Notation den := (den tyof valof).
Notation den_all := (den_all tyof valof).
Notation den_fields := (den_fields tyof valof).
Notation resolves := (resolves tyof).
Notation al := (allowed tyof valof).
Notation co := (conforms tyof valof).
Notation tame := (tame tyof valof).
Notation ttame := (type_tame tyof valof).
Notation sat := (satisfies tyof valof P).
Notation vals := (values_of tyof valof P).
Notation all_sat := (all_sat tyof valof P).
Hypothesis Pm : meaning tyof valof P.
Hypothesis At : all_tame tyof valof.

Definition comps_tame := fix all (l : list (string * xopt * xtype)) : Prop := match l with [] => True | (_, _, t) :: l => ttame t /\ all l end.
Definition alts_tame := fix all (l : list (string * xtype)) : Prop := match l with [] => True | (_, t) :: l => ttame t /\ all l end.
Definition seq_vals :=
  fix all (comps : list (string * xopt * xtype)) (fs : list (string * aval)) : Prop :=
             match comps with
             | [] => fs = []
             | (n, o, t) :: comps =>
                 match fs with
                 | (n', w) :: fs' => if String.eqb n n' then vals t w /\ all comps fs' else o <> Omust /\ all comps fs
                 | [] => o <> Omust /\ all comps fs
                 end
             end.
Definition alt_vals (n : string) (w : aval) :=
  fix any (l : list (string * xtype)) : Prop :=
             match l with [] => False | (n', t) :: l => if String.eqb n' n then vals t w else any l end.
Lemma alt_vals_assoc : forall n w t alts, assoc n alts = Some t -> (alt_vals n w alts <-> vals t w).
Proof.
  intros n w t. induction alts as [|[n' t'] alts IH]; intros H; [discriminate|]. simpl in *. destruct (String.eqb n' n); [|auto].
  injection H as ->. tauto.
Qed.
Lemma alts_tame_assoc : forall n t alts, alts_tame alts -> assoc n alts = Some t -> ttame t.
Proof.
  intros n t. induction alts as [|[n' t'] alts IH]; intros A H; [discriminate|]. simpl in *. destruct A. destruct (String.eqb n' n); [congruence|auto].
Qed.
Lemma forallR_ext : forall A (g h : A -> res bool) l, (forall x, In x l -> g x = h x) -> forallR g l = forallR h l.
Proof. intros A g h. induction l as [|x l IH]; intros H; simpl; auto. rewrite H by (left; reflexivity). rewrite IH; auto. intros y Hy. apply H. right. exact Hy. Qed.

Definition kind_vals (k : xkind) (v : aval) : Prop :=
  match k with
      | TInt => exists z, v = AInt z
      | TReal => exists q, v = AReal q
      | TStr => exists s, v = AStr s
      | TBool => exists b, v = ABool b
      | TBits => exists l, v = ABits l
      | TOcts => exists l, v = AOcts l
      | TNull => v = ANull
      | TEnum items => exists x, In x items /\ v = AEnum x
      | TOf t => exists l, v = AList l /\ forall x, In x l -> vals t x
      | TSeq comps => exists fs, v = ASeq fs /\ seq_vals comps fs
      | TCh alts => exists n w, v = ACh n w /\ alt_vals n w alts
      | TRef m T => P m T v
  end.
Lemma vals_split : forall k cs v, vals (XT k cs) v <-> kind_vals k v /\ exists kr, resolves (XT k []) kr /\ all_sat kr v cs.
Proof. intros k cs v. destruct k; reflexivity. Qed.
Lemma vals_here : forall k cs v, (forall m T, k <> TRef m T) -> (vals (XT k cs) v <-> (forall c, In c cs -> sat c k v) /\ kind_vals k v).
Proof.
  intros k cs v N. rewrite vals_split. rewrite <- all_sat_in. split.
  - intros [A [kr [R S]]]. rewrite (resolves_fun _ _ _ _ R (simple_self _ _ N)) in S. auto.
  - intros [S A]. split; auto. exists k. split; auto. apply simple_self. exact N.
Qed.
Lemma tame_here : forall k cs, (forall m T, k <> TRef m T) -> ttame (XT k cs) -> forall c, In c cs -> tame true k c.
Proof.
  intros k cs N [[kr [R F]] _] c Hc. rewrite (resolves_fun _ _ _ _ R (simple_self _ _ N)) in F. rewrite Forall_forall in F. auto.
Qed.
Definition bo_of (k : xkind) := match k with TOcts => Some TP_OCT | TBits => Some TP_BIT | _ => None end.
Lemma bo_right : forall b k, right_bo b k (bo_of k).
Proof. intros b k _. split; intros ->; reflexivity. Qed.
Lemma constraints_right : forall k cs e v ie, (forall m T, k <> TRef m T) -> ttame (XT k cs) -> den Strict (XT k []) e v ->
  decides (fun f => forallR (fun c => al f c e ie (bo_of k)) cs) (forall c, In c cs -> sat c k v).
Proof.
  intros k cs e v ie N T D. apply decides_forall. intros c Hc.
  exact (allowed_right _ _ _ Pm _ _ _ (tame_here _ _ N T _ Hc) _ _ _ _ D (bo_right _ _)).
Qed.
Lemma app_in : forall k cs cs' v, (forall c, In c (cs ++ cs') -> sat c k v) <-> (forall c, In c cs -> sat c k v) /\ (forall c, In c cs' -> sat c k v).
Proof. intros. setoid_rewrite in_app_iff. split; [intros H; split; auto|]. intros [A B] c [H|H]; auto. Qed.

Definition conf (t : xtype) (e : xval) (v : aval) : Prop :=
  forall k cs cs', t = XT k cs -> ttame (XT k cs') -> decides (fun f => co f (XT k cs') e) (vals (XT k cs') v).
Definition fieldR (comps : list (string * xopt * xtype)) f (nx : string * xval) :=
  match find_comp (fst nx) comps with Some ct => co f ct (snd nx) | None => Done false end.
Lemma fieldR_skip : forall n o t comps f x, fst x <> n -> fieldR ((n, o, t) :: comps) f x = fieldR comps f x.
Proof.
  intros n o t comps f x H. unfold fieldR, find_comp. simpl. destruct (String.eqb n (fst x)) eqn:E; auto. apply String.eqb_eq in E. congruence.
Qed.
Lemma fieldsR_skip : forall n o t comps f l, ~ In n (map fst l) -> forallR (fieldR ((n, o, t) :: comps) f) l = forallR (fieldR comps f) l.
Proof. intros. apply forallR_ext. intros x Hx. apply fieldR_skip. intros <-. apply H. apply in_map. exact Hx. Qed.

Lemma conforms_all :
  (forall t e v, den Strict t e v -> conf t e v) /\
  (forall t l vs, den_all Strict t l vs -> ttame t -> decides (fun f => forallR (fun x => co f t x) l) (forall x, In x vs -> vals t x)) /\
  (forall c l fs, den_fields Strict c l fs -> comps_tame c -> decides (fun f => forallR (fieldR c f) l) (seq_vals c fs)).
Proof.
  assert (B : forall k cs e v, (forall m T, k <> TRef m T) -> (forall items, k <> TEnum items) -> den Strict (XT k []) e v -> ttame (XT k cs) ->
    (forall f, co (S f) (XT k cs) e = forallR (fun c => al f c e false (bo_of k)) cs) -> kind_vals k v ->
    decides (fun f => co f (XT k cs) e) (vals (XT k cs) v)).
  { intros k cs e v N NE D T E K. eapply decides_down; [exact E|]. eapply decides_iff; [symmetry; apply vals_here; exact N|].
    eapply decides_iff; [|apply constraints_right; eauto]. tauto. }
  apply den_mutual; try (intros; congruence).
  - intros m T cs0 [k' c'] e v Ht Hd IH k cs cs' E T1. injection E as <- <-.
    apply decides_down with (X := fun f => co f (XT k' (c' ++ cs')) e). { intros f. simpl. rewrite Ht. reflexivity. }
    destruct T1 as [[kr [R1 F1]] _]. pose proof (At _ _ _ Ht) as T2. destruct T2 as [[k2 [R2 F2]] S2].
    assert (R3 : resolves (XT k' []) kr). { inversion R1; subst; [congruence|]. assert (t = XT k' c') by congruence. subst t. eapply resolves_constraints; eassumption. }
    assert (k2 = kr) by exact (resolves_fun _ _ _ _ R2 R3). subst k2.
    eapply decides_iff; [|apply (IH k' c' (c' ++ cs') eq_refl)].
    + rewrite (vals_split (TRef m T)), (vals_split k'). cbn [kind_vals]. rewrite (Pm _ _ _ _ Ht), vals_split. setoid_rewrite all_sat_in. setoid_rewrite app_in.
      split.
      * intros [A [k1 [R [S1 S3]]]]. split; [split; [exact A|]; exists k1; auto|]. exists kr. split; [exact R1|].
        rewrite (resolves_fun _ _ _ _ R3 R). exact S3.
      * intros [[A [k1 [R S1]]] [k3 [R' S3]]]. split; [exact A|]. exists k1. split; auto. split; auto.
        rewrite (resolves_fun _ _ _ _ R R3). rewrite <- (resolves_fun _ _ _ _ R' R1). exact S3.
    + split; [|exact S2]. exists kr. split; [exact R3|]. apply Forall_app. auto.
  - intros cs0 z k cs cs' E T. injection E as <- <-. apply B; [discriminate|discriminate|constructor|exact T|reflexivity|eexists; reflexivity].
  - intros cs0 z k cs cs' E T. injection E as <- <-. apply B; [discriminate|discriminate|constructor|exact T|reflexivity|eexists; reflexivity].
  - intros cs0 z k cs cs' E T. injection E as <- <-. apply B; [discriminate|discriminate|constructor|exact T|reflexivity|eexists; reflexivity].
  - intros cs0 z k cs cs' E T. injection E as <- <-. apply B; [discriminate|discriminate|constructor|exact T|reflexivity|eexists; reflexivity].
  - intros cs0 z k cs cs' E T. injection E as <- <-. apply B; [discriminate|discriminate|constructor|exact T|reflexivity|eexists; reflexivity].
  - intros cs0 z k cs cs' E T. injection E as <- <-. apply B; [discriminate|discriminate|constructor|exact T|reflexivity|eexists; reflexivity].
  - intros cs0 k cs cs' E T. injection E as <- <-. apply B; [discriminate|discriminate|constructor|exact T|reflexivity|reflexivity].
  - intros cs0 items m x Hin k cs cs' E T. injection E as <- <-.
    apply decides_down with (X := fun f => forallR (fun c => al f c (XRef m x) (mem x items) None) cs'); [reflexivity|].
    eapply decides_iff; [|apply (constraints_right (TEnum items) cs' (XRef m x) (AEnum x)); [discriminate|exact T|constructor; exact Hin]].
    rewrite vals_here by discriminate. split; [intros A; split; [exact A|]|tauto]. exists x. auto.
  - intros cs0 t l vs Hd IH k cs cs' E T. injection E as <- <-. pose proof T as [_ Tt].
    eapply decides_iff; [symmetry; apply vals_here; discriminate|].
    apply decides_down with (X := fun f => bothR (forallR (fun c => al f c (XOf l) false (bo_of (TOf t))) cs') (forallR (fun x => co f t x) l)); [reflexivity|].
    apply decides_both; [apply constraints_right; [discriminate|exact T|constructor; exact Hd]|]. intros _.
    eapply decides_iff; [|apply IH; exact Tt]. cbn [kind_vals]. split; [intros A; exists vs; auto|]. intros [l' [E A]]. injection E as <-. exact A.
  - intros cs0 comps l fs Hnd Hd IH k cs cs' E T. injection E as <- <-. pose proof T as [_ Tt].
    eapply decides_iff; [symmetry; apply vals_here; discriminate|].
    apply decides_down with (X := fun f => andR (forallR (fun c => al f c (XSeq l) false (bo_of (TSeq comps))) cs') (forallR (fieldR comps f) l)); [reflexivity|].
    apply decides_and; [apply constraints_right; [discriminate|exact T|constructor; auto]|].
    eapply decides_iff; [|apply IH; exact Tt]. cbn [kind_vals]. split; [intros A; exists fs; auto|]. intros [l' [E A]]. injection E as <-. exact A.
  - intros cs0 alts n t e v Ha Hd IH k cs cs' E T. injection E as <- <-. pose proof T as [_ Tt].
    eapply decides_iff; [symmetry; apply vals_here; discriminate|].
    apply decides_down with (X := fun f => andR (forallR (fun c => al f c (XCh n e) false (bo_of (TCh alts))) cs') (co f t e)).
    { intros f. simpl. rewrite Ha. reflexivity. }
    apply decides_and; [apply constraints_right; [discriminate|exact T|econstructor; eauto]|].
    destruct t as [kt ct]. eapply decides_iff; [|apply (IH kt ct ct eq_refl); exact (alts_tame_assoc _ _ _ Tt Ha)].
    cbn [kind_vals]. split.
    + intros A. exists n, v. split; [reflexivity|]. apply (alt_vals_assoc _ _ _ _ Ha). exact A.
    + intros [n' [w [E A]]]. injection E as <- <-. apply (alt_vals_assoc _ _ _ _ Ha) in A. exact A.
  - intros t _. apply decides_true. intros x [].
  - intros t e l v vs Hd IH Hl IHl T. destruct t as [kt ct].
    apply decides_iff with (P := vals (XT kt ct) v /\ forall x, In x vs -> vals (XT kt ct) x).
    + split; [intros [A C] x [<-|H]; auto|]. intros A. split; [apply A; left; reflexivity|]. intros x Hx. apply A. right. exact Hx.
    + apply decides_both with (X := fun f => co f (XT kt ct) e) (Y := fun f => forallR (fun x => co f (XT kt ct) x) l); [exact (IH kt ct ct eq_refl T)|].
      intros _. exact (IHl T).
  - intros _. apply decides_true. reflexivity.
  - intros n o [kt ct] c e l v fs Hd IH Hl IHl Hn [T1 T2].
    apply decides_ext with (X := fun f => bothR (co f (XT kt ct) e) (forallR (fieldR c f) l)).
    + intros f. cbn [forallR]. rewrite fieldsR_skip by exact Hn. unfold fieldR at 1, find_comp. cbn [find fst snd]. rewrite String.eqb_refl. reflexivity.
    + cbn [seq_vals]. rewrite String.eqb_refl. apply decides_both; [exact (IH kt ct ct eq_refl T1)|]. intros _. exact (IHl T2).
  - intros n o t c l fs Ho Hl IHl Hn [T1 T2].
    apply decides_ext with (X := fun f => forallR (fieldR c f) l). { intros f. apply fieldsR_skip. exact Hn. }
    eapply decides_iff; [|exact (IHl T2)]. cbn [seq_vals]. destruct fs as [|[n' w] fs]; [tauto|].
    destruct (String.eqb n n') eqn:E; [|tauto]. apply String.eqb_eq in E. subst n'. exfalso. apply Hn.
    destruct (fields_names _ _ _ _ _ _ Hl) as [A _]. rewrite A. left. reflexivity.
Qed.
Lemma conforms_right : forall t e v, den Strict t e v -> ttame t -> decides (fun f => co f t e) (vals t v).
Proof. intros [k cs] e v D T. exact (proj1 conforms_all _ _ _ D k cs cs eq_refl T). Qed.
End facts.

(** * The notation fits, with enough fuel *)
Section total.
Variable tyof : string -> string -> option xtype.
Variable valof : string -> string -> option (xtype * xval).
Notation den := (den tyof valof).
Notation tm := (type_match tyof valof).
Definition matched (t : xtype) (e : xval) : Prop :=
  exists t', ev (fun f => actual_type tyof f t) t' /\ forall tn, ev (fun f => tm f t' tn e []) true.
Lemma ev_forallR : forall A (X : nat -> A -> res bool) l, (forall x, In x l -> ev (fun f => X f x) true) -> ev (fun f => forallR (X f) l) true.
Proof.
  intros A X. induction l as [|x l IH]; intros H; simpl; [apply ev_done|].
  eapply ev_bind; [apply H; left; reflexivity|]. apply IH. intros y Hy. apply H. right. exact Hy.
Qed.
Lemma matched_tm : forall t e, matched t e -> forall tn, ev (fun f => tm f t tn e []) true.
Proof.
  intros [k cs] e [t' [A M]] tn.
  assert (K : (exists m T, k = TRef m T) \/ forall m T, k <> TRef m T) by (destruct k; eauto; right; intros; discriminate).
  destruct K as [[m [T ->]]|K].
  - apply ev_down with (X := fun f => bind (actual_type tyof f (XT (TRef m T) cs)) (fun t' => tm f t' ((m, T) :: tn) e [])).
    { intros f. cbn [type_match]. destruct tn; reflexivity. }
    eapply ev_bind; [exact A|]. apply M.
  - assert (t' = XT k cs). { destruct A as [n A]. specialize (A (S n)). rewrite <- (actual_self tyof (S n) k cs t' K) by (apply A; lia). reflexivity. }
    subst t'. apply M.
Qed.
Lemma matched_here : forall k cs e, (forall m T, k <> TRef m T) -> (forall tn, ev (fun f => tm f (XT k cs) tn e []) true) -> matched (XT k cs) e.
Proof.
  intros k cs e N H. exists (XT k cs). split; [|exact H]. apply ev_down with (X := fun _ => Done (XT k cs)); [|apply ev_done].
  intros f. simpl. destruct k; try reflexivity. exfalso. eapply N. reflexivity.
Qed.
Lemma matched_all :
  (forall t e v, den Strict t e v -> matched t e) /\
  (forall t l vs, den_all tyof valof Strict t l vs -> forall x, In x l -> matched t x) /\
  (forall comps l fs, den_fields tyof valof Strict comps l fs -> NoDup (map (fun c => fst (fst c)) comps) ->
     forall n o t, In (n, o, t) comps -> match assoc n l with Some e => matched t e | None => o <> Omust end).
Proof.
  apply den_mutual; try (intros; congruence).
  all: try solve [intros; apply matched_here; [intros; discriminate|]; intros tn; apply ev_down with (X := fun _ => Done true); [intros f; destruct tn; reflexivity|apply ev_done]].
  - intros m T cs t e v Ht Hd [t' [A M]]. exists t'. split; [|exact M].
    apply ev_down with (X := fun f => actual_type tyof f t); [|exact A]. intros f. simpl. rewrite Ht. reflexivity.
  - intros cs items m x Hin. apply matched_here; [intros; discriminate|]. intros tn. apply ev_down with (X := fun _ => Done true); [|apply ev_done].
    intros f. cbn [type_match]. apply mem_in in Hin. rewrite Hin. destruct tn; reflexivity.
  - intros cs t l vs Hd IH. apply matched_here; [intros; discriminate|]. intros tn.
    apply ev_down with (X := fun f => forallR (fun x => tm f t [] x []) l); [intros f; destruct tn; reflexivity|].
    apply ev_forallR. intros x Hx. apply matched_tm. auto.
  - intros cs comps l fs Hnd Hd IH. apply matched_here; [intros; discriminate|]. intros tn.
    apply ev_down with (X := fun f => bind (forallR (fun c : string * xopt * xtype => match c with (n, o, ct) =>
                  match assoc n l with
                  | Some x => tm f ct [] x []
                  | None => Done (match o with Omust => false | _ => true end)
                  end end) comps)
               (fun b => Done (b && negb (existsb (fun x => negb (mem (fst x) (map (fun c => fst (fst c)) comps))) l))));
      [intros f; destruct tn; reflexivity|].
    eapply ev_bind with (a := true).
    + apply ev_forallR. intros [[n o] t] Hin. specialize (IH Hnd _ _ _ Hin). destruct (assoc n l).
      * apply matched_tm. exact IH.
      * destruct o; [congruence|apply ev_done|apply ev_done].
    + assert (K : existsb (fun x => negb (mem (fst x) (map (fun c => fst (fst c)) comps))) l = false).
      { apply not_true_is_false. intros K. apply existsb_exists in K. destruct K as [[n e] [Hin K]]. cbn [fst] in K.
        destruct (fields_names _ _ _ _ _ _ Hd) as [_ [I _]]. apply negb_true_iff in K.
        assert (mem n (map (fun c => fst (fst c)) comps) = true) by (apply mem_in; apply I; apply (in_map fst) in Hin; exact Hin). congruence. }
      rewrite K. apply ev_done.
  - intros cs alts n t e v Ha Hd IH. apply matched_here; [intros; discriminate|]. intros tn.
    apply ev_down with (X := fun f => tm f t [] e []); [intros f; cbn [type_match]; rewrite Ha; destruct tn; reflexivity|].
    apply matched_tm. exact IH.
  - intros t x [].
  - intros t e l v vs Hd IH Hl IHl x [<-|Hx]; auto.
  - intros _ n o t [].
  - intros n o t comps e l v fs Hd IH Hl IHl Hn Hnd n' o' t' Hin. simpl in Hnd. inversion Hnd as [|? ? N1 N2]; subst.
    destruct Hin as [E|Hin].
    + injection E as <- <- <-. simpl. rewrite String.eqb_refl. exact IH.
    + assert (n' <> n). { intros ->. apply N1. apply (in_map (fun c => fst (fst c))) in Hin. exact Hin. }
      rewrite assoc_not_in_r by assumption. exact (IHl N2 _ _ _ Hin).
  - intros n o t comps l fs Ho Hl IHl Hn Hnd n' o' t' Hin. simpl in Hnd. inversion Hnd as [|? ? N1 N2]; subst.
    destruct Hin as [E|Hin].
    + injection E as <- <- <-. apply assoc_none in Hn. rewrite Hn. exact Ho.
    + exact (IHl N2 _ _ _ Hin).
Qed.
Lemma accepts_right : forall P, meaning tyof valof P -> all_tame tyof valof -> forall t e v, den Strict t e v -> type_tame tyof valof t ->
  decides (fun f => accepts tyof valof f t e) (values_of tyof valof P t v).
Proof.
  intros P Pm At t e v D T. destruct (conforms_right tyof valof P Pm At t e v D T) as [b [E K]]. exists b. split; [|exact K].
  unfold accepts. eapply ev_bind; [apply matched_tm; exact (proj1 matched_all _ _ _ D)|]. exact E.
Qed.
End total.
