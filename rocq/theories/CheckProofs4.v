(** Proofs about the checks of values: the constraints. *)
From Verif Require Import Check CheckSpec CheckProofs CheckProofs2 CheckProofs3.
From Coq Require Import List String Ascii Bool Arith ZArith QArith Lia ZifyBool.
Import ListNotations.
Local Open Scope string_scope.
Local Open Scope list_scope.

Section facts.
Variable tyof : string -> string -> option xtype.
Variable valof : string -> string -> option (xtype * xval).
Variable P : string -> string -> aval -> Prop.
Notation den := (den tyof valof).
Notation den_all := (den_all tyof valof).
Notation den_fields := (den_fields tyof valof).
Notation resolves := (resolves tyof).
Notation veq := (values_equal valof).
Notation cmp := (compare_values valof).
Notation al := (allowed tyof valof).
Notation tame := (tame tyof valof).
Notation sat := (satisfies tyof valof P).
Notation vals := (values_of tyof valof P).

Section tame_ind.
Variable Q : bool -> xkind -> xcon -> Prop.
Hypothesis Hsingle : forall b k e v, den Strict (XT k []) e v -> Q b k (NSingle e).
Hypothesis Hrange : forall b k lo hi i j v w, number k -> den Strict (XT k []) lo v -> den Strict (XT k []) hi w -> Q b k (NRange lo hi i j).
Hypothesis Hfrom : forall b k lo i v, number k -> den Strict (XT k []) lo v -> Q b k (NFrom lo i).
Hypothesis Hto : forall b k hi j v, number k -> den Strict (XT k []) hi v -> Q b k (NTo hi j).
Hypothesis Hany : forall b k, Q b k NAny.
Hypothesis Hincl : forall b k m T cs, simple k -> tyof m T = Some (XT k cs) -> (forall c, In c cs -> Q b k c) -> Q b k (NIncl m T).
Hypothesis Hsize : forall (b : bool) k c, (match k with TStr | TOf _ => True | TBits | TOcts => b = true | _ => False end) -> Q true TInt c -> Q b k (NSize c).
Hypothesis Hset : forall b s, Q b TStr (NAlpha (NSingle (XStr s))).
Hypothesis Halpha : forall b c, alpha_tame c -> Q b TStr (NAlpha c).
Hypothesis Hunion : forall b k c d, Q b k c -> Q b k d -> Q b k (NUnion c d).
Hypothesis Hroot2 : forall b k c d, Q b k c -> Q b k d -> Q b k (NRoot2 c d).
Hypothesis Hinter : forall b k c d, Q b k c -> Q b k d -> Q b k (NInter c d).
Hypothesis Hexcept : forall b k c d, Q b k c -> Q b k d -> Q b k (NExcept c d).
Hypothesis Hall : forall b k c, Q b k c -> Q b k (NAll c).
Hypothesis Hroot : forall b k c, Q b k c -> Q b k (NRoot c).
Hypothesis Hwith : forall b t kt c, resolves t kt -> Q false kt c -> Q b (TOf t) (NWith c).
Hypothesis Hwiths : forall b comps l,
    (forall n mark oc, In (n, mark, oc) l -> (mark = MarkOptional -> oc = None) /\
       forall c, oc = Some c -> exists t kt, find_comp n comps = Some t /\ resolves t kt /\ Q false kt c) ->
    Q b (TSeq comps) (NWiths l).
Hypothesis Hwiths_ch : forall b alts l, NoDup (map (fun x => fst (fst x)) l) ->
    (forall n mark oc, In (n, mark, oc) l -> mark <> MarkPresent /\
       forall c, oc = Some c -> exists t kt, assoc n alts = Some t /\ resolves t kt /\ Q false kt c) ->
    Q b (TCh alts) (NWiths l).
Lemma tame_ind2 : forall b k c, tame b k c -> Q b k c.
Proof.
  fix F 4. intros b k c H. destruct H.
  - eapply Hsingle; eauto.
  - eapply Hrange; eauto.
  - eapply Hfrom; eauto.
  - eapply Hto; eauto.
  - apply Hany.
  - eapply Hincl; eauto. clear -H1 F. intros c. induction H1 as [|c' cs' Hc Hcs IH]; simpl; intros [].
    + subst. apply F. exact Hc.
    + apply IH. exact H.
  - apply Hsize; auto.
  - apply Hset.
  - apply Halpha; auto.
  - apply Hunion; auto.
  - apply Hroot2; auto.
  - apply Hinter; auto.
  - apply Hexcept; auto.
  - apply Hall; auto.
  - apply Hroot; auto.
  - eapply Hwith; eauto.
  - apply Hwiths. intros n mark oc Hin. destruct (H n mark oc Hin) as [A B]. split; [exact A|].
    intros c Hc. destruct (B c Hc) as [t [kt [C [D E]]]]. exists t, kt. split; [exact C|]. split; [exact D|]. apply F. exact E.
  - apply Hwiths_ch; auto. intros n mark oc Hin. destruct (H0 n mark oc Hin) as [A B]. split; [exact A|].
    intros c Hc. destruct (B c Hc) as [t [kt [C [D E]]]]. exists t, kt. split; [exact C|]. split; [exact D|]. apply F. exact E.
Qed.
End tame_ind.

(** * Characters *)
Lemma alpha_allowed : forall ie bo c x, alpha_tame c -> one_char x -> decides (fun f => al f c (XStr x) ie bo) (permits c x).
Proof.
  intros ie bo. induction c; intros x Ht Hx; simpl in Ht; try tauto.
  - destruct e; try tauto. apply decides_down with (X := fun f => veq f ie (XStr s) (XStr x)); [reflexivity|].
    apply decides_down with (X := fun f => Done (String.eqb s x)); [reflexivity|]. apply decides_const. rewrite String.eqb_eq. simpl.
    rewrite explode_one by assumption. tauto.
  - destruct lo; try tauto. destruct hi; try tauto. destruct Ht as [A B].
    destruct (one_code _ A) as [za Ea]. destruct (one_code _ B) as [zb Eb]. destruct (one_code _ Hx) as [zx Ex].
    apply decides_down with (X := fun f => bothR (bind (cmp f (XStr s) (XStr x)) (fun o => Done (low lo_in o))) (bind (cmp f (XStr x) (XStr s0)) (fun o => Done (low hi_in o)))); [reflexivity|].
    simpl. apply decides_both; [|intros _].
    + apply decides_down with (X := fun f => Done (low lo_in (str_cmp s x))); [reflexivity|]. apply decides_const.
      rewrite (str_cmp_one _ _ _ _ Ea Ex), low_compare. split; [intros; exists za, zx; auto|]. intros [? [? [U [V W]]]]. rewrite Ea in U. rewrite Ex in V. injection U as <-. injection V as <-. exact W.
    + apply decides_down with (X := fun f => Done (low hi_in (str_cmp x s0))); [reflexivity|]. apply decides_const.
      rewrite (str_cmp_one _ _ _ _ Ex Eb), low_compare. split; [intros; exists zx, zb; auto|]. intros [? [? [U [V W]]]]. rewrite Ex in U. rewrite Eb in V. injection U as <-. injection V as <-. exact W.
  - destruct lo; try tauto. destruct (one_code _ Ht) as [za Ea]. destruct (one_code _ Hx) as [zx Ex].
    apply decides_down with (X := fun f => bind (cmp f (XStr s) (XStr x)) (fun o => Done (low lo_in o))); [reflexivity|].
    apply decides_down with (X := fun f => Done (low lo_in (str_cmp s x))); [reflexivity|]. apply decides_const. simpl.
    rewrite (str_cmp_one _ _ _ _ Ea Ex), low_compare. split; [intros; exists za, zx; auto|]. intros [? [? [U [V W]]]]. rewrite Ea in U. rewrite Ex in V. injection U as <-. injection V as <-. exact W.
  - destruct hi; try tauto. destruct (one_code _ Ht) as [za Ea]. destruct (one_code _ Hx) as [zx Ex].
    apply decides_down with (X := fun f => bind (cmp f (XStr x) (XStr s)) (fun o => Done (low hi_in o))); [reflexivity|].
    apply decides_down with (X := fun f => Done (low hi_in (str_cmp x s))); [reflexivity|]. apply decides_const. simpl.
    rewrite (str_cmp_one _ _ _ _ Ex Ea), low_compare. split; [intros; exists zx, za; auto|]. intros [? [? [U [V W]]]]. rewrite Ea in V. rewrite Ex in U. injection U as <-. injection V as <-. exact W.
  - apply decides_down with (X := fun _ => Done true); [reflexivity|]. apply decides_true. exact I.
  - eapply decides_down; [reflexivity|]. apply decides_or; [apply IHc1|apply IHc2]; tauto.
  - eapply decides_down; [reflexivity|]. apply decides_both; [apply IHc1|intros _; apply IHc2]; tauto.
  - eapply decides_down; [reflexivity|]. apply decides_not; auto.
  - eapply decides_down; [reflexivity|]. apply decides_both; [apply IHc1; tauto|intros _]. apply decides_not; apply IHc2; tauto.
  - eapply decides_down; [reflexivity|]. apply IHc; auto.
  - eapply decides_down; [reflexivity|]. apply decides_or2; [apply IHc1|apply IHc2]; tauto.
Qed.

(** * Constraints *)
Definition right_bo (b : bool) (k : xkind) (bo : option bit_or_oct) : Prop :=
  b = true -> (k = TBits -> bo = Some TP_BIT) /\ (k = TOcts -> bo = Some TP_OCT).
Lemma right_int : forall b bo, right_bo b TInt bo.
Proof. intros b bo _. split; discriminate. Qed.
Lemma right_false : forall k bo, right_bo false k bo.
Proof. intros k bo H. discriminate. Qed.
Definition all_sat (k : xkind) (v : aval) := fix all (cs : list xcon) : Prop := match cs with [] => True | c :: cs => sat c k v /\ all cs end.
Lemma all_sat_in : forall k v cs, all_sat k v cs <-> forall c, In c cs -> sat c k v.
Proof.
  intros k v. induction cs as [|c cs IH]; simpl; [split; auto; intros _ c []|]. rewrite IH. split.
  - intros [A B] x [<-|H]; auto.
  - intros H. split; auto.
Qed.
Lemma resolves_simple : forall k kr, simple k -> resolves (XT k []) kr -> kr = k.
Proof. intros k kr H R. inversion R; subst; [reflexivity|]. destruct H. Qed.
Lemma simple_self : forall k, (forall m T, k <> TRef m T) -> resolves (XT k []) k.
Proof. intros. apply r_here. assumption. Qed.
Lemma den_simple : forall k cs e v, simple k -> den Strict (XT k []) e v -> (vals (XT k cs) v <-> all_sat k v cs).
Proof.
  intros k cs e v Hs D. split.
  - intros [_ [kr [R A]]]. rewrite (resolves_simple _ _ Hs R) in A. exact A.
  - intros A. split.
    + destruct k; try destruct Hs; inversion D; subst; try congruence; eauto.
    + exists k. split; [|exact A]. apply r_here. intros m T ->. destruct Hs.
Qed.
Definition marks_ok (k : xkind) (v : aval) :=
  fix all (l : list (string * pmark * option xcon)) : Prop :=
         match l with
         | [] => True
         | (n, mark, oc) :: l =>
             match mark with MarkPresent => apart_of n v <> None | MarkAbsent => apart_of n v = None | _ => True end /\
             match oc with
             | Some c => forall w, apart_of n v = Some w -> exists t kt, comp_type k n = Some t /\ resolves t kt /\ sat c kt w
             | None => True
             end /\ all l
         end.
Lemma marks_in : forall k v l, marks_ok k v l <-> forall x, In x l -> match x with (n, mark, oc) =>
   match mark with MarkPresent => apart_of n v <> None | MarkAbsent => apart_of n v = None | _ => True end /\
   match oc with
   | Some c => forall w, apart_of n v = Some w -> exists t kt, comp_type k n = Some t /\ resolves t kt /\ sat c kt w
   | None => True
   end end.
Proof.
  intros k v. induction l as [|[[n mark] oc] l IH]; [simpl; split; auto; intros _ x []|].
  cbn [marks_ok]. rewrite IH. split.
  - intros [A [B C]] x [<-|H]; [split; [exact A|exact B]|exact (C x H)].
  - intros H. pose proof (H _ (or_introl eq_refl)) as [A B]. split; [exact A|]. split; [exact B|]. intros x Hx. apply H. right. exact Hx.
Qed.
Hypothesis Pm : meaning tyof valof P.

Lemma allowed_right : forall b k c, tame b k c -> forall e v ie bo, den Strict (XT k []) e v -> right_bo b k bo ->
  decides (fun f => al f c e ie bo) (sat c k v).
Proof.
  apply (tame_ind2 (fun b k c => forall e v ie bo, den Strict (XT k []) e v -> right_bo b k bo -> decides (fun f => al f c e ie bo) (sat c k v))).
  - intros b k c w Dc e v ie bo D _. apply decides_down with (X := fun f => veq f ie c e); [reflexivity|].
    apply decides_iff with (P := w = v); [|exact (proj1 (equal_all tyof valof ie) _ _ _ Dc _ _ D)].
    simpl. rewrite (plain_of_strict _ _ _ _ _ _ Dc). split; congruence.
  - intros b k lo hi i j vl vh Hn Dl Dh e v ie bo D _.
    apply decides_down with (X := fun f => bothR (bind (cmp f lo e) (fun o => Done (low i o))) (bind (cmp f e hi) (fun o => Done (low j o)))); [reflexivity|].
    apply decides_iff with (P := aless i vl v /\ aless j v vh).
    + simpl. split.
      * intros [A B]. exists vl, vh. rewrite (plain_of_strict _ _ _ _ _ _ Dl), (plain_of_strict _ _ _ _ _ _ Dh). auto.
      * intros [x [y [A [B C]]]]. apply (plain_of_strict _ _ _ _ _ _ Dl) in A. apply (plain_of_strict _ _ _ _ _ _ Dh) in B. subst. exact C.
    + apply decides_both; [|intros _]; eapply order_right; eauto.
  - intros b k lo i vl Hn Dl e v ie bo D _.
    apply decides_down with (X := fun f => bind (cmp f lo e) (fun o => Done (low i o))); [reflexivity|].
    apply decides_iff with (P := aless i vl v); [|eapply order_right; eauto].
    simpl. split.
    + intros A. exists vl. rewrite (plain_of_strict _ _ _ _ _ _ Dl). auto.
    + intros [x [A B]]. apply (plain_of_strict _ _ _ _ _ _ Dl) in A. subst. exact B.
  - intros b k hi j vh Hn Dh e v ie bo D _.
    apply decides_down with (X := fun f => bind (cmp f e hi) (fun o => Done (low j o))); [reflexivity|].
    apply decides_iff with (P := aless j v vh); [|eapply order_right; eauto].
    simpl. split.
    + intros A. exists vh. rewrite (plain_of_strict _ _ _ _ _ _ Dh). auto.
    + intros [x [A B]]. apply (plain_of_strict _ _ _ _ _ _ Dh) in A. subst. exact B.
  - intros b k e v ie bo _ _. apply decides_down with (X := fun _ => Done true); [reflexivity|]. apply decides_true. exact I.
  - intros b k m T cs Hs Ht IH e v ie bo D R.
    apply decides_down with (X := fun f => forallR (fun c => al f c e ie bo) cs). { intros f. simpl. rewrite Ht. reflexivity. }
    apply decides_iff with (P := forall c, In c cs -> sat c k v).
    + simpl. rewrite (Pm _ _ _ _ Ht), (den_simple _ _ _ _ Hs D), all_sat_in. tauto.
    + apply decides_forall. intros c Hc. apply IH; assumption.
  - intros b k c Hk IH e v ie bo D R.
    assert (G : forall n, decides (fun f => al f c (XInt n) ie bo) (sat c TInt (AInt n))).
    { intros n. apply IH; [constructor|apply right_int]. }
    assert (S : forall n, asize v = Some n -> (sat c TInt (AInt n) <-> sat (NSize c) k v)).
    { intros n E. simpl. rewrite E. split; [eauto|]. intros [n' [E' K]]. injection E' as <-. exact K. }
    destruct k; try contradiction Hk; inversion D; subst; try congruence.
    + eapply decides_down; [reflexivity|]. cbn beta iota. eapply decides_iff; [apply S; reflexivity|]. apply G.
    + eapply decides_down; [reflexivity|]. destruct (R eq_refl) as [RB _]. rewrite (RB eq_refl). cbn beta iota.
      eapply decides_iff; [apply S; reflexivity|]. rewrite (RB eq_refl) in G. apply G.
    + eapply decides_down; [reflexivity|]. destruct (R eq_refl) as [_ RB]. rewrite (RB eq_refl). cbn beta iota.
      eapply decides_iff; [apply S; reflexivity|]. rewrite (RB eq_refl) in G. apply G.
    + apply decides_down with (X := fun f => al f c (XInt (Z.of_nat (List.length l))) ie bo); [reflexivity|].
      match goal with K : CheckSpec.den_all _ _ _ _ _ _ |- _ => pose proof (all_length _ _ _ _ _ _ K) as L end.
      eapply decides_iff; [apply S; simpl; rewrite <- L; reflexivity|]. apply G.
  - intros b s e v ie bo D _. inversion D; subst; try congruence.
    apply decides_down with (X := fun _ => Done (forallb (fun x => mem x (explode s)) (explode x))); [reflexivity|].
    apply decides_const. rewrite forallb_forall. simpl. split.
    + intros H. exists x. split; [reflexivity|]. intros y Hy. apply mem_in. apply H. exact Hy.
    + intros [s' [E H]] y Hy. injection E as <-. apply mem_in. apply H. exact Hy.
  - intros b c Hc e v ie bo D _. inversion D; subst; try congruence.
    apply decides_iff with (P := forall y, In y (explode x) -> permits c y).
    + simpl. split; [intros H; exists x; auto|]. intros [s' [E H]]. injection E as <-. exact H.
    + assert (G : decides (fun f => forallR (fun y => al f c (XStr y) ie bo) (explode x)) (forall y, In y (explode x) -> permits c y)).
      { apply decides_forall. intros y Hy. apply alpha_allowed; auto. exact (one_explode _ _ Hy). }
      destruct c; simpl in Hc; try tauto; try (eapply decides_down; [|exact G]; reflexivity).
      destruct e; try tauto.
      apply decides_down with (X := fun _ => Done (forallb (fun x => mem x (explode s)) (explode x))); [reflexivity|].
      apply decides_const. rewrite forallb_forall. split; intros H y Hy; specialize (H y Hy); apply mem_in; exact H.
  - intros b k c d IHc IHd e v ie bo D R. eapply decides_down; [reflexivity|]. apply decides_or; auto.
  - intros b k c d IHc IHd e v ie bo D R. eapply decides_down; [reflexivity|]. apply decides_or2; auto.
  - intros b k c d IHc IHd e v ie bo D R. eapply decides_down; [reflexivity|]. apply decides_both; auto.
  - intros b k c d IHc IHd e v ie bo D R. eapply decides_down; [reflexivity|]. apply decides_both; auto. intros _. apply decides_not; auto.
  - intros b k c IHc e v ie bo D R. eapply decides_down; [reflexivity|]. apply decides_not; auto.
  - intros b k c IHc e v ie bo D R. eapply decides_down; [reflexivity|]. apply IHc; auto.
  - intros b t kt c Hr IH e v ie bo D R. inversion D; subst; try congruence.
    eapply decides_down; [reflexivity|]. cbn beta iota.
    assert (G : decides (fun f => forallR (fun x => al f c x ie bo) l) (forall y, In y vs -> sat c kt y)).
    { match goal with K : CheckSpec.den_all _ _ _ _ _ _ |- _ => rename K into DA end. clear -DA IH Hr. induction DA; simpl.
      - apply decides_true. intros y [].
      - apply decides_iff with (P := sat c kt v /\ forall y, In y vs -> sat c kt y).
        + split; [intros [A B] y [<-|Hy]; auto|]. intros A. split; auto.
        + apply decides_both with (Y := fun f => forallR (fun x => al f c x ie bo) l); [|intros _; auto].
          apply IH; [|apply right_false]. eapply den_resolves; eauto. }
    eapply decides_iff; [|exact G]. simpl. split.
    + intros H. exists t, kt, vs. auto.
    + intros [t' [kt' [l' [E1 [E2 [E3 H]]]]]]. injection E1 as <-. injection E3 as <-.
      rewrite (resolves_fun _ _ _ _ Hr E2). exact H.
  - intros b comps l IH e v ie bo D R. inversion D as [| | | | | | | | | | | | | |? ? fl fs Hnd DF| |]; subst; try congruence.
    eapply decides_down; [reflexivity|]. cbn beta iota.
    eapply decides_iff; [symmetry; apply (marks_in (TSeq comps) (ASeq fs) l)|]. apply decides_forall.
    intros [[n mark] oc] Hin. destruct (IH _ _ _ Hin) as [A B]. cbn [apart_of comp_type].
    destruct (assoc n fl) as [x|] eqn:E.
    + destruct (fields_assoc _ _ _ _ _ _ _ _ Hnd DF E) as [t [w [E1 [E2 E3]]]]. rewrite E2.
      assert (G : forall c, oc = Some c -> decides (fun f => al f c x ie bo) (forall w0, Some w = Some w0 -> exists t0 kt, find_comp n comps = Some t0 /\ resolves t0 kt /\ sat c kt w0)).
      { intros c Hc. destruct (B c Hc) as [t' [kt [C1 [C2 C3]]]]. assert (t' = t) by congruence. subst t'.
        apply decides_iff with (P := sat c kt w).
        - split; [intros S w0 W; injection W as <-; eauto|]. intros S. destruct (S w eq_refl) as [t1 [k1 [S1 [S2 S3]]]].
          assert (t1 = t) by congruence. subst t1. rewrite (resolves_fun _ _ _ _ C2 S2). exact S3.
        - apply C3; [|apply right_false]. eapply den_resolves; eauto. }
      destruct mark, oc as [c|]; try (specialize (G c eq_refl)).
      all: try (apply decides_true; split; [|exact I]; try exact I; discriminate).
      all: try (apply decides_false; intros [K _]; discriminate).
      all: try (eapply decides_iff; [|exact G]; split; [intros S; split; [first [exact I|discriminate]|exact S]|intros [_ S]; exact S]).
    + rewrite (fields_assoc_none _ _ _ _ _ _ _ DF E). destruct mark, oc as [c|].
      all: try (apply decides_true; split; [try exact I; reflexivity|first [exact I|intros w W; discriminate]]).
      all: try (apply decides_false; intros [K _]; apply K; reflexivity).
      specialize (A eq_refl). discriminate.
  - intros b alts l Hnd IH e v ie bo D R. inversion D as [| | | | | | | | | | | | | | | |? ? n t x w Ha Dx]; subst; try congruence.
    apply decides_down with (X := fun f => match find (fun nc => String.eqb (fst (fst nc)) n) l with
              | None => Done true
              | Some (_, MarkAbsent, _) => Done false
              | Some (_, _, Some ic) => al f ic x ie bo
              | Some (_, _, None) => Done true
              end); [reflexivity|].
    eapply decides_iff; [symmetry; apply (marks_in (TCh alts) (ACh n w) l)|].
    assert (O : forall n' mark oc, In (n', mark, oc) l -> n' <> n ->
      match mark with MarkPresent => apart_of n' (ACh n w) <> None | MarkAbsent => apart_of n' (ACh n w) = None | _ => True end /\
      match oc with
      | Some c => forall w0, apart_of n' (ACh n w) = Some w0 -> exists t kt, comp_type (TCh alts) n' = Some t /\ resolves t kt /\ sat c kt w0
      | None => True
      end).
    { intros n' mark oc Hin N. cbn [apart_of]. destruct (String.eqb n n') eqn:E; [apply String.eqb_eq in E; congruence|].
      destruct (IH _ _ _ Hin) as [A _]. split; [destruct mark; auto; congruence|]. destruct oc; auto. intros w0 W. discriminate. }
    destruct (find (fun nc => String.eqb (fst (fst nc)) n) l) as [[[n' mark] oc]|] eqn:E.
    + apply find_some in E. destruct E as [Hin E]. simpl in E. apply String.eqb_eq in E. subst n'.
      assert (U : forall m' o', In (n, m', o') l -> (m', o') = (mark, oc)).
      { intros m' o' Hin'. clear -Hnd Hin Hin'. induction l as [|[[n0 m0] o0] l IHl]; [destruct Hin|]. simpl in Hnd. inversion Hnd; subst.
        assert (NI : forall m1 o1, n0 = n -> In (n, m1, o1) l -> False).
        { intros m1 o1 -> K. apply H1. apply (in_map (fun x => fst (fst x))) in K. exact K. }
        destruct Hin as [Hin|Hin], Hin' as [Hin'|Hin'].
        - congruence.
        - injection Hin as -> -> ->. exfalso. eapply NI; eauto.
        - injection Hin' as -> -> ->. exfalso. eapply NI; eauto.
        - auto. }
      destruct (IH _ _ _ Hin) as [A B].
      assert (W : forall X : Prop, (match mark with MarkAbsent => False | _ => True end /\
            match oc with Some c => exists t0 kt, assoc n alts = Some t0 /\ resolves t0 kt /\ sat c kt w | None => True end <-> X) ->
         (X <-> forall x, In x l -> match x with (n', mark, oc) =>
            match mark with MarkPresent => apart_of n' (ACh n w) <> None | MarkAbsent => apart_of n' (ACh n w) = None | _ => True end /\
            match oc with
            | Some c => forall w0, apart_of n' (ACh n w) = Some w0 -> exists t kt, comp_type (TCh alts) n' = Some t /\ resolves t kt /\ sat c kt w0
            | None => True
            end end)).
      { intros X HX. rewrite <- HX. split.
        - intros [M C] [[n' m'] o'] Hin'. destruct (string_dec n' n) as [->|N]; [|exact (O _ _ _ Hin' N)].
          assert (U' := U _ _ Hin'). injection U' as -> ->. cbn [apart_of comp_type]. rewrite String.eqb_refl. split.
          + destruct mark; try exact I; try discriminate; tauto.
          + destruct oc; auto. intros w0 W. injection W as <-. exact C.
        - intros K. specialize (K _ Hin). cbn beta iota in K. cbn [apart_of comp_type] in K. rewrite String.eqb_refl in K. destruct K as [K1 K2]. split.
          + destruct mark; auto; discriminate.
          + destruct oc; auto. }
      destruct mark; try solve [apply decides_false; intros K; specialize (K _ Hin); cbn [apart_of] in K; rewrite String.eqb_refl in K; destruct K; discriminate];
      (destruct oc as [c|];
       [destruct (B c eq_refl) as [t' [kt [C1 [C2 C3]]]]; assert (t' = t) by congruence; subst t';
        apply decides_iff with (P := sat c kt w);
        [apply W; split; [intros [_ [t1 [k1 [S1 [S2 S3]]]]]; assert (t1 = t) by congruence; subst t1; rewrite (resolves_fun _ _ _ _ C2 S2); exact S3
                         |intros S; split; [exact I|eauto]]
        |apply C3; [eapply den_resolves; eauto|apply right_false]]
       |apply decides_true; apply (W True); tauto]).
    + apply decides_true. intros [[n' mark] oc] Hin. apply (O _ _ _ Hin). intros ->.
      pose proof (find_none _ _ E _ Hin) as K. simpl in K. rewrite String.eqb_refl in K. discriminate.
Qed.
End facts.
