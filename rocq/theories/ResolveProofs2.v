(** Values that mean something are resolved. *)
From Verif Require Import Base Bits UperTypes ConSpec Constraints Resolve ResolveSpec ResolveProofs.
From Coq Require Import List String Ascii Bool Arith ZArith QArith Lia.
Import ListNotations.
Local Open Scope string_scope.
Local Open Scope list_scope.

Scheme gden_mut := Induction for gden Sort Prop
  with gden_all_mut := Induction for gden_all Sort Prop
  with gden_fields_mut := Induction for gden_fields Sort Prop.
Combined Scheme gden_ind3 from gden_mut, gden_all_mut, gden_fields_mut.

Lemma mapR_imp : forall A B (f g : A -> res B) l r, (forall x y, In x l -> f x = Done y -> g x = Done y) -> mapR f l = Done r -> mapR g l = Done r.
Proof.
  intros A B f g l. induction l as [| x l IH]; cbn; intros r H K; auto. unbind.
  erewrite H by eauto. cbn. erewrite IH; eauto. reflexivity.
Qed.
Lemma alike_nth : forall a b ps, bits_at ps a -> bits_at ps b -> alike (ABits a) (ABits b).
Proof.
  intros a b ps A B. apply al_bits. intros i. specialize (A (Z.of_nat i)). specialize (B (Z.of_nat i)). rewrite Nat2Z.id in *.
  destruct (nth i a false), (nth i b false); auto; exfalso; intuition (try congruence); assert (0 <= Z.of_nat i)%Z by lia; intuition congruence.
Qed.

Section resolve.
Variable tyof : string -> string -> option gtype.
Variable valof : string -> string -> option (gtype * gval).
Notation behind := (behind tyof). Notation components := (components tyof).
Notation seq_children := (seq_children tyof). Notation actual_kind := (actual_kind tyof).
Notation map_value := (map_value tyof valof). Notation map_type := (map_type tyof valof).
Notation gden := (gden tyof valof). Notation gden_all := (gden_all tyof valof). Notation gden_fields := (gden_fields tyof valof).
Notation orderly := (orderly tyof valof). Notation names_bit := (names_bit valof). Notation maps := (maps tyof valof).
Notation maps_comp := (maps_comp tyof valof).

(** * More time changes nothing *)
Lemma actual_mono : forall f t md x, actual_kind f t md = Done x -> forall f', (f <= f')%nat -> actual_kind f' t md = Done x.
Proof.
  induction f; cbn; intros t md x H f' L; [discriminate |]. destruct f' as [| f']; [lia |].
  destruct t as [ | | | | | | | | | | | m T cs]; auto. cbn. destruct (tyof m T); auto. apply IHf; auto. lia.
Qed.
Lemma int_mono : forall f e z, int_value valof f e = Done z -> forall f', (f <= f')%nat -> int_value valof f' e = Done z.
Proof.
  induction f; cbn; intros e z H f' L; [discriminate |]. destruct f' as [| f']; [lia |].
  destruct e; auto. cbn. destruct (valof m n) as [[t e] |]; auto. apply IHf; auto. lia.
Qed.
Lemma pos_mono : forall f ns e z, bit_pos valof f ns e = Done z -> forall f', (f <= f')%nat -> bit_pos valof f' ns e = Done z.
Proof.
  intros f ns e z H f' L. destruct e; cbn in *; auto. destruct (assoc n ns) as [[] |]; auto. eapply int_mono; eauto.
Qed.
Lemma named_mono : forall f ns cs l z, named_bits valof f ns cs l = Done z -> forall f', (f <= f')%nat -> named_bits valof f' ns cs l = Done z.
Proof.
  unfold named_bits. intros f ns cs l z H f' L. destruct (getSizeableUperRange len cs); auto. unbind.
  erewrite mapR_imp; [| | eauto]; [eauto |]. intros. eapply pos_mono; eauto.
Qed.
Lemma value_mono : forall f t e x, map_value f t e = Done x -> forall f', (f <= f')%nat -> map_value f' t e = Done x.
Proof.
  induction f; intros t e x H f' L; [discriminate |]. destruct f' as [| f']; [lia |]. cbn in *. unbind.
  match goal with K : actual_kind f t None = Done _ |- _ => rewrite (actual_mono _ _ _ _ K f') by lia end. cbn [bind].
  destruct x0 as [k md]. destruct e; auto.
  - destruct k; auto; unbind.
    + erewrite named_mono; [| eauto | lia]. reflexivity.
    + erewrite mapR_imp; [| | eauto]; [reflexivity |]. intros. eapply IHf; eauto. lia.
  - destruct k; auto; unbind.
    match goal with K : seq_children f _ = Done _ |- _ => rewrite (proj2 (children_exact _ _ _) _ K f') by lia end. cbn [bind].
    erewrite mapR_imp; [| | eauto]; [reflexivity |]. intros y z _ K. cbn beta in *.
    match goal with |- match ?c with _ => _ end = _ => destruct c; auto end. unbind. match goal with K : map_value f _ _ = Done _ |- _ => rewrite (IHf _ _ _ K f') by lia end. reflexivity.
  - destruct k; auto; unbind. destruct (assoc n l); auto. unbind. match goal with K : map_value f _ _ = Done _ |- _ => rewrite (IHf _ _ _ K f') by lia end. reflexivity.
Qed.

Lemma behind_actual : forall t k, behind t k -> exists md f0, (forall f, (f0 <= f)%nat -> actual_kind f t None = Done (k, md)) /\
  forall m, md = Some m -> last_module tyof t m.
Proof.
  intros t k B.
  assert (A : forall md, exists md' f0, forall f, (f0 <= f)%nat -> actual_kind f t md = Done (k, md')).
  { induction B as [t P | m T cs t k E B IH]; intros md.
    - exists md, 1%nat. intros [| f] L; [lia |]. cbn. destruct t; auto. destruct (P _ _ _ eq_refl).
    - destruct (IH (Some m)) as (md' & f0 & H). exists md', (S f0). intros [| f] L; [lia |]. cbn. rewrite E. apply H. lia. }
  destruct (A None) as (md & f0 & H). exists md, f0. split; auto. intros m ->.
  destruct (actual_behind _ _ _ _ _ _ (H f0 (le_n _))) as (_ & [(_ & Q) | (m' & L & Q)]); [discriminate | congruence].
Qed.
Lemma part_text : forall e s, part_of e s -> text_part e = Done s.
Proof. destruct 1; reflexivity. Qed.
Lemma text_concat : forall l s, text_of l s -> exists r, mapR text_part l = Done r /\ String.concat "" r = s.
Proof.
  induction 1 as [| e l s r P T (r' & M & <-)].
  - exists []. auto.
  - exists (s :: r'). cbn [mapR]. rewrite (part_text _ _ P), M. split; [reflexivity |]. apply ResolveProofs.concat_cons.
Qed.
Lemma bits_of_names : forall ns cs l ps, Forall2 (names_bit ns) l ps ->
  (exists r, getSizeableUperRange len cs = Some r /\ (l = [] -> exists a b, r = Concrete a b)) ->
  (forall e p, In e l -> names_bit ns e p -> (0 <= p)%Z /\
     forall a b, getSizeableUperRange len cs = Some (Concrete a b) -> (p < b < 2 ^ 32)%Z) ->
  exists bs f0, (forall f, (f0 <= f)%nat -> named_bits valof f ns cs l = Done bs) /\ bits_at ps bs.
Proof.
  intros ns cs l ps F (r & R & N) B. destruct (names_all _ _ _ _ F) as (f0 & H).
  assert (Q : forall p, In p ps -> exists e, In e l /\ names_bit ns e p).
  { clear - F. induction F; cbn; [tauto |]. intros p [<- | I]; eauto. destruct (IHF _ I) as (? & ? & ?). eauto. }
  assert (M : exists m, match r with Concrete _ b => Some (u32 (b - 1)) | _ => maximum ps end = Some m).
  { destruct r; eauto; destruct F; cbn; eauto; destruct N as (? & ? & ?); auto; discriminate. }
  destruct M as (m & M). exists (map (fun i => memZ i ps) (upto m)), f0. split.
  - intros f L. unfold named_bits. rewrite R, H by auto. cbn [bind]. rewrite M. reflexivity.
  - intros p. split.
    + intros I. destruct (Q _ I) as (e & Ie & Nb). destruct (B _ _ Ie Nb) as (P & C). split; auto.
      rewrite upto_nth by auto. assert (L : (p <= m)%Z).
      { destruct r as [a b | | |]; [| eapply maximum_le; eauto ..]. injection M as <-. specialize (C _ _ R).
        unfold u32. change (2 ^ 32)%Z with 4294967296%Z in *. rewrite Z.mod_small; lia. }
      apply Z.leb_le in L. rewrite L. apply memZ_in. auto.
    + intros (P & Nn). rewrite upto_nth in Nn by auto. destruct (p <=? m)%Z; [| discriminate]. apply memZ_in. auto.
Qed.

Variable tyof' : string -> string -> option xtype.
Variable valof' : string -> string -> option (xtype * xval).
Hypothesis RT : resolved_types tyof valof tyof'.
Hypothesis RV : resolved_values tyof valof valof'.
Hypothesis ORD : all_orderly tyof valof.
Notation den := (den tyof' valof' Plain). Notation den_all := (den_all tyof' valof' Plain). Notation den_fields := (den_fields tyof' valof' Plain).

Lemma ref_mapped : forall m T t, tyof m T = Some t -> exists t', tyof' m T = Some t' /\ maps t t'.
Proof. intros m T t E. pose proof (RT m T) as R. rewrite E in R. destruct (tyof' m T) as [t' |]; [| destruct R]. eauto. Qed.
Lemma kind_mapped : forall u kb, behind u kb -> (exists tx, maps u tx) -> exists tx, maps kb tx.
Proof. induction 1; auto. intros _. apply IHbehind. destruct (ref_mapped _ _ _ H) as (t' & _ & M). eauto. Qed.
Lemma den_lift : forall u kb x v, behind u kb -> (forall tx, maps kb tx -> den tx x v) -> forall tx, maps u tx -> den tx x v.
Proof.
  induction 1 as [t P | m T cs t k E B IH]; auto. intros H tx (f & M). destruct f; [discriminate |]. cbn in M. injection M as <-.
  destruct (ref_mapped _ _ _ E) as (t' & E' & M'). econstructor; eauto.
Qed.

(** [t]: the type with which [e] is resolved, [kb] is behind it. *)
Definition resolves_to (t kb : gtype) (e : gval) (v : aval) : Prop :=
  exists x f0 v', alike v v' /\ (forall f, (f0 <= f)%nat -> map_value f t e = Done x) /\
    forall u tx, behind u kb -> maps u tx -> den tx x v'.
Lemma via_kind : forall t kb e v x v', behind t kb ->
  (forall md, (forall m, md = Some m -> last_module tyof t m) ->
     exists f0, forall f, (f0 <= f)%nat -> actual_kind f t None = Done (kb, md) -> map_value (S f) t e = Done x) ->
  alike v v' -> (forall tx, maps kb tx -> den tx x v') -> resolves_to t kb e v.
Proof.
  intros t kb e v x v' B H A D. destruct (behind_actual _ _ B) as (md & f0 & K & L). destruct (H _ L) as (f1 & M).
  exists x, (S (f0 + f1)), v'. split; auto. split.
  - intros [| f] Le; [lia |]. apply M; [lia | apply K; lia].
  - intros u tx Bu Mu. eapply den_lift; eauto.
Qed.
Lemma via_leaf : forall t kb e v x, behind t kb ->
  (forall f md, actual_kind f t None = Done (kb, md) -> map_value (S f) t e = Done x) ->
  (forall tx, maps kb tx -> den tx x v) -> resolves_to t kb e v.
Proof. intros t kb e v x B H D. eapply via_kind with (v' := v) (x := x); [auto | intros md _; exists 0%nat; eauto | constructor | auto]. Qed.

Lemma comp_mapped : forall comps comps' n o t, Forall2 maps_comp comps comps' -> In (n, o, t) comps -> exists tx, maps t tx.
Proof.
  induction 1 as [| c c' l l' (E1 & E2 & E3) F IH]; intros I; [destruct I |]. destruct I as [-> | I]; eauto.
Qed.
Definition P (k : gtype) (e : gval) (v : aval) : Prop :=
  forall t kb, behind k kb -> behind t kb -> (exists tx, maps kb tx) -> orderly t e -> resolves_to t kb e v.
Definition P_all (t : gtype) (l : list gval) (vs : list aval) : Prop :=
  (exists tx, maps t tx) -> (forall e, In e l -> orderly t e) ->
  exists r f0 vs', Forall2 alike vs vs' /\ (forall f, (f0 <= f)%nat -> mapR (map_value f t) l = Done r) /\
    forall tx, maps t tx -> den_all tx r vs'.
Definition P_fields (comps : list (string * gopt * gtype)) (l : list (string * gval)) (fs : list (string * aval)) : Prop :=
  forall all, (forall n o t, In (n, o, t) comps -> find_child n all = Some t /\ exists tx, maps t tx) ->
  (forall n e, In (n, e) l -> forall t, find_child n all = Some t -> orderly t e) ->
  exists r f0 fs', Forall2 (fun x y => fst x = fst y /\ alike (snd x) (snd y)) fs fs' /\ map fst r = map fst l /\
    (forall f, (f0 <= f)%nat -> mapR (fun x => match find_child (fst x) all with
        | Some t' => bind (map_value f t' (snd x)) (fun r => Done (fst x, r)) | None => Raise end) l = Done r) /\
    forall comps', Forall2 maps_comp comps comps' -> den_fields comps' r fs'.

Lemma gden_behind : forall k e v, gden k e v -> exists kb, behind k kb.
Proof.
  intros k e v H. destruct k as [ | | | | | | | | | | | m T cs]; try (eexists; constructor; intros; discriminate).
  remember (URef m T cs) as k eqn:E. revert m T cs E. induction H; intros m1 T1 cs1 E1; try discriminate.
  - destruct t as [ | | | | | | | | | | | m2 T2 cs2]; try (eexists; eapply b_ref; [eauto | constructor; intros; discriminate]).
    destruct (IHgden _ _ _ eq_refl) as (kb & B). exists kb. eapply b_ref; eauto.
  - subst. match goal with X : forall m T cs, URef _ _ _ <> _ |- _ => destruct (X _ _ _ eq_refl) end.
Qed.

Ltac same := match goal with A : behind ?k ?kb |- _ => first [assert (kb = k) as -> by (eapply behind_self; [exact A | intros ? ? ?; discriminate])] end.
Ltac step := intros f md K; cbn; rewrite K; reflexivity.
Ltac inv M := let f := fresh "f" in destruct M as (f & M); destruct f; [discriminate |]; cbn in M; unbind.

Lemma map_complete :
  (forall k e v, gden k e v -> P k e v) /\ (forall t l vs, gden_all t l vs -> P_all t l vs) /\
  (forall comps l fs, gden_fields comps l fs -> P_fields comps l fs).
Proof.
  apply (gden_ind3 tyof valof (fun k e v _ => P k e v) (fun t l vs _ => P_all t l vs) (fun comps l fs _ => P_fields comps l fs)); unfold P.
  - intros m T cs t e v E D IH t1 kb B B' M O. inversion B; subst; [match goal with X : forall m T cs, URef _ _ _ <> _ |- _ => destruct (X _ _ _ eq_refl) end |].
    apply IH; auto. congruence.
  - intros z t kb B B' M O. same. eapply via_leaf; [auto | step |]. intros tx X. inv X. constructor.
  - intros q t kb B B' M O. same. eapply via_leaf; [auto | step |]. intros tx X. inv X. constructor.
  - intros z t kb B B' M O. same. eapply via_leaf; [auto | step |]. intros tx X. inv X. constructor. discriminate.
  - intros z t kb B B' M O. same. eapply via_leaf; [auto | step |]. intros tx X. inv X. constructor.
  - intros l s T t kb B B' M O. same. destruct (text_concat _ _ T) as (r & R & <-).
    eapply via_leaf; [auto | |].
    + intros f md K. cbn. rewrite K. cbn. rewrite R. reflexivity.
    + intros tx X. inv X. constructor.
  - intros b t kb B B' M O. same. eapply via_leaf; [auto | step |]. intros tx X. inv X. constructor.
  - intros ns cs l t kb B B' M O. same. eapply via_leaf; [auto | step |]. intros tx X. inv X. constructor.
  - intros ns cs l ps bs F A t kb B B' M O. same.
    inversion O; subst; try tauto; match goal with X : behind t _ |- _ => pose proof (behind_det _ _ _ _ B' X) as E end; try discriminate.
    injection E as <- <-. match goal with X : exists r, _, Y : forall e p, In e l -> _ |- _ => destruct (bits_of_names _ _ _ _ F X Y) as (bs' & f0 & N & A') end.
    eapply via_kind with (v' := ABits bs'); [auto | | eapply alike_nth; eauto |].
    + intros md _. exists f0. intros f L K. cbn. rewrite K. cbn. rewrite N by auto. reflexivity.
    + intros tx X. inv X. constructor.
  - intros ns cs bs A t kb B B' M O. same. inversion O; subst. match goal with X : forall ns cs, ~ _ |- _ => destruct (X _ _ B') end.
  - intros l t kb B B' M O. same. eapply via_leaf; [auto | step |]. intros tx X. inv X. constructor.
  - intros ns cs l t kb B B' M O. same. eapply via_leaf; [auto | step |]. intros tx X. inv X. constructor. discriminate.
  - intros l os zs A1 A2 A3 A4 t kb B B' M O. same. eapply via_leaf; [auto | step |]. intros tx X. inv X. econstructor; eauto. discriminate.
  - intros t kb B B' M O. same. eapply via_leaf; [auto | step |]. intros tx X. inv X. constructor.
  - (* g_item *)
    intros items m x I t kb B B' M O. same. destruct (behind_actual _ _ B') as (md & f0 & K & L).
    exists (XRef (match md with Some m' => m' | None => m end) x), (S f0), (AEnum x). split; [constructor |]. split.
    + intros [| f] Le; [lia |]. cbn. rewrite K by lia. cbn. destruct md; reflexivity.
    + intros u tx Bu Mu. eapply den_lift; eauto. intros ty X. inv X. constructor. auto.
  - (* g_name *)
    intros k m n t' e v N NI E B0 D IH t kb B B' M O. pose proof (behind_self _ _ _ B N). subst kb.
    pose proof (RV m n) as R. rewrite E in R. destruct (valof' m n) as [[tx' e'] |] eqn:E'; [| destruct R]. destruct R as (f' & R1 & R2).
    destruct (IH t' k B0 B0 M (ORD _ _ _ _ E)) as (x & f0 & v' & A & Mv & Dv).
    assert (x = e').
    { pose proof (Mv (f0 + f')%nat ltac:(lia)) as Q. rewrite (value_mono _ _ _ _ R2 (f0 + f')%nat) in Q by lia. congruence. }
    subst x. destruct (behind_actual _ _ B') as (md & f1 & K & L).
    assert (H : forall items m', k = UEnum items -> md = Some m' -> m' = m).
    { intros items m' -> ->. inversion O; subst; [tauto | |].
      - match goal with X : behind t (UEnum _) |- _ => pose proof (behind_det _ _ _ _ B' X) as Q; injection Q as <- end. destruct (NI _ eq_refl); auto.
      - match goal with X : behind t ?k1, Y : forall items, ?k1 = UEnum items -> _ |- _ => pose proof (behind_det _ _ _ _ B' X); subst k1; destruct (Y _ eq_refl) as (_ & Z1) end.
        apply Z1. auto. }
    exists (XRef m n), (S f1), v'. split; [auto |]. split.
    + intros [| f] Le; [lia |]. cbn. rewrite K by lia. cbn. destruct k; auto. destruct md as [m' |]; auto. rewrite (H _ _ eq_refl eq_refl). auto.
    + intros u tx Bu Mu. eapply den_lift; eauto. intros [kx cx] X. eapply d_name; eauto; try discriminate.
      * intros m1 T1 ->. destruct (maps_ref _ _ _ _ _ _ X) as (c1 & ->). eapply N; eauto.
      * intros items ->. destruct k; inv X; try discriminate. match goal with Q : TEnum _ = TEnum _ |- _ => injection Q as <- | _ => idtac end. apply (NI _ eq_refl).
  - (* g_of *)
    intros t' l vs D IH t kb B B' (tx & M) O. same. destruct tx as [kx cx].
    assert (M' : exists ty, maps t' ty) by (inv M; eexists; eexists; eauto).
    assert (O' : forall e, In e l -> orderly t' e).
    { inversion O; subst; try tauto; match goal with X : behind t _ |- _ => pose proof (behind_det _ _ _ _ B' X) as E end; try discriminate. injection E as <-. auto. }
    destruct (IH M' O') as (r & f0 & vs' & A & Mv & Dv).
    eapply via_kind with (v' := AList vs'); [auto | | constructor; auto |].
    + intros md _. exists f0. intros f L K. cbn. rewrite K. cbn. rewrite Mv by auto. reflexivity.
    + intros ty X. inv X. constructor. apply Dv. eexists; eauto.
  - intros t' t kb B B' M O. same. eapply via_leaf; [auto | step |]. intros tx X. inv X. constructor. constructor.
  - (* g_seq *)
    intros cl comps l fs C ND D IH t kb B B' (tx & M) O. same. destruct tx as [kx cx].
    assert (Q : exists comps' f0, (forall f, (f0 <= f)%nat -> seq_children f cl = Done comps) /\ kx = TSeq comps' /\ Forall2 maps_comp comps comps').
    { pose proof M as M0. inv M0. match goal with X : seq_children ?f cl = Done ?y |- _ =>
        pose proof (components_det _ _ _ _ C (children_components _ _ _ _ X)); subst y; pose proof (proj2 (children_exact _ _ _) _ X) as Y end.
      destruct (maps_seq _ _ _ _ _ M) as (cl' & r' & Z1 & Z2 & Z3). injection Z1 as <-. pose proof (components_det _ _ _ _ C Z2). subst r'.
      do 2 eexists. split; [exact Y |]. split; [reflexivity | exact Z3]. }
    destruct Q as (comps' & f0 & Sq & -> & F).
    destruct (IH comps) as (r & f1 & fs' & A & Nm & Mv & Dv).
    + intros n o t1 I. split; [eapply find_child_in; eauto |]. eapply comp_mapped; eauto.
    + inversion O; subst; try tauto; match goal with X : behind t _ |- _ => pose proof (behind_det _ _ _ _ B' X) as E end; try discriminate. injection E as <-.
      match goal with X : components cl ?y |- _ => pose proof (components_det _ _ _ _ C X); subst y end. auto.
    + eapply via_kind with (v' := ASeq fs'); [auto | | constructor; auto |].
      * intros md _. exists (f0 + f1)%nat. intros f L K. cbn -[seq_children]. rewrite K. cbn -[seq_children]. rewrite Sq by lia. cbn. rewrite Mv by lia. reflexivity.
      * intros [kx cx'] X. pose proof X as X0. destruct X as (f & X). destruct f; [discriminate |]. cbn in X. unbind. destruct (maps_seq _ _ _ _ _ X0) as (cl' & r' & Z1 & Z2 & Z3). injection Z1 as <-. pose proof (components_det _ _ _ _ C Z2). subst r'.
        constructor; [rewrite <- (names_same _ _ _ _ Z3); auto | auto].
  - (* g_seq_none *)
    intros cl comps fs C ND D IH t kb B B' (tx & M) O. same. destruct tx as [kx cx].
    destruct (IH comps) as (r & f1 & fs' & A & Nm & Mv & Dv).
    + intros n o t1 I. split; [eapply find_child_in; eauto |]. pose proof M as M0. inv M0.
      destruct (maps_seq _ _ _ _ _ M) as (cl' & r' & Z1 & Z2 & Z3). injection Z1 as <-. pose proof (components_det _ _ _ _ C Z2). subst r'.
      eapply comp_mapped; eauto.
    + intros n e [].
    + destruct r; [| discriminate]. eapply via_kind with (v' := ASeq fs'); [auto | | constructor; auto |].
      * intros md _. exists 0%nat. intros f L K. cbn. rewrite K. reflexivity.
      * intros [ky cx'] X. pose proof X as X0. destruct X as (f & X). destruct f; [discriminate |]. cbn in X. unbind. destruct (maps_seq _ _ _ _ _ X0) as (cl' & r' & Z1 & Z2 & Z3). injection Z1 as <-. pose proof (components_det _ _ _ _ C Z2). subst r'.
        constructor; [rewrite <- (names_same _ _ _ _ Z3); auto | auto].
  - (* g_ch *)
    intros alts n t' e v A D IH t kb B B' (tx & M) O. same. destruct tx as [kx cx].
    destruct (gden_behind _ _ _ D) as (kb' & Bk).
    assert (O' : orderly t' e).
    { inversion O; subst; try tauto. match goal with X : behind t _ |- _ => pose proof (behind_det _ _ _ _ B' X) as E end. injection E as <-. congruence. }
    assert (M' : exists ty, maps t' ty).
    { pose proof M as M0. inv M0. destruct (maps_ch _ _ _ _ _ M) as (l' & Z1 & F). injection Z1 as <-. clear - A F.
      induction F as [| [a ta] [b tb] l l' (E1 & E2) F IH]; cbn in A; [discriminate |]. destruct (String.eqb a n); eauto. injection A as <-. eauto. }
    destruct (IH t' kb' Bk Bk (kind_mapped _ _ Bk M') O') as (x & f0 & v' & Al & Mv & Dv).
    eapply via_kind with (v' := ACh n v'); [auto | | constructor; auto |].
    + intros md _. exists f0. intros f L K. cbn. rewrite K. cbn. rewrite A, Mv by auto. reflexivity.
    + intros [ky cx'] X. pose proof X as X0. destruct X as (f & X). destruct f; [discriminate |]. cbn in X. unbind.
      destruct (maps_ch _ _ _ _ _ X0) as (l' & Z1 & F). injection Z1 as <-.
      assert (Q : exists ty, assoc n x0 = Some ty /\ maps t' ty).
      { clear - A F. induction F as [| [a ta] [b tb] l l' (E1 & E2) F IH]; cbn in A; [discriminate |]. cbn in E1. subst b. cbn. destruct (String.eqb a n); eauto. injection A as <-. eauto. }
      destruct Q as (ty & Q1 & Q2). econstructor; eauto.
  - intros t M O. exists [], 0%nat, []. repeat split; auto. intros; constructor.
  - intros t e l v vs D IH Ds IHs M O. destruct (gden_behind _ _ _ D) as (kb & B).
    destruct (IH t kb B B (kind_mapped _ _ B M) (O _ (or_introl eq_refl))) as (x & f0 & v' & A & Mv & Dv).
    destruct (IHs M (fun e I => O e (or_intror I))) as (r & f1 & vs' & As & Mvs & Dvs).
    exists (x :: r), (f0 + f1)%nat, (v' :: vs'). split; [auto |]. split.
    + intros f L. cbn. rewrite Mv, Mvs by lia. reflexivity.
    + intros tx Mx. constructor; eauto.
  - intros all H O. exists [], 0%nat, []. repeat split; auto. intros comps' F. inversion F; subst. constructor.
  - intros n o t comps e l v fs D IH Ds IHs NI all H O. destruct (gden_behind _ _ _ D) as (kb & B).
    destruct (H _ _ _ (or_introl eq_refl)) as (Fc & M).
    destruct (IH t kb B B (kind_mapped _ _ B M) (O _ _ (or_introl eq_refl) _ Fc)) as (x & f0 & v' & A & Mv & Dv).
    destruct (IHs all) as (r & f1 & fs' & As & Nm & Mvs & Dvs); [intros n1 o1 t1 I; apply (H n1 o1); right; auto | intros n1 e1 I; apply O; right; auto |].
    exists ((n, x) :: r), (f0 + f1)%nat, ((n, v') :: fs'). split; [auto |]. split; [cbn; congruence |]. split.
    + intros f L. cbn [mapR fst snd]. rewrite Fc, Mv by lia. cbn [bind]. rewrite Mvs by lia. reflexivity.
    + intros comps' F. inversion F as [| c c' l1 l2 (E1 & E2 & E3) F']; subst. destruct c' as [[n2 o2] t2]. cbn in *. subst n2.
      constructor; eauto. rewrite Nm. auto.
  - intros n o t comps l fs N Ds IHs NI all H O.
    destruct (IHs all) as (r & f1 & fs' & As & Nm & Mvs & Dvs); [intros n1 o1 t1 I; apply (H n1 o1); right; auto | auto |].
    exists r, f1, fs'. repeat split; auto.
    intros comps' F. inversion F as [| c c' l1 l2 (E1 & E2 & E3) F']; subst. destruct c' as [[n2 o2] t2]. cbn in *. subst n2.
    constructor; eauto; [| rewrite Nm; auto]. intros Q. apply N, E2, Q.
Qed.
Lemma values_resolved : forall t t' e v f, map_type f t = Done t' -> orderly t e -> gden t e v ->
  exists x v' f0, (forall f, (f0 <= f)%nat -> map_value f t e = Done x) /\ den t' x v' /\ alike v v'.
Proof.
  intros t t' e v f M O D. destruct (gden_behind _ _ _ D) as (kb & B).
  assert (M' : maps t t') by (exists f; auto).
  destruct (proj1 map_complete _ _ _ D t kb B B (kind_mapped _ _ B (ex_intro _ _ M')) O) as (x & f0 & v' & A & Mv & Dv).
  exists x, v', f0. eauto.
Qed.
End resolve.
