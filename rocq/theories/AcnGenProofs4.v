(** Determinants, presence, selection of alternatives; round trip of the generated
    ACN code. *)
From Verif Require Import Base Bits BitStream Ints Octets Misc StrSpec Contracts Parse RealSpec RealC UperTypes UperSpec UperWf Uper
  Acn AcnStr AcnReal AcnSpec AcnGen AcnGenSpec.
From Verif Require Import BitsProofs BitStreamProofs BitStreamProofs2 BitStreamProofs3 IntsProofs HistoryProofs MiscProofs
  UperProofs1 UperProofs2 UperProofs3 Properties6 AcnGenProofs1 AcnGenProofs2 AcnGenProofs3.
From Coq Require Import ZifyBool ZifyNat Sorting.Sorted.

(** ** Comparison of determinants *)
Lemma zlist_eqb_eq : forall a b, zlist_eqb a b = true <-> a = b.
Proof.
  induction a as [|x a IH]; intros [|y b]; cbn [zlist_eqb]; split; intro H; try easy.
  - apply andb_prop in H. destruct H as [H1 H2]. apply IH in H2. apply Z.eqb_eq in H1. congruence.
  - inversion H; subst. rewrite Z.eqb_refl. apply IH. reflexivity.
Qed.
Lemma veqb_true : forall a b, veqb a b = true -> a = b.
Proof.
  intros a b H. destruct a, b; cbn [veqb] in H; try discriminate.
  - apply eqb_prop in H. congruence.
  - apply Z.eqb_eq in H. congruence.
  - apply Z.eqb_eq in H. congruence.
  - apply zlist_eqb_eq in H. congruence.
Qed.
Lemma veqb_refl : forall a, plain a -> veqb a a = true.
Proof.
  intros a H. destruct a; try contradiction; cbn [veqb]; rewrite ?Z.eqb_refl; auto.
  - destruct b; reflexivity.
  - now apply zlist_eqb_eq.
Qed.

(** ** Demands *)
Lemma strlen_nz : forall l, Forall (fun ch => 0 < ch < 256) l -> Uper.strlen l = Z.of_nat (length l).
Proof.
  induction l as [|x l IH]; intros H; [reflexivity|]. inversion H; subst. cbn [Uper.strlen length].
  destruct (x =? 0) eqn:E; [lia|]. rewrite IH by auto. lia.
Qed.
Lemma cond_of_has : forall d l e, Forall (holds e) l -> Forall (fun y => has d y e) (cond_of d l).
Proof.
  induction l as [|[d' x] l IH]; intros e H; cbn [cond_of]; [constructor|]. inversion H; subst.
  destruct (d =? d') eqn:E; [|auto]. apply Z.eqb_eq in E. subst. constructor; auto.
Qed.
Lemma size_dem_has : forall d sz min max e n lead trail, size_field sz min max e n lead trail ->
  Forall (fun y => has d y e) (size_dem d sz min max (Z.of_nat n)).
Proof.
  intros d sz min max e n lead trail [HZ HS]. unfold size_in in HZ. unfold size_dem. destruct sz as [| |d' lo hi|]; auto.
  destruct (d =? d') eqn:E; [|auto]. apply Z.eqb_eq in E. subst. constructor; [|constructor].
  replace (if min =? max then max else Z.of_nat n) with (Z.of_nat n) by (destruct (min =? max) eqn:E; lia). apply HS.
Qed.
Lemma orb_false2 : forall a b, a || b = false -> a = false /\ b = false.
Proof. destruct a, b; auto. Qed.

Lemma dem_ok : forall c st,
  (forall t d e v p bs, encodes c st t e v p bs -> binds d t = false -> Forall (fun y => has d y e) (dem d t v)) /\
  (forall fs d e l p bs, encodes_fields c st fs e l p bs -> binds_fields d fs = false -> Forall (fun y => has d y e) (dem_fields d fs l)) /\
  (forall cs d e i v p bs, encodes_alt c st cs e i v p bs -> binds_alts d cs = false -> Forall (fun y => has d y e) (dem_alt d cs i v)).
Proof.
  intros c st. apply aty_mutind; try (intros; destruct v; constructor).
  - (* strings *) intros k min max d e v p bs HE _. destruct v; try contradiction. cbn [encodes dem] in *.
    destruct HE as (HZ & HF & HE). unfold str_dem. rewrite (strlen_nz _ HF).
    destruct k; auto; (destruct (d =? _) eqn:E; [|constructor]; apply Z.eqb_eq in E; subst; constructor; [apply HE|constructor]).
  - (* octets *) intros sz min max d e v p bs HE _. destruct v; try contradiction. cbn [encodes dem] in *.
    destruct HE as [_ HE]. destruct sz; try constructor; destruct HE as (lead & trail & HS & _); eapply size_dem_has; eauto.
  - (* bits *) intros sz min max d e v p bs HE _. destruct v; try contradiction. cbn [encodes dem] in *.
    destruct sz; try constructor; destruct HE as (lead & trail & HS & _); eapply size_dem_has; eauto.
  - (* SEQUENCE OF *) intros t IH sz min max d e v p bs HE _. destruct v; try contradiction. cbn [encodes dem] in *.
    destruct HE as (lead & bss & trail & HS & _). eapply size_dem_has; eauto.
  - (* SEQUENCE *) intros fs IH d e v p bs HE HB. destruct v; try contradiction. cbn [encodes dem binds] in *.
    destruct HE as (bs2 & _ & HE). eapply IH; eauto.
  - (* CHOICE *) intros k cs IH d e v p bs HE HB. destruct v; try contradiction. cbn [encodes dem binds] in *.
    destruct HE as (b1 & b2 & _ & HT & HE). apply Forall_app. split; [|eapply IH; eauto].
    unfold choice_dem. destruct k as [|d' zs|conds]; [constructor|..]; cbn [told] in HT.
    + destruct HT as (_ & z & HN & HH). destruct (d =? d') eqn:E; [|constructor]. apply Z.eqb_eq in E. subst.
      rewrite HN. constructor; auto.
    + destruct HT as (_ & (l & HN & HF) & _). rewrite HN. now apply cond_of_has.
  - (* reference *) intros ok t IH d e v p bs HE HB.
    assert (HE' : encodes c st t e v p bs) by (destruct v; apply HE). replace (dem d (ARef ok t) v) with (dem d t v) by (destruct v; reflexivity).
    eapply IH; eauto.
  - (* alignment *) intros n t IH d e v p bs HE HB.
    assert (HE' : exists b q, encodes c st t e v q b) by (destruct v; destruct HE as (bb & _ & HE); eauto).
    replace (dem d (AAlign n t) v) with (dem d t v) by (destruct v; reflexivity).
    destruct HE' as (b & q & HE'). eapply IH; eauto.
  - (* no component *) intros. constructor.
  - (* component *) intros o t IHt fs IHf d e l p bs HE HB. destruct l as [|[x ov] l]; [contradiction|].
    cbn [encodes_fields dem_fields binds_fields] in *. apply orb_false2 in HB. destruct HB as [HB1 HB2].
    destruct HE as (b1 & b2 & _ & HE & HR). apply Forall_app. split; [|apply Forall_app; split; [|eapply IHf; eauto]].
    + destruct o as [| | |[|d'] def]; try constructor. destruct (d =? d') eqn:E; [|constructor]. apply Z.eqb_eq in E. subst.
      constructor; [|constructor]. apply HE.
    + destruct o as [| | |k def]; try constructor.
      * destruct x, ov; try contradiction; eapply IHt; eauto.
      * destruct x, ov; try contradiction; eapply IHt; eauto.
      * destruct HE as [_ HE]. destruct x; [|constructor]. destruct ov; [|contradiction]. eapply IHt; eauto.
  - (* ACN field *) intros d' t IHt fs IHf d e l p bs HE HB. cbn [encodes_fields dem_fields binds_fields] in *.
    apply orb_false2 in HB. destruct HB as [HB1 HB2]. apply orb_false2 in HB1. destruct HB1 as [HB0 HB1].
    assert (HE' : exists x q b, encodes_fields c st fs ((d', x) :: e) l q b).
    { destruct l; destruct HE as (x & b1 & b2 & _ & _ & _ & HE & _); eauto. }
    destruct HE' as (x & q & b & HE'). replace (dem_fields d (GAcn d' t fs) l) with (dem_fields d fs l) by (destruct l; reflexivity).
    eapply Forall_impl; [|eapply IHf; eauto]. cbv beta. intros y Hy. inversion Hy; subst; [lia|auto].
  - (* ACN NULL *) intros t IHt fs IHf d e l p bs HE HB. cbn [encodes_fields dem_fields binds_fields] in *.
    apply orb_false2 in HB. destruct HB as [HB1 HB2].
    assert (HE' : exists q b, encodes_fields c st fs e l q b).
    { destruct l; destruct HE as (b1 & b2 & _ & _ & HE); eauto. }
    destruct HE' as (q & b & HE'). replace (dem_fields d (GPad t fs) l) with (dem_fields d fs l) by (destruct l; reflexivity).
    eapply IHf; eauto.
  - intros t IHt cs IHc d e i v p bs HE HB. cbn [binds_alts] in HB. apply orb_false2 in HB. destruct HB as [HB1 HB2].
    destruct i; cbn [encodes_alt dem_alt] in *; [eapply IHt|eapply IHc]; eauto.
Qed.

Lemma nonnil_app : forall {A} (a b : list A), a <> [] \/ b <> [] -> a ++ b <> [].
Proof. intros A [|x a] b [H|H]; cbn [app]; auto; try congruence. Qed.
Lemma size_dem_uses : forall d sz min max n, size_uses d sz -> size_dem d sz min max n <> [].
Proof.
  intros d sz min max n H. destruct sz; try contradiction. cbn [size_uses size_dem] in *. subst. rewrite Z.eqb_refl. discriminate.
Qed.
Lemma cond_of_in : forall d x l, In (d, x) l -> cond_of d l <> [].
Proof.
  induction l as [|[d' y] l IH]; intros H; [contradiction|]. cbn [cond_of]. destruct (d =? d') eqn:E; [discriminate|].
  destruct H as [H|H]; [inversion H; lia|auto].
Qed.
Lemma dem_uses : forall c st,
  (forall t d e v p bs, encodes c st t e v p bs -> uses d t v -> dem d t v <> []) /\
  (forall fs d e l p bs, encodes_fields c st fs e l p bs -> uses_fields d fs l -> dem_fields d fs l <> []) /\
  (forall cs d e i v p bs, encodes_alt c st cs e i v p bs -> uses_alt d cs i v -> dem_alt d cs i v <> []).
Proof.
  intros c st. apply aty_mutind; try (intros; destruct v; contradiction).
  - (* strings *) intros k min max d e v p bs _ HU. destruct v; try contradiction. cbn [uses dem] in *.
    unfold str_dem. destruct k; try contradiction; subst; rewrite Z.eqb_refl; discriminate.
  - intros sz min max d e v p bs _ HU. destruct v; try contradiction. now apply size_dem_uses.
  - intros sz min max d e v p bs _ HU. destruct v; try contradiction. now apply size_dem_uses.
  - intros t IH sz min max d e v p bs _ HU. destruct v; try contradiction. now apply size_dem_uses.
  - (* SEQUENCE *) intros fs IH d e v p bs HE HU. destruct v; try contradiction. cbn [encodes dem uses] in *.
    destruct HE as (bs2 & _ & HE). eapply IH; eauto.
  - (* CHOICE *) intros k cs IH d e v p bs HE HU. destruct v; try contradiction. cbn [encodes dem uses] in *.
    destruct HE as (b1 & b2 & _ & HT & HE). apply nonnil_app. destruct HU as [HU|HU]; [left|right; eapply IH; eauto].
    unfold choice_dem. destruct k as [|d' zs|conds]; [contradiction|..]; cbn [told] in HT.
    + destruct HT as (_ & z & HN & HH). subst. rewrite Z.eqb_refl, HN. discriminate.
    + destruct HU as (l & HN & x & Hx). rewrite HN. eapply cond_of_in; eauto.
  - (* reference *) intros ok t IH d e v p bs HE HU.
    assert (HE' : encodes c st t e v p bs) by (destruct v; apply HE). replace (dem d (ARef ok t) v) with (dem d t v) by (destruct v; reflexivity).
    eapply IH; [exact HE'|destruct v; exact HU].
  - (* alignment *) intros n t IH d e v p bs HE HU.
    assert (HE' : exists b q, encodes c st t e v q b) by (destruct v; destruct HE as (bb & _ & HE); eauto).
    replace (dem d (AAlign n t) v) with (dem d t v) by (destruct v; reflexivity).
    destruct HE' as (b & q & HE'). eapply IH; [exact HE'|destruct v; exact HU].
  - (* no component *) intros d e l p bs _ HU. destruct l; contradiction.
  - (* component *) intros o t IHt fs IHf d e l p bs HE HU. destruct l as [|[x ov] l]; [contradiction|].
    cbn [encodes_fields dem_fields uses_fields] in *. destruct HE as (b1 & b2 & _ & HE & HR).
    apply nonnil_app. destruct HU as [[def ->]|[HU|HU]].
    + left. rewrite Z.eqb_refl. discriminate.
    + right. apply nonnil_app. left. destruct o as [| | |k def]; try contradiction.
      * destruct x, ov; try contradiction; eapply IHt; eauto.
      * destruct x, ov; try contradiction; eapply IHt; eauto.
      * destruct HE as [_ HE]. destruct x; [|contradiction]. destruct ov; [|contradiction]. eapply IHt; eauto.
    + right. apply nonnil_app. right. eapply IHf; eauto.
  - (* ACN field *) intros d' t IHt fs IHf d e l p bs HE HU. cbn [encodes_fields dem_fields uses_fields] in *.
    assert (HE' : exists x q b, encodes_fields c st fs ((d', x) :: e) l q b).
    { destruct l; destruct HE as (x & b1 & b2 & _ & _ & _ & HE & _); eauto. }
    destruct HE' as (x & q & b & HE'). replace (dem_fields d (GAcn d' t fs) l) with (dem_fields d fs l) by (destruct l; reflexivity).
    eapply IHf; [exact HE'|destruct l; exact HU].
  - (* ACN NULL *) intros t IHt fs IHf d e l p bs HE HU. cbn [encodes_fields dem_fields uses_fields] in *.
    assert (HE' : exists q b, encodes_fields c st fs e l q b).
    { destruct l; destruct HE as (b1 & b2 & _ & _ & HE); eauto. }
    destruct HE' as (q & b & HE'). replace (dem_fields d (GPad t fs) l) with (dem_fields d fs l) by (destruct l; reflexivity).
    eapply IHf; [exact HE'|destruct l; exact HU].
  - intros t IHt cs IHc d e i v p bs HE HU. destruct i; cbn [encodes_alt dem_alt uses_alt] in *; [eapply IHt|eapply IHc]; eauto.
Qed.

Lemma resolve_ok : forall x l, plain x -> l <> [] -> Forall (fun y => y = x) l -> resolve l = Some x.
Proof.
  intros x l HP HN HF. destruct l as [|y r]; [congruence|]. inversion HF; subst. unfold resolve.
  replace (forallb (veqb x) r) with true; [reflexivity|]. symmetry. apply forallb_forall. intros z Hz.
  rewrite Forall_forall in H2. rewrite (H2 z Hz). now apply veqb_refl.
Qed.
Lemma has_here_eq : forall d x y e, has d y ((d, x) :: e) -> y = x.
Proof. intros d x y e H. inversion H; subst; [reflexivity|congruence]. Qed.

(** ** The variable checkBitPatternPresentResult *)
Lemma chk_none :
  (forall t, terms t = false -> forall v, chk_after t v = None) /\
  (forall fs, terms_fields fs = false -> forall l, chk_fields fs l = None) /\
  (forall cs, terms_alts cs = false -> forall i v, chk_alt cs i v = None).
Proof.
  apply aty_mutind; try (intros; destruct v; reflexivity).
  - intros sz min max H v. destruct sz; try discriminate; destruct v; reflexivity.
  - intros t IH sz min max H v. cbn [terms chk_after] in *.
    assert (G : forall l, fold_left (fun a x => last_chk a (chk_after t x)) l None = None).
    { destruct sz; try discriminate; (induction l as [|x l IHl]; [reflexivity|]; cbn [fold_left]; rewrite (IH H); exact IHl). }
    destruct sz; try discriminate; destruct v; auto.
  - intros fs IH H v. destruct v; try reflexivity. apply IH; auto.
  - intros k cs IH H v. destruct v; try reflexivity. apply IH; auto.
  - intros n t IH H v. replace (chk_after (AAlign n t) v) with (chk_after t v) by (destruct v; reflexivity). apply IH; auto.
  - intros H l. reflexivity.
  - intros o t IHt fs IHf H l. cbn [terms_fields] in H. apply orb_false2 in H. destruct H as [H1 H2].
    destruct l as [|[x ov] l]; [reflexivity|]. cbn [chk_fields]. rewrite (IHf H2). destruct x; [|reflexivity].
    destruct ov; [|reflexivity]. cbn [last_chk]. now apply IHt.
  - intros d t IHt fs IHf H l. replace (chk_fields (GAcn d t fs) l) with (chk_fields fs l) by (destruct l; reflexivity). apply IHf; auto.
  - intros t IHt fs IHf H l. replace (chk_fields (GPad t fs) l) with (chk_fields fs l) by (destruct l; reflexivity). apply IHf; auto.
  - intros t IHt cs IHc H i v. cbn [terms_alts] in H. apply orb_false2 in H. destruct H as [H1 H2].
    destruct i; cbn [chk_alt]; auto.
Qed.

(** ** Presence *)
Lemma presence_ok : forall c st fs e l p bs, encodes_fields c st fs e l p bs ->
  writes (aenc_presence c fs l) tt (presence_of fs l).
Proof.
  intros c st. induction fs as [|o t fs IH|d t fs IH|t fs IH]; intros e l p bs HE.
  - destruct l; [apply writes_ret|contradiction].
  - destruct l as [|[x ov] l]; [contradiction|]. cbn [encodes_fields] in HE. destruct HE as (b1 & b2 & _ & _ & HE).
    destruct o as [| | |[|d'] def]; cbn [aenc_presence presence_of]; try (eapply IH; eassumption).
    change (x :: presence_of fs l) with ([x] ++ presence_of fs l).
    eapply writes_bind; [apply overwrites_writes, overwrites_AppendBit|eapply IH; eassumption].
  - assert (HE' : exists x q b, encodes_fields c st fs ((d, x) :: e) l q b).
    { destruct l; destruct HE as (x & b1 & b2 & _ & _ & _ & HE & _); eauto. }
    destruct HE' as (x & q & b & HE'). pose proof (IH _ _ _ _ HE') as G. destruct l; exact G.
  - assert (HE' : exists q b, encodes_fields c st fs e l q b).
    { destruct l; destruct HE as (b1 & b2 & _ & _ & HE); eauto. }
    destruct HE' as (q & b & HE'). pose proof (IH _ _ _ _ HE') as G. destruct l; exact G.
Qed.
(** The flags read: the bits, TRUE for the others. *)
Fixpoint flags (fs : afields) (l : list (bool * option value)) : list bool :=
  match fs, l with
  | GAsn (OOptional PBit _) _ fs, (x, _) :: l => x :: flags fs l
  | GAsn _ _ fs, _ :: l => true :: flags fs l
  | GAcn _ _ fs, l | GPad _ fs, l => flags fs l
  | _, _ => []
  end.
Lemma flags_ok : forall c st fs e l p bs, encodes_fields c st fs e l p bs ->
  reads (adec_presence fs) (Some (flags fs l)) (presence_of fs l).
Proof.
  intros c st. induction fs as [|o t fs IH|d t fs IH|t fs IH]; intros e l p bs HE.
  - destruct l; [apply reads_ret|contradiction].
  - destruct l as [|[x ov] l]; [contradiction|]. cbn [encodes_fields] in HE. destruct HE as (b1 & b2 & _ & _ & HE).
    destruct o as [| | |[|d'] def]; cbn [adec_presence presence_of flags];
      try (eapply reads_thenM; [eapply IH; eassumption|apply reads_ret]).
    change (x :: presence_of fs l) with ([x] ++ presence_of fs l).
    eapply reads_bind; [apply reads_ReadBit|]. cbn [fst snd].
    eapply reads_thenM; [eapply IH; eassumption|apply reads_ret].
  - assert (HE' : exists x q b, encodes_fields c st fs ((d, x) :: e) l q b).
    { destruct l; destruct HE as (x & b1 & b2 & _ & _ & _ & HE & _); eauto. }
    destruct HE' as (x & q & b & HE'). pose proof (IH _ _ _ _ HE') as G. destruct l; exact G.
  - assert (HE' : exists q b, encodes_fields c st fs e l q b).
    { destruct l; destruct HE as (b1 & b2 & _ & _ & HE); eauto. }
    destruct HE' as (q & b & HE'). pose proof (IH _ _ _ _ HE') as G. destruct l; exact G.
Qed.

(** ** Selection *)
Lemma conds_yes : forall e l, Forall (fun p => plain (snd p)) l -> Forall (holds e) l -> conds_hold e l = Ok true.
Proof.
  induction l as [|[d x] l IH]; intros HP HF; [reflexivity|]. inversion HP; inversion HF; subst. cbn [conds_hold].
  unfold cond_holds. cbn [fst snd] in *. unfold holds in H5. cbn [fst snd] in H5. apply has_lookup in H5. rewrite H5, veqb_refl by auto. auto.
Qed.
Lemma conds_no : forall e l, Forall (fun p => bound (fst p) e) l -> ~ Forall (holds e) l -> conds_hold e l = Ok false.
Proof.
  induction l as [|[d x] l IH]; intros HB HN; [exfalso; apply HN; constructor|]. inversion HB as [|? ? [y Hy] HB']; subst.
  cbn [conds_hold]. unfold cond_holds. cbn [fst snd] in *. pose proof Hy as HL. apply has_lookup in HL. rewrite HL.
  destruct (veqb y x) eqn:E; [|reflexivity]. apply veqb_true in E. subst y. apply IH; auto.
Qed.
Lemma select_ok : forall e conds i j l, nth_error conds i = Some l -> Forall (Forall (fun p => plain (snd p))) conds ->
  Forall (holds e) l ->
  (forall j l, (j < i)%nat -> nth_error conds j = Some l -> Forall (fun p => bound (fst p) e) l /\ ~ Forall (holds e) l) ->
  select e conds j = Ok (Some (j + i)%nat).
Proof.
  induction conds as [|l0 conds IH]; intros i j l HN HP HF HB; [destruct i; discriminate|]. inversion HP; subst.
  cbn [select]. destruct i as [|i].
  - inversion HN; subst. rewrite conds_yes by auto. do 2 f_equal. lia.
  - destruct (HB 0%nat l0 ltac:(lia) eq_refl) as [B1 B2]. rewrite (conds_no _ _ B1 B2).
    rewrite (IH i (S j) l); auto.
    + do 2 f_equal. lia.
    + intros j' l' Hj Hl. apply (HB (S j')); auto. lia.
Qed.
Lemma find_item_nth : forall zs i z k, NoDup zs -> nth_error zs i = Some z -> find_item z zs k = Some (k + Z.of_nat i).
Proof.
  induction zs as [|x zs IH]; intros i z k HN HI; [destruct i; discriminate|]. inversion HN; subst. cbn [find_item]. destruct i as [|i].
  - inversion HI; subst. rewrite Z.eqb_refl. f_equal. lia.
  - cbn [nth_error] in HI. destruct (x =? z) eqn:E.
    + apply Z.eqb_eq in E. subst. exfalso. apply H1. eapply nth_error_In; eauto.
    + rewrite (IH i z (k + 1)); auto. f_equal. lia.
Qed.
