(** Proofs about Pipeline.v. *)
From Verif Require Import Base Bits UperTypes UperSpec UperWf ConSpec Constraints ConstraintsProofs Validate ValidSpec ValidateProofs Pipeline.
From Coq Require Import Lia ZifyBool ZifyNat Sorting.Sorted.
Ltac Zify.zify_post_hook ::= Z.div_mod_to_equations.

(** Bounds that the 64 bit C types represent. *)
Definition representable (r : range) : Prop :=
  match r with
  | Concrete a b => a <= b /\ (0 <= a -> b < 2 ^ 64) /\ (a < 0 -> - 2 ^ 63 <= a /\ b < 2 ^ 63)
  | PosInf a => if 0 <=? a then a < 2 ^ 64 else - 2 ^ 63 <= a
  | NegInf _ | Full => True
  end.
Lemma class_wf : forall slim r p w, int_class slim 64 r = (p, w) -> representable r -> wf_int (INoExt r) p w.
Proof.
  intros slim [a b|a|b|] p w H R; cbn [representable wf_int int_class] in *.
  - destruct R as (R1 & R2 & R3).
    destruct (Z.leb_spec 0 a); destruct slim;
      repeat match type of H with (if ?c then _ else _) = _ => destruct c eqn:? end;
      inversion H; subst; clear H; unfold in_class; cbn; lia.
  - destruct (Z.leb_spec 0 a); inversion H; subst; unfold in_class; cbn; repeat split; lia.
  - inversion H; auto.
  - inversion H; auto.
Qed.
Lemma class_width : forall slim r p w, int_class slim 64 r = (p, w) -> width w = true.
Proof.
  intros slim [a b|a|b|] p w H; cbn [int_class] in *;
    repeat match type of H with (if ?c then _ else _) = _ => destruct c end; inversion H; reflexivity.
Qed.
Lemma fits_class : forall p w x, fits_int p w x = true <-> in_class p w x.
Proof. intros [] w x; unfold fits_int, in_class; lia. Qed.

Lemma sat_all : forall A (f : A -> bool) l, forallb f l = true <-> Forall (fun c => f c = true) l.
Proof. intros. rewrite forallb_forall, Forall_forall. reflexivity. Qed.
Lemma forallb_map : forall A B (g : A -> B) (f : B -> bool) l, forallb f (map g l) = forallb (fun x => f (g x)) l.
Proof. induction l; cbn; auto. now rewrite IHl. Qed.

Definition int_check (p : bool) (w : Z) (cs : list icon) : value -> bool :=
  isConstraintValid (CPrim (map (AInt p w) cs)).
Lemma int_checks : forall p w cs x, width w = true -> forallb (every (atom_ok p)) cs = true -> fits_int p w x = true ->
  int_check p w cs (VInt x) = forallb (fun c => sat_int c x) cs.
Proof.
  intros p w cs x W L F. unfold int_check. rewrite valid_exact.
  - cbn [sat_ty]. rewrite forallb_map. apply forallb_ext_in. reflexivity.
  - cbn [handled_ty]. rewrite forallb_map. apply forallb_forall. intros c I. cbn [handled]. rewrite W.
    rewrite forallb_forall in L. now rewrite L.
  - cbn [fits_ty]. rewrite forallb_map. apply forallb_forall. auto.
Qed.

(** The type that is generated. *)
Lemma int_ty_shape : forall slim cs t, int_ty slim cs = Some t ->
  exists r p w i, getIntTypeConstraintUperRange cs = Some r /\ int_class slim 64 r = (p, w) /\
    int_spec p w r cs = Some i /\ t = TRef (int_check p w cs) (TInt i p w).
Proof.
  intros slim cs t H. unfold int_ty in H. apply obind_some in H as (r & Hr & H).
  destruct (int_class slim 64 r) as [p w] eqn:C. apply obind_some in H as (i & Hi & H). inversion H; subst.
  exists r, p, w, i. auto.
Qed.

(** No extension marker at the outermost level. *)
Definition no_marker (c : icon) : bool := match c with Root _ | Root2 _ _ => false | _ => true end.
Lemma no_marker_spec : forall p w r cs, forallb no_marker cs = true -> int_spec p w r cs = Some (INoExt r).
Proof.
  intros p w r cs H. unfold int_spec.
  replace (filter _ cs) with (@nil icon); auto. symmetry.
  induction cs as [|c cs IH]; cbn in *; auto. apply andb_prop in H as [H1 H2]. destruct c; try discriminate; auto.
Qed.
Lemma int_type : forall slim cs r p w, getIntTypeConstraintUperRange cs = Some r -> int_class slim 64 r = (p, w) ->
  forallb no_marker cs = true -> clean_int cs = true -> representable r -> forallb (every (atom_ok p)) cs = true ->
  exists t, int_ty slim cs = Some t /\ wft t /\
    forall x, valid t (VInt x) <-> in_class p w x /\ Forall (fun c => sat_int c x = true) cs.
Proof.
  intros slim cs r p w Hr Hc M K R L.
  exists (TRef (int_check p w cs) (TInt (INoExt r) p w)). split; [|split].
  - unfold int_ty. rewrite Hr. cbn [obind]. rewrite Hc, no_marker_spec by auto. reflexivity.
  - cbn [wft]. eapply class_wf; eauto.
  - intros x. cbn [valid norm valid_int]. split.
    + intros ((C & V) & O). split; auto. rewrite int_checks in O; eauto using class_width.
      * now apply sat_all.
      * now apply fits_class.
    + intros (C & S). split; [split; [exact C|]|].
      * eapply int_sound; eauto.
      * rewrite int_checks; eauto using class_width; [now apply sat_all|now apply fits_class].
Qed.

(** One constraint with an extension marker. *)
Lemma ext_class : forall slim, int_class slim 64 Full = (false, 64).
Proof. reflexivity. Qed.
Definition representable64 (r : range) : Prop := wf_range64 r.
Lemma int_ext_type : forall slim a r, getIntTypeConstraintUperRange [a] = Some r ->
  clean int_atom a = true -> wf_range64 r -> every (atom_ok false) a = true ->
  exists t, int_ty slim [Root a] = Some t /\ wft t /\
    forall x, valid t (VInt x) <-> in_class false 64 x /\ sat_int a x = true.
Proof.
  intros slim a r Hr K W L.
  assert (Rt : getIntTypeConstraintUperRange [Root a] = Some Full).
  { unfold getIntTypeConstraintUperRange in *. cbn [fold_ranges] in *. unfold int_range in *. cbn [range_of].
    apply obind_some in Hr as (ra & Hr & _). rewrite Hr. reflexivity. }
  assert (CK : forall x, in_class false 64 x -> int_check false 64 [Root a] (VInt x) = sat_int a x).
  { intros x C. rewrite int_checks.
    - cbn [forallb]. apply andb_true_r.
    - reflexivity.
    - cbn [forallb every]. now rewrite L.
    - now apply fits_class. }
  exists (TRef (int_check false 64 [Root a]) (TInt (IExt r) false 64)). split; [|split].
  - assert (I : int_spec false 64 Full [Root a] = Some (IExt r)).
    { unfold int_spec. change (filter _ [Root a]) with [Root a]. cbv iota. unfold icon in *. rewrite Hr. reflexivity. }
    unfold int_ty. rewrite Rt. cbn [obind int_class]. rewrite I. reflexivity.
  - cbn. auto.
  - intros x. cbn [valid norm valid_int]. split.
    + intros ((C & V) & O). split; auto. rewrite CK in O by auto. exact O.
    + intros (C & S). split; [split; [exact C|]|].
      * eapply int_single; eauto.
      * rewrite CK by auto. exact S.
Qed.
Lemma int_ext2_type : forall slim a b r, getIntTypeConstraintUperRange [a] = Some r -> int_range b <> None ->
  clean int_atom a = true -> wf_range64 r -> every (atom_ok false) a && every (atom_ok false) b = true ->
  exists t, int_ty slim [Root2 a b] = Some t /\ wft t /\
    (forall x, valid t (VInt x) <-> in_class false 64 x /\ (sat_int a x = true \/ sat_int b x = true)) /\
    forall x, in_class false 64 x -> forall std,
      ubits std t (VInt x) = if sat_int a x then false :: range_bits r x else true :: unc_bits x.
Proof.
  intros slim a b r Hr Hb K W L. apply andb_prop in L as [L1 L2].
  assert (Rt : getIntTypeConstraintUperRange [Root2 a b] = Some Full).
  { unfold getIntTypeConstraintUperRange in *. cbn [fold_ranges] in *. unfold int_range in *. cbn [range_of].
    apply obind_some in Hr as (ra & Hr & _). rewrite Hr. destruct (range_of _ b) eqn:E; [reflexivity|contradiction]. }
  exists (TRef (int_check false 64 [Root2 a b]) (TInt (IExt2 r (fun x => vrun (v_int false 64 a) x true)) false 64)).
  split; [|split; [|split]].
  - assert (I : int_spec false 64 Full [Root2 a b] = Some (IExt2 r (fun x => vrun (v_int false 64 a) x true))).
    { unfold int_spec. change (filter _ [Root2 a b]) with [Root2 a b]. cbv iota. unfold icon in *. rewrite Hr. reflexivity. }
    unfold int_ty. rewrite Rt. cbn [obind int_class]. rewrite I. reflexivity.
  - cbn. auto.
  - assert (C2 : forall x, in_class false 64 x -> int_check false 64 [Root2 a b] (VInt x) = sat_int a x || sat_int b x).
    { intros x C. rewrite int_checks.
      - cbn [forallb]. apply andb_true_r.
      - reflexivity.
      - cbn [forallb every]. now rewrite L1, L2.
      - now apply fits_class. }
    intros x. cbn [valid norm valid_int]. split.
    + intros ((C & V) & O). split; auto. rewrite C2 in O by auto. now apply orb_prop in O.
    + intros (C & S). split; [split; [exact C|]|].
      * intros T. rewrite int_run in T; auto; [eapply int_single; eauto|now apply fits_class].
      * rewrite C2 by auto. destruct S as [S|S]; rewrite S; auto using orb_true_r.
  - intros x C std. cbn [ubits int_bits]. cbv beta. rewrite int_run; [now destruct (sat_int a x)|reflexivity|exact L1|now apply fits_class].
Qed.

(** Strings *)
Lemma sorted_nodup : forall l, canonical l -> NoDup l.
Proof.
  induction 1 as [|x l H IH F]; constructor; auto. intros I. rewrite Forall_forall in F. apply F in I. lia.
Qed.
Lemma sorted_bound : forall l, canonical l -> Forall (fun x => 0 <= x < 128) l ->
  Z.of_nat (length l) <= 128 /\ (Z.of_nat (length l) = 128 -> forall x, 0 <= x < 128 -> In x l).
Proof.
  intros l C F.
  assert (I : incl (map Z.to_nat l) (seq 0 128)).
  { intros n H. apply in_map_iff in H as (x & <- & H). rewrite Forall_forall in F. apply F in H. apply in_seq. lia. }
  assert (N : NoDup (map Z.to_nat l)).
  { apply sorted_nodup in C. clear I. induction C as [|x l H N IH]; cbn; constructor; inversion F; subst; auto.
    intros K. apply in_map_iff in K as (y & E & K). rewrite Forall_forall in H3. apply H3 in K as B.
    assert (x = y) by lia. now subst. }
  pose proof (NoDup_incl_length N I) as Le. rewrite map_length, seq_length in Le. split; [lia|].
  intros E x B.
  assert (J : incl (seq 0 128) (map Z.to_nat l)).
  { apply NoDup_length_incl; auto. rewrite map_length, seq_length. lia. }
  assert (K : In (Z.to_nat x) (seq 0 128)) by (apply in_seq; lia).
  apply J in K. apply in_map_iff in K as (y & Ey & K). rewrite Forall_forall in F. apply F in K as B2.
  assert (x = y) by lia. now subst.
Qed.

Definition str_check (cs : list scon) : value -> bool := isConstraintValid (CPrim (map AStr cs)).
Lemma str_checks : forall cs s, forallb (fun c => 0 <? c) s = true -> len s < 2 ^ 32 ->
  str_check cs (VStr s) = forallb (fun c => sat_str c s) cs.
Proof.
  intros cs s N L. unfold str_check. rewrite valid_exact.
  - cbn [sat_ty]. rewrite forallb_map. apply forallb_ext_in. reflexivity.
  - cbn [handled_ty]. rewrite forallb_map. now apply forallb_forall.
  - cbn [fits_ty]. rewrite forallb_map. apply forallb_forall. intros c I. cbn [fits]. rewrite N. unfold fits_len.
    rewrite andb_true_r. now apply Z.ltb_lt.
Qed.
Lemma str_type : forall d cs a b l, canonical d -> d <> [] -> Forall (fun x => 0 <= x < 128) d ->
  getStringSizeUperRange cs = Some (Concrete a b) -> getSrtingAlphaUperRange d cs = Some l ->
  clean_str cs = true -> wf_size a b ->
  exists t, str_ty d cs = Some t /\ wft t /\
    forall s, Forall (fun ch => In ch d /\ 0 < ch) s ->
      (valid t (VStr s) <-> Forall (fun c => sat_str c s = true) cs /\ a <= Z.of_nat (length s) <= b).
Proof.
  intros d cs a b l Cd Nd Fd Hs Ha K W.
  destruct (alpha_canonical _ _ _ Cd Nd Ha) as (Cl & Nl & Il).
  assert (Fl : Forall (fun x => 0 <= x < 128) l).
  { apply Forall_forall. intros x I. rewrite Forall_forall in Fd. auto. }
  destruct (sorted_bound l Cl Fl) as (B1 & B2).
  exists (TRef (str_check cs) (TStr (if Z.of_nat (length l) =? 128 then None else Some l) a b)). split; [|split].
  - unfold str_ty. rewrite Hs, Ha. reflexivity.
  - cbn [wft]. split; auto. destruct (Z.eqb_spec (Z.of_nat (length l)) 128); cbn; auto.
    repeat split; auto using sorted_nodup. lia.
  - intros s Fs. cbn [valid norm]. unfold wf_size in W.
    assert (P : forallb (fun c => 0 <? c) s = true).
    { apply forallb_forall. intros x I. rewrite Forall_forall in Fs. apply Fs in I. lia. }
    split.
    + intros ((S & A & _) & O). unfold size_in in S. split; auto. rewrite str_checks in O by (auto; unfold len; lia).
      now apply sat_all.
    + intros (S & B). split; [split; [exact B|split]|].
      * apply Forall_forall. intros x I.
        assert (In x l).
        { apply (alpha_sound d cs l s Cd Ha S); [|exact I]. intros y Iy. rewrite Forall_forall in Fs. now apply Fs in Iy. }
        destruct (Z.eqb_spec (Z.of_nat (length l)) 128); cbn; auto. rewrite Forall_forall in Fl. apply Fl in H. lia.
      * intros _. apply Forall_forall. intros x I. rewrite Forall_forall in Fs. apply Fs in I. lia.
      * rewrite str_checks by (auto; unfold len; lia). now apply sat_all.
Qed.
(** The size bound follows from the constraints. *)
Lemma str_type' : forall d cs a b l, canonical d -> d <> [] -> Forall (fun x => 0 <= x < 128) d ->
  getStringSizeUperRange cs = Some (Concrete a b) -> getSrtingAlphaUperRange d cs = Some l ->
  clean_str cs = true -> wf_size a b ->
  exists t, str_ty d cs = Some t /\ wft t /\
    forall s, Forall (fun ch => In ch d /\ 0 < ch) s ->
      (valid t (VStr s) <-> Forall (fun c => sat_str c s = true) cs).
Proof.
  intros d cs a b l Cd Nd Fd Hs Ha K W.
  destruct (str_type d cs a b l) as (t & T & Wt & V); auto. exists t. split; auto. split; auto.
  intros s Fs. rewrite V by auto. split; [tauto|]. intros S. split; auto.
  apply (str_size_sound _ _ s Hs K S).
Qed.

(** Strings of octets and bits *)
Lemma oct_type : forall cs a b, getSizeableUperRange len cs = Some (Concrete a b) ->
  clean_sz _ len cs = true -> wf_size a b -> forallb (every (szatom_ok (fixed_size a b))) cs = true ->
  exists t, oct_ty cs = Some t /\ wft t /\
    forall s, Forall (fun x => 0 <= x < 256) s ->
      (valid t (VOct s) <-> a <= Z.of_nat (length s) <= b /\ Forall (fun c => sat (sat_szatom eqs len s) c = true) cs).
Proof.
  intros cs a b Hs K W S.
  exists (TRef (isConstraintValid (CPrim (map (AOct (fixed_size a b)) cs))) (TOct a b)). split; [|split].
  - unfold oct_ty. rewrite Hs. reflexivity.
  - exact W.
  - intros s Fs. cbn [valid norm]. unfold size_in, wf_size in *.
    assert (E : a <= Z.of_nat (length s) <= b ->
      isConstraintValid (CPrim (map (AOct (fixed_size a b)) cs)) (VOct s) = forallb (sat (sat_szatom eqs len s)) cs).
    { intros B. rewrite valid_exact.
      - cbn [sat_ty]. rewrite forallb_map. apply forallb_ext_in. reflexivity.
      - cbn [handled_ty]. rewrite forallb_map. apply forallb_forall. intros c I. cbn [handled].
        rewrite forallb_forall in S. auto.
      - cbn [fits_ty]. rewrite forallb_map. apply forallb_forall. intros c I. cbn [fits].
        unfold fits_len, fixed_size, len. destruct (Z.eqb_spec a b); lia. }
    split.
    + intros ((B & _) & O). rewrite E in O by auto. split; auto. now apply sat_all in O.
    + intros (B & O). rewrite E by auto. split; [split; [exact B|exact Fs]|]. now apply sat_all.
Qed.
Lemma oct_type' : forall cs a b, getSizeableUperRange len cs = Some (Concrete a b) ->
  clean_sz _ len cs = true -> wf_size a b -> forallb (every (szatom_ok (fixed_size a b))) cs = true ->
  exists t, oct_ty cs = Some t /\ wft t /\
    forall s, Forall (fun x => 0 <= x < 256) s ->
      (valid t (VOct s) <-> Forall (fun c => sat (sat_szatom eqs len s) c = true) cs).
Proof.
  intros cs a b Hs K W S. destruct (oct_type cs a b) as (t & T & Wt & V); auto. exists t. split; auto. split; auto.
  intros s Fs. rewrite V by auto. split; [tauto|]. intros C. split; auto.
  refine (sizeable_sound _ len eqs _ cs _ s Hs K C). intros x y E. apply eqs_eq in E. now subst.
Qed.
Lemma bits_eqb_len : forall x y, list_eqb Bool.eqb x y = true -> len x = len y.
Proof.
  induction x as [|a x IH]; intros [|b y]; cbn; try discriminate; auto. intros H. apply andb_prop in H as [_ H].
  apply IH in H. unfold len in *. cbn [length]. lia.
Qed.
Lemma bit_type' : forall cs a b, getSizeableUperRange len cs = Some (Concrete a b) ->
  clean_sz _ len cs = true -> wf_size a b -> forallb (every (szatom_ok (fixed_size a b))) cs = true ->
  exists t, bit_ty cs = Some t /\ wft t /\
    forall s, valid t (VBit s) <-> Forall (fun c => sat (sat_szatom (list_eqb Bool.eqb) len s) c = true) cs.
Proof.
  intros cs a b Hs K W S.
  exists (TRef (isConstraintValid (CPrim (map (ABit (fixed_size a b)) cs))) (TBit a b)). split; [|split].
  - unfold bit_ty. rewrite Hs. reflexivity.
  - exact W.
  - intros s. cbn [valid norm]. unfold size_in, wf_size in *.
    assert (E : a <= Z.of_nat (length s) <= b ->
      isConstraintValid (CPrim (map (ABit (fixed_size a b)) cs)) (VBit s) = forallb (sat (sat_szatom (list_eqb Bool.eqb) len s)) cs).
    { intros B. rewrite valid_exact.
      - cbn [sat_ty]. rewrite forallb_map. apply forallb_ext_in. reflexivity.
      - cbn [handled_ty]. rewrite forallb_map. apply forallb_forall. intros c I. cbn [handled].
        rewrite forallb_forall in S. auto.
      - cbn [fits_ty]. rewrite forallb_map. apply forallb_forall. intros c I. cbn [fits].
        unfold fits_len, fixed_size, len. destruct (Z.eqb_spec a b); lia. }
    split.
    + intros (B & O). rewrite E in O by auto. now apply sat_all in O.
    + intros O. assert (B : a <= Z.of_nat (length s) <= b).
      { refine (sizeable_sound _ len (list_eqb Bool.eqb) bits_eqb_len cs _ s Hs K O). }
      split; [exact B|]. rewrite E by auto. now apply sat_all.
Qed.
