(** Proofs about the generated equality functions. *)
From Coq Require Import Floats.SpecFloat.
From Verif Require Import Base Bits BitStream Misc MiscProofs RealSpec RealC Equal EqualSpec.

Section Ind.
Variable P : ety -> Prop.
Hypothesis HInt : P EInt. Hypothesis HBool : P EBool. Hypothesis HEnum : P EEnum. Hypothesis HNull : P ENull.
Hypothesis HReal : P EReal. Hypothesis HStr : P EStr. Hypothesis HOid : P EOid.
Hypothesis HOct : forall a b, P (EOct a b). Hypothesis HBit : forall a b, P (EBit a b).
Hypothesis HSeqOf : forall a b t, P t -> P (ESeqOf a b t).
Hypothesis HSeq : forall fs, Forall (fun f => P (snd f)) fs -> P (ESeq fs).
Hypothesis HChoice : forall ts, Forall P ts -> P (EChoice ts).
Hypothesis HCall : forall b t, P b -> P t -> P (ECall b t).
Fixpoint ety_ind' (t : ety) : P t :=
  match t with
  | EInt => HInt | EBool => HBool | EEnum => HEnum | ENull => HNull | EReal => HReal | EStr => HStr | EOid => HOid
  | EOct a b => HOct a b | EBit a b => HBit a b
  | ESeqOf a b t => HSeqOf a b t (ety_ind' t)
  | ESeq fs => HSeq fs ((fix go fs : Forall (fun f => P (snd f)) fs := match fs with
       | [] => Forall_nil _ | f :: fs => Forall_cons _ (ety_ind' (snd f)) (go fs) end) fs)
  | EChoice ts => HChoice ts ((fix go ts : Forall P ts := match ts with
       | [] => Forall_nil _ | t :: ts => Forall_cons _ (ety_ind' t) (go ts) end) ts)
  | ECall b t => HCall b t (ety_ind' b) (ety_ind' t)
  end.
End Ind.

(** Layouts *)
Lemma same_size_count : forall a b c d n, same_size a b c d = true -> count a b n = count c d n.
Proof. intros a b c d n. unfold same_size, count. destruct (a =? b) eqn:E, (c =? d) eqn:E2; intros H; try discriminate; lia. Qed.

Lemma alike_abs : forall b t, alike b t = true -> forall o, abs b o = abs t o.
Proof.
  induction b as [ | | | | | | |a b|a b|a b t IHb|fs H0|ts H0|b1 b2 IHb1 IHb2] using ety_ind'; intros u H;
    try (destruct u; try discriminate H; reflexivity).
  - destruct u; try discriminate H. cbn [alike] in H. intros []; try reflexivity. cbn [abs].
    now rewrite (same_size_count _ _ _ _ _ H).
  - destruct u; try discriminate H. cbn [alike] in H. intros []; try reflexivity. cbn [abs].
    now rewrite (same_size_count _ _ _ _ _ H).
  - destruct u; try discriminate H. cbn [alike] in H. apply andb_true_iff in H as [H1 H2].
    intros []; try reflexivity. cbn [abs]. rewrite (same_size_count _ _ _ _ _ H1).
    rewrite (map_ext _ _ (IHb _ H2)). reflexivity.
  - destruct u; try discriminate H. cbn [alike] in H. intros []; try reflexivity. cbn [abs]. f_equal.
    clear -H H0. revert fs0 H l. induction H0 as [|[o t] fs HP _ IH]; intros [|[p u] gs] H l; try discriminate H; [reflexivity|].
    apply andb_true_iff in H as [H H2]. apply andb_true_iff in H as [Ho Ht].
    apply Bool.eqb_prop in Ho. subst p. destruct l as [|[e m] l]; [reflexivity|].
    rewrite (IH gs H2). rewrite (HP _ Ht). reflexivity.
  - destruct u; try discriminate H. cbn [alike] in H. intros [| | | | | | |k m]; try reflexivity. cbn [abs]. f_equal.
    clear -H H0. revert ts0 H k. induction H0 as [|t ts HP _ IH]; intros [|u us] H k; try discriminate H; [reflexivity|].
    apply andb_true_iff in H as [Ht H2]. destruct k; [apply HP; auto|apply IH; auto].
  - destruct u; try discriminate H. cbn [alike] in H. intros o.
    change (abs b2 o = abs u2 o). now apply IHb2.
Qed.

(** Strings *)
Lemma strcmp_ok : forall a b s t, cstring a = Some s -> cstring b = Some t ->
  exists r, strcmp_eq a b = Ok r /\ (r = true <-> s = t).
Proof.
  induction a as [|x a IH]; intros b s t Ha Hb; [discriminate|].
  destruct b as [|y b]; [discriminate|]. cbn [cstring strcmp_eq] in *.
  destruct (x =? y) eqn:E.
  - assert (x = y) by lia. subst y. destruct (x =? 0).
    + injection Ha as <-. injection Hb as <-. exists true. tauto.
    + destruct (cstring a) as [s'|]; [|discriminate]. destruct (cstring b) as [t'|] eqn:Eb; [|discriminate].
      injection Ha as <-. injection Hb as <-. destruct (IH b s' t' eq_refl Eb) as (r & R1 & R2).
      exists r. split; auto. rewrite R2. split; [intros ->; auto|intros H; now injection H].
  - exists false. split; auto. split; [discriminate|]. intros ->. exfalso.
    destruct (x =? 0) eqn:E1, (y =? 0) eqn:E2; try lia.
    + destruct (cstring b); [|discriminate]. congruence.
    + destruct (cstring a); [|discriminate]. congruence.
    + destruct (cstring a), (cstring b); try discriminate. assert (x = y) by congruence. lia.
Qed.

Lemma bytes_of_forallb : forall a, forallb byteb a = true -> Forall is_byte a.
Proof. intros a H. apply Forall_forall. intros x Hx. rewrite forallb_forall in H. specialize (H x Hx). unfold byteb in H. unfold is_byte. lia. Qed.

(** * The functions compute [sameb] *)
Lemma iff_list : forall (l m : list Z) b, (b = true <-> l = m) -> b = if list_eq_dec Z.eq_dec l m then true else false.
Proof. intros l m b [H1 H2]. destruct (list_eq_dec _ _ _); [auto|]. destruct b; auto. exfalso. auto. Qed.
Lemma iff_bits : forall (l m : list bool) b, (b = true <-> l = m) -> b = if list_eq_dec Bool.bool_dec l m then true else false.
Proof. intros l m b [H1 H2]. destruct (list_eq_dec _ _ _); [auto|]. destruct b; auto. exfalso. auto. Qed.

Definition good (t : ety) (f : estmt) : Prop := forall o1 o2 v1 v2, abs t o1 = Some v1 -> abs t o2 = Some v2 ->
  f o1 o2 true = Ok (sameb v1 v2).
Definition goodb (t : ety) : Prop := match body t with
  | None => forall o1 o2 v1 v2, abs t o1 = Some v1 -> abs t o2 = Some v2 -> sameb v1 v2 = true
  | Some f => good t f
  end.

Fixpoint same_list (a b : list aval) : bool :=
  match a, b with [], [] => true | x :: a, y :: b => sameb x y && same_list a b | _, _ => false end.
Definition same_opt (x y : option aval) : bool :=
  match x, y with Some x, Some y => sameb x y | None, None => true | _, _ => false end.
Fixpoint same_opts (a b : list (option aval)) : bool :=
  match a, b with [], [] => true | x :: a, y :: b => same_opt x y && same_opts a b | _, _ => false end.
Lemma sameb_list : forall a b, sameb (AvList a) (AvList b) = same_list a b.
Proof. reflexivity. Qed.
Lemma sameb_seq : forall a b, sameb (AvSeq a) (AvSeq b) = same_opts a b.
Proof.
  intros a b. cbn [sameb]. revert b. induction a as [|[] a IH]; intros [|[] b]; try reflexivity; cbn [same_opts same_opt andb];
  now rewrite <- IH.
Qed.

(** The loop of SEQUENCE OF *)
Lemma loop_false : forall f n a b, eq_loop f n a b false = Ok false.
Proof. intros f [] a b; reflexivity. Qed.
Lemma loop_good : forall t f, good t f -> forall n a b va vb, (n <= length a)%nat -> (n <= length b)%nat ->
  sequence (map (abs t) (firstn n a)) = Some va -> sequence (map (abs t) (firstn n b)) = Some vb ->
  eq_loop f n a b true = Ok (same_list va vb).
Proof.
  intros t f G. induction n; intros a b va vb La Lb Ha Hb.
  - cbn in Ha, Hb. injection Ha as <-. injection Hb as <-. reflexivity.
  - destruct a as [|x a]; [cbn in La; lia|]. destruct b as [|y b]; [cbn in Lb; lia|].
    cbn [firstn map sequence] in Ha, Hb. cbn [eq_loop].
    destruct (abs t x) as [v|] eqn:Ex; [|discriminate]. destruct (abs t y) as [w|] eqn:Ey; [|discriminate].
    destruct (sequence (map (abs t) (firstn n a))) as [va'|] eqn:Ea; [|discriminate].
    destruct (sequence (map (abs t) (firstn n b))) as [vb'|] eqn:Eb; [|discriminate].
    injection Ha as <-. injection Hb as <-. rewrite (G x y v w Ex Ey). cbn [obind same_list].
    destruct (sameb v w); cbn [andb].
    + apply IHn; auto; cbn in La, Lb; lia.
    + apply loop_false.
Qed.
Lemma seq_len : forall A (l : list (option A)) v, sequence l = Some v -> length v = length l.
Proof.
  induction l as [|[x|] l IH]; intros v H; cbn in H; [injection H as <-; auto| |discriminate].
  destruct (sequence l) as [l'|]; [|discriminate]. injection H as <-. cbn. now rewrite (IH l').
Qed.
Lemma same_list_len : forall a b, same_list a b = true -> length a = length b.
Proof. induction a; intros [] H; try discriminate H; auto. cbn [same_list] in H. apply andb_true_iff in H as [_ H]. cbn. f_equal. auto. Qed.
Lemma same_items : forall t a b va vb n, (forall o1 o2 v1 v2, abs t o1 = Some v1 -> abs t o2 = Some v2 -> sameb v1 v2 = true) ->
  (n <= length a)%nat -> (n <= length b)%nat ->
  sequence (map (abs t) (firstn n a)) = Some va -> sequence (map (abs t) (firstn n b)) = Some vb -> same_list va vb = true.
Proof.
  intros t a b va vb n H. revert a b va vb. induction n; intros a b va vb La Lb Ha Hb.
  - cbn in Ha, Hb. injection Ha as <-. injection Hb as <-. reflexivity.
  - destruct a as [|x a]; [cbn in La; lia|]. destruct b as [|y b]; [cbn in Lb; lia|].
    cbn [firstn map sequence] in Ha, Hb.
    destruct (abs t x) as [v|] eqn:Ex; [|discriminate]. destruct (abs t y) as [w|] eqn:Ey; [|discriminate].
    destruct (sequence (map (abs t) (firstn n a))) as [va'|] eqn:Ea; [|discriminate].
    destruct (sequence (map (abs t) (firstn n b))) as [vb'|] eqn:Eb; [|discriminate].
    injection Ha as <-. injection Hb as <-. cbn [same_list]. rewrite (H x y v w Ex Ey). cbn [andb].
    eapply (IHn a b); eauto; cbn in La, Lb; lia.
Qed.

(** The components of SEQUENCE *)
Definition comp_abs (opt : bool) (t : ety) (m : bool * cobj) : option (option aval) :=
  if opt && negb (fst m) then Some None else option_map Some (abs t (snd m)).
Fixpoint seq_abs (fs : list (bool * ety)) (l : list (bool * cobj)) : option (list (option aval)) :=
  match fs, l with
  | [], [] => Some []
  | (opt, t) :: fs, m :: l =>
      match comp_abs opt t m, seq_abs fs l with Some v, Some vs => Some (v :: vs) | _, _ => None end
  | _, _ => None
  end.
Lemma abs_seq : forall fs l, abs (ESeq fs) (XStruct l) = option_map AvSeq (seq_abs fs l).
Proof.
  intros fs l. cbn [abs]. f_equal. revert l. induction fs as [|[o t] fs IH]; intros [|[e m] l]; try reflexivity.
  cbn [seq_abs]. rewrite <- IH. reflexivity.
Qed.
Fixpoint seq_body (fs : list (bool * ety)) :=
  match fs with [] => None | (opt, t) :: fs => seq_step (eq_child opt (body t)) (seq_body fs) end.
Lemma body_seq : forall fs, body (ESeq fs) = match seq_body fs with
  | None => None
  | Some f => Some (fun o1 o2 r => match o1, o2 with XStruct l1, XStruct l2 => f l1 l2 r | _, _ => UB end)
  end.
Proof.
  intros fs. cbn [body].
  match goal with |- match ?x with _ => _ end = match ?y with _ => _ end => replace x with y; [reflexivity|] end.
  induction fs as [|[o t] fs IH]; [reflexivity|]. cbn [seq_body]. now rewrite IH.
Qed.

Lemma child_good : forall opt t, goodb t ->
  match eq_child opt (body t) with
  | None => forall m1 m2 v1 v2, comp_abs opt t m1 = Some v1 -> comp_abs opt t m2 = Some v2 -> same_opt v1 v2 = true
  | Some f => forall m1 m2 v1 v2, comp_abs opt t m1 = Some v1 -> comp_abs opt t m2 = Some v2 ->
      f m1 m2 true = Ok (same_opt v1 v2)
  end.
Proof.
  intros opt t G. unfold goodb in G. destruct opt; cbn [eq_child]; unfold comp_abs; cbn [andb].
  - intros [e1 m1] [e2 m2] v1 v2 H1 H2. cbn [fst snd] in *.
    destruct e1, e2; cbn [negb Bool.eqb andb] in *.
    + destruct (abs t m1) as [w1|] eqn:E1; [|discriminate]. destruct (abs t m2) as [w2|] eqn:E2; [|discriminate].
      injection H1 as <-. injection H2 as <-. cbn [same_opt]. destruct (body t) as [f|].
      * exact (G m1 m2 w1 w2 E1 E2).
      * now rewrite (G m1 m2 w1 w2 E1 E2).
    + destruct (abs t m1); [|discriminate]. injection H1 as <-. injection H2 as <-. destruct (body t); auto.
    + destruct (abs t m2); [|discriminate]. injection H1 as <-. injection H2 as <-. destruct (body t); auto.
    + injection H1 as <-. injection H2 as <-. destruct (body t); auto.
  - destruct (body t) as [f|]; intros [e1 m1] [e2 m2] v1 v2 H1 H2; cbn [fst snd] in *;
      (destruct (abs t m1) as [w1|] eqn:E1; [|discriminate]); (destruct (abs t m2) as [w2|] eqn:E2; [|discriminate]);
      injection H1 as <-; injection H2 as <-; exact (G m1 m2 w1 w2 E1 E2).
Qed.

Lemma seq_good : forall fs, Forall (fun f => goodb (snd f)) fs ->
  match seq_body fs with
  | None => forall l1 l2 v1 v2, seq_abs fs l1 = Some v1 -> seq_abs fs l2 = Some v2 -> same_opts v1 v2 = true
  | Some f => forall l1 l2 v1 v2, seq_abs fs l1 = Some v1 -> seq_abs fs l2 = Some v2 ->
      f l1 l2 true = Ok (same_opts v1 v2)
  end.
Proof.
  induction 1 as [|[opt t] fs G _ IH]; cbn [seq_body seq_abs].
  - intros [] [] v1 v2 H1 H2; try discriminate. injection H1 as <-. injection H2 as <-. reflexivity.
  - cbn [snd] in G. apply (child_good opt) in G. destruct (eq_child opt (body t)) as [f|], (seq_body fs) as [g|]; cbn [seq_step];
    intros [|m1 l1] [|m2 l2] v1 v2 H1 H2; try discriminate;
    (destruct (comp_abs opt t m1) as [w1|] eqn:E1; [|discriminate]); (destruct (comp_abs opt t m2) as [w2|] eqn:E2; [|discriminate]);
    (destruct (seq_abs fs l1) as [u1|] eqn:F1; [|discriminate]); (destruct (seq_abs fs l2) as [u2|] eqn:F2; [|discriminate]);
    injection H1 as <-; injection H2 as <-; cbn [same_opts].
    + rewrite (G m1 m2 w1 w2 E1 E2). cbn [obind]. destruct (same_opt w1 w2); cbn [andb]; [apply (IH l1 l2 u1 u2 F1 F2)|reflexivity].
    + rewrite (G m1 m2 w1 w2 E1 E2). now rewrite (IH l1 l2 u1 u2 F1 F2), andb_true_r.
    + rewrite (IH l1 l2 u1 u2 F1 F2). now rewrite (G m1 m2 w1 w2 E1 E2).
    + now rewrite (G m1 m2 w1 w2 E1 E2), (IH l1 l2 u1 u2 F1 F2).
Qed.

Lemma body_good : forall t, calls_ok t -> goodb t.
Proof.
  induction t using ety_ind'; cbn [calls_ok]; intros HE.
  - intros o1 o2 v1 v2 H1 H2. destruct o1; try discriminate. destruct o2; try discriminate.
    injection H1 as <-. injection H2 as <-. reflexivity.
  - intros o1 o2 v1 v2 H1 H2. destruct o1; try discriminate. destruct o2; try discriminate.
    injection H1 as <-. injection H2 as <-. reflexivity.
  - intros o1 o2 v1 v2 H1 H2. destruct o1; try discriminate. destruct o2; try discriminate.
    injection H1 as <-. injection H2 as <-. reflexivity.
  - intros o1 o2 v1 v2 H1 H2. destruct o1; try discriminate. destruct o2; try discriminate.
    injection H1 as <-. injection H2 as <-. reflexivity.
  - intros o1 o2 v1 v2 H1 H2. destruct o1; try discriminate. destruct o2; try discriminate.
    injection H1 as <-. injection H2 as <-. reflexivity.
  - intros o1 o2 v1 v2 H1 H2. destruct o1; try discriminate. destruct o2; try discriminate. cbn [abs] in H1, H2.
    destruct (cstring a) as [s|] eqn:E1; [|discriminate]. destruct (cstring a0) as [s0|] eqn:E2; [|discriminate].
    injection H1 as <-. injection H2 as <-. destruct (strcmp_ok _ _ _ _ E1 E2) as (b & B1 & B2).
    unfold ret_exp, exp_str. rewrite B1. cbn [sameb]. now rewrite (iff_list _ _ _ B2).
  - intros o1 o2 v1 v2 H1 H2. destruct o1; try discriminate. destruct o2; try discriminate. cbn [abs] in H1, H2.
    destruct (_ && _) eqn:E1 in H1; [|discriminate]. destruct (_ && _) eqn:E2 in H2; [|discriminate].
    injection H1 as <-. injection H2 as <-.
    destruct (ObjectIdentifier_equal_ok nCount nCount0 a a0) as (b & B1 & B2); try lia.
    unfold ret_exp, exp_oid. rewrite B1. cbn [sameb]. now rewrite (iff_list _ _ _ B2).
  - intros o1 o2 v1 v2 H1 H2. destruct o1; try discriminate. destruct o2; try discriminate. cbn [abs] in H1, H2.
    unfold count in *. unfold ret_exp, exp_oct.
    destruct (a =? b) eqn:E.
    + destruct (_ && _) eqn:E1 in H1; [|discriminate]. destruct (_ && _) eqn:E2 in H2; [|discriminate].
      injection H1 as <-. injection H2 as <-.
      destruct (OctetString_equal_ok b b a0 a1) as (r & B1 & B2); try lia.
      unfold OctetString_equal in B1. rewrite Z.eqb_refl in B1. rewrite B1. cbn [sameb]. now rewrite (iff_list _ _ _ B2).
    + destruct (_ && _) eqn:E1 in H1; [|discriminate]. destruct (_ && _) eqn:E2 in H2; [|discriminate].
      injection H1 as <-. injection H2 as <-.
      destruct (OctetString_equal_ok nCount nCount0 a0 a1) as (r & B1 & B2); try lia.
      rewrite B1. cbn [sameb]. now rewrite (iff_list _ _ _ B2).
  - intros o1 o2 v1 v2 H1 H2. destruct o1; try discriminate. destruct o2; try discriminate. cbn [abs] in H1, H2.
    unfold count in *. unfold ret_exp, exp_bit.
    destruct (a =? b) eqn:E;
    (destruct (_ && _ && _) eqn:E1 in H1; [|discriminate]); (destruct (_ && _ && _) eqn:E2 in H2; [|discriminate]);
    injection H1 as <-; injection H2 as <-;
    apply andb_true_iff in E1 as [E1 F1]; apply andb_true_iff in E2 as [E2 F2];
    apply bytes_of_forallb in F1; apply bytes_of_forallb in F2.
    + destruct (BitString_equal_ok b b a0 a1) as (r & B1 & B2); auto; try lia.
      rewrite B1. cbn [sameb]. now rewrite (iff_bits _ _ _ B2).
    + destruct (BitString_equal_ok nCount nCount0 a0 a1) as (r & B1 & B2); auto; try lia.
      rewrite B1. cbn [sameb]. now rewrite (iff_bits _ _ _ B2).
  - specialize (IHt HE). unfold goodb in *. cbn [body]. destruct (body t) as [f|].
    + destruct (a =? b) eqn:E; intros o1 o2 v1 v2 H1 H2; destruct o1; try discriminate; destruct o2; try discriminate;
      cbn [abs] in H1, H2; unfold count in *; rewrite E in *;
      (destruct (_ && _) eqn:E1 in H1; [|discriminate]); (destruct (_ && _) eqn:E2 in H2; [|discriminate]);
      (destruct (sequence _) as [va|] eqn:F1 in H1; [|discriminate]); (destruct (sequence _) as [vb|] eqn:F2 in H2; [|discriminate]);
      injection H1 as <-; injection H2 as <-; rewrite sameb_list.
      * assert (a = b) by lia. subst b. apply (loop_good t f IHt); auto; lia.
      * destruct (nCount =? nCount0) eqn:E3.
        -- assert (nCount = nCount0) by lia. subst nCount0. apply (loop_good t f IHt); auto; lia.
        -- rewrite loop_false. destruct (same_list va vb) eqn:E4; [|reflexivity]. apply same_list_len in E4.
           apply seq_len in F1. apply seq_len in F2. rewrite map_length, firstn_length in F1. rewrite map_length, firstn_length in F2. lia.
    + destruct (a =? b) eqn:E; intros o1 o2 v1 v2 H1 H2; destruct o1; try discriminate; destruct o2; try discriminate;
      cbn [abs] in H1, H2; unfold count in *; rewrite E in *;
      (destruct (_ && _) eqn:E1 in H1; [|discriminate]); (destruct (_ && _) eqn:E2 in H2; [|discriminate]);
      (destruct (sequence _) as [va|] eqn:F1 in H1; [|discriminate]); (destruct (sequence _) as [vb|] eqn:F2 in H2; [|discriminate]);
      injection H1 as <-; injection H2 as <-; rewrite sameb_list.
      * refine (same_items t _ _ _ _ _ IHt _ _ F1 F2); lia.
      * destruct (nCount =? nCount0) eqn:E3.
        -- assert (nCount = nCount0) by lia. subst nCount0. f_equal. symmetry.
           refine (same_items t _ _ _ _ _ IHt _ _ F1 F2); lia.
        -- destruct (same_list va vb) eqn:E4; [|reflexivity]. apply same_list_len in E4.
           apply seq_len in F1. apply seq_len in F2. rewrite map_length, firstn_length in F1. rewrite map_length, firstn_length in F2. lia.
  - assert (Forall (fun f => goodb (snd f)) fs) as HF.
    { clear -H HE. induction H as [|[o t] fs HP _ IH]; constructor; destruct HE; auto. }
    pose proof (seq_good fs HF) as G. unfold goodb. rewrite body_seq. destruct (seq_body fs) as [f|];
    intros o1 o2 v1 v2 H1 H2; destruct o1; try discriminate; destruct o2; try discriminate; rewrite abs_seq in H1, H2;
    (destruct (seq_abs fs l) as [u1|] eqn:F1; [|discriminate]); (destruct (seq_abs fs l0) as [u2|] eqn:F2; [|discriminate]);
    injection H1 as <-; injection H2 as <-; rewrite sameb_seq; exact (G l l0 u1 u2 F1 F2).
  - unfold goodb. cbn [body]. intros o1 o2 v1 v2 H1 H2. destruct o1; try discriminate. destruct o2; try discriminate.
    cbn [abs] in H1, H2.
    match type of H1 with option_map _ ?x = _ => destruct x as [w1|] eqn:F1; [|discriminate] end.
    match type of H2 with option_map _ ?x = _ => destruct x as [w2|] eqn:F2; [|discriminate] end.
    injection H1 as <-. injection H2 as <-. cbn [sameb]. destruct (Nat.eqb kind kind0) eqn:E; [|reflexivity].
    apply Nat.eqb_eq in E. subst kind0. cbn [andb].
    clear -H HE F1 F2. revert kind F1 F2. induction H as [|t ts HP _ IH]; intros k F1 F2; [discriminate|].
    destruct HE as [HE1 HE2]. destruct k; [|apply IH; auto]. specialize (HP HE1). unfold goodb in HP.
    destruct (body t) as [f|]; cbn [alt_stmt]; [exact (HP o1 o2 w1 w2 F1 F2)|]. now rewrite (HP o1 o2 w1 w2 F1 F2).
  - destruct HE as [HA HE]. specialize (IHt1 HE). unfold goodb in *. cbn [body]. intros o1 o2 v1 v2 H1 H2.
    change (abs t2 o1 = Some v1) in H1. change (abs t2 o2 = Some v2) in H2. rewrite <- (alike_abs t1 t2 HA) in H1, H2.
    destruct (body t1) as [f|]; [exact (IHt1 o1 o2 v1 v2 H1 H2)|]. now rewrite (IHt1 o1 o2 v1 v2 H1 H2).
Qed.

Lemma T_Equal_same : forall t o1 o2 v1 v2, calls_ok t -> abs t o1 = Some v1 -> abs t o2 = Some v2 ->
  T_Equal t o1 o2 = Ok (sameb v1 v2).
Proof.
  intros t o1 o2 v1 v2 HE H1 H2. pose proof (body_good t HE) as G. unfold goodb in G. unfold T_Equal.
  destruct (body t) as [f|]; [exact (G o1 o2 v1 v2 H1 H2)|]. now rewrite (G o1 o2 v1 v2 H1 H2).
Qed.

(** * Asn1Real_Equal *)
Lemma sf_anti : forall x y, SFcompare x y = match SFcompare y x with Some c => Some (CompOpp c) | None => None end.
Proof.
  intros [[]|[]| |[] m e] [[]|[]| |[] n f]; cbn; try reflexivity;
  rewrite (Z.compare_antisym f e); destruct (f ?= e); cbn; try reflexivity;
  rewrite Pos.compare_cont_antisym, ?CompOpp_involutive; reflexivity.
Qed.
Lemma sf_refl : forall x, x <> S754_nan -> SFcompare x x = Some Eq.
Proof. intros [[]|[]| |[] m e] H; cbn; try reflexivity; try contradiction; rewrite Z.compare_refl, Pos.compare_cont_refl; reflexivity. Qed.
Lemma real_refl : forall x, x <> S754_nan -> Asn1Real_Equal x x = true.
Proof. intros x H. unfold Asn1Real_Equal, deqb. now rewrite sf_refl. Qed.
Lemma deqb_sym : forall x y, deqb x y = deqb y x.
Proof. intros x y. unfold deqb. rewrite (sf_anti y x). destruct (SFcompare x y) as [[]|]; reflexivity. Qed.
Lemma deqb_zero : forall x, deqb x D0 = true -> exists s, x = S754_zero s.
Proof. intros [s|[]| |[] m e] H; try discriminate H; eauto. Qed.
Lemma real_zero_l : forall s x, deqb (S754_zero s) x = false -> Asn1Real_Equal (S754_zero s) x = false.
Proof. intros s [[]|[]| |[] m e] H; try discriminate H; destruct s; reflexivity. Qed.
Lemma real_zero_r : forall s x, deqb x (S754_zero s) = false -> Asn1Real_Equal x (S754_zero s) = false.
Proof. intros s [[]|[]| |[] m e] H; try discriminate H; destruct s; reflexivity. Qed.
Lemma abs_same : forall x y, SFcompare (SFabs x) (SFabs y) = Some Eq -> SFabs x = SFabs y.
Proof.
  intros [s|s| |s m e] [s'|s'| |s' n f] H; try discriminate H; try reflexivity. cbn in H. cbn.
  destruct (Z.compare_spec e f); try discriminate. subst f. injection H as H.
  apply Pos.compare_eq in H. now subst.
Qed.
Lemma div_nan : forall x y, SFcompare x y = None -> dle D99999 (ddiv x y) = false.
Proof. intros [[]|[]| |[] m e] [[]|[]| |[] n f] H; try reflexivity; cbn in H; try discriminate H; destruct (e ?= f); discriminate H. Qed.
Lemma real_sym : forall x y, Asn1Real_Equal x y = Asn1Real_Equal y x.
Proof.
  intros l r. destruct (deqb l r) eqn:E.
  { unfold Asn1Real_Equal. rewrite (deqb_sym r l), E. reflexivity. }
  pose proof E as E'. rewrite deqb_sym in E'.
  destruct (deqb l D0) eqn:El.
  { destruct (deqb_zero l El) as [s ->]. now rewrite real_zero_l, real_zero_r. }
  destruct (deqb r D0) eqn:Er.
  { destruct (deqb_zero r Er) as [s ->]. now rewrite real_zero_l, real_zero_r. }
  unfold Asn1Real_Equal. rewrite E, E', El, Er.
  rewrite (orb_comm (dltb D0 r && dltb l D0)), (andb_comm (dltb r D0)), (andb_comm (dltb D0 r)).
  destruct (_ || _); [reflexivity|]. unfold dltb. rewrite (sf_anti (SFabs l) (SFabs r)).
  destruct (SFcompare (SFabs r) (SFabs l)) as [[]|] eqn:C; cbn [CompOpp].
  - apply abs_same in C. now rewrite C.
  - reflexivity.
  - reflexivity.
  - rewrite (div_nan (SFabs r) (SFabs l) C), div_nan; [reflexivity|]. rewrite sf_anti, C. reflexivity.
Qed.
(** Opposite signs are never equal. *)
Lemma real_signs : forall x y, dltb D0 x = true -> dltb y D0 = true -> Asn1Real_Equal x y = false.
Proof. intros [[]|[]| |[] m e] [[]|[]| |[] n f] H1 H2; try discriminate H1; try discriminate H2; reflexivity. Qed.

(** * [sameb] *)
Section AInd.
Variable P : aval -> Prop.
Hypothesis HInt : forall z, P (AvInt z). Hypothesis HBool : forall b, P (AvBool b). Hypothesis HNull : P AvNull.
Hypothesis HReal : forall x, P (AvReal x). Hypothesis HStr : forall l, P (AvStr l). Hypothesis HOid : forall l, P (AvOid l).
Hypothesis HOct : forall l, P (AvOct l). Hypothesis HBit : forall l, P (AvBit l).
Hypothesis HList : forall l, Forall P l -> P (AvList l).
Hypothesis HSeq : forall l, Forall (fun o => match o with Some v => P v | None => True end) l -> P (AvSeq l).
Hypothesis HAlt : forall k v, P v -> P (AvAlt k v).
Fixpoint aval_ind' (v : aval) : P v :=
  match v with
  | AvInt z => HInt z | AvBool b => HBool b | AvNull => HNull | AvReal x => HReal x | AvStr l => HStr l | AvOid l => HOid l
  | AvOct l => HOct l | AvBit l => HBit l
  | AvList l => HList l ((fix go l : Forall P l := match l with [] => Forall_nil _ | v :: l => Forall_cons _ (aval_ind' v) (go l) end) l)
  | AvSeq l => HSeq l ((fix go l : Forall (fun o => match o with Some v => P v | None => True end) l := match l with
      | [] => Forall_nil _
      | Some v :: l => Forall_cons (Some v) (aval_ind' v) (go l)
      | None :: l => Forall_cons None I (go l) end) l)
  | AvAlt k v => HAlt k v (aval_ind' v)
  end.
End AInd.
Lemma sameb_refl : forall v, reals (fun x => x <> S754_nan) v -> sameb v v = true.
Proof.
  induction v using aval_ind'; intros HR; cbn [reals] in HR.
  - apply Z.eqb_refl.
  - apply Bool.eqb_reflx.
  - reflexivity.
  - apply real_refl. exact HR.
  - cbn [sameb]. destruct (list_eq_dec _ l l); congruence.
  - cbn [sameb]. destruct (list_eq_dec _ l l); congruence.
  - cbn [sameb]. destruct (list_eq_dec _ l l); congruence.
  - cbn [sameb]. destruct (list_eq_dec _ l l); congruence.
  - rewrite sameb_list. induction H as [|v l HP _ IH]; [reflexivity|]. cbn [same_list]. destruct HR as [H1 H2].
    rewrite HP by auto. exact (IH H2).
  - rewrite sameb_seq. induction H as [|[v|] l HP _ IH]; [reflexivity| |]; cbn [same_opts same_opt].
    + destruct HR as [H1 H2]. rewrite HP by auto. exact (IH H2).
    + exact (IH HR).
  - cbn [sameb]. rewrite Nat.eqb_refl. exact (IHv HR).
Qed.
Lemma sameb_sym : forall v w, sameb v w = sameb w v.
Proof.
  assert (HD : forall A (d : forall x y : A, {x = y} + {x <> y}) a b,
    (if list_eq_dec d a b then true else false) = (if list_eq_dec d b a then true else false)).
  { intros A d a b. destruct (list_eq_dec d a b), (list_eq_dec d b a); congruence. }
  induction v using aval_ind'; intros []; try reflexivity.
  - apply Z.eqb_sym.
  - cbn [sameb]. destruct b, b0; reflexivity.
  - apply real_sym.
  - apply HD.
  - apply HD.
  - apply HD.
  - apply HD.
  - rewrite !sameb_list. revert l0. induction H as [|v l HP _ IH]; intros []; try reflexivity.
    cbn [same_list]. now rewrite HP, IH.
  - rewrite !sameb_seq. revert l0. induction H as [|[v|] l HP _ IH]; intros [|[w|] m]; try reflexivity; cbn [same_opts same_opt].
    + now rewrite HP, IH.
    + apply IH.
  - cbn [sameb]. now rewrite Nat.eqb_sym, IHv.
Qed.
Lemma sameb_eq : forall v w, reals (fun _ => False) v -> sameb v w = true -> v = w.
Proof.
  induction v using aval_ind'; intros [] HR HS; try discriminate HS; cbn [reals] in HR.
  - f_equal. cbn [sameb] in HS. lia.
  - f_equal. now apply Bool.eqb_prop.
  - reflexivity.
  - contradiction.
  - cbn [sameb] in HS. destruct (list_eq_dec _ _ _); congruence.
  - cbn [sameb] in HS. destruct (list_eq_dec _ _ _); congruence.
  - cbn [sameb] in HS. destruct (list_eq_dec _ _ _); congruence.
  - cbn [sameb] in HS. destruct (list_eq_dec _ _ _); congruence.
  - rewrite sameb_list in HS. f_equal. revert l0 HS. induction H as [|v l HP _ IH]; intros [|w m] HS; try discriminate HS; auto.
    cbn [same_list] in HS. apply andb_true_iff in HS as [HS1 HS2]. destruct HR as [H1 H2]. f_equal; auto.
  - rewrite sameb_seq in HS. f_equal. revert l0 HS.
    induction H as [|[v|] l HP _ IH]; intros [|[w|] m] HS; try discriminate HS; auto; cbn [same_opts same_opt] in HS.
    + apply andb_true_iff in HS as [HS1 HS2]. destruct HR as [H1 H2]. f_equal; auto. f_equal. auto.
    + f_equal. auto.
  - cbn [sameb] in HS. apply andb_true_iff in HS as [HS1 HS2]. apply Nat.eqb_eq in HS1. subst. f_equal. auto.
Qed.
Lemma no_real_abs : forall t o v, no_real t -> abs t o = Some v -> reals (fun _ => False) v.
Proof.
  induction t using ety_ind'; intros o v HN HA; try contradiction; destruct o; try discriminate HA; cbn [abs] in HA; cbn [no_real] in HN;
  try (injection HA as <-; exact I);
  try (repeat match type of HA with context [if ?c then _ else _] => destruct c; try discriminate HA end; injection HA as <-; exact I);
  try (exact (IHt2 _ v HN HA)).
  - destruct (cstring a); try discriminate. injection HA as <-. exact I.
  - destruct (_ && _); [|discriminate]. destruct (sequence _) as [l|] eqn:E; [|discriminate]. injection HA as <-. cbn [reals].
    remember (firstn _ a0) as m eqn:Em. clear Em. revert m E. induction l as [|w l IH]; intros m E; [exact I|].
    destruct m as [|x m]; [discriminate|]. cbn [map sequence] in E.
    destruct (abs t x) as [w'|] eqn:Ew; [|discriminate]. destruct (sequence (map (abs t) m)) eqn:Es; [|discriminate].
    injection E as <- <-. split; [eapply IHt; eauto|eapply IH; eauto].
  - change (abs (ESeq fs) (XStruct l) = Some v) in HA. rewrite abs_seq in HA.
    destruct (seq_abs fs l) as [u|] eqn:E; [|discriminate]. injection HA as <-. cbn [reals].
    revert l u E. induction H as [|[opt t] fs HP _ IH]; intros [|m l] u E; try discriminate.
    + injection E as <-. exact I.
    + cbn [seq_abs] in E. destruct (comp_abs opt t m) as [w|] eqn:Ew; [|discriminate].
      destruct (seq_abs fs l) as [u'|] eqn:Eu; [|discriminate]. injection E as <-. destruct HN as [HN1 HN2].
      pose proof (IH HN2 l u' Eu) as HI. unfold comp_abs in Ew. destruct (opt && _); [injection Ew as <-; exact HI|].
      destruct (abs t (snd m)) as [w'|] eqn:Em; [|discriminate]. injection Ew as <-. split; [eapply HP; eauto|exact HI].
  - match type of HA with option_map _ ?x = _ => destruct x as [w1|] eqn:F1; [|discriminate] end. injection HA as <-. cbn [reals].
    revert kind F1. induction H as [|t ts HP _ IH]; intros k F1; [discriminate|]. destruct HN as [HN1 HN2].
    destruct k; [eapply HP; eauto|eapply IH; eauto].
Qed.

Lemma T_Equal_exact : forall t o1 o2 v1 v2, calls_ok t -> no_real t -> abs t o1 = Some v1 -> abs t o2 = Some v2 ->
  exists b, T_Equal t o1 o2 = Ok b /\ (b = true <-> v1 = v2).
Proof.
  intros t o1 o2 v1 v2 HC HN H1 H2. exists (sameb v1 v2). split; [now apply T_Equal_same with (t := t)|].
  pose proof (no_real_abs t o1 v1 HN H1) as HR. split; [now apply sameb_eq|].
  intros <-. apply sameb_refl. clear -HR. revert HR. induction v1 using aval_ind'; cbn [reals]; auto; try tauto.
  - induction H as [|v l HP _ IH]; auto. intros [A B]. split; [auto|exact (IH B)].
  - induction H as [|[v|] l HP _ IH]; auto. intros [A B]. split; [auto|exact (IH B)].
Qed.
Lemma T_Equal_refl : forall t o1 o2 v, calls_ok t -> reals (fun x => x <> S754_nan) v ->
  abs t o1 = Some v -> abs t o2 = Some v -> T_Equal t o1 o2 = Ok true.
Proof. intros t o1 o2 v HC HR H1 H2. rewrite (T_Equal_same t o1 o2 v v HC H1 H2). now rewrite sameb_refl. Qed.
Lemma T_Equal_sym : forall t o1 o2 v1 v2, calls_ok t -> abs t o1 = Some v1 -> abs t o2 = Some v2 ->
  exists b, T_Equal t o1 o2 = Ok b /\ T_Equal t o2 o1 = Ok b.
Proof.
  intros t o1 o2 v1 v2 HC H1 H2. exists (sameb v1 v2). rewrite (T_Equal_same t o1 o2 v1 v2), (T_Equal_same t o2 o1 v2 v1) by auto.
  now rewrite (sameb_sym v2 v1).
Qed.
