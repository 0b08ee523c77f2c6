(** Proofs about Validate.v. *)
From Verif Require Import Base Bits UperTypes ConSpec Validate ValidSpec.
From Coq Require Import Lia ZifyBool ZifyNat.
Ltac Zify.zify_post_hook ::= Z.div_mod_to_equations.

(** ** Atoms of a constraint *)
Section Inc.
  Context {A : Type}.
  Fixpoint inc (a : A) (c : con A) : Prop :=
    match c with
    | Union c1 c2 | Inter c1 c2 | Except c1 c2 | Root2 c1 c2 => inc a c1 \/ inc a c2
    | AllExcept c | Root c => inc a c
    | Atom b => a = b
    end.
  Lemma every_inc : forall (q : A -> bool) a c, every q c = true -> inc a c -> q a = true.
  Proof.
    intros q a. induction c; cbn; intros H K; try apply andb_prop in H as [H1 H2]; try destruct K; subst; auto.
  Qed.
  Lemma sat_ext : forall (p q : A -> bool) c, (forall a, inc a c -> p a = q a) -> sat p c = sat q c.
  Proof.
    intros p q. induction c; cbn; intros H; rewrite ?IHc, ?IHc1, ?IHc2 by auto; auto.
  Qed.
End Inc.

(** ** Combining code *)
Section Run.
  Context {V : Type}.
  Definition firm (x : vcb V) (v : V) : Prop := vrun x v false = vrun x v true.

  Lemma or_run : forall (a b : vcb V) v, firm b v -> vrun (vor a b) v true = vrun a v true || vrun b v true.
  Proof.
    unfold firm. intros [| |x|f] [| |y|g] v; cbn; intros F; rewrite ?orb_true_r, ?orb_false_r; auto.
    - destruct (x v); cbn; auto.
    - destruct (f v true); cbn; auto.
    - destruct (f v true); cbn; auto.
  Qed.
  Lemma or_firm : forall (a b : vcb V) v, firm a v -> firm b v -> firm (vor a b) v.
  Proof.
    unfold firm. intros [| |x|f] [| |y|g] v; cbn; intros F G; auto; rewrite F; auto.
  Qed.
  Lemma and_run : forall (a b : vcb V) v, vrun (vand a b) v true = vrun a v true && vrun b v true.
  Proof.
    intros [| |x|f] [| |y|g] v; cbn; rewrite ?andb_true_r, ?andb_false_r; auto.
    - destruct (x v); cbn; auto.
    - destruct (f v true); cbn; auto.
    - destruct (f v true) eqn:E; cbn; auto.
  Qed.
  Lemma and_firm : forall (a b : vcb V) v, firm a v -> firm b v -> firm (vand a b) v.
  Proof.
    unfold firm. intros [| |x|f] [| |y|g] v; cbn; intros F G; auto; rewrite F; auto.
  Qed.
  Lemma not_run : forall (a : vcb V) v r, vrun (vnot a) v r = negb (vrun a v r).
  Proof. now intros [| |x|f] v r. Qed.
  Lemma not_firm : forall (a : vcb V) v, firm a v -> firm (vnot a) v.
  Proof. unfold firm. intros a v. rewrite !not_run. congruence. Qed.
  Lemma except_run : forall (a b : vcb V) v, vrun (vexcept a b) v true = vrun a v true && negb (vrun b v true).
  Proof.
    intros [| |x|f] [| |y|g] v; cbn; rewrite ?andb_true_r, ?andb_false_r; auto.
    - destruct (x v); cbn; auto.
    - destruct (f v true); cbn; auto.
    - destruct (f v true) eqn:E; cbn; auto.
  Qed.
  Lemma except_firm : forall (a b : vcb V) v, firm a v -> firm b v -> firm (vexcept a b) v.
  Proof.
    unfold firm. intros [| |x|f] [| |y|g] v; cbn; intros F G; auto; rewrite ?F, ?G; auto.
  Qed.

  Lemma vcon_firm : forall A (f : A -> vcb V) v c, (forall a, inc a c -> firm (f a) v) -> firm (vcon f c) v.
  Proof.
    intros A f v. induction c; cbn; intros H; auto using or_firm, and_firm, not_firm, except_firm.
  Qed.
  Lemma vcon_exact : forall A (f : A -> vcb V) (p q : A -> bool) v c,
    (forall a, inc a c -> vrun (f a) v true = p a) ->
    (forall a, inc a c -> q a = true -> firm (f a) v) ->
    unions_ok q c = true ->
    vrun (vcon f c) v true = sat p c.
  Proof.
    intros A f p q v. induction c; cbn; intros H F U; repeat (apply andb_prop in U as [U ?]);
      rewrite ?and_run, ?not_run, ?except_run, ?IHc, ?IHc1, ?IHc2 by auto; auto.
    - rewrite or_run, IHc1, IHc2 by auto || (apply vcon_firm; intros; apply F; auto; eapply every_inc; eauto). auto.
    - rewrite or_run, IHc1, IHc2 by auto || (apply vcon_firm; intros; apply F; auto; eapply every_inc; eauto). auto.
  Qed.
  Lemma unions_all : forall A (c : con A), unions_ok (fun _ => true) c = true.
  Proof.
    assert (E : forall A (c : con A), every (fun _ => true) c = true) by (intros A; induction c; cbn; auto; now rewrite IHc1).
    intros A. induction c; cbn; rewrite ?IHc1, ?IHc2, ?E; auto.
  Qed.
  (** All atoms are firm: expressions only. *)
  Lemma vcon_pure : forall A (f : A -> vcb V) (p : A -> bool) v c,
    (forall a, inc a c -> vrun (f a) v true = p a) ->
    (forall a, inc a c -> firm (f a) v) ->
    vrun (vcon f c) v true = sat p c.
  Proof. intros. eapply vcon_exact with (q := fun _ => true); auto using unions_all. Qed.

  Lemma nest_run : forall (l : list (V -> bool -> bool)) v, match nest l with Some f => f v true | None => true end = forallb (fun f => f v true) l.
  Proof.
    induction l as [|f l IH]; intros v; cbn; auto. specialize (IH v).
    destruct (nest l) as [g|]; cbn; rewrite <- IH; destruct (f v true); auto.
  Qed.
  Lemma stats_run : forall (l : list (vcb V)) v, existsb is_vfalse l = false ->
    forallb (fun f => f v true) (flat_map stat_of l) = forallb (fun x => vrun x v true) l.
  Proof.
    induction l as [|[| |x|f] l IH]; intros v H; cbn in *; auto; try discriminate; rewrite IH by auto; auto.
  Qed.
  Lemma multi_run : forall (l : list (vcb V)) v, vrun (vmulti l) v true = forallb (fun x => vrun x v true) l.
  Proof.
    intros l v. unfold vmulti. destruct (existsb is_vfalse l) eqn:E.
    - cbn. symmetry. apply existsb_exists in E as ([| |x|f] & I & E); try discriminate.
      destruct (forallb _ l) eqn:K; auto. rewrite forallb_forall in K. now apply K in I.
    - rewrite <- stats_run by auto. rewrite <- nest_run. now destruct (nest _).
  Qed.
  Lemma multi_firm : forall x (l : list (vcb V)) v, firm (vmulti (VExp x :: l)) v.
  Proof.
    intros x l v. unfold vmulti, firm. cbn. destruct (existsb is_vfalse l); auto. now destruct (nest _).
  Qed.
  Lemma to_stmt_run : forall (a : vcb V) v r, srun (to_stmt a) v r = vrun a v r.
  Proof. now intros [| |x|f]. Qed.
  Lemma lst_run : forall (s : stmt V) v, forallb (fun f => f v true) (lst s) = srun s v true.
  Proof. intros [f|] v; cbn; auto. apply andb_true_r. Qed.
  Lemma when_run : forall cond (a : vcb V) v, vrun (v_when cond a) v true = negb (cond v) || vrun a v true.
  Proof. intros cond [| |x|f] v; cbn; rewrite ?orb_true_r; auto; now destruct (cond v). Qed.
End Run.
Lemma via_run : forall V W (get : V -> W) a v r, vrun (vvia get a) v r = vrun a (get v) r.
Proof. now intros V W get [| |x|f]. Qed.
Lemma via_firm : forall V W (get : V -> W) a v, firm a (get v) -> firm (vvia get a) v.
Proof. unfold firm. intros. now rewrite !via_run. Qed.

Lemma forallb_ext_in : forall A (f g : A -> bool) l, (forall x, In x l -> f x = g x) -> forallb f l = forallb g l.
Proof. induction l; cbn; intros H; auto. rewrite H, IHl; auto. Qed.

(** ** Integers and sizes *)
Lemma lte_below : forall i a b, lte i a b = below i a b.
Proof. reflexivity. Qed.
Lemma ge_run : forall mn pr v1 i x, mn <= x -> (v1 < mn \/ pr v1 = v1) ->
  vrun (v_ge mn pr v1 i) x true = below i v1 x.
Proof.
  intros mn pr v1 i x H1 H2. unfold v_ge.
  destruct (Z.ltb_spec v1 mn); [destruct i; cbn; lia|].
  destruct (Z.eqb_spec v1 mn); destruct i; cbn; unfold lte; try lia; destruct H2 as [H2|H2]; try lia; rewrite H2; auto.
Qed.
Lemma le_run : forall mx pr v1 i x, x <= mx -> (mx < v1 \/ pr v1 = v1) ->
  vrun (v_le mx pr v1 i) x true = below i x v1.
Proof.
  intros mx pr v1 i x H1 H2. unfold v_le.
  destruct (Z.ltb_spec mx v1); [destruct i; cbn; lia|].
  destruct (Z.eqb_spec v1 mx); destruct i; cbn; unfold lte; try lia; destruct H2 as [H2|H2]; try lia; rewrite H2; auto.
Qed.
Lemma ge_firm : forall mn pr v1 i x, firm (v_ge mn pr v1 i) x.
Proof. intros. unfold firm, v_ge. destruct (v1 <? mn); auto. destruct (_ && _); auto. Qed.
Lemma le_firm : forall mx pr v1 i x, firm (v_le mx pr v1 i) x.
Proof. intros. unfold firm, v_le. destruct (mx <? v1); auto. destruct (_ && _); auto. Qed.
Lemma atom_firm : forall mn mx pr a x, firm (v_atom mn mx pr a) x.
Proof. intros mn mx pr [] x; cbn; auto using ge_firm, le_firm, and_firm. reflexivity. Qed.

Lemma lit_low : forall p w v, width w = true -> low_ok p v = true -> v < class_min p w \/ lit p v = v.
Proof.
  intros p w v W. unfold low_ok, class_min, lit. destruct p; [|auto].
  destruct (Z.ltb_spec v 0); [auto|]. intros. right. apply Z.mod_small. lia.
Qed.
Lemma lit_high : forall p w v, width w = true -> high_ok p v = true -> class_max p w < v \/ lit p v = v.
Proof.
  intros p w v W. unfold high_ok, class_max, lit. destruct p; [|auto]. intros.
  destruct (Z_lt_le_dec (2 ^ w - 1) v); [auto|]. right. apply Z.mod_small. split; [lia|].
  enough (2 ^ w <= 2 ^ 64) by lia. apply Z.pow_le_mono_r; [lia|]. unfold width in W; cbn in W; lia.
Qed.
Lemma atom_run : forall p w a x, width w = true -> atom_ok p a = true -> fits_int p w x = true ->
  vrun (v_atom (class_min p w) (class_max p w) (lit p) a) x true = sat_atom x a.
Proof.
  intros p w a x W A F.
  assert (B : class_min p w <= x <= class_max p w).
  { unfold class_min, class_max, fits_int in *. destruct p; lia. }
  destruct a; cbn [v_atom sat_atom atom_ok] in *.
  - cbn. apply andb_prop in A as [A1 A2]. unfold low_ok, high_ok, lit in *. destruct p; auto.
    rewrite Z.mod_small; auto. lia.
  - apply andb_prop in A as [A1 A2]. rewrite and_run, ge_run, le_run; auto using lit_low, lit_high; lia.
  - apply ge_run; [lia|]. now apply lit_low.
  - apply le_run; [lia|]. now apply lit_high.
Qed.
Lemma int_run : forall p w c x, width w = true -> every (atom_ok p) c = true -> fits_int p w x = true ->
  vrun (v_int p w c) x true = sat_int c x.
Proof.
  intros. apply vcon_pure; intros; auto using atom_firm. apply atom_run; auto. eapply every_inc; eauto.
Qed.
Lemma int_firm : forall p w c x, firm (v_int p w c) x.
Proof. intros. apply vcon_firm; intros; apply atom_firm. Qed.
Lemma size_run : forall c n, 0 <= n < 2 ^ 32 -> vrun (v_size c) n true = sat_int c n.
Proof.
  intros. apply vcon_pure; intros; auto using atom_firm. destruct a; cbn [v_atom sat_atom]; auto.
  - rewrite and_run, ge_run, le_run; auto; lia.
  - apply ge_run; auto; lia.
  - apply le_run; auto; lia.
Qed.
Lemma size_firm : forall c n, firm (v_size c) n.
Proof. intros. apply vcon_firm; intros; apply atom_firm. Qed.
Lemma sized_run : forall V fixed c (lenv : V -> Z) v, 0 <= lenv v -> fits_len fixed (lenv v) = true -> size_ok fixed c = true ->
  vrun (v_sized fixed c lenv) v true = sat_int c (lenv v).
Proof.
  intros V [k|] c lenv v P F S; unfold fits_len in F; cbn in *.
  - apply andb_prop in F as [F1 F2]. apply Z.eqb_eq in F2. now rewrite F2.
  - rewrite via_run. apply size_run. lia.
Qed.
Lemma sized_firm : forall V fixed c (lenv : V -> Z) v, firm (v_sized fixed c lenv) v.
Proof. intros V [k|] c lenv v; [reflexivity|]. apply via_firm, size_firm. Qed.
Lemma len_pos : forall A (l : list A), 0 <= len l.
Proof. unfold len. lia. Qed.
Lemma szatom_run : forall V eqv fixed (lenv : V -> Z) v a, 0 <= lenv v -> fits_len fixed (lenv v) = true -> szatom_ok fixed a = true ->
  vrun (v_szatom eqv lenv fixed a) v true = sat_szatom eqv lenv v a.
Proof. intros V eqv fixed lenv v [w|c] P F S; cbn in *; auto. now apply sized_run. Qed.
Lemma szatom_firm : forall V eqv fixed (lenv : V -> Z) v a, firm (v_szatom eqv lenv fixed a) v.
Proof. intros V eqv fixed lenv v [w|c]; [reflexivity|]. apply sized_firm. Qed.

(** ** Strings *)
Lemma chatom_run : forall a ch, 0 < ch -> vrun (v_chatom a) ch true = sat_chatom ch a.
Proof.
  intros [s| | |] ch H; cbn; auto. unfold strchr. destruct (Z.eqb_spec ch 0); [lia|]. apply orb_false_r.
Qed.
Lemma char_run : forall c ch, 0 < ch -> v_char c ch = sat_char c ch.
Proof.
  intros. unfold v_char. apply vcon_pure; intros; [now apply chatom_run|]. now destruct a.
Qed.
Lemma alpha_run : forall c s r, forallb (fun ch => 0 <? ch) s = true -> alpha_loop c s r = r && forallb (sat_char c) s.
Proof.
  intros c. induction s as [|ch s IH]; intros r H; cbn in *.
  - now rewrite andb_true_r.
  - apply andb_prop in H as [H1 H2]. destruct r; auto. rewrite IH by auto. rewrite char_run by lia. auto.
Qed.
Lemma str_run : forall c s, forallb (fun ch => 0 <? ch) s = true -> len s < 2 ^ 32 -> vrun (v_str c) s true = sat_str c s.
Proof.
  intros c s H L. apply vcon_pure; intros [t|k|k] I; cbn; auto; try reflexivity.
  - rewrite via_run. apply size_run. split; [apply len_pos|exact L].
  - now rewrite alpha_run.
  - apply via_firm, size_firm.
Qed.
Lemma eq_run : forall V (eqb : V -> V -> bool) c x, vrun (v_eq eqb c) x true = sat (fun v => eqb x v) c.
Proof. intros. apply vcon_pure; reflexivity. Qed.

(** ** Components *)
Lemma loop_run : forall W (f : W -> bool -> bool) l r, for_loop f l r = r && forallb (fun x => f x true) l.
Proof.
  induction l as [|x l IH]; intros r; cbn; [now rewrite andb_true_r|]. destruct r; auto. now rewrite IH.
Qed.
Lemma vloop_run : forall W (a : vcb W) l, vrun (v_loop a) l true = forallb (fun x => vrun a x true) l.
Proof.
  intros W a l. destruct a; cbn [v_loop vrun]; rewrite ?loop_run; auto.
  cbn. induction l; cbn; auto.
Qed.
Lemma mark_run : forall V (present : V -> bool) m v,
  forallb (fun x => vrun x v true) (v_mark present m) = marked (present v) m.
Proof. intros V present [] v; cbn; auto; apply andb_true_r. Qed.
Lemma flat_map_run : forall A V (f : A -> list (vcb V)) l v,
  forallb (fun x => vrun x v true) (flat_map f l) = forallb (fun n => forallb (fun x => vrun x v true) (f n)) l.
Proof. induction l; intros v; cbn; auto. now rewrite forallb_app, IHl. Qed.

(** ** Constraints on any type *)
Section Induction.
  Variable P : acon -> Prop.
  Definition P_named (n : named) : Prop := let 'Named _ _ c _ := n in match c with Some c => P c | None => True end.
  Definition P_sq (a : sqatom) : Prop := match a with SqWith a => P a | _ => True end.
  Definition P_sr (a : sratom) : Prop := match a with SrWith ns _ => forall n, In n ns -> P_named n | _ => True end.
  Definition P_chc (a : chcatom) : Prop := match a with ChWith ns => forall n, In n ns -> P_named n | _ => True end.
  Hypothesis HInt : forall p w c, P (AInt p w c).
  Hypothesis HBool : forall c, P (ABool c).
  Hypothesis HEnum : forall c, P (AEnum c).
  Hypothesis HStr : forall c, P (AStr c).
  Hypothesis HOct : forall f c, P (AOct f c).
  Hypothesis HBit : forall f c, P (ABit f c).
  Hypothesis HSeqOf : forall f c, (forall a, inc a c -> P_sq a) -> P (ASeqOf f c).
  Hypothesis HSeq : forall c, (forall a, inc a c -> P_sr a) -> P (ASeq c).
  Hypothesis HChoice : forall c, (forall a, inc a c -> P_chc a) -> P (AChoice c).

  Section Con.
    Context {A : Type} (Q : A -> Prop) (q : forall a, Q a).
    Fixpoint con_all (c : con A) : forall a, inc a c -> Q a :=
      match c return forall a, inc a c -> Q a with
      | Union c1 c2 | Inter c1 c2 | Except c1 c2 | Root2 c1 c2 =>
          fun a H => match H with or_introl H => con_all c1 a H | or_intror H => con_all c2 a H end
      | AllExcept c | Root c => fun a H => con_all c a H
      | Atom b => fun a H => eq_ind_r Q (q b) H
      end.
  End Con.
  Section Lst.
    Context {A : Type} (Q : A -> Prop) (q : forall a, Q a).
    Fixpoint list_all (l : list A) : forall a, In a l -> Q a :=
      match l return forall a, In a l -> Q a with
      | [] => fun a H => match H with end
      | b :: l => fun a H => match H with
                             | or_introl H => eq_ind b Q (q b) a H
                             | or_intror H => list_all l a H
                             end
      end.
  End Lst.
  Fixpoint acon_all (a : acon) : P a :=
    match a with
    | AInt p w c => HInt p w c
    | ABool c => HBool c
    | AEnum c => HEnum c
    | AStr c => HStr c
    | AOct f c => HOct f c
    | ABit f c => HBit f c
    | ASeqOf f c => HSeqOf f c (con_all P_sq sq_all c)
    | ASeq c => HSeq c (con_all P_sr sr_all c)
    | AChoice c => HChoice c (con_all P_chc chc_all c)
    end
  with sq_all (a : sqatom) : P_sq a :=
    match a with SqWith a => acon_all a | SqVal _ | SqSize _ => I end
  with sr_all (a : sratom) : P_sr a :=
    match a with SrWith ns _ => list_all P_named named_all ns | SrVal _ => I end
  with chc_all (a : chcatom) : P_chc a :=
    match a with ChWith ns => list_all P_named named_all ns | ChVal _ => I end
  with named_all (n : named) : P_named n :=
    match n with
    | Named _ _ c _ => match c with Some c => acon_all c | None => I end
    end.
End Induction.

Lemma exist_field : forall l i, exist i l = fst (field l i).
Proof. reflexivity. Qed.

Lemma any_run : forall a v, handled a = true -> fits a v = true -> vrun (v_any a) v true = sat_any a v.
Proof.
  apply (acon_all (fun a => forall v, handled a = true -> fits a v = true -> vrun (v_any a) v true = sat_any a v)).
  - intros p w c v H F. destruct v; try discriminate. cbn [v_any handled fits sat_any] in *.
    apply andb_prop in H as [H1 H2]. rewrite via_run. cbn [as_int]. now apply int_run.
  - intros c v H F. destruct v; try discriminate. cbn [v_any sat_any]. rewrite via_run. apply eq_run.
  - intros c v H F. destruct v; try discriminate. cbn [v_any sat_any]. rewrite via_run. apply eq_run.
  - intros c v H F. destruct v; try discriminate. cbn [v_any fits sat_any] in *. rewrite via_run.
    apply andb_prop in F as [F1 F2]. unfold fits_len in F2. rewrite andb_true_r in F2. apply Z.ltb_lt in F2.
    now apply str_run.
  - intros f c v H F. destruct v; try discriminate. cbn [v_any handled fits sat_any] in *. rewrite via_run.
    apply vcon_pure; intros; [|apply szatom_firm]. apply szatom_run; auto using len_pos. eapply every_inc; eauto.
  - intros f c v H F. destruct v; try discriminate. cbn [v_any handled fits sat_any] in *. rewrite via_run.
    apply vcon_pure; intros; [|apply szatom_firm]. apply szatom_run; auto using len_pos. eapply every_inc; eauto.
  - intros f c IH v H F. destruct v; try discriminate. cbn [v_any handled fits sat_any] in *. rewrite via_run.
    apply andb_prop in H as [H U]. apply andb_prop in F as [L F].
    eapply vcon_exact with (q := firm_sq); auto.
    + intros a I. specialize (IH a I). apply (every_inc _ a) in H; auto. apply (every_inc _ a) in F; auto.
      destruct a as [w|k|a]; cbn [v_sq handled_sq fits_sq sat_sq P_sq as_elems] in *; [discriminate| |].
      * apply sized_run; auto using len_pos.
      * rewrite vloop_run. apply forallb_ext_in. intros x Ix. apply IH; auto.
        rewrite forallb_forall in F. auto.
    + intros [w|k|a] I Q; cbn in Q |- *; try discriminate; [reflexivity|apply sized_firm].
  - intros c IH v H F. destruct v; try discriminate. cbn [v_any handled fits sat_any] in *. rewrite via_run.
    apply andb_prop in H as [H U]. rename l into fs.
    eapply vcon_exact with (q := firm_sr); auto.
    + intros a I. specialize (IH a I). apply (every_inc _ a) in H; auto. apply (every_inc _ a) in F; auto.
      destruct a as [w|ns ab]; cbn [v_sr handled_sr fits_sr sat_sr P_sr as_fields] in *; [discriminate|].
      apply andb_prop in H as [A H]. destruct ab; [|discriminate]. cbn [forallb]. rewrite andb_true_r.
      rewrite multi_run, flat_map_run. apply forallb_ext_in. intros [i opt ac m] In.
      specialize (IH _ In). rewrite forallb_forall in H, F. specialize (H _ In). specialize (F _ In).
      cbn [P_named] in *. rewrite forallb_app, mark_run. cbn [forallb]. rewrite andb_true_r.
      rewrite (surjective_pairing (field fs i)) in *. rewrite <- exist_field in *.
      f_equal. destruct opt.
      * rewrite when_run. destruct (exist i fs) eqn:E; [|reflexivity]. cbn [negb orb].
        destruct (snd (field fs i)) as [w|] eqn:S; [|discriminate].
        destruct ac as [ac|]; [|reflexivity]. rewrite via_run.
        replace (get_field i fs) with w; auto.
        unfold get_field. rewrite (surjective_pairing (field fs i)), S. reflexivity.
      * destruct (exist i fs) eqn:E; [|discriminate]. cbn [negb orb].
        destruct (snd (field fs i)) as [w|] eqn:S; [|discriminate].
        destruct ac as [ac|]; [|reflexivity]. rewrite via_run.
        replace (get_field i fs) with w; auto.
        unfold get_field. rewrite (surjective_pairing (field fs i)), S. reflexivity.
    + intros [w|ns ab] I Q; cbn in Q |- *; [reflexivity|].
      destruct ns as [|[i opt ac m] ns]; [discriminate|]. destruct m; try discriminate; apply multi_firm.
  - intros c IH v H F. destruct v; try discriminate. cbn [v_any handled fits sat_any] in *. rewrite via_run.
    apply andb_prop in H as [H U]. rename i into k.
    eapply vcon_exact with (q := firm_chc); auto.
    + intros a I. specialize (IH a I). apply (every_inc _ a) in H; auto. apply (every_inc _ a) in F; auto.
      destruct a as [w|ns]; cbn [v_chc handled_chc fits_chc sat_chc P_chc as_choice] in *; [discriminate|].
      rewrite multi_run, flat_map_run. apply forallb_ext_in. intros [i opt ac m] In.
      specialize (IH _ In). rewrite forallb_forall in H, F. specialize (H _ In). specialize (F _ In).
      cbn [P_named] in *. rewrite forallb_app, mark_run. cbn [forallb fst]. rewrite andb_true_r.
      f_equal. rewrite when_run. cbn [fst]. destruct (Nat.eqb k i); [|reflexivity]. cbn [negb orb] in *.
      destruct ac as [ac|]; [|reflexivity]. rewrite via_run. auto.
    + intros [w|ns] I Q; cbn in Q |- *; [reflexivity|].
      destruct ns as [|[i opt ac m] ns]; [discriminate|]. destruct m; try discriminate; apply multi_firm.
Qed.

(** ** Types *)
Section CtyInd.
  Variable P : cty -> Prop.
  Hypothesis HPrim : forall cs, P (CPrim cs).
  Hypothesis HSeqOf : forall f cs t, P t -> P (CSeqOf f cs t).
  Hypothesis HSeq : forall cs fs, (forall f, In f fs -> P (snd f)) -> P (CSeq cs fs).
  Hypothesis HChoice : forall cs ts, (forall t, In t ts -> P t) -> P (CChoice cs ts).
  Hypothesis HRef : forall cs t, P t -> P (CRef cs t).
  Fixpoint cty_all (t : cty) : P t :=
    match t with
    | CPrim cs => HPrim cs
    | CSeqOf f cs t => HSeqOf f cs t (cty_all t)
    | CSeq cs fs => HSeq cs fs (list_all (fun f => P (snd f)) (fun f => match f with (_, t) => cty_all t end) fs)
    | CChoice cs ts => HChoice cs ts (list_all P cty_all ts)
    | CRef cs t => HRef cs t (cty_all t)
    end.
End CtyInd.

Lemma anys_run : forall cs v, forallb handled cs = true -> forallb (fun c => fits c v) cs = true ->
  vrun (vmulti (map v_any cs)) v true = forallb (fun c => sat_any c v) cs.
Proof.
  intros cs v H F. rewrite multi_run. rewrite forallb_forall in H, F.
  induction cs as [|c cs IH]; cbn; auto. rewrite any_run, IH; cbn in *; auto.
Qed.
Lemma nest_srun : forall V (l : list (V -> bool -> bool)) v, srun (nest l) v true = forallb (fun f => f v true) l.
Proof. intros. rewrite <- nest_run. reflexivity. Qed.
Lemma map_forallb : forall A B (g : A -> B) (f : B -> bool) l, forallb f (map g l) = forallb (fun x => f (g x)) l.
Proof. induction l; cbn; auto. now rewrite IHl. Qed.

Theorem valid_exact : forall t v, handled_ty t = true -> fits_ty t v = true -> isConstraintValid t v = sat_ty t v.
Proof.
  unfold isConstraintValid.
  apply (cty_all (fun t => forall v, handled_ty t = true -> fits_ty t v = true -> srun (body t) v true = sat_ty t v)).
  - intros cs v H F. cbn [body sat_ty]. rewrite to_stmt_run. now apply anys_run.
  - intros f cs t IH v H F. cbn [body sat_ty handled_ty fits_ty] in *. destruct v; try discriminate.
    apply andb_prop in H as [H Ht]. apply andb_prop in F as [F Ft].
    rewrite nest_srun, forallb_app, lst_run, to_stmt_run, via_run. cbn [as_elems]. f_equal.
    + rewrite multi_run, map_forallb. apply forallb_ext_in. intros c Ic.
      rewrite forallb_forall in H, F. specialize (H _ Ic). specialize (F _ Ic).
      pose proof (any_run (ASeqOf f c) (VSeqOf l) H F) as R. cbn [v_any sat_any] in R. now rewrite via_run in R.
    + assert (R : forallb (fun x => srun (body t) x true) l = forallb (sat_ty t) l).
      { apply forallb_ext_in. intros x Ix. apply IH; auto. rewrite forallb_forall in Ft. auto. }
      rewrite <- R. destruct (body t) as [g|]; cbn [forallb srun on as_elems].
      * unfold on. cbn [as_elems]. now rewrite andb_true_r, loop_run.
      * clear. induction l; cbn; auto.
  - intros cs fs IH v H F. cbn [body sat_ty handled_ty fits_ty] in *. destruct v; try discriminate.
    apply andb_prop in H as [H Ht]. apply andb_prop in F as [F Ft].
    rewrite nest_srun, forallb_app, !lst_run, nest_srun, to_stmt_run, via_run. cbn [as_fields]. f_equal.
    + clear H F.
      assert (G : forall fs i k,
        (forall f, In f fs -> forall v, handled_ty (snd f) = true -> fits_ty (snd f) v = true -> srun (body (snd f)) v true = sat_ty (snd f) v) ->
        forallb (fun f => handled_ty (snd f)) fs = true ->
        (forall j, nth j k (false, None) = nth (i + j) l (false, None)) ->
        forallb2 (fun (f : bool * cty) (x : bool * option value) =>
            match x with
            | (true, Some w) => fits_ty (snd f) w
            | (true, None) => false
            | (false, _) => fst f
            end) fs k = true ->
        forallb (fun f => f (VSeq l) true)
          ((fix go (i : nat) (fs : list (bool * cty)) : list (value -> bool -> bool) :=
                  match fs with
                  | [] => []
                  | (opt, t) :: fs =>
                      match body t with
                      | None => []
                      | Some f =>
                          [fun v r => if negb opt || exist i (as_fields v)
                                      then f (get_field i (as_fields v)) r else r]
                      end ++ go (S i) fs
                  end) i fs) =
        forallb2 (fun (f : bool * cty) (x : bool * option value) =>
            match x with
            | (true, Some w) => sat_ty (snd f) w
            | (true, None) => false
            | (false, _) => fst f
            end) fs k).
      { clear. induction fs as [|[opt t] fs IHf]; intros i k IH Ht N Ft; destruct k as [|x k]; cbn [forallb2] in *; try discriminate; auto.
        apply andb_prop in Ft as [F1 Ft]. cbn [forallb snd fst] in *. apply andb_prop in Ht as [H1 Ht].
        rewrite forallb_app, (IHf (S i) k); auto.
        3: { intros j. specialize (N (S j)). cbn in N. rewrite N. f_equal. lia. }
        2: { intros f If. apply IH. now right. }
        f_equal. pose proof (N O) as N0. cbn in N0. rewrite Nat.add_0_r in N0.
        specialize (IH _ (or_introl eq_refl)). cbn [snd] in IH.
        assert (Fi : field l i = x) by (unfold field; now rewrite <- N0).
        destruct x as [[] [w|]]; try discriminate.
        + rewrite <- IH by auto. destruct (body t) as [g|]; [|reflexivity]. cbn [forallb srun as_fields].
          unfold exist, get_field. rewrite Fi. cbn [fst]. rewrite orb_true_r. apply andb_true_r.
        + rewrite F1. destruct (body t) as [g|]; [|reflexivity]. cbn [forallb as_fields].
          unfold exist. rewrite Fi. now subst opt.
        + rewrite F1. destruct (body t) as [g|]; [|reflexivity]. cbn [forallb as_fields].
          unfold exist. rewrite Fi. now subst opt. }
      apply G; auto.
    + rewrite multi_run, map_forallb. apply forallb_ext_in. intros c Ic.
      rewrite forallb_forall in H, F. specialize (H _ Ic). specialize (F _ Ic).
      pose proof (any_run (ASeq c) (VSeq l) H F) as R. cbn [v_any sat_any] in R. now rewrite via_run in R.
  - intros cs ts IH v H F. cbn [body sat_ty handled_ty fits_ty] in *. destruct v; try discriminate.
    apply andb_prop in H as [H Ht]. apply andb_prop in F as [F Ft].
    rewrite nest_srun, forallb_app, lst_run, to_stmt_run, via_run. cbn [as_choice]. f_equal.
    + rewrite multi_run, map_forallb. apply forallb_ext_in. intros c Ic.
      rewrite forallb_forall in H, F. specialize (H _ Ic). specialize (F _ Ic).
      pose proof (any_run (AChoice c) (VChoice i v) H F) as R. cbn [v_any sat_any] in R. now rewrite via_run in R.
    + cbn [forallb fst snd as_choice]. rewrite andb_true_r, !nth_error_map. rewrite nth_error_map in Ft.
      destruct (nth_error ts i) as [t|] eqn:E; cbn [option_map] in *; [|reflexivity].
      apply nth_error_In in E. rewrite forallb_forall in Ht. auto.
  - intros cs t IH v H F. cbn [body sat_ty handled_ty fits_ty] in *.
    apply andb_prop in H as [Ht H]. apply andb_prop in F as [Ft F].
    rewrite nest_srun. cbn [forallb]. rewrite lst_run, to_stmt_run. f_equal; auto using anys_run.
Qed.
