(** Field references, value and generated SEQUENCE code of present-when expressions. *)
From Verif Require Import Base CExpr AcnExpr AcnExprSpec AcnExprSeq AcnExprProofs.
From Coq Require Import String.
From Coq Require DecimalString DecimalZ DecimalFacts DecimalPos Ascii.
Local Open Scope Z_scope.

(** * References *)
Lemma path_ok : forall p seq t, check_path seq p = Some t ->
  exists p1 rest l k, p = p1 ++ rest /\ p1 <> [] /\ denotes (ASeq seq) p1 l k /\ scalar k = Some t /\ back_path seq p = Some l.
Proof.
  induction p as [|x p IH]; intros seq t H; cbn [check_path] in H; [discriminate|].
  cbn [back_path]. destruct (find _ seq) as [[ch k]|] eqn:F; [|discriminate]. apply find_some in F as [F E].
  apply String.eqb_eq in E. cbn [fst] in E. destruct (cacn ch); [discriminate|]. destruct (copt ch); [discriminate|].
  assert (L : scalar k = Some t -> match k with ASeq _ | AOther => False | _ => True end ->
    exists p1 rest l k0, x :: p = p1 ++ rest /\ p1 <> [] /\ denotes (ASeq seq) p1 l k0 /\ scalar k0 = Some t /\ [cback ch] = l).
  { intros S _. exists [x], p, [cback ch], k. split; [reflexivity|]. split; [discriminate|]. split; [|split; [exact S|reflexivity]].
    cbn [denotes]. exists ch, k, []. auto. }
  destruct k as [s w| | |s|]; try discriminate.
  - destruct (L H I) as (p1 & r & l & k0 & A & B & C & D & E1). exists p1, r, l, k0. subst l. auto.
  - destruct (L H I) as (p1 & r & l & k0 & A & B & C & D & E1). exists p1, r, l, k0. subst l. auto.
  - destruct (L H I) as (p1 & r & l & k0 & A & B & C & D & E1). exists p1, r, l, k0. subst l. auto.
  - destruct (1 <? List.length p)%nat; [|discriminate]. destruct (IH s t H) as (p1 & r & l & k0 & A & B & C & D & E1).
    exists (x :: p1), r, (cback ch :: l), k0. rewrite E1. cbn [app option_map]. subst p. split; [reflexivity|]. split; [discriminate|].
    split; [|auto]. cbn [denotes]. exists ch, (ASeq s), l. auto.
Qed.
Lemma find_name : forall (seq : children) c k, NoDup (map (fun c => cname (fst c)) seq) -> In (c, k) seq ->
  find (fun c0 => String.eqb (cname (fst c0)) (cname c)) seq = Some (c, k).
Proof.
  induction seq as [|[c' k'] seq IH]; intros c k N H; [destruct H|]. cbn [find fst]. cbn [map fst] in N. inversion N as [|? ? N1 N2]; subst.
  destruct H as [H|H].
  - assert (c' = c) by congruence. assert (k' = k) by congruence. subst. now rewrite String.eqb_refl.
  - destruct (String.eqb_spec (cname c') (cname c)) as [E|E]; [|auto].
    exfalso. apply N1. rewrite E. apply (in_map (fun c => cname (fst c)) _ _ H).
Qed.
Lemma path_single : forall seq c k t, NoDup (map (fun c => cname (fst c)) seq) -> In (c, k) seq -> cacn c = false -> copt c = false ->
  scalar k = Some t -> check_path seq [cname c] = Some t /\ back_path seq [cname c] = Some [cback c].
Proof.
  intros seq c k t N H A O S. cbn [check_path back_path]. rewrite (find_name _ _ _ N H), A, O.
  destruct k; cbn [scalar] in S; try discriminate; auto.
Qed.
Lemma distinct_in : forall l c k, distinct (ASeq l) -> In (c, k) l -> distinct k.
Proof.
  intros l c k [_ D]. induction l as [|[c' k'] l IH]; intros H; [destruct H|]. destruct D as [D1 D2].
  destruct H as [H|H]; [congruence|auto].
Qed.
Lemma path_nested : forall p seq l k t, distinct (ASeq seq) -> denotes (ASeq seq) p l k -> scalar k = Some t -> (2 <= List.length p)%nat ->
  check_path seq p = None.
Proof.
  induction p as [|x p IH]; intros seq l k t N D S L; [cbn in L; lia|]. cbn [denotes] in D.
  destruct D as (c & k1 & l1 & I1 & <- & -> & D). cbn [check_path].
  rewrite (find_name _ _ _ (proj1 N) I1). destruct (cacn c); [reflexivity|]. destruct (copt c); [reflexivity|].
  destruct p as [|y p]; [cbn in L; lia|]. destruct k1; try (cbn [denotes] in D; contradiction).
  destruct (1 <? List.length (y :: p))%nat eqn:Q; [|reflexivity].
  eapply IH; [eapply distinct_in; eauto|exact D|exact S|]. apply Nat.ltb_lt in Q. lia.
Qed.
Lemma total : forall seq root base e t, validateAcnExpression seq e = Some t -> exists s, acnExpressionToBackendExpression seq root base e = Some s.
Proof.
  intros seq root base e t H.
  assert (exists r, print_exp seq root base e = Some r) as ([p s] & E); [|exists s; unfold acnExpressionToBackendExpression; now rewrite E].
  revert t H. induction e as [n|s0|tx|b|q|e IH|e IH|op e1 IH1 e2 IH2]; intros t H; cbn [validateAcnExpression] in H; cbn [print_exp]; try (eexists; reflexivity).
  - destruct (path_ok _ _ _ H) as (_ & _ & l & _ & _ & _ & _ & _ & E). rewrite E. eexists; reflexivity.
  - destruct (validateAcnExpression seq e) as [t1|]; [|discriminate]. destruct (IH _ eq_refl) as (r & E). rewrite E. eexists; reflexivity.
  - destruct (validateAcnExpression seq e) as [t1|]; [|discriminate]. destruct (IH _ eq_refl) as (r & E). rewrite E. eexists; reflexivity.
  - destruct (validateAcnExpression seq e1) as [t1|]; [|destruct op, (validateAcnExpression seq e2) as [[]|]; discriminate].
    destruct (validateAcnExpression seq e2) as [t2|]; [|destruct op, t1; discriminate].
    destruct (IH1 _ eq_refl) as (r1 & E1). destruct (IH2 _ eq_refl) as (r2 & E2). rewrite E1, E2. eexists; reflexivity.
Qed.

(** * Types *)
Lemma typed : forall seq val e t, no_division e ->
  (forall p ty, check_path seq p = Some ty -> exists v, val p = Some v /\ val_type v = ty) ->
  validateAcnExpression seq e = Some t -> exists v, meval val e = Some v /\ val_type v = t.
Proof.
  intros seq val e t N V. revert t. induction e as [n|s0|tx|b|q|e IH|e IH|op e1 IH1 e2 IH2]; intros t H; cbn [validateAcnExpression] in H; cbn [meval no_division] in *;
    try contradiction.
  - eexists; split; [reflexivity|]. cbn. congruence.
  - eexists; split; [reflexivity|]. cbn. congruence.
  - auto.
  - destruct (validateAcnExpression seq e) as [[]|]; try discriminate. destruct (IH N _ eq_refl) as ([b|z] & E & T); [|discriminate].
    rewrite E. eexists; split; [reflexivity|]. cbn. congruence.
  - destruct (validateAcnExpression seq e) as [t1|]; [|discriminate]. destruct (IH N _ eq_refl) as ([b|z] & E & T); cbn in T; subst t1; [discriminate|].
    rewrite E. eexists; split; [reflexivity|]. cbn. congruence.
  - destruct N as (O1 & O2 & N1 & N2). destruct (validateAcnExpression seq e1) as [t1|]; [|destruct op, (validateAcnExpression seq e2) as [[]|]; discriminate].
    destruct (validateAcnExpression seq e2) as [t2|]; [|destruct op, t1; discriminate].
    destruct (IH1 N1 _ eq_refl) as (v1 & E1 & T1). destruct (IH2 N2 _ eq_refl) as (v2 & E2 & T2). subst t1 t2.
    destruct op, v1 as [[]|], v2 as [b2|]; cbn in H; try congruence; rewrite ?E1, ?E2; cbn;
      try (eexists; split; [reflexivity|]; cbn; congruence).
Qed.

(** * Value *)
(** C types that occur: at least as wide as int after promotion, signed if negative values occur. *)
Definition tgood (lo : Z) (t : cty) : Prop := (snd t = 8 \/ snd t = 16 \/ snd t = 32 \/ snd t = 64) /\ (lo < 0 -> fst t = true \/ snd t < 32).
Definition pgood (lo : Z) (t : cty) : Prop := (snd t = 32 \/ snd t = 64) /\ (lo < 0 -> fst t = true).
Lemma promote_good : forall lo t, tgood lo t -> pgood lo (promote t).
Proof.
  intros lo [s w] [W S]. cbn [fst snd] in *. unfold promote, pgood. cbn [snd]. destruct (w <? 32) eqn:E; cbn [fst snd cint].
  - split; [left; reflexivity|auto].
  - split; [lia|]. intros L. destruct (S L); [assumption|lia].
Qed.
Lemma usual_good : forall lo a b, pgood lo a -> pgood lo b -> pgood lo (usual a b).
Proof.
  intros lo [s1 w1] [s2 w2] [W1 S1] [W2 S2]. unfold pgood, usual in *. cbn [fst snd] in *.
  destruct s1, s2; cbn [Bool.eqb fst snd]; try (split; [lia|intuition]).
  - destruct (w1 <=? w2); cbn [fst snd]; split; intuition.
  - destruct (w2 <=? w1); cbn [fst snd]; split; intuition.
Qed.
Definition small (lo z : Z) : Prop := lo <= z < 2 ^ 31.
Lemma small_in : forall lo t z, - 2 ^ 31 <= lo <= 0 -> pgood lo t -> small lo z -> (fst t = true -> tmin t <= z <= tmax t) /\ (fst t = false -> 0 <= z < 2 ^ snd t).
Proof.
  intros lo [s w] z L [W S] [Z1 Z2]. unfold tmin, tmax. cbn [fst snd] in *.
  assert (2 ^ 31 = 2147483648) as X1 by reflexivity. assert (2 ^ 32 = 4294967296) as X2 by reflexivity.
  assert (2 ^ 63 = 9223372036854775808) as X3 by reflexivity. assert (2 ^ 64 = 18446744073709551616) as X4 by reflexivity.
  split; intros ->; destruct W as [-> | ->]; cbn [Z.sub]; change (32 - 1) with 31; change (64 - 1) with 63;
    try (rewrite ?X1, ?X2, ?X3, ?X4 in *; lia).
Qed.
Lemma conv_small : forall lo t z, - 2 ^ 31 <= lo <= 0 -> pgood lo t -> small lo z -> cconv t z = z.
Proof.
  intros lo t z L G Z. destruct (small_in lo t z L G Z) as [A B]. unfold cconv, tmin, tmax in *. destruct G as [W _].
  destruct (fst t).
  - specialize (A eq_refl). assert (2 ^ snd t = 2 * 2 ^ (snd t - 1)) by (rewrite <- Z.pow_succ_r by lia; f_equal; lia).
    rewrite Z.mod_small; lia.
  - apply Z.mod_small. auto.
Qed.
Lemma arith_small : forall lo t z, - 2 ^ 31 <= lo <= 0 -> pgood lo t -> small lo z -> arith t z = CV t z.
Proof.
  intros lo t z L G Z. destruct (small_in lo t z L G Z) as [A B]. unfold arith, in_tyb. destruct (fst t).
  - specialize (A eq_refl). assert ((tmin t <=? z) && (z <=? tmax t) = true) as -> by lia. reflexivity.
  - rewrite Z.mod_small; auto.
Qed.
Lemma quot_in : forall lo t a b, - 2 ^ 31 < lo <= 0 -> pgood lo t -> small lo a -> small lo b -> b <> 0 -> in_tyb t (Z.quot a b) = true.
Proof.
  intros lo t a b L G A B N.
  assert (Q : Z.abs (Z.quot a b) <= Z.abs a).
  { rewrite <- Z.quot_abs by assumption. assert (1 <= Z.abs b) by lia. assert (0 <= Z.abs a) by lia. apply Z.quot_le_upper_bound; nia. }
  assert (S : small (if fst t then - 2 ^ 31 + 1 else 0) (Z.quot a b)).
  { unfold small in *. destruct (fst t) eqn:F; cbv iota; [lia|].
    assert (0 <= lo) by (destruct G as [_ G]; destruct (Z_lt_ge_dec lo 0) as [l|g]; [specialize (G l); congruence|lia]).
    assert (0 <= Z.quot a b) by (apply Z.quot_pos; lia). lia. }
  assert (pgood (if fst t then - 2 ^ 31 + 1 else 0) t) as G' by (destruct G as [W _]; split; [exact W|destruct (fst t); [auto|lia]]).
  assert (LL : - 2 ^ 31 <= (if fst t then - 2 ^ 31 + 1 else 0) <= 0) by (destruct (fst t); lia).
  destruct (small_in _ t _ LL G' S) as [X Y]. unfold in_tyb, tmin, tmax in *. destruct (fst t).
  - specialize (X eq_refl). lia.
  - specialize (Y eq_refl). lia.
Qed.
Lemma dec_of : forall n, DecimalString.NilZero.int_of_string (DecimalString.NilZero.string_of_int (Z.to_int n)) = Some (Z.to_int n).
Proof.
  intros n. apply DecimalString.NilZero.isi.
  - destruct n; cbn; try discriminate. intros E. assert (X : Pos.to_uint p = Decimal.Nil) by congruence.
    revert X. apply DecimalPos.Unsigned.to_uint_nonnil.
  - destruct n; cbn; try discriminate. intros E. assert (X : Pos.to_uint p = Decimal.Nil) by congruence.
    revert X. apply DecimalPos.Unsigned.to_uint_nonnil.
Qed.
Lemma mem_path_fold : forall l e r l0, mem_path e = Some (r, l0) ->
  mem_path (fold_left (fun e s => CMem false e s) l e) = Some (r, l0 ++ l).
Proof.
  induction l as [|n l IH]; intros e r l0 H; cbn [fold_left]; [now rewrite app_nil_r|].
  rewrite (IH _ r (l0 ++ [n])) by (cbn [mem_path]; now rewrite H). now rewrite <- app_assoc.
Qed.
Lemma mem_path_member : forall root l, mem_path (member root l) = Some (root, l).
Proof. intros root [|n l]; [reflexivity|]. apply (mem_path_fold l (CMem true (CId root) n) root [n]). reflexivity. Qed.
Lemma ceval_member : forall m root l t z, l <> [] -> m root l = Some (t, z) -> ceval m (member root l) = CV t z.
Proof.
  intros m root l t z N H. pose proof (mem_path_member root l) as P. destruct l as [|n l]; [congruence|].
  destruct (exists_last (l := n :: l) ltac:(discriminate)) as (l' & x & E).
  assert (exists a e, member root (n :: l) = CMem a e x /\ mem_path e = Some (root, l')) as (a & e & E1 & E2).
  { destruct l as [|y l].
    - assert (l' = [] /\ x = n) as [-> ->].
      { destruct l' as [|? l']; [split; [reflexivity|cbn in E; congruence]|]. destruct l'; cbn in E; discriminate. }
      exists true, (CId root). split; reflexivity.
    - cbn [member] in *. destruct (exists_last (l := y :: l) ltac:(discriminate)) as (l2 & x2 & F). rewrite F in *. rewrite fold_left_app in *. cbn [fold_left] in *.
      assert (x2 = x /\ l' = n :: l2) as [-> ->].
      { change (n :: l2 ++ [x2]) with ((n :: l2) ++ [x2]) in E. apply app_inj_tail in E. intuition. }
      eexists false, _. split; [reflexivity|]. apply (mem_path_fold l2 _ root [n]). reflexivity. }
  rewrite E1. cbn [ceval]. rewrite E2, <- E, H. reflexivity.
Qed.

Definition is_logic (op : bop) : bool := match op with OAnd | OOr => true | _ => false end.
Lemma strict_small : forall lo op t1 z1 t2 z2, - 2 ^ 31 < lo <= 0 -> tgood lo t1 -> tgood lo t2 -> small lo z1 -> small lo z2 -> is_logic op = false ->
  (forall z, arith_op op z1 z2 = Some z -> small lo z ->
    exists t, tgood lo t /\ strict_bin (c_op op) t1 z1 t2 z2 = CV t z) /\
  (forall b, rel_op op z1 z2 = Some b -> strict_bin (c_op op) t1 z1 t2 z2 = cbool b).
Proof.
  intros lo op t1 z1 t2 z2 L G1 G2 S1 S2 O. unfold strict_bin.
  pose proof (usual_good lo _ _ (promote_good _ _ G1) (promote_good _ _ G2)) as G. set (t := usual (promote t1) (promote t2)) in *.
  assert (L' : - 2 ^ 31 <= lo <= 0) by lia.
  rewrite (conv_small lo t z1 L' G S1), (conv_small lo t z2 L' G S2).
  assert (T : tgood lo t) by (destruct G as [W S]; split; [lia|auto]).
  split.
  - intros z E S. exists t. split; [exact T|]. destruct op; cbn in E; try discriminate; cbn [c_op String.eqb Ascii.eqb Bool.eqb].
    + assert (z1 + z2 = z) as -> by congruence. now apply (arith_small lo).
    + assert (z1 - z2 = z) as -> by congruence. now apply (arith_small lo).
    + assert (z1 * z2 = z) as -> by congruence. now apply (arith_small lo).
    + destruct (z2 =? 0) eqn:Q; [discriminate|]. assert (Z.quot z1 z2 = z) as -> by congruence. now apply (arith_small lo).
    + destruct (z2 =? 0) eqn:Q; [discriminate|]. rewrite (quot_in lo t z1 z2) by (try assumption; lia).
      assert (Z.rem z1 z2 = z) as -> by congruence. now apply (arith_small lo).
  - intros b E. destruct op; cbn in E; try discriminate; cbn [c_op String.eqb Ascii.eqb Bool.eqb]; f_equal; congruence.
Qed.

Lemma value : forall seq lo m root base val f e v, - 2 ^ 31 < lo <= 0 -> plain e ->
  (forall p, In p (fields_of e) -> holds seq lo m root base val f p) -> within val lo e -> meval val e = Some v ->
  exists t, tgood lo t /\ ceval m (tree_of f root e) = CV t (zval v).
Proof.
  intros seq lo m root base val f e v L P. revert v.
  assert (GI : tgood lo cint) by (split; [right; right; left; reflexivity|intros _; left; reflexivity]).
  assert (BZ : forall b : bool, small lo (if b then 1 else 0)) by (intros []; unfold small; lia).
  induction e as [n|s0|tx|b|q|e IH|e IH|op e1 IH1 e2 IH2]; intros v H W E; cbn [meval] in E; cbn [tree_of]; cbn [plain] in P; cbn [fields_of] in H.
  - assert (v = MZ n) by congruence. subst. destruct W as [W _]. specialize (W n eq_refl). exists cint. split; [exact GI|].
    cbn [ceval]. rewrite dec_of. rewrite DecimalZ.of_to. unfold literal_type. assert (n <? 2 ^ 31 = true) as -> by lia. reflexivity.
  - destruct P.
  - discriminate.
  - assert (v = MB b) by congruence. subst. exists cint. split; [exact GI|]. destruct b; reflexivity.
  - specialize (H q (or_introl eq_refl)). unfold holds in H. rewrite E in H. destruct v as [b|z].
    + destruct H as (l & _ & F & N & M). exists (false, 8). split; [split; [left; reflexivity|right; reflexivity]|].
      apply ceval_member; [rewrite F; destruct base; [exact N|discriminate]|exact M].
    + destruct H as (l & s & w & _ & F & N & M & W1 & W2). exists (s, w). split; [split; assumption|].
      apply ceval_member; [rewrite F; destruct base; [exact N|discriminate]|exact M].
  - destruct W as [_ W]. destruct (meval val e) as [[b|]|]; try discriminate. destruct (IH P _ H W eq_refl) as (t & _ & X).
    assert (v = MB (negb b)) by congruence. subst. exists cint. split; [exact GI|]. cbn [ceval]. rewrite X. destruct b; reflexivity.
  - destruct W as [W0 W]. destruct (meval val e) as [[|z]|] eqn:Q; try discriminate. destruct (IH P _ H W eq_refl) as (t & T & X).
    assert (v = MZ (- z)) by congruence. subst.
    assert (small lo z) as S. { unfold small. destruct e; cbn [within] in W; destruct W as [W _]; apply W; exact Q. }
    assert (small lo (- z)) as S' by (apply W0; cbn [meval]; rewrite Q; reflexivity).
    pose proof (promote_good _ _ T) as G. exists (promote t). split; [destruct G as [G1 G2]; split; [lia|auto]|].
    cbn [ceval]. rewrite X. cbn [zval String.eqb Ascii.eqb Bool.eqb].
    rewrite (conv_small lo) by (try assumption; lia). apply (arith_small lo); [lia|assumption|assumption].
  - destruct P as [P1 P2].
    assert (H1 : forall p, In p (fields_of e1) -> holds seq lo m root base val f p) by (intros p I; apply H, in_app_iff; auto).
    assert (H2 : forall p, In p (fields_of e2) -> holds seq lo m root base val f p) by (intros p I; apply H, in_app_iff; auto).
    assert (IN : forall e z, within val lo e -> meval val e = Some (MZ z) -> small lo z).
    { intros e z Wz Q. destruct e; cbn [within] in Wz; destruct Wz as [Wz _]; apply Wz; exact Q. }
    destruct (is_logic op) eqn:LO.
    + destruct op; try discriminate; cbn [within] in W; destruct W as (_ & W1 & W2).
      * destruct (meval val e1) as [[[]|]|] eqn:Q1; try discriminate; destruct (IH1 P1 _ H1 W1 eq_refl) as (t & T & X);
          exists cint; (split; [exact GI|]); cbn [c_op ceval]; rewrite X; cbn [String.eqb Ascii.eqb Bool.eqb zval Z.eqb].
        -- destruct (meval val e2) as [[b|]|] eqn:Q2; try discriminate. destruct (IH2 P2 _ H2 (W2 eq_refl) eq_refl) as (t2 & T2 & X2).
           rewrite X2. assert (v = MB b) by congruence. subst. destruct b; reflexivity.
        -- assert (v = MB false) by congruence. subst. reflexivity.
      * destruct (meval val e1) as [[[]|]|] eqn:Q1; try discriminate; destruct (IH1 P1 _ H1 W1 eq_refl) as (t & T & X);
          exists cint; (split; [exact GI|]); cbn [c_op ceval]; rewrite X; cbn [String.eqb Ascii.eqb Bool.eqb zval Z.eqb].
        -- assert (v = MB true) by congruence. subst. reflexivity.
        -- destruct (meval val e2) as [[b|]|] eqn:Q2; try discriminate. destruct (IH2 P2 _ H2 (W2 eq_refl) eq_refl) as (t2 & T2 & X2).
           rewrite X2. assert (v = MB b) by congruence. subst. destruct b; reflexivity.
    + assert (W' : (forall z, meval val (EBin op e1 e2) = Some (MZ z) -> lo <= z < 2 ^ 31) /\ within val lo e1 /\ within val lo e2)
        by (destruct op; try discriminate; exact W). destruct W' as (W0 & W1 & W2).
      assert (E' : match meval val e1, meval val e2 with
        | Some (MZ a), Some (MZ b) =>
          match arith_op op a b, rel_op op a b with
          | Some z, _ => Some (MZ z)
          | None, Some r => Some (MB r)
          | None, None => None
          end
      | Some (MB a), Some (MB b) =>
          match op with OEq => Some (MB (Bool.eqb a b)) | ONe => Some (MB (negb (Bool.eqb a b))) | _ => None end
      | _, _ => None
      end = Some v) by (destruct op; try discriminate; exact E).
      assert (W0' : forall z, v = MZ z -> small lo z) by (intros z Z; apply W0; subst; destruct op; try discriminate; exact E).
      clear W E W0. rename E' into E.
      assert (CE : forall t1 z1 t2 z2, ceval m (tree_of f root e1) = CV t1 z1 -> ceval m (tree_of f root e2) = CV t2 z2 ->
        ceval m (CBin (c_op op) (tree_of f root e1) (tree_of f root e2)) = strict_bin (c_op op) t1 z1 t2 z2).
      { intros t1 z1 t2 z2 C1 C2. cbn [ceval]. rewrite C1, C2. destruct op; try discriminate; reflexivity. }
      destruct (meval val e1) as [v1|] eqn:Q1; [|discriminate]. destruct (meval val e2) as [v2|] eqn:Q2; [|destruct v1; discriminate].
      destruct (IH1 P1 _ H1 W1 eq_refl) as (t1 & T1 & X1). destruct (IH2 P2 _ H2 W2 eq_refl) as (t2 & T2 & X2).
      rewrite (CE _ _ _ _ X1 X2).
      destruct v1 as [b1|z1], v2 as [b2|z2]; try discriminate; cbn [zval].
      * destruct (strict_small lo op t1 _ t2 _ L T1 T2 (BZ b1) (BZ b2) LO) as [_ R].
        destruct op; try discriminate; exists cint; (split; [exact GI|]).
        -- rewrite (R (Bool.eqb b1 b2)) by (destruct b1, b2; reflexivity). assert (v = MB (Bool.eqb b1 b2)) by congruence. subst. reflexivity.
        -- rewrite (R (negb (Bool.eqb b1 b2))) by (destruct b1, b2; reflexivity). assert (v = MB (negb (Bool.eqb b1 b2))) by congruence. subst. reflexivity.
      * destruct (strict_small lo op t1 z1 t2 z2 L T1 T2 (IN _ _ W1 Q1) (IN _ _ W2 Q2) LO) as [A R].
        destruct (arith_op op z1 z2) as [z|].
        -- assert (v = MZ z) by congruence. subst. apply A; [reflexivity|]. apply W0'. reflexivity.
        -- destruct (rel_op op z1 z2) as [b|]; [|discriminate]. assert (v = MB b) by congruence. subst. exists cint. split; [exact GI|].
           rewrite (R b eq_refl). reflexivity.
Qed.

(** * The generated SEQUENCE code *)
Lemma ceval_ext : forall m1 m2 f root e, (forall p, In p (fields_of e) -> m1 root (f p) = m2 root (f p)) -> (forall s, m1 s [] = m2 s []) ->
  ceval m1 (tree_of f root e) = ceval m2 (tree_of f root e).
Proof.
  intros m1 m2 f root e H N. induction e as [n|s0|tx|b|q|e IH|e IH|op e1 IH1 e2 IH2]; cbn [tree_of fields_of] in *; try reflexivity.
  - cbn [ceval]. now rewrite N.
  - destruct b; reflexivity.
  - specialize (H q (or_introl eq_refl)). destruct (f q) as [|n l] eqn:F; [cbn [member ceval]; now rewrite N|].
    rewrite <- F in *. assert (f q <> []) by (rewrite F; discriminate). clear F n l.
    destruct (m1 root (f q)) as [[t z]|] eqn:M.
    + rewrite (ceval_member m1 root (f q) t z) by assumption. symmetry. apply ceval_member; [assumption|]. congruence.
    + assert (X : forall m, m root (f q) = None -> ceval m (member root (f q)) = CStuck); [|rewrite !X by congruence; reflexivity].
      intros m Mn. pose proof (mem_path_member root (f q)) as MP. destruct (member root (f q)) as [s|s|a e s|op e|op e1 e2] eqn:ME; try discriminate.
      * exfalso. cbn in MP. assert (f q = []) by congruence. congruence.
      * cbn [mem_path] in MP. cbn [ceval]. destruct (mem_path e) as [[r l]|]; [|discriminate].
        assert (root = r) by congruence. assert (F2 : f q = l ++ [s]) by congruence. subst r. rewrite <- F2, Mn. reflexivity.
  - cbn [ceval]. now rewrite (IH H).
  - cbn [ceval]. now rewrite (IH H).
  - cbn [ceval]. rewrite IH1 by (intros p I; apply H, in_app_iff; auto). rewrite IH2 by (intros p I; apply H, in_app_iff; auto). reflexivity.
Qed.

Lemma memory_root : forall seq sv s, memory seq sv s [] = None.
Proof. intros seq sv s. unfold memory. destruct (String.eqb s "pVal"); reflexivity. Qed.
Lemma test_ext : forall seq a b e, (forall p, In p (fields_of e) -> fieldv a (resolve seq [] p) = fieldv b (resolve seq [] p)) ->
  test seq a (reading seq e) = test seq b (reading seq e).
Proof.
  intros seq a b e H. unfold test, reading. rewrite (ceval_ext (memory seq a) (memory seq b)); [reflexivity| |].
  - intros p I. unfold memory. rewrite (H p I). reflexivity.
  - intros s. now rewrite !memory_root.
Qed.
Lemma trip : forall seq cs D sv sv0 w, NoDup (map back cs) /\ (forall n, In n D -> ~ In n (map back cs)) ->
  before seq D cs -> flags_ok seq cs sv ->
  (forall n r, In n D -> fieldv sv0 (n :: r) = fieldv sv (n :: r)) ->
  seq_enc seq (reading seq) cs sv = Some (true, w) ->
  exists sv1, seq_dec seq (reading seq) cs w sv0 = Some sv1 /\ same cs sv sv1 /\
    (forall n, ~ In n (map back cs) -> exist sv1 n = exist sv0 n /\ forall r, fieldv sv1 (n :: r) = fieldv sv0 (n :: r)).
Proof.
  intros seq cs. induction cs as [|c cs IH]; intros D sv sv0 w N B F A E.
  - exists sv0. split; [reflexivity|]. split; [intros c []|]. auto.
  - destruct N as [N1 N2]. cbn [map] in N1, N2. inversion N1 as [|? ? NA NB]; subst.
    assert (F' : flags_ok seq cs sv) by (intros c' e' I; apply F; right; exact I).
    cbn [seq_enc] in E. cbn [seq_dec]. cbn [before] in B.
    assert (KEEP : forall it w1 D1 svx, (forall n r, In n D1 -> fieldv (set_field svx (back c) it) (n :: r) = fieldv sv (n :: r)) ->
      (forall n, In n D1 -> ~ In n (map back cs)) -> before seq D1 cs -> seq_enc seq (reading seq) cs sv = Some (true, w1) ->
      (forall r, it r = fieldv sv (back c :: r)) ->
      exists sv1, seq_dec seq (reading seq) cs w1 (set_field svx (back c) it) = Some sv1 /\ same cs sv sv1 /\
        (exist sv1 (back c) = exist svx (back c) /\ forall r, fieldv sv1 (back c :: r) = fieldv sv (back c :: r)) /\
        (forall n, ~ In n (map back (c :: cs)) -> exist sv1 n = exist svx n /\ forall r, fieldv sv1 (n :: r) = fieldv svx (n :: r))).
    { intros it w1 D1 svx A1 A2 B1 E1 I1. destruct (IH D1 sv _ w1 (conj NB A2) B1 F' A1 E1) as (sv1 & X1 & X2 & X3).
      exists sv1. split; [exact X1|]. split; [exact X2|]. split.
      - destruct (X3 (back c) NA) as [Y1 Y2]. split; [exact Y1|]. intros r. rewrite Y2. cbn [set_field fieldv]. rewrite String.eqb_refl. apply I1.
      - intros n H. cbn [map] in H. destruct (X3 n) as [Y1 Y2]; [intros I; apply H; right; exact I|]. split; [exact Y1|].
        intros r. rewrite Y2. cbn [set_field fieldv]. destruct (String.eqb_spec n (back c)) as [->|_]; [exfalso; apply H; left; reflexivity|reflexivity]. }
    destruct (cond c) as [e|] eqn:C.
    + destruct B as [B1 B2]. pose proof (F c e (or_introl eq_refl) C) as T.
      assert (T0 : test seq sv0 (reading seq e) = Some (exist sv (back c))).
      { rewrite <- T. apply test_ext. intros p I. destruct (B1 p I) as (n & r & -> & I2). apply A. exact I2. }
      rewrite T in E. rewrite T0. destruct (exist sv (back c)) eqn:X; cbn [Bool.eqb] in E.
      * assert (E' : match seq_enc seq (reading seq) cs sv with None => None | Some (ret', w') => Some (ret', (fun l => fieldv sv (back c :: l)) :: w') end = Some (true, w))
          by (destruct (sets c); exact E). clear E.
        destruct (seq_enc seq (reading seq) cs sv) as [[ret w1]|] eqn:E1; [|discriminate].
        assert (ret = true) by congruence. assert (w = (fun l => fieldv sv (back c :: l)) :: w1) by congruence. subst.
        destruct (KEEP (fun l => fieldv sv (back c :: l)) w1 D (set_exist sv0 (back c) true)) as (sv1 & Y1 & Y2 & (Y3 & Y4) & Y5).
        -- intros n r I. cbn [set_field set_exist fieldv]. destruct (String.eqb_spec n (back c)) as [->|_]; [exfalso; apply (N2 (back c) I); left; reflexivity|].
           apply A. exact I.
        -- intros n I I2. apply (N2 n I). right. exact I2.
        -- exact B2.
        -- reflexivity.
        -- reflexivity.
        -- exists sv1. split; [exact Y1|]. split.
           ++ intros c' [<-|I]; [|apply Y2; exact I]. rewrite C. split.
              ** rewrite Y3. cbn [set_exist exist]. rewrite String.eqb_refl. exact X.
              ** intros _ r. symmetry. apply Y4.
           ++ intros n H. destruct (Y5 n H) as [Z1 Z2]. split; [|exact Z2]. rewrite Z1. cbn [set_exist exist].
              destruct (String.eqb_spec n (back c)) as [->|_]; [exfalso; apply H; left; reflexivity|reflexivity].
      * destruct (seq_enc seq (reading seq) cs sv) as [[ret w1]|] eqn:E1; [|discriminate]. cbn [app] in E.
        assert (ret = true) by congruence. assert (w = w1) by congruence. subst.
        destruct (IH D sv (set_exist sv0 (back c) false) w1) as (sv1 & Y1 & Y2 & Y3).
        -- split; [exact NB|]. intros n I I2. apply (N2 n I). right. exact I2.
        -- exact B2.
        -- exact F'.
        -- exact A.
        -- exact E1.
        -- exists sv1. split; [exact Y1|]. split.
           ++ intros c' [<-|I]; [|apply Y2; exact I]. rewrite C. destruct (Y3 (back c) NA) as [Z1 _]. cbn [set_exist exist] in Z1. rewrite String.eqb_refl in Z1.
              rewrite Z1, X. split; [reflexivity|discriminate].
           ++ intros n H. cbn [map] in H. destruct (Y3 n) as [Z1 Z2]; [intros I; apply H; right; exact I|]. split; [|exact Z2]. rewrite Z1. cbn [set_exist exist].
              destruct (String.eqb_spec n (back c)) as [->|_]; [exfalso; apply H; left; reflexivity|reflexivity].
    + destruct (seq_enc seq (reading seq) cs sv) as [[ret w1]|] eqn:E1; [|discriminate]. cbv zeta in E; cbn [app] in E.
      injection E as -> <-.
      destruct (KEEP (fun l => fieldv sv (back c :: l)) w1 (back c :: D) sv0) as (sv1 & Y1 & Y2 & (Y3 & Y4) & Y5).
      * intros n r I. cbn [set_field fieldv]. destruct (String.eqb_spec n (back c)) as [->|J]; [reflexivity|]. apply A. destruct I as [EQ|I]; [exfalso; apply J; symmetry; exact EQ|exact I].
      * intros n [<-|I]; [exact NA|]. intros I2. apply (N2 n I). right. exact I2.
      * exact B.
      * reflexivity.
      * reflexivity.
      * exists sv1. split; [exact Y1|]. split; [|exact Y5]. intros c' [<-|I]; [|apply Y2; exact I]. rewrite C. intros r. symmetry. apply Y4.
Qed.
Lemma round_trip : forall cs sv sv0 w, let seq := kids cs in NoDup (map back cs) -> before seq [] cs -> flags_ok seq cs sv ->
  seq_enc seq (reading seq) cs sv = Some (true, w) ->
  exists sv1, seq_dec seq (reading seq) cs w sv0 = Some sv1 /\ same cs sv sv1.
Proof.
  intros cs sv sv0 w seq N B F E. destruct (trip seq cs [] sv sv0 w (conj N (fun n (X : In n []) => match X with end)) B F) as (sv1 & X & Y & _); [intros n r []|exact E|].
  exists sv1. auto.
Qed.
(** The encoder accepts a struct with right flags. *)
Lemma accepts : forall seq cs sv, flags_ok seq cs sv -> exists w, seq_enc seq (reading seq) cs sv = Some (true, w).
Proof.
  intros seq cs sv. induction cs as [|c cs IH]; intros F; [exists []; reflexivity|].
  destruct IH as (w & E); [intros c' e' I; apply F; right; exact I|]. cbn [seq_enc]. rewrite E. destruct (cond c) as [e|] eqn:C.
  - rewrite (F c e (or_introl eq_refl) C). destruct (exist sv (back c)); cbn [Bool.eqb]; [destruct (sets c)|]; eexists; reflexivity.
  - eexists; reflexivity.
Qed.
(** Wrong flags are found if the encoding of the component does not assign ret. *)
Lemma detects : forall seq cs sv w, (forall c, In c cs -> cond c <> None -> sets c = false) ->
  seq_enc seq (reading seq) cs sv = Some (true, w) -> flags_ok seq cs sv.
Proof.
  intros seq cs sv. induction cs as [|c cs IH]; intros w S E c' e' I C; [destruct I|]. cbn [seq_enc] in E.
  assert (R : forall ret w0, (if (ret : bool) then match seq_enc seq (reading seq) cs sv with None => None | Some (ret', w') => Some (ret', w0 ++ w') end else Some (false, w0)) = Some (true, w) ->
    ret = true /\ exists w', seq_enc seq (reading seq) cs sv = Some (true, w')).
  { intros ret w0 X. destruct ret; [|discriminate]. destruct (seq_enc seq (reading seq) cs sv) as [[r w']|]; [|discriminate].
    split; [reflexivity|]. exists w'. congruence. }
  destruct I as [<-|I].
  - rewrite C in E. destruct (test seq sv (reading seq e')) as [x|]; [|discriminate].
    rewrite (S c (or_introl eq_refl)) in E by congruence.
    destruct (exist sv (back c)); cbn [Bool.eqb] in E; destruct (R _ _ E) as [R1 _]; destruct x; try discriminate; reflexivity.
  - assert (exists w', seq_enc seq (reading seq) cs sv = Some (true, w')) as (w' & E').
    { destruct (cond c) as [e|]; [|exact (proj2 (R true [fun l => fieldv sv (back c :: l)] E))]. destruct (test seq sv (reading seq e)) as [x|]; [|discriminate].
      destruct (exist sv (back c)); exact (proj2 (R _ _ E)). }
    eapply IH; [intros c1 I1; apply S; right; exact I1|exact E'|exact I|exact C].
Qed.
(** The flag is the meaning of the expression. *)
Lemma present : forall (seq : children) lo sv e b, - 2 ^ 31 < lo <= 0 -> NoDup (map (fun c => cname (fst c)) seq) -> NoDup (map (fun c => cback (fst c)) seq) ->
  struct_ok seq lo sv -> plain e -> (forall p, In p (fields_of e) -> List.length p = 1%nat /\ check_path seq p <> None) ->
  within (value_of seq sv) lo e -> meval (value_of seq sv) e = Some (MB b) -> test seq sv (reading seq e) = Some b.
Proof.
  intros seq lo sv e b L N1 N2 S P F W M. unfold test, reading.
  destruct (value (ASeq seq) lo (memory seq sv) "pVal" [] (value_of seq sv) (resolve seq []) e (MB b) L P) as (t & _ & E); [|exact W|exact M|].
  - intros p I. destruct (F p I) as [L1 K]. destruct p as [|x [|y p]]; cbn in L1; try lia. clear L1.
    cbn [check_path] in K. unfold holds, value_of. unfold resolve. cbn [back_path].
    destruct (find _ seq) as [[c k]|] eqn:FN; [|exact Logic.I].
    apply find_some in FN as [IN EN]. apply String.eqb_eq in EN. cbn [fst] in EN.
    destruct (cacn c); [congruence|]. destruct (copt c); [congruence|].
    assert (FB : find (fun c0 => String.eqb (cback (fst c0)) (cback c)) seq = Some (c, k)).
    { clear -N2 IN. induction seq as [|[c' k'] seq IH]; [destruct IN|]. cbn [find fst]. cbn [map fst] in N2. inversion N2 as [|? ? A B]; subst.
      destruct IN as [IN|IN].
      - assert (c' = c) by congruence. assert (k' = k) by congruence. subst. now rewrite String.eqb_refl.
      - destruct (String.eqb_spec (cback c') (cback c)) as [E|E]; [|auto].
        exfalso. apply A. rewrite E. apply (in_map (fun c => cback (fst c)) _ _ IN). }
    specialize (S c k IN). destruct k; try trivial.
    + exists [cback c], sgn, w. split; [exists c, (AInt sgn w), []; repeat split; auto|]. split; [reflexivity|]. split; [discriminate|].
      split; [|exact S]. unfold memory. cbn [app member_kind String.eqb Ascii.eqb Bool.eqb]. rewrite FB. reflexivity.
    + exists [cback c]. split; [exists c, ABool, []; repeat split; auto|]. split; [reflexivity|]. split; [discriminate|].
      unfold memory. cbn [app member_kind String.eqb Ascii.eqb Bool.eqb]. rewrite FB. destruct S as [-> | ->]; reflexivity.
  - rewrite E. destruct b; reflexivity.
Qed.
