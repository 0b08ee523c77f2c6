(** Proofs for C64: the exact conditions on the C types. *)
From Verif Require Import Base CExpr AcnExpr AcnExprSeq AcnExprSpec AcnExprProofs2.
From Coq Require Import String Ascii.
Local Open Scope Z_scope.

Definition width (t : cty) : Prop := snd t = 8 \/ snd t = 16 \/ snd t = 32 \/ snd t = 64.
Lemma width_pos : forall t, width t -> 1 <= snd t.
Proof. unfold width. lia. Qed.
Lemma conv_in : forall t z, width t -> in_ty t z -> cconv t z = z.
Proof.
  intros t z W. unfold in_ty, cconv, tmin, tmax. pose proof (width_pos t W) as P. clear W. destruct (fst t); intros I.
  - assert (2 ^ snd t = 2 * 2 ^ (snd t - 1)) by (rewrite <- Z.pow_succ_r by lia; f_equal; lia). rewrite Z.mod_small; lia.
  - apply Z.mod_small. lia.
Qed.
Lemma arith_in : forall t z, in_ty t z -> arith t z = CV t z.
Proof.
  intros t z. unfold in_ty, arith, in_tyb. destruct (fst t) eqn:F; intros I.
  - assert ((tmin t <=? z) && (z <=? tmax t) = true) as -> by lia. reflexivity.
  - unfold tmin, tmax in I. rewrite F in I. rewrite Z.mod_small by lia. reflexivity.
Qed.
Lemma promote_width : forall t, width t -> width (promote t).
Proof. intros [s w] W. unfold promote, width in *. cbn [snd] in *. destruct (w <? 32); cbn [snd cint]; lia. Qed.
Lemma usual_width : forall a b, width a -> width b -> width (usual a b).
Proof.
  intros [s1 w1] [s2 w2] A B. unfold width, usual in *. cbn [fst snd] in *.
  destruct (Bool.eqb s1 s2); cbn [snd]; [lia|]. destruct s1, s2; cbn [snd]; destruct (_ <=? _); cbn [snd]; lia.
Qed.
(** A promoted type holds the values of the type. *)
Lemma promote_in : forall t z, width t -> in_ty t z -> in_ty (promote t) z.
Proof.
  intros [s w] z W I. unfold promote. cbn [snd]. destruct (w <? 32) eqn:E; [|exact I]. unfold in_ty, tmin, tmax in *. unfold cint. cbn [fst snd] in *.
  assert (w = 8 \/ w = 16) as C by (unfold width in W; cbn in W; lia).
  change (32 - 1) with 31. assert (2 ^ 31 = 2147483648) as -> by reflexivity.
  destruct s, C as [-> | ->]; cbn in I; lia.
Qed.
Definition in_type (seq : akind) (m : mem) (root : string) (base : list string) (ty : list string -> option cty)
    (val : list string -> option mval) (f : list string -> list string) (p : list string) : Prop :=
  match val p with
  | None => True
  | Some v => exists t, ty p = Some t /\ width t /\ in_ty t (zval v) /\ f p <> [] /\ m root (f p) = Some (t, zval v)
  end.
Lemma bool_in : forall t (b : bool), width t -> 32 <= snd t -> in_ty t (if b then 1 else 0).
Proof.
  intros [s w] b W L. unfold in_ty, tmin, tmax, width in *. cbn [fst snd] in *.
  assert (w = 32 \/ w = 64) as C by lia. assert (X1 : 2 ^ 31 = 2147483648) by reflexivity. assert (X2 : 2 ^ 32 = 4294967296) by reflexivity.
  assert (X3 : 2 ^ 63 = 9223372036854775808) by reflexivity. assert (X4 : 2 ^ 64 = 18446744073709551616) by reflexivity.
  destruct s, C as [-> | ->]; change (32 - 1) with 31; change (64 - 1) with 63; destruct b; lia.
Qed.
Lemma usual_large : forall a b, 32 <= snd a -> 32 <= snd b -> 32 <= snd (usual a b).
Proof.
  intros [s1 w1] [s2 w2] A B. unfold usual. cbn [fst snd] in *. destruct (Bool.eqb s1 s2); cbn [snd]; [lia|].
  destruct s1; cbn [fst snd]; destruct (_ <=? _); cbn [snd]; lia.
Qed.
Lemma promote_large : forall t, 32 <= snd (promote t).
Proof. intros [s w]. unfold promote. cbn [snd]. destruct (w <? 32) eqn:E; cbn [snd cint]; lia. Qed.
Lemma strict_in : forall op t1 z1 t2 z2, let t := usual (promote t1) (promote t2) in
  width t1 -> width t2 -> in_ty t z1 -> in_ty t z2 -> (forall z, In z (results op z1 z2) -> in_ty t z) -> is_logic op = false ->
  (forall z, arith_op op z1 z2 = Some z -> in_ty t z /\ strict_bin (c_op op) t1 z1 t2 z2 = CV t z) /\
  (forall b, rel_op op z1 z2 = Some b -> strict_bin (c_op op) t1 z1 t2 z2 = cbool b).
Proof.
  cbv zeta. intros op t1 z1 t2 z2 W1 W2 I1 I2 R O. unfold strict_bin.
  pose proof (usual_width _ _ (promote_width _ W1) (promote_width _ W2)) as W. set (t := usual (promote t1) (promote t2)) in *.
  rewrite (conv_in t z1 W I1), (conv_in t z2 W I2).
  split.
  - intros z E. destruct op; cbn [arith_op] in E; try discriminate; cbn [results In] in R; cbn [c_op String.eqb Ascii.eqb Bool.eqb].
    + assert (z = z1 + z2) by congruence. subst z. specialize (R _ (or_introl eq_refl)). split; [exact R|now apply arith_in].
    + assert (z = z1 - z2) by congruence. subst z. specialize (R _ (or_introl eq_refl)). split; [exact R|now apply arith_in].
    + assert (z = z1 * z2) by congruence. subst z. specialize (R _ (or_introl eq_refl)). split; [exact R|now apply arith_in].
    + destruct (z2 =? 0) eqn:Q; [discriminate|]. assert (z = Z.quot z1 z2) by congruence. subst z.
      specialize (R _ (or_introl eq_refl)). split; [exact R|now apply arith_in].
    + destruct (z2 =? 0) eqn:Q; [discriminate|]. assert (z = Z.rem z1 z2) by congruence. subst z.
      pose proof (R _ (or_introl eq_refl)) as RQ. pose proof (R _ (or_intror (or_introl eq_refl))) as RR.
      assert (in_tyb t (Z.quot z1 z2) = true) as -> by (unfold in_tyb, in_ty in *; lia). split; [exact RR|now apply arith_in].
  - intros b E. destruct op; cbn [rel_op] in E; try discriminate; cbn [c_op String.eqb Ascii.eqb Bool.eqb]; f_equal; congruence.
Qed.

Lemma value_fits : forall seq m root base ty val f e v, plain e ->
  (forall p, In p (fields_of e) -> in_type seq m root base ty val f p) -> fits ty val e -> meval val e = Some v ->
  width (c_type ty e) /\ in_ty (c_type ty e) (zval v) /\ ceval m (tree_of f root e) = CV (c_type ty e) (zval v).
Proof.
  intros seq m root base ty val f e v P. revert v.
  assert (GI : width cint) by (right; right; left; reflexivity).
  assert (BI : forall b : bool, in_ty cint (if b then 1 else 0)) by (intros b; apply bool_in; [exact GI|cbn; lia]).
  induction e as [n|s0|tx|b|q|e IH|e IH|op e1 IH1 e2 IH2]; intros v H W E; cbn [meval] in E; cbn [tree_of]; cbn [plain] in P; cbn [fields_of] in H.
  - assert (v = MZ n) by congruence. subst. cbn [fits] in W. cbn [c_type zval].
    cbn [ceval]. rewrite dec_of. rewrite DecimalZ.of_to. unfold literal_type.
    assert (X1 : 2 ^ 31 = 2147483648) by reflexivity. assert (X3 : 2 ^ 63 = 9223372036854775808) by reflexivity.
    destruct (n <? 2 ^ 31) eqn:Q.
    + split; [exact GI|]. split; [unfold in_ty, tmin, tmax, cint; cbn [fst snd]; change (32 - 1) with 31; lia|reflexivity].
    + assert (n <? 2 ^ 63 = true) as -> by lia. split; [right; right; right; reflexivity|].
      split; [unfold in_ty, tmin, tmax; cbn [fst snd]; change (64 - 1) with 63; lia|reflexivity].
  - destruct P.
  - discriminate.
  - assert (v = MB b) by congruence. subst. cbn [c_type zval]. split; [exact GI|]. split; [apply BI|]. destruct b; reflexivity.
  - specialize (H q (or_introl eq_refl)). unfold in_type in H. rewrite E in H. destruct H as (t & T & Wt & I & N & M).
    cbn [c_type]. rewrite T. split; [exact Wt|]. split; [exact I|]. now apply ceval_member.
  - cbn [fits] in W. destruct (meval val e) as [[b|]|]; try discriminate. destruct (IH P _ H W eq_refl) as (Wt & I & X).
    assert (v = MB (negb b)) by congruence. subst. cbn [c_type zval]. split; [exact GI|]. split; [apply BI|]. cbn [ceval]. rewrite X. destruct b; reflexivity.
  - cbn [fits] in W. destruct W as [W W0]. destruct (meval val e) as [[|z]|] eqn:Q; try discriminate. destruct (IH P _ H W eq_refl) as (Wt & I & X).
    assert (v = MZ (- z)) by congruence. subst. specialize (W0 z eq_refl). cbn [zval] in *. cbn [c_type]. split; [now apply promote_width|]. split; [exact W0|].
    cbn [ceval]. rewrite X. cbn [String.eqb Ascii.eqb Bool.eqb].
    rewrite conv_in by (try apply promote_width; try apply promote_in; assumption). now apply arith_in.
  - destruct P as [P1 P2].
    assert (H1 : forall p, In p (fields_of e1) -> in_type seq m root base ty val f p) by (intros p I; apply H, in_app_iff; auto).
    assert (H2 : forall p, In p (fields_of e2) -> in_type seq m root base ty val f p) by (intros p I; apply H, in_app_iff; auto).
    destruct (is_logic op) eqn:LO.
    + assert (CT : c_type ty (EBin op e1 e2) = cint) by (destruct op; try discriminate; reflexivity). rewrite CT. split; [exact GI|].
      destruct op; try discriminate; cbn [fits] in W; destruct W as (W1 & W2).
      * destruct (meval val e1) as [[[]|]|] eqn:Q1; try discriminate; destruct (IH1 P1 _ H1 W1 eq_refl) as (_ & _ & X).
        -- destruct (meval val e2) as [[b|]|] eqn:Q2; try discriminate. destruct (IH2 P2 _ H2 (W2 eq_refl) eq_refl) as (_ & _ & X2).
           assert (v = MB b) by congruence. subst. split; [apply BI|]. cbn [c_op ceval]. rewrite X, X2. destruct b; reflexivity.
        -- assert (v = MB false) by congruence. subst. split; [apply (BI false)|]. cbn [c_op ceval]. rewrite X. reflexivity.
      * destruct (meval val e1) as [[[]|]|] eqn:Q1; try discriminate; destruct (IH1 P1 _ H1 W1 eq_refl) as (_ & _ & X).
        -- assert (v = MB true) by congruence. subst. split; [apply (BI true)|]. cbn [c_op ceval]. rewrite X. reflexivity.
        -- destruct (meval val e2) as [[b|]|] eqn:Q2; try discriminate. destruct (IH2 P2 _ H2 (W2 eq_refl) eq_refl) as (_ & _ & X2).
           assert (v = MB b) by congruence. subst. split; [apply BI|]. cbn [c_op ceval]. rewrite X, X2. destruct b; reflexivity.
    + assert (W' : fits ty val e1 /\ fits ty val e2 /\
        forall a b, meval val e1 = Some (MZ a) -> meval val e2 = Some (MZ b) ->
          let t := usual (promote (c_type ty e1)) (promote (c_type ty e2)) in
          in_ty t a /\ in_ty t b /\ forall z, In z (results op a b) -> in_ty t z)
        by (destruct op; try discriminate; exact W). destruct W' as (W1 & W2 & W0).
      assert (E' : match meval val e1, meval val e2 with
        | Some (MZ a), Some (MZ b) =>
          match arith_op op a b, rel_op op a b with
          | Some z, _ => Some (MZ z)
          | None, Some r => Some (MB r)
          | None, None => None
          end
      | Some (MB a), Some (MB b) =>
          match op with OEq => Some (MB (Bool.eqb a b)) | ONe => Some (MB (negb (Bool.eqb a b))) | _ => None end
      | _, _ => None
      end = Some v) by (destruct op; try discriminate; exact E).
      clear W E. rename E' into E.
      assert (CE : forall t1 z1 t2 z2, ceval m (tree_of f root e1) = CV t1 z1 -> ceval m (tree_of f root e2) = CV t2 z2 ->
        ceval m (CBin (c_op op) (tree_of f root e1) (tree_of f root e2)) = strict_bin (c_op op) t1 z1 t2 z2).
      { intros t1 z1 t2 z2 C1 C2. cbn [ceval]. rewrite C1, C2. destruct op; try discriminate; reflexivity. }
      destruct (meval val e1) as [v1|] eqn:Q1; [|discriminate]. destruct (meval val e2) as [v2|] eqn:Q2; [|destruct v1; discriminate].
      destruct (IH1 P1 _ H1 W1 eq_refl) as (T1 & I1 & X1). destruct (IH2 P2 _ H2 W2 eq_refl) as (T2 & I2 & X2).
      rewrite (CE _ _ _ _ X1 X2).
      set (t1 := c_type ty e1) in *. set (t2 := c_type ty e2) in *.
      destruct v1 as [b1|z1], v2 as [b2|z2]; try discriminate; cbn [zval].
      * assert (CT : c_type ty (EBin op e1 e2) = cint) by (destruct op; try discriminate; reflexivity). rewrite CT. split; [exact GI|].
        pose proof (usual_large _ _ (promote_large t1) (promote_large t2)) as LG.
        pose proof (usual_width _ _ (promote_width _ T1) (promote_width _ T2)) as WG.
        destruct (strict_in op t1 (if b1 then 1 else 0) t2 (if b2 then 1 else 0) T1 T2 (bool_in _ b1 WG LG) (bool_in _ b2 WG LG)) as [_ R];
          [destruct op; try discriminate; intros ? []|exact LO|].
        destruct op; try discriminate.
        -- rewrite (R (Bool.eqb b1 b2)) by (destruct b1, b2; reflexivity). assert (v = MB (Bool.eqb b1 b2)) by congruence. subst. split; [apply BI|reflexivity].
        -- rewrite (R (negb (Bool.eqb b1 b2))) by (destruct b1, b2; reflexivity). assert (v = MB (negb (Bool.eqb b1 b2))) by congruence. subst. split; [apply BI|reflexivity].
      * destruct (W0 z1 z2 eq_refl eq_refl) as (J1 & J2 & J).
        destruct (strict_in op t1 z1 t2 z2 T1 T2 J1 J2 J LO) as [A R].
        destruct (arith_op op z1 z2) as [z|] eqn:AO.
        -- assert (v = MZ z) by congruence. subst. destruct (A z eq_refl) as [A1 A2].
           assert (CT : c_type ty (EBin op e1 e2) = usual (promote t1) (promote t2)) by (destruct op; try discriminate; reflexivity). rewrite CT.
           split; [now apply usual_width; apply promote_width|]. split; [exact A1|exact A2].
        -- destruct (rel_op op z1 z2) as [b|] eqn:RO; [|discriminate]. assert (v = MB b) by congruence. subst.
           assert (CT : c_type ty (EBin op e1 e2) = cint).
           { destruct op; try discriminate; try reflexivity. }
           rewrite CT. split; [exact GI|]. split; [apply BI|]. rewrite (R b eq_refl). reflexivity.
Qed.

Lemma present_fits : forall (seq : children) sv e b, NoDup (map (fun c => cname (fst c)) seq) -> NoDup (map (fun c => cback (fst c)) seq) ->
  stored seq sv -> plain e -> (forall p, In p (fields_of e) -> List.length p = 1%nat /\ check_path seq p <> None) ->
  fits (type_of seq) (value_of seq sv) e -> meval (value_of seq sv) e = Some (MB b) -> test seq sv (reading seq e) = Some b.
Proof.
  intros seq sv e b N1 N2 S P F W M. unfold test, reading.
  destruct (value_fits (ASeq seq) (memory seq sv) "pVal" [] (type_of seq) (value_of seq sv) (resolve seq []) e (MB b) P) as (_ & _ & E); [|exact W|exact M|].
  - intros p I. destruct (F p I) as [L1 K]. destruct p as [|x [|y p]]; cbn in L1; try lia. clear L1.
    cbn [check_path] in K. unfold in_type, value_of, type_of. unfold resolve. cbn [back_path].
    destruct (find _ seq) as [[c k]|] eqn:FN; [|exact Logic.I].
    apply find_some in FN as [IN EN]. apply String.eqb_eq in EN. cbn [fst] in EN.
    destruct (cacn c); [congruence|]. destruct (copt c); [congruence|].
    assert (FB : find (fun c0 => String.eqb (cback (fst c0)) (cback c)) seq = Some (c, k)).
    { clear -N2 IN. induction seq as [|[c' k'] seq IH]; [destruct IN|]. cbn [find fst]. cbn [map fst] in N2. inversion N2 as [|? ? A B]; subst.
      destruct IN as [IN|IN].
      - assert (c' = c) by congruence. assert (k' = k) by congruence. subst. now rewrite String.eqb_refl.
      - destruct (String.eqb_spec (cback c') (cback c)) as [E|E]; [|auto].
        exfalso. apply A. rewrite E. apply (in_map (fun c => cback (fst c)) _ _ IN). }
    specialize (S c k IN). destruct k; try trivial.
    + exists (sgn, w). destruct S as [S1 S2]. split; [reflexivity|]. split; [exact S1|]. split; [exact S2|]. split; [discriminate|].
      unfold memory. cbn [app member_kind String.eqb Ascii.eqb Bool.eqb]. rewrite FB. reflexivity.
    + exists (false, 8). split; [reflexivity|]. split; [left; reflexivity|]. cbn [zval].
      assert (Z : (if fieldv sv [cback c] =? 1 then 1 else 0) = fieldv sv [cback c]) by (destruct S as [-> | ->]; reflexivity).
      rewrite Z. split; [unfold in_ty, tmin, tmax; cbn; lia|]. split; [discriminate|].
      unfold memory. cbn [app member_kind String.eqb Ascii.eqb Bool.eqb]. rewrite FB. reflexivity.
  - rewrite E. destruct b; reflexivity.
Qed.

Lemma rules : forall seq e t, validateAcnExpression seq e = Some t <-> well_typed (fun p t => check_path seq p = Some t) e t.
Proof.
  intros seq e t. split.
  - revert t. induction e as [n|s0|tx|b|q|e IH|e IH|op e1 IH1 e2 IH2]; intros t H; cbn [validateAcnExpression] in H.
    + assert (t = TyInt) by congruence. subst. constructor.
    + assert (t = TyInt) by congruence. subst. constructor.
    + assert (t = TyReal) by congruence. subst. constructor.
    + assert (t = TyBool) by congruence. subst. constructor.
    + now constructor.
    + destruct (validateAcnExpression seq e) as [[]|]; try discriminate. assert (t = TyBool) by congruence. subst. constructor. auto.
    + destruct (validateAcnExpression seq e) as [[]|]; try discriminate; assert (X : In t [TyInt; TyReal]) by (cbn; intuition congruence); constructor; auto.
    + destruct (validateAcnExpression seq e1) as [t1|]; destruct (validateAcnExpression seq e2) as [t2|];
        [|destruct op, t1; discriminate|destruct op, t2; discriminate|destruct op; discriminate].
      destruct op, t1, t2; cbn in H; try discriminate;
        (let T := type of H in match T with Some ?a = Some t => assert (t = a) by congruence; subst t; clear H end);
        first [apply wt_arith; cbn; auto 9; fail | eapply wt_less; [cbn; auto 9| | |apply IH1; reflexivity|apply IH2; reflexivity]; cbn; auto; fail
              |eapply wt_equal; [cbn; auto|apply IH1; reflexivity|apply IH2; reflexivity]; fail | apply wt_logic; cbn; auto].
  - intros W. induction W; cbn [validateAcnExpression]; try reflexivity; auto.
    + rewrite IHW. reflexivity.
    + rewrite IHW. cbn in H. destruct H as [<-|[<-|[]]]; reflexivity.
    + rewrite IHW1, IHW2. cbn in H, H0. destruct H0 as [<-|[<-|[]]]; intuition; subst; reflexivity.
    + rewrite IHW1, IHW2. cbn in H, H0, H1. destruct H0 as [<-|[<-|[]]]; destruct H1 as [<-|[<-|[]]]; intuition; subst; reflexivity.
    + rewrite IHW1, IHW2. cbn in H. destruct t; intuition; subst; reflexivity.
    + rewrite IHW1, IHW2. cbn in H. intuition; subst; reflexivity.
Qed.
