(** Proofs about the bit stream primitives. *)
From Coq Require Import ZArith List Bool Lia.
From Coq Require Import ZifyBool ZifyNat.
From Verif Require Import Base Bits BitsProofs BitStream Contracts.
Import ListNotations.
Open Scope Z_scope.
Ltac Zify.zify_post_hook ::= Z.div_mod_to_equations.

(** ** Memory *)
Lemma nthZ_app : forall m1 b m2 i, Z.of_nat (length m1) = i -> nthZ (m1 ++ b :: m2) i = Ok b.
Proof.
  intros. unfold nthZ. destruct (i <? 0) eqn:E; [lia|].
  subst. rewrite Nat2Z.id. rewrite nth_error_app2 by lia.
  rewrite Nat.sub_diag. reflexivity.
Qed.

Lemma upd_app : forall A (m1 : list A) b m2 v, upd (m1 ++ b :: m2) (length m1) v = m1 ++ v :: m2.
Proof. induction m1; intros; cbn; auto. f_equal; auto. Qed.

Lemma updZ_app : forall m1 b m2 i v, Z.of_nat (length m1) = i ->
  updZ (m1 ++ b :: m2) i v = Ok (m1 ++ v :: m2).
Proof.
  intros. unfold updZ. rewrite app_length. cbn [length].
  destruct ((i <? 0) || (Z.of_nat (length m1 + S (length m2)) <=? i)) eqn:E; [lia|].
  subst. rewrite Nat2Z.id, upd_app. reflexivity.
Qed.

Lemma nthZ_Ok : forall l i b, nthZ l i = Ok b -> 0 <= i < Z.of_nat (length l) /\ In b l.
Proof.
  unfold nthZ; intros. destruct (i <? 0) eqn:E; [discriminate|].
  destruct (nth_error l (Z.to_nat i)) eqn:E2; [|discriminate]. inversion H; subst.
  split; [|eapply nth_error_In; eauto].
  assert (Z.to_nat i < length l)%nat by (apply nth_error_Some; congruence). lia.
Qed.

Lemma nthZ_in : forall l i, 0 <= i < Z.of_nat (length l) -> exists b, nthZ l i = Ok b /\ In b l.
Proof.
  unfold nthZ; intros. destruct (i <? 0) eqn:E; [lia|].
  destruct (nth_error l (Z.to_nat i)) eqn:E2.
  - eexists; split; eauto. eapply nth_error_In; eauto.
  - apply nth_error_None in E2. lia.
Qed.

(** Split the memory at the byte holding bit [length pre]. *)
Lemma mem_split : forall m pre rest i cb,
  Forall is_byte m -> bits_of_bytes m = pre ++ rest ->
  Z.of_nat (length pre) = 8 * i + cb -> 0 <= cb < 8 -> (0 < length rest)%nat ->
  exists m1 b m2 pb rb, m = m1 ++ b :: m2 /\ Z.of_nat (length m1) = i /\
    Forall is_byte m1 /\ is_byte b /\ Forall is_byte m2 /\
    bits_of_byte b = pb ++ rb /\ Z.of_nat (length pb) = cb /\
    pre = bits_of_bytes m1 ++ pb /\ rest = rb ++ bits_of_bytes m2.
Proof.
  intros m pre rest i cb F E L C R.
  assert (LB : length (bits_of_bytes m) = (8 * length m)%nat) by apply len_bits_of_bytes.
  rewrite E, app_length in LB.
  assert (Hi : (Z.to_nat i < length m)%nat) by lia.
  destruct (nth_error m (Z.to_nat i)) as [b|] eqn:N; [|apply nth_error_None in N; lia].
  apply nth_error_split in N. destruct N as (m1 & m2 & -> & L1).
  apply Forall_app in F. destruct F as [F1 F2]. inversion F2; subst.
  rewrite bits_of_bytes_app in E. cbn [bits_of_bytes] in E.
  exists m1, b, m2, (firstn (Z.to_nat cb) (bits_of_byte b)), (skipn (Z.to_nat cb) (bits_of_byte b)).
  assert (LM : length (bits_of_bytes m1) = (8 * length m1)%nat) by apply len_bits_of_bytes.
  pose proof (len_bits_of_byte b) as L8.
  assert (E' : (bits_of_bytes m1 ++ firstn (Z.to_nat cb) (bits_of_byte b)) ++
               (skipn (Z.to_nat cb) (bits_of_byte b) ++ bits_of_bytes m2) = pre ++ rest).
  { rewrite <- E, <- !app_assoc. f_equal. rewrite app_assoc, firstn_skipn. reflexivity. }
  apply app_split in E'.
  - destruct E'. subst. splits; auto; try lia.
    + rewrite firstn_skipn. reflexivity.
    + rewrite firstn_length. lia.
  - rewrite app_length, firstn_length. lia.
Qed.

(** Replace [old] by [bs] inside one byte. *)
Lemma mem_write : forall m pre old rest bs i cb,
  Forall is_byte m -> bits_of_bytes m = pre ++ old ++ rest ->
  length old = length bs -> (0 < length bs)%nat ->
  Z.of_nat (length pre) = 8 * i + cb -> 0 <= cb -> cb + Z.of_nat (length bs) <= 8 ->
  exists b pb tb, nthZ m i = Ok b /\ is_byte b /\ bits_of_byte b = pb ++ old ++ tb /\
    Z.of_nat (length pb) = cb /\ (0 <= i < Z.of_nat (length m) /\ exists r', rest = tb ++ r') /\
    (forall b', is_byte b' -> bits_of_byte b' = pb ++ bs ++ tb ->
       exists m', updZ m i b' = Ok m' /\ Forall is_byte m' /\
         bits_of_bytes m' = pre ++ bs ++ rest /\ length m' = length m).
Proof.
  intros m pre old rest bs i cb F E LO LB LP C CB.
  destruct (mem_split m pre (old ++ rest) i cb F E LP) as
    (m1 & b & m2 & pb & rb & -> & L1 & F1 & B & F2 & EB & LPB & -> & ER); try lia.
  { rewrite app_length; lia. }
  pose proof (len_bits_of_byte b) as L8. rewrite EB, app_length in L8.
  assert (exists tb, rb = old ++ tb /\ rest = tb ++ bits_of_bytes m2) as (tb & -> & ->).
  { exists (skipn (length old) rb).
    assert (E1 : firstn (length old) (old ++ rest) = firstn (length old) (rb ++ bits_of_bytes m2)) by congruence.
    assert (E2 : skipn (length old) (old ++ rest) = skipn (length old) (rb ++ bits_of_bytes m2)) by congruence.
    rewrite firstn_app, Nat.sub_diag, firstn_all, firstn_O, app_nil_r in E1.
    rewrite firstn_app in E1. replace (length old - length rb)%nat with 0%nat in E1 by lia.
    rewrite firstn_O, app_nil_r in E1.
    rewrite skipn_app, Nat.sub_diag, skipn_all, skipn_O in E2. cbn [app] in E2.
    rewrite skipn_app in E2. replace (length old - length rb)%nat with 0%nat in E2 by lia.
    rewrite skipn_O in E2. split; auto. rewrite E1 at 1. rewrite firstn_skipn. reflexivity. }
  exists b, pb, tb. splits; auto.
  - apply nthZ_app; auto.
  - lia.
  - rewrite app_length; cbn [length]; lia.
  - eexists; reflexivity.
  - intros b' B' EB'. exists (m1 ++ b' :: m2). splits.
    + apply updZ_app; auto.
    + apply Forall_app; split; auto.
    + rewrite bits_of_bytes_app. cbn [bits_of_bytes]. rewrite EB', <- !app_assoc. reflexivity.
    + rewrite !app_length. reflexivity.
Qed.

(** ** Byte-level automation *)
Ltac cst8 x :=
  let H := fresh in
  assert (H : x = 0 \/ x = 1 \/ x = 2 \/ x = 3 \/ x = 4 \/ x = 5 \/ x = 6 \/ x = 7 ) by lia;
  destruct H as [H|[H|[H|[H|[H|[H|[H|H]]]]]]]; subst x.

Ltac idx :=
  repeat match goal with
  | |- context [Z.testbit ?x (?a + ?b)] =>
      let c := eval cbv in (a + b) in change (Z.testbit x (a + b)) with (Z.testbit x c)
  | |- context [Z.testbit ?x (?a - ?b)] =>
      let c := eval cbv in (a - b) in change (Z.testbit x (a - b)) with (Z.testbit x c)
  | |- context [Z.testbit ?x (Z.of_nat ?b)] =>
      let c := eval cbv in (Z.of_nat b) in change (Z.testbit x (Z.of_nat b)) with (Z.testbit x c)
  | |- context [Z.testbit (Zpos ?p) ?i] =>
      let c := eval cbv in (Z.testbit (Zpos p) i) in change (Z.testbit (Zpos p) i) with c
  | |- context [Z.testbit Z0 ?i] =>
      let c := eval cbv in (Z.testbit Z0 i) in change (Z.testbit Z0 i) with c
  | |- context [Z.testbit ?x (Zneg ?i)] =>
      rewrite (Z.testbit_neg_r x (Zneg i)) by lia
  end.

Ltac tb1 :=
  repeat (first
    [ rewrite Z.lor_spec | rewrite Z.land_spec
    | rewrite byte_of_testbit by lia
    | rewrite Z.shiftr_spec by lia
    | rewrite Z.shiftl_spec by lia
    | rewrite Z.lnot_spec by lia ]; idx); idx;
  rewrite ?andb_true_r, ?andb_false_r, ?orb_false_r, ?orb_true_r, ?orb_false_l.

Ltac lst l :=
  repeat (let x := fresh "x" in destruct l as [|x l]; cbn [length] in *; try lia).

Lemma cons_inj : forall (x y : bool) a b, x :: a = y :: b -> x = y /\ a = b.
Proof. intros. inversion H. auto. Qed.
Ltac inj8 H :=
  let K := fresh "K" in
  repeat (apply cons_inj in H; destruct H as [K H]; generalize K; clear K); intros.

Ltac isbyte :=
  repeat first [ apply is_byte_lor | apply is_byte_byte_of | apply is_byte_land; [|cbn; lia] | assumption ];
  try (unfold is_byte; lia).

Ltac hi8 :=
  repeat match goal with
  | |- context [Z.testbit ?v (Zpos ?i)] =>
      let b := eval cbv in (Z.leb 8 (Zpos i)) in
      match b with true => rewrite (byte_testbit_high v (Zpos i)) by (assumption || lia) end
  end.

(** Prove [bits_of_byte e = literal list] from the bits of the old byte [b]. *)
Ltac solve_byte H :=
  unfold bits_of_byte in H |- *; cbn [app Zbits] in H |- *; inj8 H; subst;
  repeat (apply (f_equal2 (@cons bool)); [ | ]); tb1; hi8; rewrite ?orb_false_r, ?orb_false_l; try reflexivity; try congruence.

(** ** at_ helpers *)
Lemma at_len : forall s pre rest, at_ s pre rest -> (length pre + length rest = 8 * length (buf s))%nat.
Proof.
  intros s pre rest (F & E & L & C). rewrite <- app_length, <- E. apply len_bits_of_bytes.
Qed.

Lemma overwrites_writes : forall A (f : M A) a bs, overwrites f a bs -> writes f a bs.
Proof.
  unfold overwrites, writes; intros A f a bs H s pre n tl HA HN HL.
  destruct (H s pre (zeros (length bs)) (zeros (n - length bs) ++ tl)) as (s' & E & HA' & C).
  - rewrite app_assoc, <- zeros_app. replace (length bs + (n - length bs))%nat with n by lia. auto.
  - apply len_zeros.
  - lia.
  - exists s'. auto.
Qed.

Lemma writes_ret : forall A (a : A), writes (ret a) a [].
Proof.
  intros A a s pre n tl H1 H2 H3. exists s. cbn [length]. rewrite app_nil_r, Nat.sub_0_r. auto.
Qed.

Lemma overwrites_ret : forall A (a : A), overwrites (ret a) a [].
Proof.
  intros A a s pre old rest H1 H2 H3. exists s. destruct old; [|discriminate]. rewrite app_nil_r. auto.
Qed.

Lemma reads_ret : forall A (a : A), reads (ret a) a [].
Proof. intros A a s pre rest H1 H2. exists s. rewrite app_nil_r. auto. Qed.

Lemma writes_bind : forall A B (f : M A) (g : A -> M B) a b bs1 bs2,
  writes f a bs1 -> writes (g a) b bs2 -> writes (bind f g) b (bs1 ++ bs2).
Proof.
  unfold writes; intros A B f g a b bs1 bs2 Hf Hg s pre n tl HA HN HL.
  rewrite app_length in *.
  destruct (Hf s pre n tl) as (s1 & E1 & HA1 & C1); auto; try lia.
  destruct (Hg s1 (pre ++ bs1) (n - length bs1)%nat tl) as (s2 & E2 & HA2 & C2); auto.
  - rewrite app_length, C1. lia.
  - lia.
  - exists s2. unfold bind. rewrite E1. rewrite <- app_assoc in HA2.
    replace (n - (length bs1 + length bs2))%nat with (n - length bs1 - length bs2)%nat by lia.
    splits; try (apply HA2); auto. congruence.
Qed.

Lemma overwrites_bind : forall A B (f : M A) (g : A -> M B) a b bs1 bs2,
  overwrites f a bs1 -> overwrites (g a) b bs2 -> overwrites (bind f g) b (bs1 ++ bs2).
Proof.
  unfold overwrites; intros A B f g a b bs1 bs2 Hf Hg s pre old rest HA HL HN.
  rewrite app_length in *.
  rewrite <- (firstn_skipn (length bs1) old) in HA. rewrite <- app_assoc in HA.
  destruct (Hf s pre _ _ HA) as (s1 & E1 & HA1 & C1); auto; try lia.
  { rewrite firstn_length. lia. }
  destruct (Hg s1 (pre ++ bs1) _ _ HA1) as (s2 & E2 & HA2 & C2); auto.
  - rewrite skipn_length. lia.
  - rewrite app_length, C1. lia.
  - exists s2. unfold bind. rewrite E1. rewrite <- app_assoc in HA2.
    splits; try (apply HA2); auto. congruence.
Qed.

Lemma reads_bind : forall A B (f : M A) (g : A -> M B) a b bs1 bs2,
  reads f a bs1 -> reads (g a) b bs2 -> reads (bind f g) b (bs1 ++ bs2).
Proof.
  unfold reads; intros A B f g a b bs1 bs2 Hf Hg s pre rest HA HN.
  rewrite app_length in *. rewrite <- app_assoc in HA.
  destruct (Hf s pre _ HA) as (s1 & E1 & HA1 & C1 & B1); try lia.
  destruct (Hg s1 (pre ++ bs1) _ HA1) as (s2 & E2 & HA2 & C2 & B2).
  - rewrite app_length, C1. lia.
  - exists s2. unfold bind. rewrite E1. rewrite <- app_assoc in HA2.
    splits; try (apply HA2); auto; congruence.
Qed.

Lemma reads_bindo : forall A B (f : M (option A)) (g : A -> M (option B)) a b bs1 bs2,
  reads f (Some a) bs1 -> reads (g a) b bs2 -> reads (bindo f g) b (bs1 ++ bs2).
Proof. intros. unfold bindo. eapply reads_bind; eauto. Qed.

Lemma writes_eq : forall A (f : M A) a bs bs', writes f a bs -> bs = bs' -> writes f a bs'.
Proof. intros; subst; auto. Qed.
Lemma overwrites_eq : forall A (f : M A) a bs bs', overwrites f a bs -> bs = bs' -> overwrites f a bs'.
Proof. intros; subst; auto. Qed.
Lemma reads_eq : forall A (f : M A) a bs bs', reads f a bs -> bs = bs' -> reads f a bs'.
Proof. intros; subst; auto. Qed.

Lemma writes_ext : forall A (f g : M A) a bs, (forall s, f s = g s) -> writes f a bs -> writes g a bs.
Proof.
  unfold writes; intros A f g a bs E H s pre n tl HA HN HL. rewrite <- E. apply H; auto.
Qed.
Lemma reads_ext : forall A (f g : M A) a bs, (forall s, f s = g s) -> reads f a bs -> reads g a bs.
Proof.
  unfold reads; intros A f g a bs E H s pre rest HA HN. rewrite <- E. apply H; auto.
Qed.

Lemma writes_pure_l : forall A B (f : M A) (g : A -> M B) a b bs,
  (forall s, f s = Ok (a, s)) -> writes (g a) b bs -> writes (bind f g) b bs.
Proof.
  intros. apply (writes_ext _ (g a)); auto. intros. unfold bind. rewrite H. reflexivity.
Qed.
Lemma overwrites_pure_l : forall A B (f : M A) (g : A -> M B) a b bs,
  (forall s, f s = Ok (a, s)) -> overwrites (g a) b bs -> overwrites (bind f g) b bs.
Proof.
  unfold overwrites; intros A B f g a b bs E H s pre old rest HA HL HN.
  unfold bind. rewrite E. eapply H; eauto.
Qed.
Lemma reads_pure_l : forall A B (f : M A) (g : A -> M B) a b bs,
  (forall s, f s = Ok (a, s)) -> reads (g a) b bs -> reads (bind f g) b bs.
Proof.
  intros. apply (reads_ext _ (g a)); auto. intros. unfold bind. rewrite H. reflexivity.
Qed.

Ltac run := unfold bind, get, set_cur, ret, lift, rd, wr, tbl, step_bit, check_stream, massert;
            cbn [buf count curByte curBit].

(** ** Single bits *)
Lemma nthZ_masks : forall cb, 0 <= cb < 8 -> nthZ masks cb = Ok (2 ^ (7 - cb)).
Proof. intros. cst8 cb; reflexivity. Qed.
Lemma nthZ_masksb : forall k, 0 <= k < 9 -> nthZ masksb k = Ok (2 ^ k - 1).
Proof.
  intros. assert (k = 8 \/ 0 <= k < 8) as [->|] by lia; [reflexivity|]. cst8 k; reflexivity.
Qed.

Lemma byte_setbit : forall b cb pb old tb v,
  is_byte b -> 0 <= cb < 8 -> bits_of_byte b = pb ++ [old] ++ tb -> Z.of_nat (length pb) = cb ->
  let b' := (if (v:bool) then Z.lor b (2 ^ (7 - cb)) else Z.land b (bnot (2 ^ (7 - cb)))) in
  is_byte b' /\ bits_of_byte b' = pb ++ [v] ++ tb.
Proof.
  intros b cb pb old tb v B C E L b'. subst b'.
  cst8 cb; lst pb;
  match goal with |- context[bnot ?x] => let y := eval cbv in (bnot x) in change (bnot x) with y end;
  match goal with |- context[2 ^ ?x] => let y := eval cbv in (2^x) in change (2^x) with y end;
  (split; [destruct v; isbyte|]); destruct v; solve_byte E.
Qed.

Lemma overwrites_AppendBit : forall c v, overwrites (BitStream_AppendBit c v) tt [v].
Proof.
  intros c v s pre old rest (F & E & L & C) LO LE.
  destruct (mem_write (buf s) pre old rest [v] (curByte s) (curBit s)) as
    (b & pb & tb & HN & B & EB & LP & [HI RR] & HW); auto; try (cbn [length]; unfold pos in *; lia).
  destruct old as [|o [|]]; try discriminate.
  destruct (byte_setbit b (curBit s) pb o tb v B C EB LP) as [B' EB'].
  destruct (HW _ B' EB') as (m' & HU & F' & E' & L').
  unfold BitStream_AppendBit. run. rewrite (nthZ_masks _ C); run; rewrite HN; run; rewrite HU; cbn [buf count curByte curBit].
  unfold in_stream. unfold pos in *. cbn [length] in *.
  destruct (curBit s <? 7) eqn:EC; cbn [buf count curByte curBit].
  - replace (curByte s * 8 + (curBit s + 1) <=? count s * 8) with true by lia. cbn [orb].
    eexists; split; [reflexivity|]. unfold at_, pos; cbn [buf count curByte curBit].
    rewrite <- app_assoc, app_length. cbn [length app]. splits; auto; lia.
  - replace ((curByte s + 1) * 8 + 0 <=? count s * 8) with true by lia. cbn [orb].
    eexists; split; [reflexivity|]. unfold at_, pos; cbn [buf count curByte curBit].
    rewrite <- app_assoc, app_length. cbn [length app]. splits; auto; lia.
Qed.

Lemma AppendBitOne_eq : forall c s, BitStream_AppendBitOne c s = BitStream_AppendBit c true s.
Proof. reflexivity. Qed.
Lemma AppendBitZero_eq : forall c s, BitStream_AppendBitZero c s = BitStream_AppendBit c false s.
Proof. reflexivity. Qed.

Lemma overwrites_ext : forall A (f g : M A) a bs, (forall s, f s = g s) -> overwrites f a bs -> overwrites g a bs.
Proof.
  unfold overwrites; intros A f g a bs E H s pre old rest HA HN HL. rewrite <- E. eapply H; eauto.
Qed.

Lemma overwrites_AppendBitOne : forall c, overwrites (BitStream_AppendBitOne c) tt [true].
Proof. intros. apply (overwrites_ext _ (BitStream_AppendBit c true)); auto using overwrites_AppendBit. Qed.
Lemma overwrites_AppendBitZero : forall c, overwrites (BitStream_AppendBitZero c) tt [false].
Proof. intros. apply (overwrites_ext _ (BitStream_AppendBit c false)); auto using overwrites_AppendBit. Qed.

(** Testing one bit. *)
Lemma land_pow2_testbit : forall b i, 0 <= i -> negb (Z.land b (2 ^ i) =? 0) = Z.testbit b i.
Proof.
  intros. destruct (Z.testbit b i) eqn:T.
  - assert (Z.land b (2^i) <> 0).
    { intro E. assert (Z.testbit (Z.land b (2^i)) i = false) by (rewrite E; apply Z.testbit_0_l).
      rewrite Z.land_spec, T, Z.pow2_bits_true in H0 by lia. discriminate. }
    lia.
  - assert (Z.land b (2^i) = 0); [|lia].
    apply Z.bits_inj'. intros j Hj. rewrite Z.land_spec, Z.testbit_0_l.
    rewrite Z.pow2_bits_eqb by lia. destruct (i =? j) eqn:E; [|apply andb_false_r].
    apply Z.eqb_eq in E. subst. rewrite T. reflexivity.
Qed.

Lemma bits_of_byte_nth : forall b pb v tb cb, bits_of_byte b = pb ++ v :: tb ->
  Z.of_nat (length pb) = cb -> 0 <= cb < 8 /\ Z.testbit b (7 - cb) = v.
Proof.
  intros b pb v tb cb E L.
  assert (LL : length (bits_of_byte b) = length (pb ++ v :: tb)) by congruence.
  rewrite len_bits_of_byte, app_length in LL. cbn [length] in LL.
  split; [lia|]. assert (0 <= cb < 8) by lia.
  cst8 cb; lst pb; cbn in E; injection E; intros; cbn; congruence.
Qed.

Lemma reads_ReadBit : forall v, reads BitStream_ReadBit (true, v) [v].
Proof.
  intros v s pre rest (F & E & L & C) LE. cbn [length] in LE.
  destruct (mem_write (buf s) pre [v] rest [v] (curByte s) (curBit s)) as
    (b & pb & tb & HN & B & EB & LP & [HI RR] & HW); auto; try (cbn [length]; unfold pos in *; lia).
  destruct (bits_of_byte_nth _ _ _ _ _ EB LP) as [_ T].
  unfold BitStream_ReadBit. run. rewrite (nthZ_masks _ C); run; rewrite HN; run.
  rewrite land_pow2_testbit, T by lia. unfold in_stream. unfold pos in *.
  destruct (curBit s <? 7) eqn:EC; cbn [buf count curByte curBit].
  - replace (curByte s * 8 + (curBit s + 1) <=? count s * 8) with true by lia.
    eexists; split; [reflexivity|]. unfold at_, pos; cbn [buf count curByte curBit].
    rewrite <- app_assoc, app_length. cbn [length app]. splits; auto; lia.
  - replace ((curByte s + 1) * 8 + 0 <=? count s * 8) with true by lia.
    eexists; split; [reflexivity|]. unfold at_, pos; cbn [buf count curByte curBit].
    rewrite <- app_assoc, app_length. cbn [length app]. splits; auto; lia.
Qed.

Lemma PeekBit_spec : forall s pre v rest, at_ s pre (v :: rest) -> BitStream_PeekBit s = Ok (v, s).
Proof.
  intros s pre v rest (F & E & L & C).
  destruct (mem_write (buf s) pre [v] rest [v] (curByte s) (curBit s)) as
    (b & pb & tb & HN & B & EB & LP & [HI RR] & HW); auto; try (cbn [length]; unfold pos in *; lia).
  destruct (bits_of_byte_nth _ _ _ _ _ EB LP) as [_ T].
  unfold BitStream_PeekBit. run. rewrite (nthZ_masks _ C); run; rewrite HN; run.
  rewrite land_pow2_testbit, T by lia. reflexivity.
Qed.

(** ** Runs of zeros: only moves the cursor. *)
Lemma writes_AppendNBitZero : forall k, 0 <= k -> writes (BitStream_AppendNBitZero k) tt (zeros (Z.to_nat k)).
Proof.
  intros k K s pre n tl (F & E & L & C) HN HL. rewrite len_zeros in HL.
  unfold BitStream_AppendNBitZero. run. unfold pos in *.
  rewrite Z.quot_div_nonneg, Z.rem_mod_nonneg by lia.
  destruct (curByte s + (curBit s + k) / 8 <=? count s) eqn:EC; [|lia].
  eexists; split; [reflexivity|]. unfold at_, pos; cbn [buf count curByte curBit].
  rewrite app_length, len_zeros. splits; auto; try lia.
  rewrite E, <- app_assoc. f_equal. rewrite app_assoc, <- zeros_app. do 2 f_equal. lia.
Qed.

(** ** Bytes *)
Lemma bnot_mask : forall k, 0 <= k <= 8 -> bnot (2 ^ k - 1) = 256 - 2 ^ k.
Proof. intros. assert (k = 8 \/ 0 <= k < 8) as [->|] by lia; [reflexivity|]. cst8 k; reflexivity. Qed.
Lemma bnot_mask2 : forall k, 0 <= k <= 8 -> bnot (256 - 2 ^ k) = 2 ^ k - 1.
Proof. intros. assert (k = 8 \/ 0 <= k < 8) as [->|] by lia; [reflexivity|]. cst8 k; reflexivity. Qed.

Ltac evc := repeat match goal with
  | |- context[2 ^ ?x] => let y := eval cbv in (2^x) in change (2^x) with y
  | |- context[(?a - ?b)%Z] => is_ground a; is_ground b; let y := eval cbv in (a-b) in change (a-b) with y
  | |- context[Z.to_nat ?a] => is_ground a; let y := eval cbv in (Z.to_nat a) in change (Z.to_nat a) with y
  | |- context[Z.of_nat ?a] => is_ground a; let y := eval cbv in (Z.of_nat a) in change (Z.of_nat a) with y
  end.

(** First byte of an appended byte: the low 8-cb bits of the old byte are
    replaced by the high bits of v. *)
Lemma byte_hi : forall b v cb pb old, is_byte b -> is_byte v -> 0 <= cb < 8 ->
  bits_of_byte b = pb ++ old ++ [] -> Z.of_nat (length pb) = cb ->
  let b' := Z.lor (Z.land b (256 - 2 ^ (8 - cb))) (byte_of (Z.shiftr v cb)) in
  is_byte b' /\ bits_of_byte b' = pb ++ Zbits (Z.to_nat (8 - cb)) (Z.shiftr v cb) ++ [].
Proof.
  intros b v cb pb old B V C E L b'. subst b'.
  assert (LL : length (bits_of_byte b) = length (pb ++ old ++ [])) by congruence.
  rewrite len_bits_of_byte, !app_length in LL. cbn [length] in LL.
  cst8 cb; lst pb; evc; lst old; (split; [isbyte|]); solve_byte E.
Qed.

(** Second byte: the high cb bits of the next byte are replaced by the low bits
    of v. *)
Lemma byte_lo : forall b v cb old tb, is_byte b -> is_byte v -> 0 < cb < 8 ->
  bits_of_byte b = [] ++ old ++ tb -> Z.of_nat (length old) = cb ->
  let b' := Z.lor (Z.land b (2 ^ (8 - cb) - 1)) (byte_of (Z.shiftl v (8 - cb))) in
  is_byte b' /\ bits_of_byte b' = [] ++ Zbits (Z.to_nat cb) v ++ tb.
Proof.
  intros b v cb old tb B V C E L b'. subst b'.
  assert (LL : length (bits_of_byte b) = length ([] ++ old ++ tb)) by congruence.
  rewrite len_bits_of_byte, !app_length in LL. cbn [length] in LL.
  cst8 cb; try lia; lst old; evc; lst tb; (split; [isbyte|]); solve_byte E.
Qed.

Lemma Zbits8_split : forall v cb, 0 <= cb <= 8 ->
  Zbits 8 v = Zbits (Z.to_nat (8 - cb)) (Z.shiftr v cb) ++ Zbits (Z.to_nat cb) v.
Proof.
  intros. replace 8%nat with (Z.to_nat (8 - cb) + Z.to_nat cb)%nat by lia.
  rewrite Zbits_app. rewrite Z2Nat.id by lia. reflexivity.
Qed.

Definition put_hi (b v cb : Z) : Z := Z.lor (Z.land b (256 - 2 ^ (8 - cb))) (byte_of (Z.shiftr v cb)).
Definition put_lo (b v cb : Z) : Z := Z.lor (Z.land b (2 ^ (8 - cb) - 1)) (byte_of (Z.shiftl v (8 - cb))).

(** Writing a whole byte at any bit offset. *)
Lemma mem_byte : forall m pre old rest i cb v,
  Forall is_byte m -> bits_of_bytes m = pre ++ old ++ rest -> length old = 8%nat ->
  Z.of_nat (length pre) = 8 * i + cb -> 0 <= cb < 8 -> is_byte v ->
  exists b m1, nthZ m i = Ok b /\ updZ m i (put_hi b v cb) = Ok m1 /\ length m1 = length m /\
    (is_byte b /\ exists pb, bits_of_byte b = pb ++ firstn (Z.to_nat (8 - cb)) old /\ Z.of_nat (length pb) = cb) /\
    (cb = 0 -> Forall is_byte m1 /\ bits_of_bytes m1 = pre ++ Zbits 8 v ++ rest) /\
    (0 < cb -> exists b2 m2, nthZ m1 (i + 1) = Ok b2 /\ updZ m1 (i + 1) (put_lo b2 v cb) = Ok m2 /\
       length m2 = length m /\ Forall is_byte m2 /\ bits_of_bytes m2 = pre ++ Zbits 8 v ++ rest /\
       is_byte b2 /\ exists tb r', rest = tb ++ r' /\ bits_of_byte b2 = skipn (Z.to_nat (8 - cb)) old ++ tb).
Proof.
  intros m pre old rest i cb v F E LO LP C V.
  set (n1 := Z.to_nat (8 - cb)).
  assert (SO : old = firstn n1 old ++ skipn n1 old) by (symmetry; apply firstn_skipn).
  assert (L1 : length (firstn n1 old) = n1) by (rewrite firstn_length; lia).
  assert (L2 : length (skipn n1 old) = Z.to_nat cb) by (rewrite skipn_length; lia).
  destruct (mem_write m pre (firstn n1 old) (skipn n1 old ++ rest) (Zbits n1 (Z.shiftr v cb)) i cb)
    as (b & pb & tb & HN & B & EB & LPB & [HI RR] & HW); auto; try (rewrite ?len_Zbits; lia).
  { rewrite (app_assoc (firstn _ _)), <- SO. auto. }
  assert (tb = []).
  { assert (LL : length (bits_of_byte b) = length (pb ++ firstn n1 old ++ tb)) by congruence.
    rewrite len_bits_of_byte, !app_length in LL. destruct tb; auto. cbn [length] in LL. lia. }
  subst tb.
  destruct (byte_hi b v cb pb (firstn n1 old) B V C EB LPB) as [B' EB'].
  destruct (HW _ B' EB') as (m1 & HU & F1 & E1 & LM1).
  exists b, m1. unfold put_hi. splits; auto.
  - exists pb. rewrite app_nil_r in EB. auto.
  - intros ->. splits; auto. rewrite E1. f_equal. rewrite (Zbits8_split v 0) by lia.
    cbn [Z.to_nat Zbits]. rewrite app_nil_r. destruct (skipn n1 old); [reflexivity|cbn in L2; lia].
  - intros C0.
    destruct (mem_write m1 (pre ++ Zbits n1 (Z.shiftr v cb)) (skipn n1 old) rest (Zbits (Z.to_nat cb) v) (i+1) 0)
      as (b2 & pb2 & tb2 & HN2 & B2 & EB2 & LPB2 & [HI2 RR2] & HW2); auto; try (rewrite ?app_length, ?len_Zbits; lia).
    { rewrite E1, <- app_assoc. reflexivity. }
    destruct pb2; [|cbn in LPB2; lia].
    destruct (byte_lo b2 v cb (skipn n1 old) tb2 B2 V) as [B2' EB2']; auto; try lia.
    destruct (HW2 _ B2' EB2') as (m2 & HU2 & F2 & E2 & LM2).
    exists b2, m2. unfold put_lo. splits; auto; try congruence.
    2:{ destruct RR2 as [r' ->]. exists tb2, r'. auto. }
    rewrite E2, <- !app_assoc. f_equal. rewrite app_assoc. f_equal. symmetry. apply Zbits8_split. lia.
Qed.

Lemma is_byte_bnot : forall v, is_byte (bnot v).
Proof. intros; apply is_byte_byte_of. Qed.

Lemma Zbits_bnot : forall n v, (n <= 8)%nat -> Zbits n (bnot v) = Zbits n (Z.lnot v).
Proof. intros. apply Zbits_ext. intros. unfold bnot. apply byte_of_testbit. lia. Qed.

Lemma overwrites_AppendByte : forall c v neg, is_byte v ->
  overwrites (BitStream_AppendByte c v neg) tt (Zbits 8 (if neg then Z.lnot v else v)).
Proof.
  intros c v neg V s pre old rest (F & E & L & C) LO LE.
  rewrite len_Zbits in *. unfold pos in *.
  set (w := if neg then bnot v else v).
  assert (W : is_byte w) by (subst w; destruct neg; auto using is_byte_bnot).
  assert (EW : Zbits 8 (if neg then Z.lnot v else v) = Zbits 8 w).
  { subst w. destruct neg; auto. symmetry. apply Zbits_bnot. lia. }
  rewrite EW.
  destruct (mem_byte (buf s) pre old rest (curByte s) (curBit s) w) as
    (b & m1 & HN & HU & LM & HB & HZ & HP); auto.
  unfold BitStream_AppendByte. fold w. run.
  rewrite (nthZ_masksb (8 - curBit s)) by lia. run. rewrite HN. run.
  rewrite bnot_mask, bnot_mask2 by lia.
  fold (put_hi b w (curBit s)). rewrite HU. run. unfold in_stream. run.
  replace ((curByte s + 1) * 8 + curBit s <=? count s * 8) with true by lia. cbn [orb].
  destruct (curBit s =? 0) eqn:E0.
  - destruct HZ as [F1 E1]; [lia|]. eexists; split; [reflexivity|].
    unfold at_, pos; cbn [buf count curByte curBit]. rewrite <- app_assoc, app_length, len_Zbits.
    splits; auto; lia.
  - destruct HP as (b2 & m2 & HN2 & HU2 & LM2 & F2 & E2 & _); [lia|].
    run. rewrite HN2. run. fold (put_lo b2 w (curBit s)). rewrite HU2. eexists; split; [reflexivity|].
    unfold at_, pos; cbn [buf count curByte curBit]. rewrite <- app_assoc, app_length, len_Zbits.
    splits; auto; lia.
Qed.

Lemma overwrites_AppendByte0 : forall v, is_byte v ->
  overwrites (BitStream_AppendByte0 v) true (Zbits 8 v).
Proof.
  intros v V s pre old rest (F & E & L & C) LO LE.
  rewrite len_Zbits in *. unfold pos in *.
  destruct (mem_byte (buf s) pre old rest (curByte s) (curBit s) v) as
    (b & m1 & HN & HU & LM & HB & HZ & HP); auto.
  unfold BitStream_AppendByte0. run.
  rewrite (nthZ_masksb (8 - curBit s)) by lia. run. rewrite HN. run.
  rewrite bnot_mask, bnot_mask2 by lia.
  fold (put_hi b v (curBit s)). rewrite HU. run.
  destruct (curBit s =? 0) eqn:E0.
  - destruct HZ as [F1 E1]; [lia|]. eexists; split; [reflexivity|].
    unfold at_, pos; cbn [buf count curByte curBit]. rewrite <- app_assoc, app_length, len_Zbits.
    splits; auto; lia.
  - destruct HP as (b2 & m2 & HN2 & HU2 & LM2 & F2 & E2 & _); [lia|].
    replace (count s <=? curByte s + 1) with false by lia. run.
    run. rewrite HN2. run. fold (put_lo b2 v (curBit s)). rewrite HU2. eexists; split; [reflexivity|].
    unfold at_, pos; cbn [buf count curByte curBit]. rewrite <- app_assoc, app_length, len_Zbits.
    splits; auto; lia.
Qed.

(** ** Reading a byte *)
Lemma byte_get : forall b1 b2 v cb pb tb, is_byte b1 -> is_byte b2 -> is_byte v -> 0 < cb < 8 ->
  bits_of_byte b1 = pb ++ Zbits (Z.to_nat (8 - cb)) (Z.shiftr v cb) ++ [] -> Z.of_nat (length pb) = cb ->
  bits_of_byte b2 = [] ++ Zbits (Z.to_nat cb) v ++ tb ->
  Z.lor (byte_of (Z.shiftl b1 cb)) (byte_of (Z.shiftr b2 (8 - cb))) = v.
Proof.
  intros b1 b2 v cb pb tb B1 B2 V C E1 L E2.
  apply bits_of_byte_inj; [isbyte|auto|].
  assert (LL : length (bits_of_byte b2) = length ([] ++ Zbits (Z.to_nat cb) v ++ tb)) by congruence.
  rewrite len_bits_of_byte, !app_length, len_Zbits in LL. cbn [length] in LL.
  cst8 cb; try lia; lst pb; evc; lst tb;
  match type of E1 with context[Z.to_nat ?a] => let y := eval cbv in (Z.to_nat a) in change (Z.to_nat a) with y in E1 end;
  match type of E2 with context[Z.to_nat ?a] => let y := eval cbv in (Z.to_nat a) in change (Z.to_nat a) with y in E2 end;
  unfold bits_of_byte in *; cbn [app Zbits] in E1, E2; inj8 E1; inj8 E2;
  repeat match goal with H : context[Z.testbit (Z.shiftr _ _) _] |- _ => rewrite Z.shiftr_spec in H by lia end;
  repeat (apply (f_equal2 (@cons bool)); [ | ]); tb1; hi8; rewrite ?orb_false_r, ?orb_false_l; try reflexivity;
  repeat match goal with H : Z.testbit _ _ = Z.testbit ?x ?e |- _ =>
    let c := eval cbv in e in change e with c in H; generalize H; clear H end; intros; congruence.
Qed.

(** The two bytes that hold 8 consecutive bits. *)
Lemma mem_get : forall m pre rest i cb v,
  Forall is_byte m -> bits_of_bytes m = pre ++ Zbits 8 v ++ rest ->
  Z.of_nat (length pre) = 8 * i + cb -> 0 <= cb < 8 -> is_byte v ->
  exists b, nthZ m i = Ok b /\ is_byte b /\ 0 <= i < Z.of_nat (length m) /\
    (cb = 0 -> b = v) /\
    (0 < cb -> exists b2, nthZ m (i + 1) = Ok b2 /\ i + 1 < Z.of_nat (length m) /\
       Z.lor (byte_of (Z.shiftl b cb)) (byte_of (Z.shiftr b2 (8 - cb))) = v).
Proof.
  intros m pre rest i cb v F E LP C V.
  set (n1 := Z.to_nat (8 - cb)).
  rewrite (Zbits8_split v cb) in E by lia. rewrite <- app_assoc in E. fold n1 in E.
  destruct (mem_write m pre (Zbits n1 (Z.shiftr v cb)) (Zbits (Z.to_nat cb) v ++ rest) (Zbits n1 (Z.shiftr v cb)) i cb)
    as (b & pb & tb & HN & B & EB & LPB & [HI RR] & HW); auto; try (rewrite ?len_Zbits; lia).
  assert (tb = []).
  { assert (LL : length (bits_of_byte b) = length (pb ++ Zbits n1 (Z.shiftr v cb) ++ tb)) by congruence.
    rewrite len_bits_of_byte, !app_length, len_Zbits in LL. destruct tb; auto. cbn [length] in LL. lia. }
  subst tb. exists b. splits; auto; try lia.
  - intros ->. destruct pb; [|cbn in LPB; lia]. apply bits_of_byte_inj; auto.
  - intros C0.
    destruct (mem_write m (pre ++ Zbits n1 (Z.shiftr v cb)) (Zbits (Z.to_nat cb) v) rest (Zbits (Z.to_nat cb) v) (i+1) 0)
      as (b2 & pb2 & tb2 & HN2 & B2 & EB2 & LPB2 & [HI2 RR2] & HW2); auto; try (rewrite ?app_length, ?len_Zbits; lia).
    { rewrite E, <- app_assoc. reflexivity. }
    destruct pb2; [|cbn in LPB2; lia].
    exists b2. splits; auto; try lia. eapply byte_get; eauto; lia.
Qed.

Lemma byte_of_shiftl0 : forall v, is_byte v -> byte_of (Z.shiftl v 0) = v.
Proof. intros. rewrite Z.shiftl_0_r. apply byte_of_id; auto. Qed.

Lemma reads_ReadByte : forall v, is_byte v -> reads BitStream_ReadByte (Some v) (Zbits 8 v).
Proof.
  intros v V s pre rest (F & E & L & C) LE. rewrite len_Zbits in *. unfold pos in *.
  destruct (mem_get (buf s) pre rest (curByte s) (curBit s) v) as (b & HN & B & HI & HZ & HP); auto.
  unfold BitStream_ReadByte. run.
  replace (count s - curByte s <? (if 0 <? curBit s then 2 else 1)) with false
    by (destruct (0 <? curBit s) eqn:?; lia).
  run. rewrite HN. run.
  destruct (0 <? curBit s) eqn:E0.
  - destruct HP as (b2 & HN2 & HI2 & EV); [lia|]. run. rewrite HN2. run. rewrite EV.
    eexists; split; [reflexivity|]. unfold at_, pos; cbn [buf count curByte curBit].
    rewrite <- app_assoc, app_length, len_Zbits. splits; auto; lia.
  - rewrite HZ by lia. replace (curBit s) with 0 by lia. rewrite byte_of_shiftl0 by auto.
    eexists; split; [reflexivity|]. unfold at_, pos; cbn [buf count curByte curBit].
    rewrite <- app_assoc, app_length, len_Zbits. splits; auto; lia.
Qed.

