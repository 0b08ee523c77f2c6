(** The generated ACN decoders accept only encodings: contract and leaves. *)
From Verif Require Import Base Bits BitStream BitsProofs BitStreamProofs BitStreamProofs2 BitStreamProofs3 Ints IntsProofs SafeProofs RangeProofs
  StrSpec Octets OctetsProofs OctetsProofs2 Contracts Parse ParseProofs Misc MiscProofs RealSpec RealC RealProofs
  UperTypes UperSpec Uper UperWf UperClasses UperShape UperProofs1 UperProofs2 UperProofs3 UperProofs5 UperProofs6 UperProofs7 UperCanon UperCanonProofs
  Acn AcnStr AcnReal AcnSpec AcnProofs3 AcnProofs6 AcnProofs7 AcnGen AcnGenSpec AcnGenProofs1 AcnGenProofs2 AcnGenProofs3 AcnGenProofs4 AcnGenParse
  AcnGenShape AcnGenProofs7 AcnGenProofs8 AcnCanon.
From Coq Require Import ZifyBool ZifyNat Sorting.Sorted Logic.FinFun.
Ltac Zify.zify_post_hook ::= Z.div_mod_to_equations.

(** ** Contract: the bits consumed by a successful run are related to the result *)
Definition yields {A} (f : M (option A)) (ok : A -> Prop) (P : A -> Z -> list bool -> Prop) : Prop :=
  forall s a s', wfp s -> f s = Ok (Some a, s') -> ok a ->
    exists pre bs rest, at_ s pre (bs ++ rest) /\ at_ s' (pre ++ bs) rest /\ wfp s' /\ buf s' = buf s /\ count s' = count s /\
      P a (blen pre) bs.

Lemma yields_of : forall {A} (f : M (option A)) (ok : A -> Prop) P (Q : A -> Z -> list bool -> Prop), parses f P ->
  (forall a bs p, ok a -> P a bs -> Q a p bs) -> yields f ok Q.
Proof.
  intros A f ok P Q HP HQ s a s' HW E HO. destruct (HP s a s' HW E) as (pre & bs & rest & A1 & L1 & R1 & Pa & P1).
  destruct (parses_state f s a s' pre bs rest HW E A1 L1 R1) as (A2 & W2 & B2 & C2). exists pre, bs, rest. splits; auto.
Qed.
Lemma yields_weaken : forall {A} (f : M (option A)) (ok ok' : A -> Prop) (P Q : A -> Z -> list bool -> Prop), yields f ok P ->
  (forall a, ok' a -> ok a) -> (forall a p bs, ok' a -> P a p bs -> Q a p bs) -> yields f ok' Q.
Proof.
  intros A f ok ok' P Q HP H1 H2 s a s' HW E HO. destruct (HP s a s' HW E (H1 a HO)) as (pre & bs & rest & H).
  exists pre, bs, rest. intuition.
Qed.
Lemma yields_ext : forall {A} (f g : M (option A)) ok P, (forall s, f s = g s) -> yields f ok P -> yields g ok P.
Proof. intros A f g ok P HE HP s a s' HW E. rewrite <- HE in E. eapply HP; eauto. Qed.
Lemma yields_none : forall {A} ok (P : A -> Z -> list bool -> Prop), yields (ret None) ok P.
Proof. intros A ok P s a s' _ E. discriminate E. Qed.
Lemma yields_ub : forall {A} ok (P : A -> Z -> list bool -> Prop), yields ub ok P.
Proof. intros A ok P s a s' _ E. discriminate E. Qed.
Lemma yields_ret : forall {A} (a : A) (ok : A -> Prop) (P : A -> Z -> list bool -> Prop), (forall p, ok a -> P a p []) -> yields (ret (Some a)) ok P.
Proof.
  intros A a ok P H. eapply yields_of with (P := fun x bs => x = a /\ bs = []); [apply parses_ret; auto|].
  intros x bs p HO [-> ->]. auto.
Qed.
Lemma yields_bindo : forall {A B} (f : M (option A)) (g : A -> M (option B)) (P : A -> Z -> list bool -> Prop) (okA : A -> Prop) (okB : B -> Prop) (Q : B -> Z -> list bool -> Prop), yields f okA P ->
  (forall a p bs, okA a -> P a p bs -> yields (g a) okB (fun b q bs2 => q = p + blen bs -> Q b p (bs ++ bs2))) ->
  (forall a s b s', g a s = Ok (Some b, s') -> okB b -> okA a) ->
  yields (let? x := f in g x) okB Q.
Proof.
  intros A B f g P okA okB Q HF HG HN s b s' HW E HO. unfold bindo, bind in E.
  destruct (f s) as [[[a|] s1]| | |] eqn:E1; try discriminate. pose proof (HN _ _ _ _ E HO) as Oa.
  destruct (HF s a s1 HW E1 Oa) as (pre & bs1 & rest & A1 & A2 & W2 & B2 & C2 & Pa).
  destruct (HG a _ _ Oa Pa s1 b s' W2 E HO) as (pre2 & bs2 & rest2 & A3 & A4 & W3 & B3 & C3 & Pb).
  destruct (at_uniq _ _ _ _ _ A2 A3) as [<- ->].
  exists pre, (bs1 ++ bs2), rest2. rewrite app_assoc, <- app_assoc. splits; auto; try congruence.
  apply Pb. apply blen_app.
Qed.
Lemma yields_then : forall {A B} (f : M (option A)) (g : A -> M (option B)) P (okB : B -> Prop) (Q : B -> Z -> list bool -> Prop), parses f P ->
  (forall a bs p, P a bs -> yields (g a) okB (fun b q bs2 => q = p + blen bs -> Q b p (bs ++ bs2))) ->
  yields (let? x := f in g x) okB Q.
Proof.
  intros A B f g P okB Q HF HG. eapply yields_bindo with (okA := fun _ => True); [eapply yields_of with (Q := fun a _ bs => P a bs); eauto| |]; auto.
Qed.
Lemma yields_map : forall {A B} (f : M (option A)) (mk : A -> option B) (okA : A -> Prop) (okB : B -> Prop) P (Q : B -> Z -> list bool -> Prop), yields f okA P ->
  (forall a b, mk a = Some b -> okB b -> okA a) -> (forall a b p bs, mk a = Some b -> okB b -> okA a -> P a p bs -> Q b p bs) ->
  yields (let? x := f in ret (mk x)) okB Q.
Proof.
  intros A B f mk okA okB P Q HF H1 H2. eapply yields_bindo; [exact HF| |].
  - intros a p bs Oa Pa. destruct (mk a) as [b|] eqn:E; [|apply yields_none]. apply yields_ret. intros q Ob _. rewrite app_nil_r. eauto.
  - intros a s b s' E HO. unfold ret in E. injection E as E _. eauto.
Qed.
Lemma yields_pure : forall {A B} (f : M A) (g : A -> M (option B)) a ok Q, (forall s, f s = Ok (a, s)) ->
  yields (g a) ok Q -> yields (let* x := f in g x) ok Q.
Proof. intros A B f g a ok Q H HP. eapply yields_ext; [|exact HP]. intros s. unfold bind. now rewrite H. Qed.
Lemma yields_lift : forall {A B} (o : outcome A) (g : A -> M (option B)) ok Q, (forall a, o = Ok a -> yields (g a) ok Q) ->
  yields (let* x := lift o in g x) ok Q.
Proof.
  intros A B o g ok Q H. destruct o as [a| | |]; try (intros ? ? ? _ HX; discriminate HX).
  eapply yields_pure; [intros; reflexivity|auto].
Qed.
Lemma yields_ext_int : forall {B} d e (g : Z -> M (option B)) ok Q, (forall x, lookup d e = Some (VInt x) -> yields (g x) ok Q) ->
  yields (let* x := ext_int d e in g x) ok Q.
Proof.
  intros B d e g ok Q H. unfold ext_int. destruct (lookup d e) as [[]|]; try (intros ? ? ? _ HX; discriminate HX).
  eapply yields_pure; [intros; reflexivity|apply H; reflexivity].
Qed.
Lemma yields_items : forall {A} (f : bool -> M (option A)) (ok : A -> Prop) P cap, yields (f true) ok P -> forall k i,
  yields (dec_items f cap k i) (Forall ok) (fun l p bs => length l = k /\ exists bss, bs = concat bss /\ items_encode P l p bss).
Proof.
  intros A f ok P cap HF. induction k; intros i; cbn [dec_items].
  { apply yields_ret. intros p _. split; auto. exists []. split; reflexivity. }
  destruct (cap <=? i); [apply yields_ub|]. eapply yields_bindo; [exact HF| |].
  - intros a p bs Oa Pa. eapply yields_map; [apply IHk| |].
    + intros l b [= <-] H. inversion H; auto.
    + intros l b q bs2 [= <-] _ _ (HL & bss & -> & HI) ->. cbn [length]. split; [lia|]. exists (bs :: bss). cbn [concat items_encode]. auto.
  - intros a s b s' E HO. unfold bindo, bind in E. destruct (dec_items f cap k (i + 1) s) as [[[l|] s1]| | |]; try discriminate.
    unfold ret in E. injection E as <- _. inversion HO; auto.
Qed.

(** ** Terminated lists *)
Section NullYields.
Variables (A : Type) (f : M (option A)) (ok : A -> Prop) (P : A -> Z -> list bool -> Prop) (after : A -> option Z) (pat : list Z) (n : Z).
Hypothesis HP : exact_pat pat n.
Hypothesis HF : yields f ok P.
Hypothesis HN : forall x, after x = None.
Let pb := take_bits n pat.

Lemma null_loop_yields : forall k chk s pre rest r l s', wfp s -> at_ s pre rest ->
  null_loop f after pat n k chk s = Ok (Some (r, l), s') -> Forall ok l ->
  r = 0 \/
  (exists bss t rest', rest = concat bss ++ t ++ rest' /\ at_ s' (pre ++ concat bss ++ t) rest' /\ wfp s' /\ buf s' = buf s /\ count s' = count s /\
     items_encode P l (blen pre) bss /\ (length l <= k)%nat /\ not_yet pat n bss (t ++ rest') /\
     ((r = 2 /\ t = pb /\ (length l < k)%nat) \/ (t = [] /\ length l = k /\ r = match l with [] => chk | _ => 1 end))).
Proof.
  induction k; intros chk s pre rest r l s' HW HA E HO; cbn [null_loop] in E.
  - unfold ret in E. injection E as <- <- <-. right. exists [], [], rest. cbn [concat app items_encode length]. rewrite app_nil_r.
    splits; auto; try lia. intros i Hi. cbn in Hi. lia.
  - unfold bind in E. destruct (BitStream_checkBitPatternPresent pat n s) as [[q s1]| | |] eqn:EC; try discriminate.
    destruct (check_wfp _ _ _ _ _ _ _ HP HW HA EC) as [->|[(-> & -> & HD)|(-> & rest' & -> & A1 & B1 & C1 & W1 & L1)]].
    + change (0 =? 1) with false in E. cbv iota in E. unfold ret in E. injection E as <- _ _. auto.
    + change (1 =? 1) with true in E. cbv iota in E. unfold bindo, bind in E.
      destruct (f s) as [[[x|] s1]| | |] eqn:EF; try discriminate. rewrite HN in E.
      destruct (null_loop f after pat n k 1 s1) as [[[[r' l']|] s2]| | |] eqn:EL; try discriminate.
      unfold ret in E. cbn [fst snd] in E. injection E as <- <- <-.
      destruct (HF s x s1 HW EF (Forall_inv HO)) as (pre1 & b & rest1 & A1 & A2 & W2 & B2 & C2 & P1).
      destruct (at_uniq _ _ _ _ _ HA A1) as [<- ->].
      destruct (IHk 1 s1 (pre ++ b) rest1 r' l' s2 W2 A2 EL (Forall_inv_tail HO)) as
        [->|(bss & t & rest' & -> & A3 & W3 & B3 & C3 & I3 & K3 & N3 & D3)]; [auto|]. right.
      exists (b :: bss), t, rest'. cbn [concat items_encode length].
      splits; auto; try congruence; try lia.
      * now rewrite <- app_assoc.
      * rewrite <- !app_assoc in *. exact A3.
      * rewrite <- blen_app. exact I3.
      * intros [|i] Hi; cbn [skipn concat].
        -- rewrite <- app_assoc. exact HD.
        -- apply N3. cbn [length] in Hi. lia.
      * destruct D3 as [(-> & -> & D3)|(-> & D3 & ->)]; [left; splits; auto; lia|right; splits; auto].
        destruct l'; reflexivity.
    + change (2 =? 1) with false in E. cbv iota in E. unfold ret in E. injection E as <- <- <-. right.
      exists [], pb, rest'. cbn [concat app items_encode length]. fold pb in A1 |- *. splits; auto; try lia.
      * intros i Hi. cbn in Hi. lia.
      * left. splits; auto. lia.
Qed.
Lemma yields_null_dec : forall max (mk : list A -> value) (okv : value -> Prop), 1 <= max ->
  (forall l, okv (mk l) -> Forall ok l) -> ~ okv VJunk -> yields (null_dec f after pat n max mk) okv
    (fun v p bs => exists l bss, v = mk l /\ Z.of_nat (length l) <= max /\ bs = concat bss ++ pb /\ items_encode P l p bss /\ no_early pb bss).
Proof.
  intros max mk okv HM HK HJ s v s' HW E HO. unfold null_dec, bindo, bind in E.
  destruct (wfp_at s HW) as (pre & rest & HA & _ & _).
  destruct (null_loop f after pat n (Z.to_nat max) 0 s) as [[[[r l]|] s1]| | |] eqn:EL; try discriminate. cbn [fst snd] in E.
  assert (HV : v = mk l).
  { destruct (_ && _).
    - destruct (BitStream_checkBitPatternPresent pat n s1) as [[q s2]| | |]; try discriminate. unfold ret in E.
      destruct (q =? 0); [discriminate|]. destruct (q =? 2); injection E as <- _; [auto|contradiction].
    - unfold ret in E. destruct (r =? 0); [discriminate|]. destruct (r =? 2); injection E as <- _; [auto|contradiction]. }
  subst v. specialize (HK l HO).
  destruct (null_loop_yields _ _ _ _ _ _ _ _ HW HA EL HK) as [->|(bss & t & rest' & -> & A1 & W1 & B1 & C1 & I1 & K1 & N1 & D1)].
  { change (0 =? 1) with false in E. rewrite Bool.andb_false_r in E. unfold ret in E. discriminate. }
  destruct D1 as [(-> & -> & D1)|(-> & D1 & ->)].
  - change (2 =? 1) with false in E. rewrite Bool.andb_false_r in E. unfold ret in E. change (2 =? 0) with false in E.
    change (2 =? 2) with true in E. cbv iota in E. injection E as <-.
    exists pre, (concat bss ++ pb), rest'. splits; auto.
    + now rewrite <- app_assoc.
    + exists l, bss. splits; auto; [lia|]. eapply not_yet_early; eauto.
  - destruct l as [|x l]; [cbn [length] in D1; lia|]. change (1 =? 1) with true in E.
    replace (Z.of_nat (length (x :: l)) =? max) with true in E by lia. cbn [andb] in E.
    destruct (BitStream_checkBitPatternPresent pat n s1) as [[q s2]| | |] eqn:EC; try discriminate.
    destruct (check_wfp _ _ _ _ _ _ _ HP W1 A1 EC) as [->|[(-> & -> & HD)|(-> & rest'' & -> & A2 & B2 & C2 & W2 & L2)]]; unfold ret in E.
    + discriminate.
    + injection E as E _. rewrite <- E in HO. contradiction.
    + injection E as <-. cbn [app] in N1, A1, A2, L2 |- *. rewrite app_nil_r in A1, A2, L2. fold pb in N1, A2, L2 |- *.
      exists pre, (concat bss ++ pb), rest''. splits; auto; try congruence.
      * now rewrite <- app_assoc.
      * now rewrite app_assoc.
      * exists (x :: l), bss. splits; auto; [lia|]. eapply not_yet_early; eauto.
Qed.
End NullYields.

Lemma yields_bit_null : forall c pat n max (ok : value -> Prop), exact_pat pat n -> 1 <= max < 2 ^ 31 ->
  yields (let? p := BitStream_ReadBits_nullterminated c pat n (repeat 0 (Z.to_nat ((max + 7) / 8))) max in
          ret (Some (VBit (take_bits (fst p) (snd p))))) ok
    (fun v _ bs => exists l, v = VBit l /\ Z.of_nat (length l) <= max /\ bs = l ++ take_bits n pat /\ no_early (take_bits n pat) (single_bits l)).
Proof.
  intros c pat n max ok HP HM s v s' HW E _. pose proof (exact_len _ _ HP) as HL. destruct (proj2 HP) as [tl HE].
  destruct (wfp_at s HW) as (pre & rest & HA & HPos & _). set (dst := repeat 0 (Z.to_nat ((max + 7) / 8))) in *.
  destruct (ReadBits_nullterminated_ok c (take_bits n pat) tl dst max s pre rest HW HA) as (r & s1 & E1 & B1 & C1 & L1 & H1 & H2); auto; try lia.
  { unfold dst. apply Forall_forall. intros x Hx. apply repeat_spec in Hx. subst. unfold is_byte. lia. }
  { unfold dst. rewrite repeat_length. lia. }
  rewrite <- HE, HL in E1. set (pb := take_bits n pat) in *.
  destruct (first_or_none pb (remaining s rest) (Z.to_nat max)) as [(j & J1 & J2)|N].
  2:{ rewrite H2 in E1 by (intros j Hj; apply N; lia). unfold bindo, bind in E. rewrite E1 in E. discriminate. }
  destruct (H1 j J2 ltac:(lia)) as (-> & A1 & P1).
  assert (LR : (j + length pb <= Init.Nat.min (Z.to_nat (8 * count s - pos s)) (length rest))%nat).
  { destruct J2 as [J2 J3]. pose proof (f_equal (@length bool) J2) as LJ. unfold remaining in LJ. rewrite firstn_length, skipn_length, firstn_length in LJ.
    destruct (Nat.eq_dec (length pb) 0) as [Z0|]; [|lia]. destruct j as [|j]; [lia|].
    elim (J3 O ltac:(lia)). unfold occurs_at. destruct pb; [reflexivity|discriminate]. }
  set (l := firstn j rest) in *. assert (LJ : length l = j) by (unfold l; rewrite firstn_length; lia).
  assert (LM : (j + length pb <= Z.to_nat (8 * count s - pos s))%nat) by lia.
  assert (HR : rest = l ++ pb ++ skipn (j + length pb) rest).
  { destruct J2 as [J2 _]. unfold occurs_at, remaining in J2. rewrite skipn_firstn_comm, firstn_firstn in J2.
    replace (Init.Nat.min (length pb) (Z.to_nat (8 * count s - pos s) - j)) with (length pb) in J2 by (clear - LM; lia).
    rewrite <- J2 at 1. rewrite <- skipn_skipn', firstn_skipn. unfold l. symmetry. apply firstn_skipn. }
  assert (HF : first_at pb (l ++ pb) (length l)).
  { split; [unfold occurs_at; rewrite HistoryProofs.skipn_app_exact; apply firstn_all|]. intros i Hi HO. rewrite LJ in Hi. apply (proj2 J2 i Hi).
    unfold occurs_at in *. unfold remaining. rewrite HR. rewrite app_assoc.
    set (m := Z.to_nat (8 * count s - pos s)) in *.
    rewrite firstn_app. replace (firstn m (l ++ pb)) with (l ++ pb) by (symmetry; apply firstn_all2; rewrite app_length; lia).
    rewrite skipn_app, firstn_app, skipn_length, app_length.
    replace (length pb - (length l + length pb - i))%nat with O by lia. cbn [firstn]. rewrite app_nil_r. exact HO. }
  set (rest' := skipn (j + length pb) rest) in *. clearbody rest'.
  assert (HE2 : no_early pb (single_bits l)) by now apply first_early.
  assert (RD : readsAt (blen pre) (let? p := BitStream_ReadBits_nullterminated c pat n dst max in ret (Some (VBit (take_bits (fst p) (snd p)))))
    (Some (VBit l)) (l ++ pb)).
  { refine (readsAt_bit c true (SzNull pat n) 0 max [] l _ _ false _ _).
    - unfold wf_szkind, wf_size. splits; auto; lia.
    - cbn [encodes]. exists [], pb. unfold size_field, size_in. splits; auto; try lia. }
  assert (HA2 : at_ s pre ((l ++ pb) ++ rest')) by (rewrite <- app_assoc, <- HR; exact HA).
  assert (LC : Z.of_nat (length pre + length (l ++ pb)) <= 8 * count s) by (rewrite app_length; lia).
  destruct (prefix_state _ s v s' pre (l ++ pb) rest' HW E HA2 LC) as (X1 & X2 & X3 & X4).
  { destruct (RD s pre rest' eq_refl (proj2 (proj2 HW)) HA2 LC) as (s2 & E2 & _). rewrite E in E2. injection E2 as -> _. exact RD. }
  exists pre, (l ++ pb), rest'. splits; auto.
  exists l. splits; auto; [|lia]. destruct (RD s pre rest' eq_refl (proj2 (proj2 HW)) HA2 LC) as (s2 & E2 & _). rewrite E in E2. now injection E2.
Qed.

(** ** Codings *)
Section Wrap.
Variable c : cfg.
Hypothesis Hovf : ovf_wrap c = true.
Hypothesis Hshl : shl_wrap c = true.

Lemma exact_k : forall k w, wf_codec k w -> exact_codec k w -> parses (k_dec c k w) (fun z bs => int_encodes c k w z bs).
Proof.
  intros k w [W HK] HE. assert (SF : forall x, sfits c x) by (intros; right; auto).
  assert (NU : forall f n, (n <= w) -> 0 <= n -> k_signed k = false -> parses f (fun z bs => 0 <= z < 2 ^ n /\ icode k z bs) -> iside c k = (fun _ => True) ->
    signed_coding k = false ->
    parses (if w =? 64 then f else if k_signed k then narrow_s w f else narrow_u w f) (fun z bs => int_encodes c k w z bs)).
  { intros f n Hn H0 Hk HF HI HS. rewrite Hk. unfold int_encodes. rewrite HS. cbn [negb in_class].
    assert (2 ^ n <= 2 ^ w) by (apply Z.pow_le_mono_r; lia).
    destruct (w =? 64).
    - eapply parses_weaken; [|exact HF]. cbv beta. intros z bs [H1 H2]. rewrite HI. splits; auto; lia.
    - unfold narrow_u. eapply (parses_retf _ (fun z => Some (z mod 2 ^ w))); [exact HF|]. cbv beta. intros z bs z' [H1 H2] [= <-].
      rewrite Z.mod_small by lia. rewrite HI. splits; auto; lia. }
  assert (NS : forall f n, (n <= w) -> 1 <= n -> k_signed k = true -> parses f (fun z bs => - 2 ^ (n - 1) <= z < 2 ^ (n - 1) /\ icode k z bs) -> (forall z, iside c k z) ->
    signed_coding k = true ->
    parses (if w =? 64 then f else if k_signed k then narrow_s w f else narrow_u w f) (fun z bs => int_encodes c k w z bs)).
  { intros f n Hn H0 Hk HF HI HS. rewrite Hk. unfold int_encodes. rewrite HS. cbn [negb in_class].
    assert (2 ^ (n - 1) <= 2 ^ (w - 1)) by (apply Z.pow_le_mono_r; lia).
    destruct (w =? 64).
    - eapply parses_weaken; [|exact HF]. cbv beta. intros z bs [H1 H2]. splits; auto; lia.
    - unfold narrow_s. eapply (parses_retf _ (fun z => Some (sN w z))); [exact HF|]. cbv beta. intros z bs z' [H1 H2] [= <-].
      rewrite sN_id by (destruct W as [->|[->|[->| ->]]]; lia). splits; auto; lia. }
  destruct k; cbn [k_dec k_dec64 wf_codec exact_codec] in *; try contradiction.
  - eapply parses_weaken; [|apply canon_int; auto].
    + cbv beta. intros z bs (H1 & H2 & ->). unfold int_encodes. cbn [icode iside signed_coding negb]. auto.
    + cbn. unfold in_class. splits; lia.
  - apply (NU _ n); auto; try lia. eapply parses_weaken; [|apply parses_DecodeNonNeg; lia]. cbv beta. intros z bs (H1 & H2). cbn [icode]. auto.
  - apply (NU _ 8); auto; try lia. eapply parses_weaken; [|apply parses_ReadByte]. cbv beta. intros z bs (H1 & H2). cbn [icode]. unfold is_byte in *.
    change (2 ^ 8) with 256. auto.
  - apply (NU _ (8 * k)); auto; try lia. eapply parses_weaken; [|apply parses_BE; lia]. cbv beta. intros z bs (H1 & H2). cbn [icode]. auto.
  - apply (NU _ (8 * k)); auto; try lia. eapply parses_weaken; [|apply parses_LE; lia]. cbv beta. intros z bs (H1 & H2). cbn [icode]. auto.
  - apply (NS _ n); auto; try lia. + eapply parses_weaken; [|apply parses_Twos; auto]. cbv beta. intros z bs (H1 & H2). cbn [icode]. auto. + cbn [iside]. auto.
  - apply (NS _ 8); auto; try lia. eapply parses_weaken; [|apply parses_I8]. cbv beta. intros z bs (H1 & H2). cbn [icode].
    change (2 ^ (8 - 1)) with 128. auto. 
  - apply (NS _ (8 * k)); auto; try lia. + eapply parses_weaken; [|apply parses_IN_BE; lia]. cbv beta. intros z bs (H1 & H2). cbn [icode]. auto. + cbn [iside]. auto.
  - apply (NS _ (8 * k)); auto; try lia. + eapply parses_weaken; [|apply parses_IN_LE; lia]. cbv beta. intros z bs (H1 & H2). cbn [icode]. auto. + cbn [iside]. auto.
  - assert (HW64 : 2 ^ w <= 2 ^ 64) by (apply Z.pow_le_mono_r; lia).
    assert (HB : parses (Acn_Dec_UInt_ASCII_ConstSize c n) (fun z bs => 0 <= z < 10 ^ n /\ bs = bits_of_bytes (digit_chars (digits (Z.to_nat n) z)))).
    { pose proof (parses_ASCII_U c (Z.to_nat n)) as H. rewrite Z2Nat.id in H by lia. eapply parses_weaken; [|exact H].
      cbv beta. intros z bs (l & H1 & H2 & -> & ->). pose proof (dval_bounds l H2) as HD. rewrite H1, Z2Nat.id in HD by lia.
      unfold u64, two64. rewrite Z.mod_small by lia. split; auto. rewrite <- H1, digits_dval; auto. }
    unfold int_encodes. cbn [signed_coding negb in_class icode iside k_signed].
    destruct (w =? 64).
    + eapply parses_weaken; [|exact HB]. cbv beta. intros z bs [H1 H2]. splits; auto; lia.
    + unfold narrow_u. eapply (parses_retf _ (fun z => Some (z mod 2 ^ w))); [exact HB|]. cbv beta. intros z bs z' [H1 H2] [= <-].
      rewrite Z.mod_small by lia. splits; auto; lia.
Qed.
End Wrap.
