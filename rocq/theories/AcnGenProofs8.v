(** The generated ACN decoders as prefix parsers. *)
From Verif Require Import Base Bits BitStream BitsProofs BitStreamProofs BitStreamProofs2 BitStreamProofs3 Ints IntsProofs SafeProofs RangeProofs
  StrSpec Octets OctetsProofs OctetsProofs2 Contracts Parse ParseProofs Misc MiscProofs RealSpec RealC RealProofs
  UperTypes UperSpec Uper UperWf UperClasses UperShape UperProofs1 UperProofs2 UperProofs3 UperProofs5 UperProofs6 UperProofs7
  Acn AcnStr AcnReal AcnSpec AcnProofs6 AcnProofs7 AcnGen AcnGenSpec AcnGenProofs1 AcnGenProofs2 AcnGenProofs3 AcnGenProofs4 AcnGenParse.
From Coq Require Import ZifyBool ZifyNat Sorting.Sorted Logic.FinFun.
Ltac Zify.zify_post_hook ::= Z.div_mod_to_equations.

Lemma prefix_state : forall {A} (f : M (option A)) s a s' pre bs rest, wfp s -> f s = Ok (Some a, s') ->
  at_ s pre (bs ++ rest) -> Z.of_nat (length pre + length bs) <= 8 * count s -> readsAt (blen pre) f (Some a) bs ->
  at_ s' (pre ++ bs) rest /\ wfp s' /\ buf s' = buf s /\ count s' = count s.
Proof.
  intros A f s a s' pre bs rest HW E HA HL HR. pose proof HW as (HW1 & HW2 & HW3).
  destruct (HR s pre rest eq_refl HW3 HA HL) as (s2 & E2 & HA2 & C2 & B2). rewrite E in E2. injection E2 as <-.
  splits; auto. destruct HA2 as (A1 & A2 & A3 & A4). rewrite app_length in A3. unfold wfp, inside, pos in *. rewrite B2, C2.
  splits; auto; lia.
Qed.
Lemma prefix_of : forall {A} (f : M (option A)) P ok, parses f P -> prefix f ok.
Proof.
  intros A f P ok HP s a s' HW E _. destruct (HP s a s' HW E) as (pre & bs & rest & H1 & H2 & H3 & H4 & H5).
  exists pre, bs, rest. splits; auto. apply readsAt_of; auto.
Qed.
Lemma prefix_ext : forall {A} (f g : M (option A)) ok, (forall s, f s = g s) -> prefix f ok -> prefix g ok.
Proof.
  intros A f g ok HE HP s a s' HW E HO. rewrite <- HE in E. destruct (HP s a s' HW E HO) as (pre & bs & rest & H1 & H2 & H3 & H4).
  exists pre, bs, rest. splits; auto. eapply readsAt_ext; eauto.
Qed.
Lemma prefix_weaken : forall {A} (f : M (option A)) (P Q : A -> Prop), (forall a, Q a -> P a) -> prefix f P -> prefix f Q.
Proof. intros A f P Q H HP s a s' HW E HO. apply (HP s a s' HW E (H a HO)). Qed.
Lemma prefix_none : forall {A} (ok : A -> Prop), prefix (ret None) ok.
Proof. intros A ok. eapply prefix_of. apply parses_none with (P := any2). Qed.
Lemma prefix_ub : forall {A} (ok : A -> Prop), prefix ub ok.
Proof. intros A ok. eapply prefix_of. apply parses_ub with (P := any2). Qed.
Lemma prefix_opt : forall {A} (o : option A) (ok : A -> Prop), prefix (ret o) ok.
Proof. intros A ok o. eapply prefix_of. apply parses_opt. Qed.
Lemma prefix_bindo : forall {A B} (f : M (option A)) (g : A -> M (option B)) P Q, prefix f P ->
  (forall a, P a -> prefix (g a) Q) ->
  (forall a s b s', g a s = Ok (Some b, s') -> Q b -> P a) ->
  prefix (let? x := f in g x) Q.
Proof.
  intros A B f g P Q HF HG HN s b s' HW E HO. unfold bindo, bind in E.
  destruct (f s) as [[[a|] s1]| | |] eqn:E1; try discriminate.
  pose proof (HN _ _ _ _ E HO) as Pa.
  destruct (HF s a s1 HW E1 Pa) as (pre & bs1 & rest & A1 & L1 & R1 & P1).
  destruct (prefix_state f s a s1 pre bs1 rest HW E1 A1 L1 R1) as (A2 & W2 & B2 & C2).
  destruct (HG a Pa s1 b s' W2 E HO) as (pre2 & bs2 & rest2 & A3 & L3 & R3 & P3).
  destruct (at_uniq _ _ _ _ _ A2 A3) as [<- ->].
  exists pre, (bs1 ++ bs2), rest2. splits.
  - now rewrite <- app_assoc.
  - rewrite app_length in *. rewrite C2 in L3. lia.
  - eapply readsAt_bindo; [exact R1|]. rewrite <- blen_app. exact R3.
  - rewrite blen_app. lia.
Qed.
Lemma prefix_then : forall {A B} (f : M (option A)) (g : A -> M (option B)) P Q, parses f P ->
  (forall a bs, P a bs -> prefix (g a) Q) -> prefix (let? x := f in g x) Q.
Proof.
  intros A B f g P Q HF HG s b s' HW E HO. unfold bindo, bind in E.
  destruct (f s) as [[[a|] s1]| | |] eqn:E1; try discriminate.
  destruct (HF s a s1 HW E1) as (pre & bs1 & rest & A1 & L1 & R1 & Pa & P1).
  destruct (parses_state f s a s1 pre bs1 rest HW E1 A1 L1 R1) as (A2 & W2 & B2 & C2).
  destruct (HG a bs1 Pa s1 b s' W2 E HO) as (pre2 & bs2 & rest2 & A3 & L3 & R3 & P3).
  destruct (at_uniq _ _ _ _ _ A2 A3) as [<- ->].
  exists pre, (bs1 ++ bs2), rest2. splits.
  - now rewrite <- app_assoc.
  - rewrite app_length in *. rewrite C2 in L3. lia.
  - eapply readsAt_bindo; [apply readsAt_of, R1|]. rewrite <- blen_app. exact R3.
  - rewrite blen_app. unfold blen in *. lia.
Qed.
Lemma prefix_map : forall {A B} (f : M (option A)) (mk : A -> option B) (P : A -> Prop) (Q : B -> Prop), prefix f P ->
  (forall a b, mk a = Some b -> Q b -> P a) -> prefix (let? x := f in ret (mk x)) Q.
Proof.
  intros A B f mk P Q HF HQ. eapply prefix_bindo; [exact HF|intros; apply prefix_opt|].
  intros a s b s' E HO. unfold ret in E. injection E as E _. eauto.
Qed.
Lemma prefix_pure : forall {A B} (f : M A) (g : A -> M (option B)) a Q, (forall s, f s = Ok (a, s)) ->
  prefix (g a) Q -> prefix (let* x := f in g x) Q.
Proof. intros A B f g a Q H HP. eapply prefix_ext; [|exact HP]. intros s. unfold bind. now rewrite H. Qed.
Lemma prefix_lift : forall {A B} (o : outcome A) (g : A -> M (option B)) Q, (forall a, o = Ok a -> prefix (g a) Q) ->
  prefix (let* x := lift o in g x) Q.
Proof.
  intros A B o g Q H. destruct o as [a| | |]; try (intros ? ? ? _ HX; discriminate HX).
  eapply prefix_pure; [intros; reflexivity|auto].
Qed.
Lemma prefix_ext_int : forall {B} d e (g : Z -> M (option B)) Q, (forall x, prefix (g x) Q) -> prefix (let* x := ext_int d e in g x) Q.
Proof.
  intros B d e g Q H. unfold ext_int. destruct (lookup d e) as [[]|]; try (intros ? ? ? _ HX; discriminate HX).
  eapply prefix_pure; [intros; reflexivity|apply H].
Qed.

Lemma prefix_align : forall {B} c (g : M (option B)) Q, prefix g Q -> prefix (align_to c 8 ;;; g) Q.
Proof.
  intros B c g Q HG s b s' HW E HO. destruct (wfp_at s HW) as (pre & rest & HA & HP & HR).
  pose proof HW as (W1 & (W2 & W3 & W4) & W5). assert (HL : align 8 (pos s) <= 8 * count s) by (unfold align; lia).
  destruct (align_to_ok c 8 s ltac:(auto) ltac:(unfold inside; auto) HL) as (s1 & E1 & P1 & B1 & C1 & K1).
  pose proof (align_ge 8 (pos s) ltac:(lia)) as HG8.
  set (k := Z.to_nat (align 8 (pos s) - pos s)).
  assert (LB : length (firstn k rest) = k) by (rewrite firstn_length; unfold k; lia).
  assert (R1 : readsAt (blen pre) (align_to c 8) tt (firstn k rest)).
  { apply readsAt_align; auto. unfold blen. rewrite LB, HP. unfold k. lia. }
  rewrite <- (firstn_skipn k rest) in HA.
  destruct (R1 s pre (skipn k rest) eq_refl W5 HA) as (s1' & E1' & A1 & _ & _); [rewrite LB; unfold k; lia|].
  rewrite E1 in E1'. injection E1' as <-. unfold bind in E. rewrite E1 in E.
  assert (W1' : wfp s1) by (unfold wfp, inside, pos in *; rewrite B1, C1; splits; auto; lia).
  destruct (HG s1 b s' W1' E HO) as (pre2 & bs2 & rest2 & A3 & L3 & R3 & P3).
  destruct (at_uniq _ _ _ _ _ A1 A3) as [<- EQ].
  exists pre, (firstn k rest ++ bs2), rest2. splits.
  - rewrite <- app_assoc, <- EQ. exact HA.
  - rewrite !app_length in *. rewrite C1 in L3. lia.
  - eapply readsAt_bind; [exact R1|]. rewrite <- blen_app. exact R3.
  - rewrite blen_app. unfold blen at 1. rewrite LB. unfold k. lia.
Qed.

Lemma prefix_items : forall {A} (f : bool -> M (option A)) (P : A -> Prop) cap, prefix (f true) P -> forall k i,
  prefix (dec_items f cap k i) (Forall P).
Proof.
  intros A f P cap HF. induction k; intros i; cbn [dec_items]; [apply prefix_opt|].
  destruct (cap <=? i); [apply prefix_ub|]. eapply prefix_bindo; [exact HF| |].
  - intros a Ha. eapply prefix_map; [apply IHk|]. intros l b [= <-] H. inversion H; auto.
  - intros a s b s' E HO. unfold bindo, bind in E. destruct (dec_items f cap k (i + 1) s) as [[[l|] s1]| | |]; try discriminate.
    unfold ret in E. injection E as <- _. inversion HO; auto.
Qed.

(** ** Terminated lists *)
Lemma check_wfp : forall pat n s pre rest r s1, exact_pat pat n -> wfp s -> at_ s pre rest ->
  BitStream_checkBitPatternPresent pat n s = Ok (r, s1) ->
  r = 0 \/
  (r = 1 /\ s1 = s /\ firstn (length (take_bits n pat)) rest <> take_bits n pat) \/
  (r = 2 /\ exists rest', rest = take_bits n pat ++ rest' /\ at_ s1 (pre ++ take_bits n pat) rest' /\ buf s1 = buf s /\ count s1 = count s /\
    wfp s1 /\ Z.of_nat (length pre + length (take_bits n pat)) <= 8 * count s).
Proof.
  intros pat n s pre rest r s1 HP HW HA EX. pose proof (exact_len _ _ HP) as HL. destruct HP as [_ [tl HP]].
  destruct (checkBitPattern_ok _ pat tl s pre rest HW HP HA) as (r' & s' & E & H0 & H1). rewrite HL in E, H0, H1.
  rewrite E in EX. injection EX as -> ->.
  destruct (Z.ltb_spec (8 * count s) (pos s + n)); [destruct (H0 ltac:(lia)); auto|].
  destruct (H1 ltac:(lia)) as [H2 H3].
  destruct (list_eq_dec Bool.bool_dec (firstn (length (take_bits n pat)) rest) (take_bits n pat)) as [D|D].
  - destruct (H2 D) as (-> & HA2 & HB & HC). right. right. split; auto. exists (skipn (length (take_bits n pat)) rest).
    pose proof HA as (_ & _ & A3 & _). pose proof HA2 as (_ & _ & A3' & A4). rewrite app_length in A3'.
    splits; auto.
    + rewrite <- D at 1. symmetry. apply firstn_skipn.
    + destruct HW as (W1 & (W2 & W3 & W4) & W5). unfold wfp, inside, pos in *. rewrite HB, HC. splits; auto; lia.
    + lia.
  - destruct (H3 D) as [-> ->]. auto.
Qed.

Section NullParse.
Variables (A : Type) (f : M (option A)) (P : A -> Prop) (after : A -> option Z) (pat : list Z) (n : Z).
Hypothesis HP : exact_pat pat n.
Hypothesis HF : prefix f P.
Hypothesis HN : forall x, after x = None.
Let pb := take_bits n pat.
Definition not_yet (bss : list (list bool)) (rest : list bool) : Prop :=
  forall i, (i < length bss)%nat -> firstn (length pb) (concat (skipn i bss) ++ rest) <> pb.

Lemma null_loop_inv : forall k chk s pre rest r l s', wfp s -> at_ s pre rest ->
  null_loop f after pat n k chk s = Ok (Some (r, l), s') -> Forall P l ->
  r = 0 \/
  (exists bss t rest', rest = concat bss ++ t ++ rest' /\ at_ s' (pre ++ concat bss ++ t) rest' /\ wfp s' /\ buf s' = buf s /\ count s' = count s /\
     items_encode (fun x q b => readsAt q f (Some x) b) l (blen pre) bss /\ (length l <= k)%nat /\
     Z.of_nat (length pre + length (concat bss ++ t)) <= 8 * count s /\ not_yet bss (t ++ rest') /\
     ((r = 2 /\ t = pb /\ (length l < k)%nat) \/ (t = [] /\ length l = k /\ r = match l with [] => chk | _ => 1 end))).
Proof.
  induction k; intros chk s pre rest r l s' HW HA E HO; cbn [null_loop] in E.
  - unfold ret in E. injection E as <- <- <-. right. exists [], [], rest. cbn [concat app items_encode length]. rewrite app_nil_r.
    pose proof HA as (_ & _ & A3 & _). pose proof HW as (_ & (_ & _ & W) & _).
    splits; auto; try lia. intros i Hi. cbn in Hi. lia.
  - unfold bind in E. destruct (BitStream_checkBitPatternPresent pat n s) as [[q s1]| | |] eqn:EC; try discriminate.
    destruct (check_wfp _ _ _ _ _ _ _ HP HW HA EC) as [->|[(-> & -> & HD)|(-> & rest' & -> & A1 & B1 & C1 & W1 & L1)]].
    + change (0 =? 1) with false in E. cbv iota in E. unfold ret in E. injection E as <- _ _. auto.
    + change (1 =? 1) with true in E. cbv iota in E. unfold bindo, bind in E.
      destruct (f s) as [[[x|] s1]| | |] eqn:EF; try discriminate. rewrite HN in E.
      destruct (null_loop f after pat n k 1 s1) as [[[[r' l']|] s2]| | |] eqn:EL; try discriminate.
      unfold ret in E. cbn [fst snd] in E. injection E as <- <- <-.
      destruct (HF s x s1 HW EF (Forall_inv HO)) as (pre1 & b & rest1 & A1 & L1 & R1 & P1).
      destruct (prefix_state f s x s1 pre1 b rest1 HW EF A1 L1 R1) as (A2 & W2 & B2 & C2).
      destruct (at_uniq _ _ _ _ _ HA A1) as [<- ->].
      destruct (IHk 1 s1 (pre ++ b) rest1 r' l' s2 W2 A2 EL (Forall_inv_tail HO)) as
        [->|(bss & t & rest' & -> & A3 & W3 & B3 & C3 & I3 & K3 & L3 & N3 & D3)]; [auto|]. right.
      exists (b :: bss), t, rest'. cbn [concat items_encode length].
      splits; auto; try congruence; try lia.
      * now rewrite <- app_assoc.
      * rewrite <- !app_assoc in *. exact A3.
      * rewrite <- blen_app. exact I3.
      * rewrite C2 in L3. rewrite !app_length in *. lia.
      * intros [|i] Hi; cbn [skipn concat].
        -- rewrite <- app_assoc. exact HD.
        -- apply N3. cbn [length] in Hi. lia.
      * destruct D3 as [(-> & -> & D3)|(-> & D3 & ->)]; [left; splits; auto; lia|right; splits; auto].
        destruct l'; reflexivity.
    + change (2 =? 1) with false in E. cbv iota in E. unfold ret in E. injection E as <- <- <-. right.
      exists [], pb, rest'. cbn [concat app items_encode length]. fold pb in A1, L1 |- *. splits; auto; try lia.
      * intros i Hi. cbn in Hi. lia.
      * left. splits; auto. lia.
Qed.
Lemma not_yet_early : forall bss rest, not_yet bss (pb ++ rest) -> no_early pb bss.
Proof.
  intros bss rest H i Hi HX. apply (H i Hi). rewrite app_assoc, firstn_app.
  replace (length pb - length (concat (skipn i bss) ++ pb))%nat with O by (rewrite app_length; lia).
  cbn [firstn]. now rewrite app_nil_r.
Qed.
Lemma prefix_null_dec : forall max (mk : list A -> value) (ok : value -> Prop), 1 <= max ->
  (forall l, ok (mk l) -> Forall P l) -> ~ ok VJunk -> prefix (null_dec f after pat n max mk) ok.
Proof.
  intros max mk ok HM HK HJ s v s' HW E HO. unfold null_dec, bindo, bind in E.
  destruct (wfp_at s HW) as (pre & rest & HA & _ & _).
  destruct (null_loop f after pat n (Z.to_nat max) 0 s) as [[[[r l]|] s1]| | |] eqn:EL; try discriminate. cbn [fst snd] in E.
  assert (HV : v = mk l).
  { destruct (_ && _).
    - destruct (BitStream_checkBitPatternPresent pat n s1) as [[q s2]| | |]; try discriminate. unfold ret in E.
      destruct (q =? 0); [discriminate|]. destruct (q =? 2); injection E as <- _; [auto|contradiction].
    - unfold ret in E. destruct (r =? 0); [discriminate|]. destruct (r =? 2); injection E as <- _; [auto|contradiction]. }
  subst v. specialize (HK l HO).
  destruct (null_loop_inv _ _ _ _ _ _ _ _ HW HA EL HK) as [->|(bss & t & rest' & -> & A1 & W1 & B1 & C1 & I1 & K1 & L1 & N1 & D1)].
  { change (0 =? 1) with false in E. rewrite Bool.andb_false_r in E. unfold ret in E. discriminate. }
  assert (RD : forall rest'', not_yet bss (pb ++ rest'') -> readsAt (blen pre) (null_dec f after pat n max mk) (Some (mk l)) (concat bss ++ pb)).
  { intros rest'' NY. rewrite <- (map_id l). apply readsAt_null_dec; auto; try lia. eapply not_yet_early; eauto. }
  destruct D1 as [(-> & -> & D1)|(-> & D1 & ->)].
  - change (2 =? 1) with false in E. rewrite Bool.andb_false_r in E. unfold ret in E. change (2 =? 0) with false in E.
    change (2 =? 2) with true in E. cbv iota in E. injection E as <-.
    exists pre, (concat bss ++ pb), rest'. splits; eauto.
    + now rewrite <- app_assoc.
    + destruct HA as (_ & _ & A3 & _). destruct A1 as (_ & _ & A3' & _). rewrite app_length in A3'. unfold blen. lia.
  - destruct l as [|x l]; [cbn [length] in D1; lia|]. change (1 =? 1) with true in E.
    replace (Z.of_nat (length (x :: l)) =? max) with true in E by lia. cbn [andb] in E.
    destruct (BitStream_checkBitPatternPresent pat n s1) as [[q s2]| | |] eqn:EC; try discriminate.
    destruct (check_wfp _ _ _ _ _ _ _ HP W1 A1 EC) as [->|[(-> & -> & HD)|(-> & rest'' & -> & A2 & B2 & C2 & W2 & L2)]]; unfold ret in E.
    + discriminate.
    + injection E as E _. rewrite <- E in HO. contradiction.
    + injection E as <-. cbn [app] in N1, A1, A2, L1, L2 |- *. rewrite app_nil_r in A1, A2, L1, L2. fold pb in N1, A2, L2 |- *.
      exists pre, (concat bss ++ pb), rest''. splits; eauto.
      * now rewrite <- app_assoc.
      * rewrite !app_length in *. rewrite C1 in L2. lia.
      * destruct HA as (_ & _ & A3 & _). destruct A2 as (_ & _ & A3' & _). rewrite !app_length in A3'. unfold blen. rewrite app_length. lia.
Qed.
End NullParse.

(** ** Bit strings with a terminator *)
Lemma first_or_none : forall (p d : list bool) k, (exists j, (j <= k)%nat /\ first_at p d j) \/ (forall j, (j <= k)%nat -> ~ occurs_at p d j).
Proof.
  intros p d k. induction k as [|k [(j & H1 & H2)|IH]].
  - destruct (list_eq_dec Bool.bool_dec (firstn (length p) (skipn 0 d)) p) as [E|E].
    + left. exists O. split; auto. split; auto. lia.
    + right. intros j Hj. replace j with O by lia. exact E.
  - left. exists j. split; auto.
  - destruct (list_eq_dec Bool.bool_dec (firstn (length p) (skipn (S k) d)) p) as [E|E].
    + left. exists (S k). split; auto. split; auto. intros i Hi. apply IH. lia.
    + right. intros j Hj. destruct (Nat.eq_dec j (S k)) as [->|N]; [exact E|]. apply IH. lia.
Qed.
Lemma first_early : forall pb l, first_at pb (l ++ pb) (length l) -> no_early pb (single_bits l).
Proof.
  intros pb l [_ H] i Hi. unfold single_bits in Hi. rewrite map_length in Hi. rewrite concat_skip_single.
  specialize (H i Hi). unfold occurs_at in H. rewrite skipn_app in H. replace (i - length l)%nat with O in H by lia. exact H.
Qed.
Lemma prefix_bit_null : forall c pat n max ok, exact_pat pat n -> 1 <= max < 2 ^ 31 ->
  prefix (let? p := BitStream_ReadBits_nullterminated c pat n (repeat 0 (Z.to_nat ((max + 7) / 8))) max in
          ret (Some (VBit (take_bits (fst p) (snd p))))) ok.
Proof.
  intros c pat n max ok HP HM s v s' HW E _. pose proof (exact_len _ _ HP) as HL. destruct (proj2 HP) as [tl HE].
  destruct (wfp_at s HW) as (pre & rest & HA & HPos & _). set (dst := repeat 0 (Z.to_nat ((max + 7) / 8))) in *.
  destruct (ReadBits_nullterminated_ok c (take_bits n pat) tl dst max s pre rest HW HA) as (r & s1 & E1 & B1 & C1 & L1 & H1 & H2); auto; try lia.
  { unfold dst. apply Forall_forall. intros x Hx. apply repeat_spec in Hx. subst. unfold is_byte. lia. }
  { unfold dst. rewrite repeat_length. lia. }
  rewrite <- HE, HL in E1. set (pb := take_bits n pat) in *.
  destruct (first_or_none pb (remaining s rest) (Z.to_nat max)) as [(j & J1 & J2)|N].
  2:{ rewrite H2 in E1 by (intros j Hj; apply N; lia). unfold bindo, bind in E. rewrite E1 in E. discriminate. }
  destruct (H1 j J2 ltac:(lia)) as (-> & A1 & P1).
  assert (LR : (j + length pb <= Init.Nat.min (Z.to_nat (8 * count s - pos s)) (length rest))%nat).
  { destruct J2 as [J2 J3]. pose proof (f_equal (@length bool) J2) as LJ. unfold remaining in LJ. rewrite firstn_length, skipn_length, firstn_length in LJ.
    destruct (Nat.eq_dec (length pb) 0) as [Z0|]; [|lia]. destruct j as [|j]; [lia|].
    elim (J3 O ltac:(lia)). unfold occurs_at. destruct pb; [reflexivity|discriminate]. }
  set (l := firstn j rest) in *. assert (LJ : length l = j) by (unfold l; rewrite firstn_length; lia).
  assert (LM : (j + length pb <= Z.to_nat (8 * count s - pos s))%nat) by lia.
  assert (HR : rest = l ++ pb ++ skipn (j + length pb) rest).
  { destruct J2 as [J2 _]. unfold occurs_at, remaining in J2. rewrite skipn_firstn_comm, firstn_firstn in J2.
    replace (Init.Nat.min (length pb) (Z.to_nat (8 * count s - pos s) - j)) with (length pb) in J2 by (clear - LM; lia).
    rewrite <- J2 at 1. rewrite <- skipn_skipn', firstn_skipn. unfold l. symmetry. apply firstn_skipn. }
  assert (HF : first_at pb (l ++ pb) (length l)).
  { split; [unfold occurs_at; rewrite HistoryProofs.skipn_app_exact; apply firstn_all|]. intros i Hi HO. rewrite LJ in Hi. apply (proj2 J2 i Hi).
    unfold occurs_at in *. unfold remaining. rewrite HR. rewrite app_assoc.
    set (m := Z.to_nat (8 * count s - pos s)) in *.
    rewrite firstn_app. replace (firstn m (l ++ pb)) with (l ++ pb) by (symmetry; apply firstn_all2; rewrite app_length; lia).
    rewrite skipn_app, firstn_app, skipn_length, app_length.
    replace (length pb - (length l + length pb - i))%nat with O by lia. cbn [firstn]. rewrite app_nil_r. exact HO. }
  set (rest' := skipn (j + length pb) rest) in *. clearbody rest'.
  assert (RD : readsAt (blen pre) (let? p := BitStream_ReadBits_nullterminated c pat n dst max in ret (Some (VBit (take_bits (fst p) (snd p)))))
    (Some (VBit l)) (l ++ pb)).
  { refine (readsAt_bit c true (SzNull pat n) 0 max [] l _ _ false _ _).
    - unfold wf_szkind, wf_size. splits; auto; lia.
    - cbn [encodes]. exists [], pb. unfold size_field, size_in. splits; auto; try lia. now apply first_early. }
  assert (HA2 : at_ s pre ((l ++ pb) ++ rest')) by (rewrite <- app_assoc, <- HR; exact HA).
  assert (LC : Z.of_nat (length pre + length (l ++ pb)) <= 8 * count s) by (rewrite app_length; lia).
  exists pre, (l ++ pb), rest'. destruct (RD s pre rest' eq_refl (proj2 (proj2 HW)) HA2 LC) as (s2 & E2 & A2 & _).
  rewrite E in E2. injection E2 as -> <-. splits; auto.
  destruct A2 as (_ & _ & A2 & _). rewrite app_length in A2. unfold blen. lia.
Qed.

Section Wrap.
Variable c : cfg.
Hypothesis Hovf : ovf_wrap c = true.
Hypothesis Hshl : shl_wrap c = true.

(** ** Leaves *)
Lemma parses_k : forall k w, wf_codec k w -> parses (k_dec c k w) any2.
Proof.
  intros k w [W HK].
  assert (N : forall f, parses f any2 -> parses (if w =? 64 then f else if k_signed k then narrow_s w f else narrow_u w f) any2).
  { intros f H. destruct (w =? 64); auto. destruct (k_signed k); (eapply parses_then; [exact H|]); intros; apply parses_some. }
  destruct k; cbn [k_dec k_dec64 wf_codec] in *; try apply N; try (apply parses_int; auto; cbn; unfold in_class; splits; lia);
    eapply parses_any.
  - apply parses_DecodeNonNeg; lia.
  - apply parses_ReadByte.
  - apply parses_BE; lia.
  - apply parses_LE; lia.
  - apply parses_VarU.
  - apply parses_Twos; auto.
  - apply parses_I8.
  - apply parses_IN_BE; lia.
  - apply parses_IN_LE; lia.
  - apply parses_VarS.
  - pose proof (parses_BCD (Z.to_nat n)) as H. rewrite Z2Nat.id in H by lia. exact H.
  - apply parses_BCD_Var.
  - apply parses_BCD_Null.
  - pose proof (parses_ASCII_S c (Z.to_nat (n - 1))) as H. rewrite Z2Nat.id in H by lia. replace (1 + (n - 1)) with n in H by lia. exact H.
  - apply parses_ASCII_VarS.
  - apply parses_ASCII_NullS; apply HK.
  - pose proof (parses_ASCII_U c (Z.to_nat n)) as H. rewrite Z2Nat.id in H by lia. exact H.
  - apply parses_ASCII_NullU; apply HK.
Qed.
Lemma neg_private : forall max n dst, Acn_Dec_String_Ascii_private max n dst = Acn_Dec_String_Ascii_private max (Z.of_nat (Z.to_nat n)) dst.
Proof. intros. unfold Acn_Dec_String_Ascii_private. now rewrite Nat2Z.id. Qed.
Lemma neg_index : forall max n set size dst, Acn_Dec_String_CharIndex_private c max n set size dst =
  Acn_Dec_String_CharIndex_private c max (Z.of_nat (Z.to_nat n)) set size dst.
Proof. intros. unfold Acn_Dec_String_CharIndex_private. now rewrite Nat2Z.id. Qed.
Lemma parses_str : forall e k min max, wf_size min max -> wf_str k -> tight (AStr k min max) ->
  parses (str_dec c k min max e) any2.
Proof.
  intros e k min max [W1 W2] WK HT. unfold str_dec. cbv zeta.
  assert (EM : max = Z.of_nat (Z.to_nat max)) by lia.
  set (dst := repeat 0 (S (Z.to_nat max))).
  assert (HL : length dst = S (Z.to_nat max)) by (unfold dst; rewrite repeat_length; lia).
  assert (HM : forall x, (Z.to_nat (if (x <=? max)%Z then x else max) <= Z.to_nat max)%nat) by (intros x; destruct (x <=? max) eqn:E; lia).
  eapply parses_then with (P := any2); [|intros; apply parses_some].
  assert (HX : forall d g, (forall x, parses (g x) any2) -> parses (let* x := ext_int d e in g x) (@any2 (list Z))).
  { intros d g H. unfold ext_int. destruct (lookup d e) as [[]|]; try (intros ? ? ? _ HH; discriminate HH). apply H. }
  destruct k as [|p|d|set d|d]; cbn [tight wf_str] in *.
  - destruct (Z.eqb_spec min max).
    + unfold Acn_Dec_String_Ascii_FixSize. rewrite EM. eapply parses_any, parses_Ascii_private; lia.
    + rewrite EM. eapply parses_any, parses_Ascii_Internal; lia.
  - rewrite EM. eapply parses_any, parses_Null_mult_fit; auto. apply WK.
  - apply HX. intros x. unfold Acn_Dec_String_Ascii_External_Field_Determinant. rewrite neg_private. generalize (HM x). generalize (Z.to_nat (if x <=? max then x else max)). intros k Hk. rewrite EM.
    eapply parses_any, parses_Ascii_private; lia.
  - apply HX. intros x. unfold Acn_Dec_String_CharIndex_External_Field_Determinant. rewrite neg_index. generalize (HM x). generalize (Z.to_nat (if x <=? max then x else max)). intros k Hk. rewrite EM.
    eapply parses_any, parses_CharIndex_private; auto; try apply HT; try lia.
    destruct set; [destruct HT; congruence|cbn [length]; lia].
  - apply HX. intros x. unfold Acn_Dec_IA5String_CharIndex_External_Field_Determinant. rewrite neg_index. generalize (HM x). generalize (Z.to_nat (if x <=? max then x else max)). intros k Hk. rewrite EM.
    change 128 with (Z.of_nat (length ia5_set)).
    eapply parses_any, parses_CharIndex_private; try lia; try (cbn; lia).
    unfold ia5_set. apply Injective_map_NoDup; [intros a b H; apply Nat2Z.inj; exact H|apply seq_NoDup].
Qed.
Lemma parses_octets_in : forall max n, 0 <= n ->
  parses (let? d := BitStream_DecodeOctetString_no_length n in if max <? n then ub else ret (Some d)) any2.
Proof.
  intros. eapply parses_then; [apply parses_DecodeOctets; auto|]. intros. destruct (max <? n); [apply parses_ub|apply parses_some].
Qed.
Lemma parses_real : forall h be d64 fp32, be || d64 = true -> parses (real_dec h be d64 fp32) any2.
Proof.
  intros h be d64 fp32 H. unfold real_dec. destruct d64.
  - eapply parses_then with (P := any2); [|intros; apply parses_some].
    destruct be; [unfold Acn_Dec_Real_IEEE754_64_big_endian|unfold Acn_Dec_Real_IEEE754_64_little_endian];
      (eapply parses_then; [first [apply parses_real_be|apply parses_real_le]|]); intros; apply parses_some.
  - destruct be; [|discriminate]. eapply parses_then with (P := any2); [|intros; apply parses_some].
    destruct fp32; [unfold Acn_Dec_Real_IEEE754_32_big_endian_fp32|unfold Acn_Dec_Real_IEEE754_32_big_endian];
      (eapply parses_then; [apply parses_real_be|]); intros; apply parses_some.
Qed.
Lemma prefix_real : forall h fp32 (ok : value -> Prop), ~ ok VJunk -> prefix (real_dec h false false fp32) ok.
Proof.
  intros h fp32 ok HJ. unfold real_dec.
  set (f := if fp32 then Acn_Dec_Real_IEEE754_32_little_endian_fp32 h else Acn_Dec_Real_IEEE754_32_little_endian h).
  assert (HP : parses f any2).
  { unfold f. destruct fp32; [unfold Acn_Dec_Real_IEEE754_32_little_endian_fp32|unfold Acn_Dec_Real_IEEE754_32_little_endian];
      (eapply parses_then; [apply parses_real_le|]); intros; apply parses_some. }
  clearbody f. intros s v s' HW E HO. unfold bind in E.
  destruct (f s) as [[[x|] s1]| | |] eqn:EF; try discriminate; unfold ret in E; injection E as <- <-; [|contradiction].
  destruct (HP s x s1 HW EF) as (pre & bs & rest & H1 & H2 & H3 & _ & H5). exists pre, bs, rest. splits; auto.
  rewrite <- (app_nil_r bs). eapply readsAt_bind; [apply readsAt_of, H3|apply readsAt_ret].
Qed.
Lemma parses_apresence : forall fs, parses (adec_presence fs) any2.
Proof.
  induction fs as [|o t fs IH|d t fs IH|t fs IH]; cbn [adec_presence]; auto; [apply parses_some|].
  assert (HY : forall b : bool, parses (let? es := adec_presence fs in ret (Some (b :: es))) any2).
  { intros b. eapply parses_then; [exact IH|]. intros; apply parses_some. }
  destruct o as [| | |[|] def]; auto. apply (parses_ReadBit (fun b => let? es := adec_presence fs in ret (Some (b :: es)))). auto.
Qed.
Lemma select_prefix : forall {B} e conds (g : nat -> M (option B)) Q, (forall i, prefix (g i) Q) ->
  prefix (let? i := lift (select e conds 0) in g i) Q.
Proof.
  intros B e conds g Q H. unfold bindo. apply prefix_lift. intros [i|] _; [apply H|apply prefix_none].
Qed.
Lemma int_length_s32 : forall lo hi x, int_length lo hi = true -> ext_check lo hi x = true -> 0 <= s32 x.
Proof.
  intros [a|] [b|] x; unfold int_length, ext_check; try discriminate. intros. rewrite s32_small; lia.
Qed.

(** ** Types *)
Definition okv (t : aty) (v : value) : Prop := firm t = true \/ clean v = true.
Definition okf (fs : afields) (l : list (bool * option value)) : Prop := firm_fields fs = true \/ clean (VSeq l) = true.
Definition oka (cs : aalts) (v : value) : Prop := firm_alts cs = true \/ clean v = true.

Theorem acn_prefix : forall h,
  (forall t, wfa t -> tight t -> forall e, prefix (adec c h t e) (okv t)) /\
  (forall fs, wfa_fields fs -> tight_fields fs -> forall e es, prefix (adec_fields c h fs es e) (okf fs)) /\
  (forall cs, wfa_alts cs -> tight_alts cs -> forall e i, prefix (adec_alt c h cs i e) (oka cs)).
Proof.
  intros h. apply aty_mutind; cbn [wfa wfa_fields wfa_alts tight tight_fields tight_alts].
  - intros t W T e. cbn [adec]. eapply prefix_of, parses_uper; eauto.
  - intros k tp fp n (W1 & W2 & _) _ e. cbn [adec]. destruct W1 as [W0 W1], W2 as [W2 W3].
    destruct k; (eapply prefix_then; [first [apply parses_ReadBitPattern; auto; lia|apply parses_TrueFalse; auto; lia]|]); intros; apply prefix_opt.
  - intros [[p n]|] skip W _ e; cbn [adec]; [|apply prefix_opt]. destruct W as [W0 W]. destruct skip.
    + eapply prefix_then; [apply parses_ReadBitPattern_ignore; lia|]. intros; apply prefix_opt.
    + eapply prefix_then; [apply parses_ReadBitPattern; auto; lia|]. intros [] ? _; apply prefix_opt.
  - intros k w mf [W _] _ e. cbn [adec]. eapply prefix_then; [apply parses_k; auto|]. intros; apply prefix_opt.
  - intros items k w [W _] _ e. cbn [adec]. eapply prefix_then; [apply parses_k; auto|]. intros; apply prefix_opt.
  - intros arr cnt last vals k w (W & _) _ e. cbn [adec]. eapply prefix_then; [apply parses_k; auto|]. intros z bs _.
    assert (HI : forall i ok, prefix (if (0 <=? i) && (i <=? last) then let* x := lift (nthZ arr i) in ret (Some (VEnum x)) else ret None) ok).
    { intros i ok. destruct (_ && _); [|apply prefix_none]. apply prefix_lift. intros; apply prefix_opt. }
    destruct vals; [apply prefix_lift; auto|]. eapply prefix_pure; [intros; reflexivity|apply HI].
  - intros be d64 fp32 _ _ e. cbn [adec]. destruct (be || d64) eqn:E; [eapply prefix_of, parses_real; auto|].
    apply Bool.orb_false_iff in E. destruct E as [-> ->]. apply prefix_real. unfold okv. cbn. intros [H|H]; discriminate.
  - intros k min max [W1 W2] T e. cbn [adec]. eapply prefix_of, parses_str; eauto.
  - intros sz min max W T e. cbn [adec]. destruct W as [[W1 W2] W3]. destruct sz as [| |d lo hi|pat n].
    + eapply prefix_map with (P := fun _ => True); auto. unfold aoct_dec. rewrite T, Z.eqb_refl. eapply prefix_of, parses_DecodeOctets. lia.
    + eapply prefix_map with (P := fun _ => True); auto. unfold aoct_dec. rewrite T, Z.eqb_refl. eapply prefix_of, parses_DecodeOctets. lia.
    + unfold oct_ext_dec. apply prefix_ext_int. intros x. destruct (Z.eqb_spec min max).
      * destruct (ext_check _ _ _); [|apply prefix_none]. eapply prefix_map with (P := fun _ => True); auto. eapply prefix_of, parses_DecodeOctets. lia.
      * destruct (ext_check lo hi x) eqn:EX; [|apply prefix_none]. cbv zeta. destruct (Z.leb_spec 0 (s32 x)).
        -- eapply prefix_then; [apply parses_DecodeOctets; auto|]. intros l bs _. destruct (max <? s32 x); [apply prefix_ub|apply prefix_opt].
        -- intros s v s' HW E HO. exfalso. unfold bindo, bind in E. destruct (BitStream_DecodeOctetString_no_length _ _) as [[[l|] s1]| | |]; try discriminate.
           destruct (max <? s32 x); [discriminate|]. replace (s32 x <? 0) with true in E by lia. unfold ret in E. injection E as <- _.
           destruct HO as [HO|HO]; [|discriminate]. cbn [firm] in HO. destruct (Z.eqb_spec min max); [contradiction|]. cbn [orb] in HO.
           pose proof (int_length_s32 _ _ _ HO EX). lia.
    + destruct W3 as [W3 W4]. eapply prefix_null_dec with (P := fun _ => True); auto.
      * eapply prefix_of. apply parses_ReadByte.
      * intros l _. apply Forall_forall. auto.
      * unfold okv. cbn. intros [H|H]; discriminate.
  - intros sz min max W _ e. cbn [adec]. destruct W as [[W1 W2] W3]. 
    assert (HA : forall ok, prefix (let? l := abit_dec c min max in ret (Some (VBit l))) ok).
    { intros ok. eapply prefix_map with (P := fun _ => True); auto. unfold abit_dec.
      destruct (Z.eqb_spec min max); [eapply prefix_of, parses_bits_in; lia|].
      eapply prefix_then; [apply parses_constr; auto; unfold is_s64, two63; lia|]. intros n0 bs [Hn _]. eapply prefix_of, parses_bits_in. lia. }
    destruct sz as [| |d lo hi|pat n]; auto.
    + unfold bit_ext_dec. apply prefix_ext_int. intros x. destruct (Z.eqb_spec min max).
      * destruct (ext_check _ _ _); [|apply prefix_none]. eapply prefix_map with (P := fun _ => True); auto. eapply prefix_of, parses_bits_in. lia.
      * destruct (ext_check lo hi x) eqn:EX; [|apply prefix_none]. cbv zeta. destruct (Z.leb_spec 0 (s32 x)).
        -- eapply prefix_then; [apply parses_bits_in; auto|]. intros l bs _. apply prefix_opt.
        -- intros s v s' HW E HO. exfalso. unfold bindo, bind in E. destruct (read_bits_in _ _ _ _) as [[[l|] s1]| | |]; try discriminate.
           replace (s32 x <? 0) with true in E by lia. unfold ret in E. injection E as <- _.
           destruct HO as [HO|HO]; [|discriminate]. cbn [firm] in HO. destruct (Z.eqb_spec min max); [contradiction|]. cbn [orb] in HO.
           pose proof (int_length_s32 _ _ _ HO EX). lia.
    + destruct W3 as [W3 W4]. apply prefix_bit_null; auto.
  - intros t IH sz min max [W Wt] [T TS] e. specialize (IH Wt T e). destruct W as [[W1 W2] W3]. cbn [adec].
    assert (HI : forall k, prefix (dec_items (fun _ : bool => adec c h t e) max k 0) (Forall (okv t))).
    { intros k. apply (prefix_items (fun _ : bool => adec c h t e)). exact IH. }
    assert (HO : forall l, okv (ASeqOf t sz min max) (VSeqOf l) -> Forall (okv t) l).
    { intros l [H|H].
      - cbn [firm] in H. apply Bool.andb_true_iff in H. destruct H as [_ H]. apply Forall_forall. left. auto.
      - cbn [clean] in H. rewrite forallb_forall in H. apply Forall_forall. intros x Hx. right. auto. }
    destruct sz as [| |d lo hi|pat n].
    + eapply prefix_map; [apply HI|]. intros l v [= <-]. auto.
    + eapply prefix_then; [apply parses_constr; auto; unfold is_s64, two63; lia|]. intros n bs _.
      eapply prefix_map; [apply HI|]. intros l v [= <-]. auto.
    + apply prefix_ext_int. intros x. destruct (ext_check lo (Some max) x) eqn:EX; [|apply prefix_none]. cbv zeta.
      set (n := if min =? max then max else s32 x). eapply prefix_map; [apply HI|]. intros l v [= <-].
      destruct (Z.ltb_spec n 0); [|apply HO]. intros [H1|H1]; [|discriminate]. exfalso. cbn [firm] in H1.
      apply Bool.andb_true_iff in H1. destruct H1 as [H1 _]. unfold n in H. destruct (Z.eqb_spec min max); [lia|]. cbn [orb] in H1.
      pose proof (int_length_s32 _ _ _ H1 EX). lia.
    + destruct W3 as [W3 W4]. eapply prefix_null_dec; eauto.
      * intros x. apply chk_none. auto.
      * unfold okv. cbn. intros [H|H]; discriminate.
  - intros fs IH W T e. cbn [adec]. eapply prefix_then; [apply parses_apresence|]. intros es bs _.
    eapply prefix_map; [apply IH; auto|]. intros l v [= <-] H. exact H.
  - intros k cs IH [W Wc] T e. cbn [adec]. destruct W as (W1 & W2 & W3).
    assert (HB : forall i, prefix (let? v := adec_alt c h cs i e in ret (Some (VChoice i v))) (okv (AChoice k cs))).
    { intros i. eapply prefix_map; [apply IH; auto|]. intros v w [= <-] H. exact H. }
    destruct k as [|d zs|conds].
    + eapply prefix_then with (P := any2).
      * eapply parses_then; [apply parses_constr; auto; unfold is_s64, two63; lia|]. intros; apply parses_opt.
      * auto.
    + destruct (lookup d e) as [[]|]; try (intros ? ? ? _ HH; discriminate HH).
      eapply prefix_then with (P := any2); [apply parses_opt|auto].
    + apply select_prefix. auto.
  - intros ok t IH W T e. cbn [adec]. eapply prefix_map; [apply IH; auto|]. intros v w.
    destruct (ok v); [|discriminate]. intros [= <-] H. exact H.
  - intros n t IH [_ W] [-> T] e. cbn [adec]. apply prefix_align. apply IH; auto.
  - intros _ _ e [|]; cbn [adec_fields]; [apply prefix_opt|apply prefix_ub].
  - intros o t IHt fs IHf [Wt Wf] [HT HF] e es. destruct es as [|b es]; [apply prefix_ub|]. cbn [adec_fields].
    set (Q := fun p : bool * option value => match snd p with Some v => fst p = true -> okv t v | None => True end).
    eapply prefix_bindo with (P := Q).
    + assert (HY : o <> OAbsent -> prefix (let? v := adec c h t e in ret (Some (true, Some v))) Q).
      { intros N. destruct HT as [HT|HT]; [congruence|]. eapply prefix_map; [apply IHt; auto|]. intros v w [= <-] H. apply H. reflexivity. }
      destruct o as [| | |k def]; try (apply HY; congruence); [apply prefix_opt|].
      destruct k as [|d].
      * eapply prefix_pure; [intros; reflexivity|]. destruct b; [apply HY; congruence|]. apply prefix_opt.
      * destruct (lookup d e) as [[]|]; try (intros ? ? ? _ HH; discriminate HH).
        eapply prefix_pure; [intros; reflexivity|]. destruct b0; [apply HY; congruence|]. apply prefix_opt.
    + intros x Hx. eapply prefix_map; [apply IHf; auto|]. intros l w [= <-] [H|H].
      * left. cbn [firm_fields] in H. apply Bool.andb_true_iff in H. apply H.
      * right. cbn [clean forallb] in *. apply Bool.andb_true_iff in H. apply H.
    + intros [x ov] s w s' E HO. unfold bindo, bind in E. destruct (adec_fields c h fs es e s) as [[[l|] s1]| | |]; try discriminate.
      unfold ret in E. injection E as <- _. unfold Q. cbn [fst snd]. destruct ov as [v|]; auto. intros _. destruct HO as [H|H].
      * left. cbn [firm_fields] in H. apply Bool.andb_true_iff in H. apply H.
      * right. cbn [clean forallb snd] in *. apply Bool.andb_true_iff in H. apply H.
  - intros d t IHt fs IHf (Wt & Wf & _) (HT & HM & HF) e es. cbn [adec_fields].
    eapply prefix_bindo with (P := okv t); [apply IHt; auto| |].
    + intros v _. eapply prefix_weaken; [|apply IHf; auto]. intros l [H|H]; [left|right; auto].
      cbn [firm_fields] in H. apply Bool.andb_true_iff in H. apply H.
    + intros. left. auto.
  - intros t IHt fs IHf [Wt Wf] (HT & HM & HF) e es. cbn [adec_fields].
    eapply prefix_bindo with (P := okv t); [apply IHt; auto| |].
    + intros v _. eapply prefix_weaken; [|apply IHf; auto]. intros l [H|H]; [left|right; auto].
      cbn [firm_fields] in H. apply Bool.andb_true_iff in H. apply H.
    + intros. left. auto.
  - intros _ _ e i. cbn [adec_alt]. apply prefix_ub.
  - intros t IHt cs IHc [Wt Wc] [HT HF] e [|i]; cbn [adec_alt].
    + eapply prefix_weaken; [|apply IHt; auto]. intros v [H|H]; [left|right; auto]. cbn [firm_alts] in H. apply Bool.andb_true_iff in H. apply H.
    + eapply prefix_weaken; [|apply IHc; auto]. intros v [H|H]; [left|right; auto]. cbn [firm_alts] in H. apply Bool.andb_true_iff in H. apply H.
Qed.
End Wrap.
