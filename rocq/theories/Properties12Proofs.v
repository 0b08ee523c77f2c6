(** Proofs of the statements in Properties12.v. *)
From Verif Require Import Base Bits BitStream Ints Octets Misc StrSpec Contracts Parse RealSpec RealC UperTypes UperSpec UperWf Uper UperSizes UperClasses
  Acn AcnStr AcnReal AcnSpec AcnGen AcnGenSpec AcnGenSizes.
From Verif Require Import BitsProofs BitStreamProofs BitStreamProofs2 BitStreamProofs3 IntsProofs HistoryProofs MiscProofs Properties2Proofs
  AcnGenProofs1 AcnGenProofs2 AcnGenProofs5 AcnGenProofs6.
From Coq Require Import ZifyBool ZifyNat Sorting.Sorted.
Ltac Zify.zify_post_hook ::= Z.div_mod_to_equations.

Lemma encode : forall c h t e v p bs, wfa t -> encodes c true t e v p bs -> writesAt p (aenc c h t v) true bs.
Proof. intros c h t e v p bs W. apply (proj1 (agen_writes c h) t W). Qed.
Lemma decode : forall c st h t e v p bs, wfa t -> encodes c st t e v p bs -> readsAt p (adec c h t e) (Some (anorm t v)) bs.
Proof. intros c st h t e v p bs W. apply (proj1 (agen_reads c st h) t W). Qed.

(** ** From Init to Attach *)
Lemma run_writesAt : forall {A} (enc : M A) a bs mem n, writesAt 0 enc a bs ->
  Forall is_byte mem -> 0 <= n <= Z.of_nat (length mem) -> blen bs <= 8 * n ->
  exists s0 s1, BitStream_Init mem n = Ok s0 /\ enc s0 = Ok (a, s1) /\ count s1 = n /\
    length (buf s1) = length mem /\ Forall is_byte (buf s1) /\
    pos s1 = blen bs /\ 0 <= curBit s1 < 8 /\
    bits_of_bytes (firstn (Z.to_nat n) (buf s1)) = bs ++ zeros (Z.to_nat (8 * n) - length bs) /\
    skipn (Z.to_nat n) (buf s1) = skipn (Z.to_nat n) mem.
Proof.
  intros A enc a bs mem n HW HB Hn HL. unfold blen in *.
  unfold BitStream_Init. replace ((n <? 0) || (Z.of_nat (length mem) <? n)) with false by lia.
  set (s0 := mkbs (repeat 0 (Z.to_nat n) ++ skipn (Z.to_nat n) mem) n 0 0).
  assert (H0 : at_ s0 [] (zeros (8 * Z.to_nat n) ++ bits_of_bytes (skipn (Z.to_nat n) mem))).
  { unfold at_, s0, pos. cbn [buf curByte curBit length app]. splits; try lia.
    - apply Forall_app. split; [|apply Forall_skipn; auto]. apply Forall_forall. intros x Hx.
      apply repeat_spec in Hx. subst. unfold is_byte; lia.
    - rewrite bits_of_bytes_app, bits_of_bytes_zeros. reflexivity. }
  destruct (HW s0 [] (8 * Z.to_nat n)%nat (bits_of_bytes (skipn (Z.to_nat n) mem)) eq_refl H0) as (s1 & E & HA & HC).
  { unfold s0. cbn [count length]. lia. } { lia. }
  exists s0, s1. pose proof (at_len _ _ _ HA) as AL. destruct HA as (F1 & B1 & P1 & C1).
  cbn [app] in *.
  assert (LM : length (buf s1) = length mem).
  { rewrite !app_length, len_bits_of_bytes, skipn_length in AL. unfold zeros in AL. rewrite repeat_length in AL. lia. }
  splits; auto; try lia.
  - rewrite bits_of_bytes_firstn, B1, app_assoc.
    replace (8 * Z.to_nat n)%nat with (length (bs ++ zeros (8 * Z.to_nat n - length bs))) at 1.
    + rewrite firstn_app_exact. repeat f_equal. lia.
    + rewrite app_length. unfold zeros. rewrite repeat_length. lia.
  - apply bits_of_bytes_inj; try (apply Forall_skipn; auto).
    rewrite bits_of_bytes_skipn, B1, app_assoc.
    replace (8 * Z.to_nat n)%nat with (length (bs ++ zeros (8 * Z.to_nat n - length bs))) at 1.
    + rewrite skipn_app_exact. reflexivity.
    + rewrite app_length. unfold zeros. rewrite repeat_length. lia.
Qed.
Lemma run_readsAt : forall {A} (dec : M A) a bs mem n rest, readsAt 0 dec a bs ->
  Forall is_byte mem -> n <= Z.of_nat (length mem) -> bits_of_bytes mem = bs ++ rest -> blen bs <= 8 * n ->
  exists s, dec (BitStream_AttachBuffer mem n) = Ok (a, s) /\ pos s = blen bs.
Proof.
  intros A dec a bs mem n rest HR HB HN HM HL. unfold blen in *.
  destruct (HR (BitStream_AttachBuffer mem n) [] rest eq_refl) as (s & E & HA & HC & HBf).
  - exact HN.
  - unfold at_, BitStream_AttachBuffer, pos. cbn [buf curByte curBit length app]. splits; auto; lia.
  - cbn [length BitStream_AttachBuffer count]. lia.
  - exists s. splits; auto. apply at_len_pos in HA. cbn [app] in HA. lia.
Qed.
Lemma e2eAt : forall {A B} (enc : M A) (dec : M B) a v bs mem n, writesAt 0 enc a bs -> readsAt 0 dec v bs ->
  Forall is_byte mem -> 0 <= n <= Z.of_nat (length mem) -> blen bs <= 8 * n ->
  exists s0 s1, BitStream_Init mem n = Ok s0 /\ enc s0 = Ok (a, s1) /\ pos s1 = blen bs /\
    bits_of_bytes (firstn (Z.to_nat n) (buf s1)) = bs ++ zeros (Z.to_nat (8 * n) - length bs) /\
    skipn (Z.to_nat n) (buf s1) = skipn (Z.to_nat n) mem /\
    forall tail, Forall is_byte tail -> exists s2,
      dec (BitStream_AttachBuffer (firstn (Z.to_nat (BitStream_GetLength s1)) (buf s1) ++ tail) (BitStream_GetLength s1))
      = Ok (v, s2) /\ pos s2 = pos s1.
Proof.
  intros A B enc dec a v bs mem n HW HR HB Hn HL.
  destruct (run_writesAt enc a bs mem n HW HB Hn HL) as (s0 & s1 & E0 & E1 & HC & HLm & HF & HP & HCb & HBits & HSk).
  exists s0, s1. splits; auto. intros tail HT. rewrite GetLength_pos by auto. rewrite HP. unfold blen in *.
  set (L := (Z.of_nat (length bs) + 7) / 8).
  destruct (run_readsAt dec v bs (firstn (Z.to_nat L) (buf s1) ++ tail) L
    (zeros (8 * Z.to_nat L - length bs) ++ bits_of_bytes tail) HR) as (s2 & E2 & P2).
  - apply Forall_app. split; auto. apply Forall_firstn; auto.
  - rewrite app_length, firstn_length. unfold L. lia.
  - rewrite bits_of_bytes_app, app_assoc. f_equal.
    replace (firstn (Z.to_nat L) (buf s1)) with (firstn (Z.to_nat L) (firstn (Z.to_nat n) (buf s1))).
    2:{ rewrite firstn_firstn. f_equal. lia. }
    rewrite bits_of_bytes_firstn, HBits, firstn_app.
    rewrite (firstn_all2 bs) by lia. f_equal. rewrite firstn_zeros by lia. f_equal.
  - unfold blen. lia.
  - exists s2. split; auto.
Qed.

Lemma round_trip : forall c h t ok check v bs mem n, wfa t -> encodes c true t [] v 0 bs ->
  (check = true -> ok v = true) -> ok (anorm t v) = true ->
  Forall is_byte mem -> 0 <= n <= Z.of_nat (length mem) -> blen bs <= 8 * n ->
  exists s0 s1, BitStream_Init mem n = Ok s0 /\ ACN_Encode c h t ok check v s0 = Ok (true, s1) /\ pos s1 = blen bs /\
    bits_of_bytes (firstn (Z.to_nat n) (buf s1)) = bs ++ zeros (Z.to_nat (8 * n) - length bs) /\
    skipn (Z.to_nat n) (buf s1) = skipn (Z.to_nat n) mem /\
    forall tail, Forall is_byte tail -> exists s2,
      ACN_Decode c h t ok (BitStream_AttachBuffer (firstn (Z.to_nat (BitStream_GetLength s1)) (buf s1) ++ tail) (BitStream_GetLength s1))
      = Ok (Some (anorm t v), s2) /\ pos s2 = pos s1.
Proof.
  intros c h t ok check v bs mem n W HE H1 H2 HM Hn HL. apply e2eAt; auto.
  - unfold ACN_Encode. replace (if check then ok v else true) with true by (destruct check; [symmetry; auto|auto]).
    eapply encode; eauto.
  - unfold ACN_Decode. rewrite <- (app_nil_r bs). eapply readsAt_bindo; [eapply decode; eauto|]. rewrite H2. apply readsAt_ret.
Qed.
Lemma buffer : forall c h t v bs mem n, wfa t -> acomputed t -> encodes c true t [] v 0 bs ->
  Forall is_byte mem -> required_acn t <= n <= Z.of_nat (length mem) ->
  exists s0 s1, BitStream_Init mem n = Ok s0 /\ aenc c h t v s0 = Ok (true, s1) /\ pos s1 <= amax t /\
    BitStream_GetLength s1 <= required_acn t.
Proof.
  intros c h t v bs mem n W C HE HM Hn. pose proof (proj1 (amax_ok c true) t W C _ _ _ _ HE) as HX.
  unfold required_acn in *. assert (0 <= blen bs) by (unfold blen; lia).
  destruct (run_writesAt _ _ _ mem n (encode c h t [] v 0 bs W HE) HM) as (s0 & s1 & E0 & E1 & HC & HLm & HF & HP & HCb & _ & _); try lia.
  exists s0, s1. splits; auto; [lia|]. rewrite GetLength_pos by auto. lia.
Qed.

(** ** The encoding is a function of the value, and uniquely decodable *)
Definition state_at (p : Z) (bs : list bool) : bstream :=
  let mem := pack (zeros (Z.to_nat p) ++ bs) in mkbs mem (Z.of_nat (length mem)) (p / 8) (p mod 8).
Lemma state_at_ok : forall p bs, 0 <= p -> exists k,
  at_ (state_at p bs) (zeros (Z.to_nat p)) (bs ++ zeros k) /\
  8 * count (state_at p bs) = Z.of_nat (Z.to_nat p + length bs + k) /\
  count (state_at p bs) = Z.of_nat (length (buf (state_at p bs))).
Proof.
  intros p bs Hp. unfold state_at. set (l := zeros (Z.to_nat p) ++ bs).
  destruct (bits_of_pack _ l (le_n _)) as [HB HF]. exists (8 * length (pack l) - length l)%nat.
  assert (HL : length l = (Z.to_nat p + length bs)%nat) by (unfold l; rewrite app_length, len_zeros; auto).
  pose proof (f_equal (@length bool) HB) as HLen. rewrite len_bits_of_bytes, app_length, len_zeros in HLen.
  cbn [count buf]. splits; try lia. unfold at_, pos. cbn [buf curByte curBit]. rewrite len_zeros. splits; auto; try lia.
  rewrite HB. unfold l. now rewrite <- app_assoc.
Qed.
Lemma readsAt_prefix : forall {A} p (f : M A) a1 a2 bs1 bs2 r1 r2, 0 <= p -> readsAt p f a1 bs1 -> readsAt p f a2 bs2 ->
  bs1 ++ r1 = bs2 ++ r2 -> a1 = a2 /\ bs1 = bs2 /\ r1 = r2.
Proof.
  intros A p f a1 a2 bs1 bs2 r1 r2 Hp R1 R2 E.
  destruct (state_at_ok p (bs1 ++ r1) Hp) as (k & HA & HC & HB).
  set (s := state_at p (bs1 ++ r1)) in *. clearbody s.
  pose proof (f_equal (@length bool) E) as HL. rewrite !app_length in *.
  assert (HP : blen (zeros (Z.to_nat p)) = p) by (unfold blen; rewrite len_zeros; lia).
  destruct (R1 s _ (r1 ++ zeros k) HP) as (s1 & E1 & A1 & _); [lia|rewrite app_assoc; exact HA|rewrite len_zeros; lia|].
  destruct (R2 s _ (r2 ++ zeros k) HP) as (s2 & E2 & A2 & _); [lia|rewrite app_assoc, <- E; exact HA|rewrite len_zeros; lia|].
  rewrite E1 in E2. injection E2; intros; subst s2 a2.
  apply at_len_pos in A1, A2. rewrite !app_length in *.
  assert (Hl : length bs1 = length bs2) by lia. split; auto.
  apply (f_equal (firstn (length bs1))) in E as E3. rewrite firstn_app_exact in E3. rewrite Hl, firstn_app_exact in E3. subst bs2.
  split; auto. apply app_inv_head in E. auto.
Qed.
Lemma unique : forall c st1 st2 t e v1 v2 p bs1 bs2 r1 r2, wfa t -> 0 <= p ->
  encodes c st1 t e v1 p bs1 -> encodes c st2 t e v2 p bs2 -> bs1 ++ r1 = bs2 ++ r2 ->
  anorm t v1 = anorm t v2 /\ bs1 = bs2 /\ r1 = r2.
Proof.
  intros c st1 st2 t e v1 v2 p bs1 bs2 r1 r2 W Hp H1 H2 E.
  destruct (readsAt_prefix p _ _ _ _ _ _ _ Hp (decode c st1 true t e v1 p bs1 W H1) (decode c st2 true t e v2 p bs2 W H2) E) as (X & Y).
  split; auto. congruence.
Qed.
Lemma functional : forall c t e1 e2 v p bs1 bs2, wfa t -> 0 <= p ->
  encodes c true t e1 v p bs1 -> encodes c true t e2 v p bs2 -> bs1 = bs2.
Proof.
  intros c t e1 e2 v p bs1 bs2 W Hp H1 H2.
  apply (encode c true) in H1; auto. apply (encode c true) in H2; auto.
  set (n := (length bs1 + length bs2)%nat).
  destruct (state_at_ok p (zeros n) Hp) as (k & HA & HC & HB).
  set (s := state_at p (zeros n)) in *. clearbody s. rewrite len_zeros in *.
  assert (HP : blen (zeros (Z.to_nat p)) = p) by (unfold blen; rewrite len_zeros; lia).
  assert (HZ : zeros n ++ zeros k = zeros (n + k) ++ []) by (unfold zeros; rewrite app_nil_r, repeat_app; auto).
  rewrite HZ in HA.
  destruct (H1 s _ (n + k)%nat [] HP HA) as (s1 & E1 & A1 & _); [rewrite len_zeros; lia|unfold n; lia|].
  destruct (H2 s _ (n + k)%nat [] HP HA) as (s2 & E2 & A2 & _); [rewrite len_zeros; lia|unfold n; lia|].
  rewrite E1 in E2. injection E2; intros; subst s2.
  pose proof (at_len_pos _ _ _ A1) as L1. pose proof (at_len_pos _ _ _ A2) as L2. rewrite !app_length in *.
  destruct A1 as (_ & B1 & _), A2 as (_ & B2 & _). rewrite B1, <- !app_assoc in B2. apply app_inv_head in B2.
  apply (f_equal (firstn (length bs1))) in B2. rewrite firstn_app_exact in B2.
  replace (length bs1) with (length bs2) in B2 by lia. rewrite firstn_app_exact in B2. auto.
Qed.

(** Determinants on which the consumers disagree *)
Lemma disagree : forall c h d t fs l x y s, In x (dem_fields d fs l) -> In y (dem_fields d fs l) -> x <> y ->
  aenc_fields c h (GAcn d t fs) l s = Ok (false, s).
Proof.
  intros c h d t fs l x y s Hx Hy N. cbn [aenc_fields]. unfold resolve. destruct (dem_fields d fs l) as [|z r]; [reflexivity|].
  destruct (forallb (veqb z) r) eqn:E; [|reflexivity]. exfalso. apply N. rewrite forallb_forall in E.
  assert (HZ : forall w, In w (z :: r) -> w = z) by (intros w [<-|H]; [auto|symmetry; apply AcnGenProofs4.veqb_true; auto]).
  rewrite (HZ x Hx), (HZ y Hy). reflexivity.
Qed.
