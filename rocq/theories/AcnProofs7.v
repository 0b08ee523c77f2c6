(** ACN reals on any input; ACN decoders as prefix parsers. *)
From Verif Require Import Base Bits BitStream Ints Contracts Misc Octets RealSpec RealC AcnSpec Acn AcnStr AcnReal Parse.
From Verif Require Import BitsProofs BitStreamProofs BitStreamProofs2 BitStreamProofs3 IntsProofs SafeProofs MiscProofs.
From Verif Require Import RangeProofs TameProofs ParseProofs OctetsProofs OctetsProofs2 FloatProofs RealProofs.
From Verif Require Import AcnProofs1 AcnProofs2 AcnProofs3 AcnProofs4 AcnProofs5 AcnProofs6.
From Coq Require Import ZifyBool ZifyNat.
Ltac Zify.zify_post_hook ::= Z.div_mod_to_equations.

(** ** Interchange formats *)
Lemma fields_of : forall mb eb u, 0 < mb -> 0 < eb -> 0 <= u < 2 ^ (mb + eb + 1) ->
  exists (s : bool) e f, 0 <= e < 2 ^ eb /\ 0 <= f < 2 ^ mb /\ u = (if s then 2 ^ (mb + eb) else 0) + e * 2 ^ mb + f.
Proof.
  intros mb eb u Hm He Hu.
  assert (P1 : 0 < 2 ^ mb) by (apply Z.pow_pos_nonneg; lia).
  assert (P2 : 0 < 2 ^ eb) by (apply Z.pow_pos_nonneg; lia).
  assert (P3 : 2 ^ (mb + eb) = 2 ^ mb * 2 ^ eb) by (apply Z.pow_add_r; lia).
  assert (P4 : 2 ^ (mb + eb + 1) = 2 * (2 ^ mb * 2 ^ eb)) by (rewrite Z.pow_add_r, P3 by lia; lia).
  pose proof (Z.div_mod u (2 ^ mb) ltac:(lia)) as D. pose proof (Z.mod_pos_bound u (2 ^ mb) ltac:(lia)) as F.
  set (q := u / 2 ^ mb) in *. assert (Q : 0 <= q < 2 * 2 ^ eb) by (split; nia).
  exists (2 ^ eb <=? q), (if 2 ^ eb <=? q then q - 2 ^ eb else q), (u mod 2 ^ mb).
  destruct (Z.leb_spec (2 ^ eb) q); (split; [lia|]); (split; [lia|]); rewrite ?P3; lia.
Qed.
Lemma valid_finite : forall prec emax s m e, 1 < prec -> prec < emax ->
  2 ^ (prec - 1) <= Zpos m < 2 ^ prec \/ Zpos m < 2 ^ (prec - 1) /\ e = 3 - emax - prec ->
  3 - emax - prec <= e <= emax - prec -> valid_binary prec emax (S754_finite s m e) = true.
Proof.
  intros prec emax s m e Hp He Hm Hx. unfold valid_binary, bounded, canonical_mantissa. rewrite digits_nbits.
  pose proof (nbits_pow (Zpos m) prec ltac:(lia)) as B. pose proof (nbits_pow (Zpos m) (prec - 1) ltac:(lia)) as B1.
  pose proof (nbits_pos (Zpos m) ltac:(lia)).
  assert (nbits (Zpos m) = prec \/ nbits (Zpos m) < prec /\ e = 3 - emax - prec) as HN.
  { destruct Hm as [Hm|[Hm ->]].
    - left. assert (nbits (Zpos m) <= prec) by (apply B; lia).
      assert (~ nbits (Zpos m) <= prec - 1) by (intro K; apply B1 in K; lia). lia.
    - right. apply B1 in Hm. lia. }
  apply andb_true_intro. split; [|apply Z.leb_le; lia].
  apply Zeq_is_eq_bool. unfold fexp, emin. lia.
Qed.
Lemma ieee_double : forall u, 0 <= u < 2 ^ 64 ->
  is_double (ieee_value 52 11 u) /\ (ieee_value 52 11 u <> S754_nan -> double_bits (ieee_value 52 11 u) = u).
Proof.
  intros u Hu. destruct (fields_of 52 11 u ltac:(lia) ltac:(lia) Hu) as (s & e & f & He & Hf & EU).
  destruct (ieee_fields 52 11 s e f ltac:(lia) ltac:(lia) He Hf) as (U & T & D & M). cbv zeta in *. rewrite <- EU in *.
  unfold ieee_value. change (52 + 11) with 63 in *. rewrite T, D, M.
  change (2 ^ 11 - 1) with 2047. change (2 ^ (11 - 1) - 1) with 1023. change (1 - 1023 - 52) with (-1074).
  replace (e - 1023 - 52) with (e - 1075) by lia.
  destruct (Z.eqb_spec e 2047) as [->|N1]; [destruct (Z.eqb_spec f 0) as [->|N2]|
    destruct (Z.eqb_spec e 0) as [->|N3]; [destruct (Z.eqb_spec f 0) as [->|N2]|]].
  - split; [reflexivity|]. intros _. rewrite EU. unfold double_bits. lia.
  - split; [reflexivity|]. intro H. exfalso. apply H. reflexivity.
  - split; [reflexivity|]. intros _. rewrite EU. unfold double_bits. lia.
  - split.
    + apply valid_finite; try lia.
    + intros _. rewrite EU. unfold double_bits. rewrite Z2Pos.id by lia. replace (f <? 2 ^ 52) with true by lia. lia.
  - split.
    + apply valid_finite; try lia.
    + intros _. rewrite EU. unfold double_bits. rewrite Z2Pos.id by lia. replace (f + 2 ^ 52 <? 2 ^ 52) with false by lia. lia.
Qed.
Lemma ieee_float : forall u, 0 <= u < 2 ^ 32 ->
  is_float (ieee_value 23 8 u) /\ (ieee_value 23 8 u <> S754_nan -> float_bits (ieee_value 23 8 u) = u).
Proof.
  intros u Hu. destruct (fields_of 23 8 u ltac:(lia) ltac:(lia) Hu) as (s & e & f & He & Hf & EU).
  destruct (ieee_fields 23 8 s e f ltac:(lia) ltac:(lia) He Hf) as (U & T & D & M). cbv zeta in *. rewrite <- EU in *.
  unfold ieee_value. change (23 + 8) with 31 in *. rewrite T, D, M.
  change (2 ^ 8 - 1) with 255. change (2 ^ (8 - 1) - 1) with 127. change (1 - 127 - 23) with (-149).
  replace (e - 127 - 23) with (e - 150) by lia.
  destruct (Z.eqb_spec e 255) as [->|N1]; [destruct (Z.eqb_spec f 0) as [->|N2]|
    destruct (Z.eqb_spec e 0) as [->|N3]; [destruct (Z.eqb_spec f 0) as [->|N2]|]].
  - split; [reflexivity|]. intros _. rewrite EU. unfold float_bits. lia.
  - split; [reflexivity|]. intro H. exfalso. apply H. reflexivity.
  - split; [reflexivity|]. intros _. rewrite EU. unfold float_bits. lia.
  - split.
    + apply valid_finite; try lia.
    + intros _. rewrite EU. unfold float_bits. rewrite Z2Pos.id by lia. replace (f <? 2 ^ 23) with true by lia. lia.
  - split.
    + apply valid_finite; try lia.
    + intros _. rewrite EU. unfold float_bits. rewrite Z2Pos.id by lia. replace (f + 2 ^ 23 <? 2 ^ 23) with false by lia. lia.
Qed.

Lemma safe_get_up : forall k b2 b1, (k <= length b2)%nat ->
  safe (get_up (b1 ++ b2) (Z.of_nat (length b1)) k)
    (fun b => exists l, length l = k /\ Forall is_byte l /\ b = b1 ++ l ++ skipn k b2).
Proof.
  induction k; intros b2 b1 Hk; cbn [get_up].
  - apply safe_ret_some. exists []. auto.
  - destruct b2 as [|x b2]; [cbn in Hk; lia|]. eapply safe_bindo; [apply safe_ReadByte|]. intros y Hy.
    eapply safe_lift; [apply updZ_mid|].
    replace (b1 ++ y :: b2) with ((b1 ++ [y]) ++ b2) by (rewrite <- app_assoc; reflexivity).
    replace (Z.of_nat (length b1) + 1) with (Z.of_nat (length (b1 ++ [y]))) by (rewrite app_length; cbn; lia).
    eapply safe_weaken; [|apply IHk; cbn in Hk; lia].
    intros d (l & L1 & L2 & ->). exists (y :: l). cbn [length skipn]. split; [lia|]. split; [auto|].
    rewrite <- app_assoc. reflexivity.
Qed.
Lemma safe_get_down : forall b1 b2,
  safe (get_down (b1 ++ b2) (length b1)) (fun b => exists l, length l = length b1 /\ Forall is_byte l /\ b = l ++ b2).
Proof.
  induction b1 as [|x b1 IH] using rev_ind; intros b2.
  - cbn [length get_down]. apply safe_ret_some. exists []. auto.
  - rewrite app_length, Nat.add_comm. cbn [length Nat.add get_down].
    eapply safe_bindo; [apply safe_ReadByte|]. intros y Hy.
    rewrite <- app_assoc. cbn [app]. eapply safe_lift; [apply updZ_mid|].
    eapply safe_weaken; [|apply IH]. intros d (l & L1 & L2 & ->). exists (l ++ [y]).
    rewrite app_length. cbn [length]. split; [lia|]. split; [apply Forall_app; auto|]. now rewrite <- app_assoc.
Qed.
Lemma le_value_range : forall l, Forall is_byte l -> 0 <= le_value l < 256 ^ Z.of_nat (length l).
Proof.
  induction l; intro F; cbn [le_value length]; [cbn; lia|].
  specialize (IHl (Forall_inv_tail F)). pose proof (Forall_inv F) as Ha. unfold is_byte in Ha.
  rewrite Nat2Z.inj_succ, Z.pow_succ_r by lia. lia.
Qed.
Lemma obj_value_range : forall le l, Forall is_byte l -> 0 <= obj_value le l < 256 ^ Z.of_nat (length l).
Proof.
  intros le l F. unfold obj_value. destruct le; [apply le_value_range; assumption|].
  rewrite <- (rev_length l). apply le_value_range. apply Forall_rev. assumption.
Qed.
Lemma safe_real_loops : forall le k (up : bool),
  safe (let? b := (if up then get_up (obj_bytes le k 0) 0 k else get_down (obj_bytes le k 0) k) in ret (Some (obj_value le b)))
    (fun u => 0 <= u < 256 ^ Z.of_nat k).
Proof.
  intros le k up. eapply safe_bindo with (P := fun b => length b = k /\ Forall is_byte b).
  - destruct up.
    + eapply safe_weaken; [|apply (safe_get_up k (obj_bytes le k 0) []); rewrite len_obj_bytes; lia].
      intros b (l & L1 & L2 & ->). rewrite skipn_all2 by (rewrite len_obj_bytes; lia). cbn [app]. now rewrite app_nil_r.
    + pose proof (safe_get_down (obj_bytes le k 0) []) as S. rewrite app_nil_r, len_obj_bytes in S.
      eapply safe_weaken; [|exact S]. intros b (l & L1 & L2 & ->). now rewrite app_nil_r.
  - intros b [L F]. apply safe_ret_some. rewrite <- L. apply obj_value_range. assumption.
Qed.
Lemma safe_real_be : forall le k, safe (Acn_dec_real_big_endian le k) (fun u => 0 <= u < 256 ^ Z.of_nat k).
Proof. intros. unfold Acn_dec_real_big_endian. cbv zeta. apply safe_real_loops. Qed.
Lemma safe_real_le : forall le k, safe (Acn_dec_real_little_endian le k) (fun u => 0 <= u < 256 ^ Z.of_nat k).
Proof. intros. unfold Acn_dec_real_little_endian. cbv zeta. apply safe_real_loops. Qed.

(** ** Prefix parsers *)
Lemma parses_deto : forall {A} (f : M (option A)) (P0 P : A -> list bool -> Prop), parses f P0 ->
  (forall a bs, P0 a bs -> exists r, reads f r bs /\ forall b, r = Some b -> P b bs) -> parses f P.
Proof.
  intros A f P0 P H0 HR s a s' W E. destruct (H0 s a s' W E) as (pre & bs & rest & X1 & X2 & X3 & X4 & X5).
  exists pre, bs, rest. destruct (HR a bs X4) as (r & R & HB).
  destruct (R s pre rest X1 X2) as (s1 & E1 & _). rewrite E in E1. injection E1 as <- _.
  splits; auto; lia.
Qed.
Lemma parses_det : forall {A} (f : M (option A)) (P0 P : A -> list bool -> Prop), parses f P0 ->
  (forall a bs, P0 a bs -> exists b, reads f (Some b) bs /\ P b bs) -> parses f P.
Proof.
  intros A f P0 P H0 HR s a s' W E. destruct (H0 s a s' W E) as (pre & bs & rest & X1 & X2 & X3 & X4 & X5).
  exists pre, bs, rest. destruct (HR a bs X4) as (b & R & HB).
  destruct (R s pre rest X1 X2) as (s1 & E1 & _). rewrite E in E1. injection E1 as <- _.
  splits; auto; lia.
Qed.
Lemma parses_BE : forall size, 0 <= size <= 8 ->
  parses (Acn_Dec_Int_PositiveInteger_ConstSize_big_endian size)
    (fun v bs => 0 <= v < 2 ^ (8 * size) /\ bs = Zbits (Z.to_nat (8 * size)) v).
Proof.
  intros size H. apply parses_value; [lia| |intros; apply reads_BE; assumption].
  eapply parses_weaken; [|apply parses_dec_ubytes]. cbv beta. intros; lia.
Qed.
Lemma parses_dec_le : forall k i r, parses (dec_le i r k) (fun _ bs => length bs = (8 * k)%nat).
Proof.
  induction k; intros i r; cbn [dec_le]; [apply parses_ret; reflexivity|].
  eapply parses_bindo; [apply parses_ReadByte|]. intros b bs1 [B1 B2].
  eapply parses_weaken; [|apply IHk]. cbv beta. intros a bs H. subst bs1. rewrite app_length, len_Zbits. lia.
Qed.
Lemma le_octets_value : forall l, Forall is_byte l -> le_octets (length l) (le_value l) = l.
Proof.
  induction l; intro F; cbn [length le_octets le_value]; [reflexivity|].
  pose proof (Forall_inv F) as Ha. unfold is_byte in Ha.
  f_equal; [lia|]. replace ((a + 256 * le_value l) / 256) with (le_value l) by lia. apply IHl. exact (Forall_inv_tail F).
Qed.
Lemma octets_of : forall k bs, length bs = (8 * k)%nat -> exists l, Forall is_byte l /\ length l = k /\ bits_of_bytes l = bs.
Proof.
  intros k bs H. destruct (bytes_of_bits_exist k bs H) as (l & L1 & L2 & L3). eauto.
Qed.
Lemma parses_LE : forall size, 0 <= size <= 8 ->
  parses (Acn_Dec_Int_PositiveInteger_ConstSize_little_endian size)
    (fun v bs => 0 <= v < 2 ^ (8 * size) /\ bs = bits_of_bytes (le_octets (Z.to_nat size) v)).
Proof.
  intros size H. eapply parses_det; [apply parses_dec_le|]. cbv beta. intros _ bs Hbs.
  destruct (octets_of _ bs Hbs) as (l & F & L & <-). exists (le_value l).
  assert (R : 0 <= le_value l < 2 ^ (8 * size)).
  { pose proof (le_value_range l F) as R. rewrite L in R. change 256 with (2 ^ 8) in R. rewrite <- Z.pow_mul_r in R by lia.
    now replace (8 * Z.of_nat (Z.to_nat size)) with (8 * size) in R by lia. }
  assert (EO : le_octets (Z.to_nat size) (le_value l) = l) by (rewrite <- L; apply le_octets_value; assumption).
  split; [|rewrite EO; auto]. rewrite <- EO at 2. apply reads_LE; assumption.
Qed.
(** The signed value of n bits. *)
Lemma signed_bits : forall n bs, 1 <= n -> Z.of_nat (length bs) = n ->
  exists v, - 2 ^ (n - 1) <= v < 2 ^ (n - 1) /\ bs = Zbits (Z.to_nat n) v.
Proof.
  intros n bs Hn Hb. pose proof (bval_bounds bs) as B. rewrite Hb in B.
  assert (P : 2 ^ n = 2 * 2 ^ (n - 1)) by (rewrite <- Z.pow_succ_r by lia; f_equal; lia).
  assert (E : Zbits (Z.to_nat n) (bval bs) = bs) by (apply Zbits_bval_n; lia).
  destruct (Z.ltb_spec (bval bs) (2 ^ (n - 1))).
  - exists (bval bs). split; [lia|]. auto.
  - exists (bval bs - 2 ^ n). split; [lia|]. rewrite <- E at 1.
    rewrite <- (Zbits_mod _ (bval bs)), <- (Zbits_mod _ (bval bs - 2 ^ n)). f_equal.
    rewrite Z2Nat.id by lia. replace (bval bs - 2 ^ n) with (bval bs + (-1) * 2 ^ n) by lia.
    rewrite Z_mod_plus_full. reflexivity.
Qed.
Lemma parses_of_uint : forall c (f : M (option Z)) size, parses f (fun _ bs => length bs = (8 * Z.to_nat size)%nat) ->
  parses (let? u := f in let* v := lift (uint2int c u size) in ret (Some v)) (fun _ bs => length bs = (8 * Z.to_nat size)%nat).
Proof.
  intros c f size H. eapply parses_bindo; [exact H|]. intros u bs Hu. apply parses_lift. intros v _.
  apply parses_ret. now rewrite app_nil_r.
Qed.
Lemma parses_I8 : forall c, parses (Acn_Dec_Int_TwosComplement_ConstSize_8 c) (fun v bs => -128 <= v < 128 /\ bs = Zbits 8 v).
Proof.
  intro c. eapply parses_det.
  - apply (parses_of_uint c Acn_Dec_Int_PositiveInteger_ConstSize_8 1).
    eapply parses_weaken; [|apply parses_ReadByte]. intros a bs [_ ->]. now rewrite len_Zbits.
  - cbv beta. intros _ bs Hb. destruct (signed_bits 8 bs ltac:(lia) ltac:(lia)) as (v & Hv & ->).
    exists v. split; [apply reads_I8|split; [|reflexivity]]; exact Hv.
Qed.
Lemma parses_IN_BE : forall c size, 1 <= size <= 8 -> parses (Acn_Dec_Int_TwosComplement_ConstSize_big_endian c size)
  (fun v bs => - 2 ^ (8 * size - 1) <= v < 2 ^ (8 * size - 1) /\ bs = Zbits (Z.to_nat (8 * size)) v).
Proof.
  intros c size H. eapply parses_det.
  - apply (parses_of_uint c (Acn_Dec_Int_PositiveInteger_ConstSize_big_endian size) size). apply parses_dec_ubytes.
  - cbv beta. intros _ bs Hb. destruct (signed_bits (8 * size) bs ltac:(lia) ltac:(lia)) as (v & Hv & ->).
    exists v. split; [apply reads_IN_BE; assumption|]. split; [assumption|reflexivity].
Qed.
Lemma parses_IN_LE : forall c size, 1 <= size <= 8 -> parses (Acn_Dec_Int_TwosComplement_ConstSize_little_endian c size)
  (fun v bs => - 2 ^ (8 * size - 1) <= v < 2 ^ (8 * size - 1) /\ bs = bits_of_bytes (le_octets (Z.to_nat size) v)).
Proof.
  intros c size H. eapply parses_det.
  - apply (parses_of_uint c (Acn_Dec_Int_PositiveInteger_ConstSize_little_endian size) size). apply parses_dec_le.
  - cbv beta. intros _ bs Hb. destruct (octets_of _ bs Hb) as (l & F & L & <-).
    destruct (signed_bits (8 * size) (bits_of_bytes (rev l)) ltac:(lia)) as (v & Hv & EV).
    { rewrite len_bits_of_bytes, rev_length. lia. }
    exists v. assert (EO : l = le_octets (Z.to_nat size) v).
    { replace (Z.to_nat (8 * size)) with (8 * Z.to_nat size)%nat in EV by lia. rewrite <- be_bits in EV.
      apply bits_of_bytes_inj in EV; [|now apply Forall_rev|apply Forall_rev; apply le_octets_byte].
      rewrite <- (rev_involutive l), EV. apply rev_involutive. }
    rewrite EO. split; [apply reads_IN_LE; assumption|]. auto.
Qed.
Lemma parses_VarU : parses Acn_Dec_Int_PositiveInteger_VarSize_LengthEmbedded
  (fun v bs => exists n, 0 <= n <= 8 /\ 0 <= v < 2 ^ (8 * n) /\ bs = Zbits 8 n ++ Zbits (Z.to_nat (8 * n)) v).
Proof.
  unfold Acn_Dec_Int_PositiveInteger_VarSize_LengthEmbedded. eapply parses_bindo; [apply parses_ReadByte|].
  intros n bs1 [Hn ->]. unfold is_byte in Hn. destruct (8 <? n) eqn:E; [apply parses_none|].
  eapply parses_weaken; [|apply (parses_BE n); lia]. cbv beta. intros v bs [Hv ->]. exists n. split; [lia|]. auto.
Qed.
(** Bits of a decoder whose length is fixed and that peeks at the first of them. *)
Lemma peek_inv : forall {B} (g : bool -> M B) s r, (let* x := BitStream_PeekBit in g x) s = Ok r -> exists b, g b s = Ok r.
Proof.
  intros B g s r H. unfold bind in H. destruct (BitStream_PeekBit s) as [[b s1]| | |] eqn:E; try discriminate.
  exists b. unfold BitStream_PeekBit, tbl, rd, bind, get, lift, ret in E.
  destruct (nthZ masks (curBit s)); try discriminate. destruct (nthZ (buf s) (curByte s)); try discriminate.
  injection E as _ <-. exact H.
Qed.
Lemma parses_Twos : forall c n, shl_wrap c = true -> 1 <= n <= 64 ->
  parses (Acn_Dec_Int_TwosComplement_ConstSize c n)
    (fun v bs => - 2 ^ (n - 1) <= v < 2 ^ (n - 1) /\ bs = Zbits (Z.to_nat n) v).
Proof.
  intros c n Hc Hn. apply parses_fixed with (k := Z.to_nat n).
  - intros bs Hb. destruct (signed_bits n bs ltac:(lia) ltac:(lia)) as (v & Hv & ->).
    exists (Some v). split; [apply reads_Twos; auto|]. intros a E. injection E as <-. auto.
  - intros s a s' W L E. unfold Acn_Dec_Int_TwosComplement_ConstSize in E. apply peek_inv in E. destruct E as [neg E].
    cbv zeta in E. rewrite Z.rem_mod_nonneg, Z.quot_div_nonneg in E by lia.
    assert (HP : parses (let? v := dec_sbytes c (Z.to_nat (n / 8)) (if neg then -1 else 0) in
       if 0 <? n mod 8 then let? b := BitStream_ReadPartialByte (n mod 8) in let* w := lift (sshl c v (n mod 8)) in ret (Some (Z.lor w b))
       else ret (Some v)) (fun _ bs => Z.of_nat (length bs) = n)).
    { eapply parses_bindo; [apply parses_dec_sbytes|]. cbv beta. intros v bs1 Hb1. destruct (0 <? n mod 8) eqn:F.
      - eapply parses_bindo; [apply (parses_ReadPartialByte (n mod 8)); lia|]. intros b bs2 [Hb ->].
        apply parses_lift. intros w _. apply parses_ret. rewrite !app_length, len_Zbits. cbn [length]. lia.
      - apply parses_ret. rewrite app_length. cbn [length]. lia. }
    destruct (HP s a s' W E) as (pre & bs & rest & X1 & X2 & _ & X4 & _). apply at_pos in X1. lia.
Qed.

Lemma parses_dec_bcd : forall k r, is_u64 r -> parses (dec_bcd r k)
  (fun v bs => exists l, length l = k /\ Forall is_nib l /\ bs = nibbles l /\ v = u64 (r * 10 ^ Z.of_nat k + dval l)).
Proof.
  intros k r Hr. eapply parses_det with (P0 := fun _ bs => exists l, length l = k /\ Forall is_nib l /\ bs = nibbles l).
  - clear Hr. revert r. induction k; intros r; cbn [dec_bcd].
    + apply parses_ret. exists []. auto.
    + eapply parses_bindo; [apply (parses_ReadPartialByte 4); lia|]. intros d bs [Hd ->].
      eapply parses_weaken; [|apply IHk]. cbv beta. intros _ bs2 (l & L1 & L2 & ->). exists (d :: l).
      cbn [length]. split; [lia|]. split; [constructor; [unfold is_nib; lia|assumption]|]. reflexivity.
  - intros _ bs (l & L1 & L2 & ->). eexists. split; [rewrite <- L1; apply reads_dec_bcd; assumption|].
    exists l. rewrite L1. auto.
Qed.
Lemma parses_BCD : forall n, parses (Acn_Dec_Int_BCD_ConstSize (Z.of_nat n))
  (fun v bs => exists l, length l = n /\ Forall is_nib l /\ bs = nibbles l /\ v = u64 (dval l)).
Proof.
  intros n. unfold Acn_Dec_Int_BCD_ConstSize. rewrite Nat2Z.id.
  eapply parses_weaken; [|apply parses_dec_bcd; exact is_u64_0]. intros v bs (l & L1 & L2 & L3 & ->). exists l. auto.
Qed.
Lemma parses_BCD_Var : parses Acn_Dec_Int_BCD_VarSize_LengthEmbedded
  (fun v bs => exists l, (length l <= 16)%nat /\ Forall is_nib l /\ bs = Zbits 8 (Z.of_nat (length l)) ++ nibbles l /\ v = u64 (dval l)).
Proof.
  unfold Acn_Dec_Int_BCD_VarSize_LengthEmbedded. eapply parses_bindo; [apply parses_ReadByte|]. intros n bs [Hn ->].
  unfold is_byte in Hn. destruct (2 * 8 <? n) eqn:E; [apply parses_none|].
  rewrite <- (Z2Nat.id n) by lia. eapply parses_weaken; [|apply parses_BCD]. cbv beta.
  intros v bs (l & L1 & L2 & -> & ->). exists l. rewrite L1. split; [lia|]. auto.
Qed.
Lemma parses_get : forall {A} (g : bstream -> M (option A)) P, (forall x, parses (g x) P) ->
  (forall a bs, P a bs -> reads (let* x := get in g x) (Some a) bs) -> parses (let* x := get in g x) P.
Proof.
  intros A g P HP HR s a s' W E. destruct (HP s s a s' W E) as (pre & bs & rest & X1 & X2 & X3 & X4 & X5).
  exists pre, bs, rest. splits; auto; lia.
Qed.
Lemma parses_BCD_Null : parses Acn_Dec_Int_BCD_VarSize_NullTerminated
  (fun v bs => exists l t, Forall (fun d => 0 <= d <= 9) l /\ 9 < t <= 15 /\ bs = nibbles l ++ Zbits 4 t /\ v = u64 (dval l)).
Proof.
  assert (G : forall fuel r, is_u64 r -> parses (dec_bcd_null fuel r) (fun v bs => exists l t,
    Forall (fun d => 0 <= d <= 9) l /\ 9 < t <= 15 /\ bs = nibbles l ++ Zbits 4 t /\ v = u64 (r * 10 ^ Z.of_nat (length l) + dval l))).
  { induction fuel; intros r Hr; cbn [dec_bcd_null]; [apply parses_diverge|].
    eapply parses_bindo; [apply (parses_ReadPartialByte 4); lia|]. intros d bs [Hd ->].
    destruct (9 <? d) eqn:E.
    - apply parses_ret. exists [], d. split; [constructor|]. split; [lia|].
      split; [now rewrite app_nil_r|]. cbn [dval length]. rewrite u64_id; [lia|]. replace (r * 10 ^ Z.of_nat 0 + 0) with r by lia. assumption.
    - eapply parses_weaken; [|apply IHfuel; apply u64_range]. cbv beta. intros v bs (l & t & F & T & -> & ->).
      exists (d :: l), t. split; [constructor; [lia|assumption]|]. split; [assumption|].
      split; [unfold nibbles; cbn [map concat]; now rewrite app_assoc|].
      rewrite u64_mul10, u64_idem. f_equal. cbn [dval length]. rewrite pow10_S. ring. }
  unfold Acn_Dec_Int_BCD_VarSize_NullTerminated. apply parses_get.
  - intro x. eapply parses_weaken; [|apply G; exact is_u64_0]. cbv beta. intros v bs (l & t & F & T & -> & ->).
    exists l, t. auto.
  - intros v bs (l & t & F & T & -> & ->). apply reads_BCD_Null_gen; assumption.
Qed.
Lemma parses_assert : forall {A} c b (g : M (option A)) P, (b = true -> parses g P) -> parses (assert_or_false c b g) P.
Proof.
  intros A c b g P H. unfold assert_or_false. apply parses_massert. intros _. destruct b; [auto|apply parses_none].
Qed.
Lemma parses_dec_ascii : forall c k r, is_u64 r -> parses (dec_ascii c r k)
  (fun v bs => exists l, length l = k /\ Forall is_dig l /\ bs = bits_of_bytes (digit_chars l) /\ v = u64 (r * 10 ^ Z.of_nat k + dval l)).
Proof.
  intros c k r Hr.
  eapply parses_det with (P0 := fun _ bs => exists l, length l = k /\ Forall is_dig l /\ bs = bits_of_bytes (digit_chars l)).
  - clear Hr. revert r. induction k; intros r; cbn [dec_ascii].
    + apply parses_ret. exists []. auto.
    + eapply parses_bindo; [apply parses_ReadByte|]. intros d bs [Hd ->]. apply parses_assert. intro E.
      eapply parses_weaken; [|apply IHk]. cbv beta. intros _ bs2 (l & L1 & L2 & ->). exists (d - 48 :: l).
      cbn [length]. split; [lia|]. split; [constructor; [unfold is_dig; lia|assumption]|].
      cbn [digit_chars map]. replace (48 + (d - 48)) with d by lia. reflexivity.
  - intros _ bs (l & L1 & L2 & ->). eexists. split; [rewrite <- L1; apply reads_dec_ascii; assumption|].
    exists l. rewrite L1. auto.
Qed.
Lemma parses_ASCII_U : forall c n, parses (Acn_Dec_UInt_ASCII_ConstSize c (Z.of_nat n))
  (fun v bs => exists l, length l = n /\ Forall is_dig l /\ bs = bits_of_bytes (digit_chars l) /\ v = u64 (dval l)).
Proof.
  intros c n. unfold Acn_Dec_UInt_ASCII_ConstSize. rewrite Nat2Z.id.
  eapply parses_weaken; [|apply parses_dec_ascii; exact is_u64_0]. intros v bs (l & L1 & L2 & L3 & ->). exists l. auto.
Qed.
Lemma s64_s64 : forall q x, s64 (q * s64 x) = s64 (q * x).
Proof.
  intros q x. unfold s64 at 1 3. cbv zeta.
  assert (E : (q * s64 x) mod two64 = (q * x) mod two64).
  { rewrite <- (Z.mul_mod_idemp_r q (s64 x)), <- (Z.mul_mod_idemp_r q x) by (unfold two64; lia). f_equal. f_equal.
    unfold s64. cbv zeta. unfold two63, two64. destruct (_ <? _).
    - apply Z.mod_mod. lia.
    - replace (x mod 2 ^ 64 - 2 ^ 64) with (x mod 2 ^ 64 + (-1) * 2 ^ 64) by lia. rewrite Z_mod_plus_full. apply Z.mod_mod. lia. }
  now rewrite E.
Qed.
Lemma s64_u64 : forall q x, s64 (q * u64 x) = s64 (q * x).
Proof.
  intros q x. unfold s64. cbv zeta.
  assert (E : (q * u64 x) mod two64 = (q * x) mod two64) by (unfold u64; apply Z.mul_mod_idemp_r; unfold two64; lia).
  now rewrite E.
Qed.
Lemma parses_ASCII_S : forall c n, parses (Acn_Dec_SInt_ASCII_ConstSize c (1 + Z.of_nat n))
  (fun v bs => exists sg l, (sg = 1 \/ sg = -1) /\ length l = n /\ Forall is_dig l /\
     bs = bits_of_bytes (sign_char sg :: digit_chars l) /\ v = s64 (sg * dval l)).
Proof.
  intros c n. unfold Acn_Dec_SInt_ASCII_ConstSize. cbv zeta. replace (1 + Z.of_nat n - 1) with (Z.of_nat n) by lia.
  eapply parses_bindo; [apply parses_ReadByte|]. intros d bs [Hd ->].
  assert (K : forall sg, sg = 1 \/ sg = -1 -> d = sign_char sg -> parses (let? r := Acn_Dec_UInt_ASCII_ConstSize c (Z.of_nat n) in
    let* v := lift (sres c (sg * s64 r)) in ret (Some v)) (fun v bs2 => exists sg l, (sg = 1 \/ sg = -1) /\ length l = n /\ Forall is_dig l /\
     Zbits 8 d ++ bs2 = bits_of_bytes (sign_char sg :: digit_chars l) /\ v = s64 (sg * dval l))).
  { intros sg Hs ->. eapply parses_bindo; [apply parses_ASCII_U|]. intros r bs (l & L1 & L2 & -> & ->).
    apply parses_lift. intros v Hv. apply parses_ret. exists sg, l. apply sres_val in Hv. rewrite app_nil_r.
    rewrite Hv, s64_s64, s64_u64. auto. }
  destruct (Z.eqb_spec d 43) as [->|]; [apply K; auto|]. destruct (Z.eqb_spec d 45) as [->|]; [apply (K (-1)); auto|].
  apply parses_assert. discriminate.
Qed.
Lemma pow_s64 : forall n, 1 <= n <= 8 -> 2 ^ (8 * n - 1) <= two63.
Proof. intros. unfold two63. apply Z.pow_le_mono_r; lia. Qed.
Lemma parses_VarS : forall c, parses (Acn_Dec_Int_TwosComplement_VarSize_LengthEmbedded c)
  (fun v bs => exists n, 0 <= n <= 8 /\ bs = Zbits 8 n ++ Zbits (Z.to_nat (8 * n)) v /\
     (n = 0 -> v = 0) /\ (0 < n -> - 2 ^ (8 * n - 1) <= v < 2 ^ (8 * n - 1))).
Proof.
  intro c. eapply parses_det with (P0 := fun _ bs => exists n t, 0 <= n <= 8 /\ bs = Zbits 8 n ++ t /\ length t = (8 * Z.to_nat n)%nat).
  - unfold Acn_Dec_Int_TwosComplement_VarSize_LengthEmbedded. eapply parses_bindo; [apply parses_ReadByte|].
    intros n bs [Hn ->]. unfold is_byte in Hn. destruct (8 <? n) eqn:E; [apply parses_none|].
    assert (G : forall k first v neg, parses (dec_vtwos first v neg k) (fun _ bs => length bs = (8 * k)%nat)).
    { clear. induction k; intros; cbn [dec_vtwos]; [apply parses_ret; reflexivity|].
      eapply parses_bindo; [apply parses_ReadByte|]. intros b bs1 [B1 ->].
      eapply parses_weaken; [|apply IHk]. cbv beta. intros a bs H. rewrite app_length, len_Zbits. lia. }
    eapply parses_bindo; [apply G|]. intros [v neg] t Ht.
    destruct neg; [apply parses_lift; intros ? _; apply parses_lift; intros ? _|];
      apply parses_ret; exists n, t; rewrite app_nil_r; (split; [lia|auto]).
  - intros _ bs (n & t & Hn & -> & Ht). destruct (Z.eqb_spec n 0) as [->|N].
    + destruct t; [|discriminate]. exists 0. split.
      * eapply reads_bindo with (a := 0); [apply reads_ReadByte; red; lia|]. apply reads_ret.
      * exists 0. split; [lia|]. split; [reflexivity|]. split; [reflexivity|lia].
    + destruct (signed_bits (8 * n) t ltac:(lia) ltac:(lia)) as (v & Hv & ->). exists v. split.
      * pose proof (pow_s64 n ltac:(lia)). apply reads_VarS_gen; [unfold is_s64, two63 in *; lia|lia|assumption].
      * exists n. split; [lia|]. split; [reflexivity|]. split; [lia|auto].
Qed.
Lemma parses_ASCII_VarU : forall c, parses (Acn_Dec_UInt_ASCII_VarSize_LengthEmbedded c)
  (fun v bs => exists l, (length l < 256)%nat /\ Forall is_dig l /\ bs = bits_of_bytes (Z.of_nat (length l) :: digit_chars l) /\ v = u64 (dval l)).
Proof.
  intro c. unfold Acn_Dec_UInt_ASCII_VarSize_LengthEmbedded. eapply parses_bindo; [apply parses_ReadByte|].
  intros n bs [Hn ->]. unfold is_byte in Hn. rewrite <- (Z2Nat.id n) by lia. eapply parses_weaken; [|apply parses_ASCII_U].
  cbv beta. intros v bs (l & L1 & L2 & -> & ->). exists l. rewrite L1. split; [lia|]. auto.
Qed.
(** A length octet of 0 is read as a sign and no digit. *)
Lemma parses_ASCII_VarS : forall c, parses (Acn_Dec_SInt_ASCII_VarSize_LengthEmbedded c)
  (fun v bs => exists n sg l, is_byte n /\ (sg = 1 \/ sg = -1) /\ Z.of_nat (length l) = Z.max 0 (n - 1) /\ Forall is_dig l /\
     bs = bits_of_bytes (n :: sign_char sg :: digit_chars l) /\ v = s64 (sg * dval l)).
Proof.
  intro c. unfold Acn_Dec_SInt_ASCII_VarSize_LengthEmbedded. eapply parses_bindo; [apply parses_ReadByte|].
  intros n bs [Hn ->]. pose proof Hn as Hn0. unfold is_byte in Hn. destruct (Z.eqb_spec n 0) as [->|N].
  - eapply parses_weaken; [|apply parses_ext with (f := Acn_Dec_SInt_ASCII_ConstSize c (1 + Z.of_nat 0)); [reflexivity|apply parses_ASCII_S]].
    cbv beta. intros v bs (sg & l & S & L1 & L2 & -> & ->). exists 0, sg, l. repeat (split; [assumption||lia|]). auto.
  - replace n with (1 + Z.of_nat (Z.to_nat (n - 1))) at 1 by lia. eapply parses_weaken; [|apply parses_ASCII_S].
    cbv beta. intros v bs (sg & l & S & L1 & L2 & -> & ->). exists n, sg, l. repeat (split; [assumption||lia|]). auto.
Qed.

(** *** Patterns *)
Lemma parses_skip_bytes : forall k, parses (skip_bytes k) (fun _ bs => length bs = (8 * k)%nat).
Proof.
  induction k; cbn [skip_bytes]; [apply parses_ret; reflexivity|].
  eapply parses_bindo; [apply parses_ReadByte|]. intros b bs1 [B1 ->].
  eapply parses_weaken; [|apply IHk]. cbv beta. intros a bs H. rewrite app_length, len_Zbits. lia.
Qed.
Lemma parses_ReadBitPattern_ignore : forall n, 0 <= n ->
  parses (BitStream_ReadBitPattern_ignore_value n) (fun _ bs => Z.of_nat (length bs) = n).
Proof.
  intros n Hn. unfold BitStream_ReadBitPattern_ignore_value. rewrite Z.rem_mod_nonneg, Z.quot_div_nonneg by lia.
  eapply parses_bindo; [apply parses_skip_bytes|]. intros u bs1 H1. cbv beta in H1. destruct (0 <? n mod 8) eqn:E.
  - eapply parses_bindo; [apply (parses_ReadPartialByte (n mod 8)); lia|]. intros b bs2 [B ->]. apply parses_ret.
    rewrite !app_length, len_Zbits. cbn [length]. lia.
  - apply parses_ret. rewrite app_length. cbn [length]. lia.
Qed.
Lemma parses_ReadBitPattern : forall p n, Forall is_byte p -> 0 <= n <= 8 * Z.of_nat (length p) ->
  parses (BitStream_ReadBitPattern p n) (fun r bs => Z.of_nat (length bs) = n /\ (r = true <-> bs = take_bits n p)).
Proof.
  intros p n Hp Hn. eapply parses_det with (P0 := fun _ bs => Z.of_nat (length bs) = n).
  - unfold BitStream_ReadBitPattern. cbv zeta. rewrite Z.rem_mod_nonneg, Z.quot_div_nonneg by lia.
    assert (G : forall k i ok, parses (pat_loop p i ok k) (fun _ bs => length bs = (8 * k)%nat)).
    { clear. induction k; intros; cbn [pat_loop]; [apply parses_ret; reflexivity|].
      eapply parses_bindo; [apply parses_ReadByte|]. intros b bs1 [B1 ->]. apply parses_lift. intros ok' _.
      eapply parses_weaken; [|apply IHk]. cbv beta. intros a bs H. rewrite app_length, len_Zbits. lia. }
    eapply parses_bindo; [apply G|]. intros ok bs1 H1. cbv beta in H1. destruct (0 <? n mod 8) eqn:E.
    + eapply parses_bindo; [apply (parses_ReadPartialByte (n mod 8)); lia|]. intros b bs2 [B ->]. apply parses_lift. intros ok' _.
      apply parses_ret. rewrite !app_length, len_Zbits. cbn [length]. lia.
    + apply parses_ret. rewrite app_length. cbn [length]. lia.
  - cbv beta. intros _ bs Hb. destruct (reads_ReadBitPattern p n bs Hp Hn Hb) as (r & R & I). exists r. auto.
Qed.
Lemma parses_TrueFalse : forall p q n, Forall is_byte p -> Forall is_byte q ->
  0 <= n <= 8 * Z.of_nat (length p) -> n <= 8 * Z.of_nat (length q) ->
  parses (BitStream_DecodeTrueFalseBoolean p q n)
    (fun r bs => bs = take_bits n (if r then p else q)).
Proof.
  intros p q n Hp Hq Hn Hn2. apply parses_deto with (P0 := fun _ bs => Z.of_nat (length bs) = n).
  - unfold BitStream_DecodeTrueFalseBoolean. cbv zeta. rewrite Z.rem_mod_nonneg, Z.quot_div_nonneg by lia.
      assert (G : forall k i t f, parses (tf_loop p q i t f k) (fun _ bs => length bs = (8 * k)%nat)).
      { clear. induction k; intros; cbn [tf_loop]; [apply parses_ret; reflexivity|].
        eapply parses_bindo; [apply parses_ReadByte|]. intros b bs1 [B1 ->]. apply parses_lift. intros ? _. apply parses_lift. intros ? _.
        eapply parses_weaken; [|apply IHk]. cbv beta. intros r bs H. rewrite app_length, len_Zbits. lia. }
      eapply parses_bindo; [apply G|]. intros [t f] bs1 H1. cbv beta in H1.
      eapply parses_bindo with (P := fun _ bs => Z.of_nat (length bs) = n mod 8).
      * destruct (0 <? n mod 8) eqn:E.
        + eapply parses_bindo; [apply (parses_ReadPartialByte (n mod 8)); lia|]. intros b bs2 [B ->].
          apply parses_lift. intros ? _. apply parses_lift. intros ? _. apply parses_ret.
          rewrite !app_length, len_Zbits. cbn [length]. lia.
        + apply parses_ret. cbn [length]. lia.
      * intros [t' f'] bs2 H2. cbv beta in H2. destruct t'; [apply parses_ret|destruct f'; [apply parses_ret|apply parses_none]].
        all: rewrite app_nil_r, app_length; lia.
  - cbv beta. intros _ bs Hb. destruct (reads_TrueFalse p q n bs Hp Hq Hn Hn2 Hb) as (r1 & R & I1 & I2 & _).
    exists r1. split; [exact R|]. intros [|] E; [apply I1|apply I2]; exact E.
Qed.

(** *** Strings *)
Lemma parses_dec_str : forall (get1 : M (option Z)) (Q : Z -> list bool -> Prop), parses get1 Q ->
  forall k d1 d2, (k <= length d2)%nat -> parses (dec_str get1 (d1 ++ d2) k (Z.of_nat (length d1)))
    (fun d bs => exists l parts, length l = k /\ Forall2 Q l parts /\ bs = concat parts /\ d = d1 ++ l ++ skipn k d2).
Proof.
  intros get1 Q HQ. induction k; intros d1 d2 Hk; cbn [dec_str].
  - apply parses_ret. exists [], []. auto.
  - destruct d2 as [|x d2]; [cbn [length] in Hk; lia|]. eapply parses_bindo; [exact HQ|]. intros ch bs1 H1.
    apply parses_lift. rewrite store1_mid. intros d E. injection E as <-.
    replace (d1 ++ ch :: d2) with ((d1 ++ [ch]) ++ d2) by (now rewrite <- app_assoc).
    replace (Z.of_nat (length d1) + 1) with (Z.of_nat (length (d1 ++ [ch]))) by (rewrite app_length; cbn [length]; lia).
    eapply parses_weaken; [|apply IHk; cbn [length] in Hk; lia]. cbv beta.
    intros d bs (l & parts & L1 & L2 & -> & ->). exists (ch :: l), (bs1 :: parts).
    cbn [length concat]. split; [lia|]. split; [constructor; assumption|]. split; [reflexivity|].
    rewrite <- app_assoc. reflexivity.
Qed.
Lemma parses_cleared : forall (get1 : M (option Z)) (Q : Z -> list bool -> Prop) (n max : nat) dst, parses get1 Q ->
  (n <= max)%nat -> (max < length dst)%nat ->
  parses (let* d := lift (clear dst (Z.of_nat max)) in dec_str get1 d n 0)
    (fun d bs => exists l parts, length l = n /\ Forall2 Q l parts /\ bs = concat parts /\ d = stored l max dst).
Proof.
  intros get1 Q n max dst HQ Hn Hd. apply parses_lift. rewrite clear_ok by assumption. intros d E. injection E as <-.
  eapply parses_weaken; [|apply (parses_dec_str get1 Q HQ n [] (repeat 0 (S max) ++ skipn (S max) dst)); rewrite app_length, repeat_length; lia].
  cbv beta. intros d bs (l & parts & L1 & L2 & -> & ->). exists l, parts. split; [assumption|]. split; [assumption|]. split; [reflexivity|].
  cbn [app]. unfold stored. f_equal. rewrite skipn_app, skipn_repeat0, repeat_length, L1.
  replace (n - S max)%nat with 0%nat by lia. reflexivity.
Qed.
Lemma parts_bytes : forall l parts, Forall2 (fun ch bs => is_byte ch /\ bs = Zbits 8 ch) l parts ->
  Forall is_byte l /\ concat parts = bits_of_bytes l.
Proof.
  induction 1; [split; [constructor|reflexivity]|]. destruct H as [H ->], IHForall2 as [I1 I2].
  split; [constructor; assumption|]. cbn [concat]. rewrite I2. reflexivity.
Qed.
Lemma parses_Ascii_private : forall (n max : nat) dst, (n <= max)%nat -> (max < length dst)%nat ->
  parses (Acn_Dec_String_Ascii_private (Z.of_nat max) (Z.of_nat n) dst)
    (fun d bs => exists l, length l = n /\ Forall is_byte l /\ bs = bits_of_bytes l /\ d = stored l max dst).
Proof.
  intros n max dst Hn Hd. unfold Acn_Dec_String_Ascii_private. rewrite Nat2Z.id.
  eapply parses_weaken; [|apply (parses_cleared _ _ n max dst parses_ReadByte Hn Hd)].
  cbv beta. intros d bs (l & parts & L1 & L2 & -> & ->). apply parts_bytes in L2. destruct L2 as [L2 ->]. exists l. auto.
Qed.

(** With distinct characters the index is that of the character. *)
Lemma first_index_NoDup : forall set i ch, NoDup set -> nth_error set i = Some ch -> first_index ch set = Z.of_nat i.
Proof.
  induction set as [|b t IH]; intros [|i] ch ND E; cbn [nth_error] in E; try discriminate; cbn [first_index].
  - injection E as ->. now rewrite Z.eqb_refl.
  - inversion ND as [|? ? N1 N2]; subst. destruct (Z.eqb_spec ch b) as [->|].
    + exfalso. apply N1. eapply nth_error_In; eassumption.
    + rewrite (IH i ch N2 E). lia.
Qed.
Lemma parses_get_index : forall c set, (0 < length set)%nat -> Z.of_nat (length set) < 2 ^ 62 -> NoDup set ->
  parses (get_index c set (Z.of_nat (length set)))
    (fun ch bs => In ch set /\ bs = Zbits (crange 0 (Z.of_nat (length set) - 1)) (first_index ch set)).
Proof.
  intros c set H0 H ND. unfold get_index.
  eapply parses_bindo; [apply (parses_DecodeConstraint c 0 (Z.of_nat (length set) - 1))|].
  - unfold is_s64, two63; lia.
  - unfold is_s64, two63; lia.
  - left. unfold is_s64, two63; lia.
  - intros i bs [Hi ->]. destruct ((i <? 0) || _) eqn:E; [apply parses_none|].
    apply parses_lift. intros ch Hch. apply parses_ret. rewrite app_nil_r, Z.sub_0_r. unfold nthZ in Hch.
    destruct (i <? 0) eqn:E0; [discriminate|]. destruct (nth_error set (Z.to_nat i)) eqn:N; [|discriminate]. injection Hch as <-.
    split; [eapply nth_error_In; eassumption|]. rewrite (first_index_NoDup _ _ _ ND N). f_equal. lia.
Qed.
Lemma parts_index : forall set l parts, Forall2 (fun ch bs => In ch set /\ bs = Zbits (crange 0 (Z.of_nat (length set) - 1)) (first_index ch set)) l parts ->
  Forall (fun ch => In ch set) l /\ concat parts = index_bits set l.
Proof.
  induction 1; [split; [constructor|reflexivity]|]. destruct H as [H ->], IHForall2 as [I1 I2].
  split; [constructor; assumption|]. cbn [concat]. rewrite I2. reflexivity.
Qed.
Lemma parses_CharIndex_private : forall c set (n max : nat) dst, (0 < length set)%nat -> Z.of_nat (length set) < 2 ^ 62 -> NoDup set ->
  (n <= max)%nat -> (max < length dst)%nat ->
  parses (Acn_Dec_String_CharIndex_private c (Z.of_nat max) (Z.of_nat n) set (Z.of_nat (length set)) dst)
    (fun d bs => exists l, length l = n /\ Forall (fun ch => In ch set) l /\ bs = index_bits set l /\ d = stored l max dst).
Proof.
  intros c set n max dst H0 H ND Hn Hd. unfold Acn_Dec_String_CharIndex_private. rewrite Nat2Z.id.
  eapply parses_weaken; [|apply (parses_cleared _ _ n max dst (parses_get_index c set H0 H ND) Hn Hd)].
  cbv beta. intros d bs (l & parts & L1 & L2 & -> & ->). apply parts_index in L2. destruct L2 as [L2 ->]. exists l. auto.
Qed.
Lemma parses_strlen : forall c min max, 0 <= min <= max -> max < 2 ^ 31 ->
  parses (BitStream_DecodeConstraintWholeNumber c min max) (fun n bs => min <= n <= max /\ bs = Zbits (crange min max) (n - min)).
Proof. intros. apply parses_DecodeConstraint; [| |left]; unfold is_s64, two63; lia. Qed.
Lemma parses_Ascii_Internal : forall c min (max : nat) dst, 0 <= min <= Z.of_nat max -> Z.of_nat max < 2 ^ 31 -> (max < length dst)%nat ->
  parses (Acn_Dec_String_Ascii_Internal_Field_Determinant c (Z.of_nat max) min dst)
    (fun d bs => exists l, min <= Z.of_nat (length l) <= Z.of_nat max /\ Forall is_byte l /\
       bs = Zbits (crange min (Z.of_nat max)) (Z.of_nat (length l) - min) ++ bits_of_bytes l /\ d = stored l max dst).
Proof.
  intros c min max dst H1 H2 H3. unfold Acn_Dec_String_Ascii_Internal_Field_Determinant.
  eapply parses_bindo; [apply parses_strlen; assumption|]. intros n bs [Hn ->]. rewrite min_le by lia.
  rewrite <- (Z2Nat.id n) at 1 by lia. eapply parses_weaken; [|apply parses_Ascii_private; [lia|assumption]].
  cbv beta. intros d bs (l & L1 & L2 & -> & ->). exists l. rewrite L1, Z2Nat.id by lia. auto.
Qed.
Lemma parses_CharIndex_Internal : forall c set min (max : nat) dst, (0 < length set)%nat -> Z.of_nat (length set) < 2 ^ 62 -> NoDup set ->
  0 <= min <= Z.of_nat max -> Z.of_nat max < 2 ^ 31 -> (max < length dst)%nat ->
  parses (Acn_Dec_String_CharIndex_Internal_Field_Determinant c (Z.of_nat max) set (Z.of_nat (length set)) min dst)
    (fun d bs => exists l, min <= Z.of_nat (length l) <= Z.of_nat max /\ Forall (fun ch => In ch set) l /\
       bs = Zbits (crange min (Z.of_nat max)) (Z.of_nat (length l) - min) ++ index_bits set l /\ d = stored l max dst).
Proof.
  intros c set min max dst H0 H ND H1 H2 H3. unfold Acn_Dec_String_CharIndex_Internal_Field_Determinant.
  eapply parses_bindo; [apply parses_strlen; assumption|]. intros n bs [Hn ->]. rewrite min_le by lia.
  rewrite <- (Z2Nat.id n) at 1 by lia. eapply parses_weaken; [|apply parses_CharIndex_private; [assumption|assumption|assumption|lia|assumption]].
  cbv beta. intros d bs (l & L1 & L2 & -> & ->). exists l. rewrite L1, Z2Nat.id by lia. auto.
Qed.
Lemma parses_dec_null : forall null k d1 d2, (k <= length d2)%nat -> parses (dec_null null (d1 ++ d2) k (Z.of_nat (length d1)))
  (fun d bs => exists l, (length l < k)%nat /\ Forall is_byte l /\ ~ In null l /\ bs = bits_of_bytes (l ++ [null]) /\
     d = d1 ++ l ++ 0 :: skipn (S (length l)) d2).
Proof.
  intros null. induction k; intros d1 d2 Hk; cbn [dec_null]; [apply parses_none|].
  destruct d2 as [|x d2]; [cbn [length] in Hk; lia|]. eapply parses_bindo; [apply parses_ReadByte|]. intros ch bs1 [B1 ->].
  destruct (Z.eqb_spec ch null) as [->|N]; cbn [negb].
  - apply parses_lift. rewrite store1_mid. intros d E. injection E as <-. apply parses_ret.
    exists []. cbn [length]. split; [lia|]. split; [constructor|]. split; [intros []|]. split; reflexivity.
  - apply parses_lift. rewrite store1_mid. intros d E. injection E as <-.
    replace (d1 ++ ch :: d2) with ((d1 ++ [ch]) ++ d2) by (now rewrite <- app_assoc).
    replace (Z.of_nat (length d1) + 1) with (Z.of_nat (length (d1 ++ [ch]))) by (rewrite app_length; cbn [length]; lia).
    eapply parses_weaken; [|apply IHk; cbn [length] in Hk; lia]. cbv beta.
    intros d bs (l & L1 & L2 & L3 & -> & ->). exists (ch :: l). cbn [length]. split; [lia|].
    split; [constructor; assumption|]. split; [intros [->|I]; auto|]. split; [reflexivity|].
    rewrite <- app_assoc. reflexivity.
Qed.
Lemma parses_Null : forall (max : nat) null dst, (max < length dst)%nat ->
  parses (Acn_Dec_String_Ascii_Null_Terminated (Z.of_nat max) null dst)
    (fun d bs => exists l, (length l <= max)%nat /\ Forall is_byte l /\ ~ In null l /\ bs = bits_of_bytes (l ++ [null]) /\ d = stored l max dst).
Proof.
  intros max null dst Hd. unfold Acn_Dec_String_Ascii_Null_Terminated. apply parses_lift. rewrite clear_ok by assumption.
  intros d E. injection E as <-. replace (Z.to_nat (Z.of_nat max + 1)) with (S max) by lia.
  eapply parses_weaken; [|apply (parses_dec_null null (S max) [] (repeat 0 (S max) ++ skipn (S max) dst)); rewrite app_length, repeat_length; lia].
  cbv beta. intros d bs (l & L1 & L2 & L3 & -> & ->). exists l. split; [lia|]. split; [assumption|]. split; [assumption|].
  split; [reflexivity|]. cbn [app]. apply stored_null. lia.
Qed.
Lemma parses_read_window : forall k, parses (read_window k) (fun w bs => length w = k /\ Forall is_byte w /\ bs = bits_of_bytes w).
Proof.
  induction k; cbn [read_window]; [apply parses_ret; auto|].
  eapply parses_bindo; [apply parses_ReadByte|]. intros b bs1 [B ->]. eapply parses_bindo; [apply IHk|]. intros t bs2 (T1 & T2 & ->).
  apply parses_ret. cbn [length]. split; [lia|]. split; [constructor; assumption|]. now rewrite app_nil_r.
Qed.
(** *** Terminators of several bytes *)
Lemma terminates_intro : forall p a l, firstn (length p) (a :: l ++ p) <> p -> terminates p l -> terminates p (a :: l).
Proof.
  intros p a l H T i Hi. destruct i; [exact H|]. cbn [app skipn]. apply T. cbn [length] in Hi. lia.
Qed.
Lemma parses_dec_null_mult : forall p, (0 < length p)%nat -> forall k w d1 d2, length w = length p ->
  parses (dec_null_mult p w (d1 ++ d2) k (Z.of_nat (length d1)))
    (fun d bs => exists l rest, w ++ rest = l ++ p /\ terminates p l /\ (length l <= k)%nat /\ (length l < length d2)%nat /\
       Forall is_byte rest /\ bs = bits_of_bytes rest /\ d = d1 ++ l ++ 0 :: skipn (S (length l)) d2).
Proof.
  intros p Hp. induction k; intros w d1 d2 Hw; cbn [dec_null_mult].
  - apply parses_lift. intros d Ed. apply parses_lift. rewrite window_is_ok by assumption. intros e Ee. injection Ee as <-.
    destruct (list_eqb p w) eqn:X; [|apply parses_none]. apply list_eqb_iff in X. subst w. apply parses_ret.
    exists [], []. destruct d2 as [|x d2].
    + exfalso. rewrite app_nil_r in Ed. unfold store in Ed. cbn [length] in Ed.
      destruct ((_ <? 0) || _) eqn:Y in Ed; [discriminate|]. lia.
    + rewrite store1_mid in Ed. injection Ed as <-. rewrite app_nil_r. cbn [length app].
      split; [reflexivity|]. split; [intros i Hi; cbn [length] in Hi; lia|]. split; [lia|]. split; [lia|]. auto.
  - apply parses_lift. rewrite window_is_ok by assumption. intros e Ee. injection Ee as <-.
    destruct (list_eqb p w) eqn:X.
    + apply list_eqb_iff in X. subst w. apply parses_lift. intros d Ed. apply parses_lift. intros e Ee.
      injection Ee as <-.
      apply parses_ret. exists [], []. destruct d2 as [|x d2].
      * exfalso. rewrite app_nil_r in Ed. unfold store in Ed. cbn [length] in Ed.
        destruct ((_ <? 0) || _) eqn:Y in Ed; [discriminate|]. lia.
      * rewrite store1_mid in Ed. injection Ed as <-. rewrite app_nil_r. cbn [length app].
        split; [reflexivity|]. split; [intros i Hi; cbn [length] in Hi; lia|]. split; [lia|]. split; [lia|]. auto.
    + apply parses_lift. intros d Ed. destruct d2 as [|x d2].
      { exfalso. rewrite app_nil_r in Ed. unfold store in Ed. cbn [length] in Ed.
        destruct ((_ <? 0) || _) eqn:Y in Ed; [discriminate|]. lia. }
      rewrite store1_mid in Ed. injection Ed as <-. destruct w as [|w0 w]; [cbn in Hw; lia|]. cbn [hd tl].
      eapply parses_bindo; [apply parses_ReadByte|]. intros b bs1 [B ->].
      replace (d1 ++ w0 :: d2) with ((d1 ++ [w0]) ++ d2) by (now rewrite <- app_assoc).
      replace (Z.of_nat (length d1) + 1) with (Z.of_nat (length (d1 ++ [w0]))) by (rewrite app_length; cbn [length]; lia).
      eapply parses_weaken; [|apply IHk; rewrite app_length; cbn [length] in *; lia]. cbv beta.
      intros d bs (l & rest & E & T & L1 & L2 & R & -> & ->). rewrite <- app_assoc in E. cbn [app] in E.
      exists (w0 :: l), (b :: rest). cbn [app length]. split; [now rewrite E|]. split.
      { apply terminates_intro; [|exact T]. intro Y. rewrite <- E in Y. change (w0 :: w ++ b :: rest) with ((w0 :: w) ++ b :: rest) in Y.
        rewrite <- Hw, firstn_app, firstn_all, Nat.sub_diag in Y. cbn [firstn] in Y. rewrite app_nil_r in Y.
        symmetry in Y. apply list_eqb_iff in Y. congruence. }
      split; [lia|]. split; [lia|]. split; [constructor; assumption|]. split; [reflexivity|]. rewrite <- app_assoc. reflexivity.
Qed.
Lemma parses_Null_mult : forall p (max : nat) dst, (1 <= length p <= 10)%nat -> (max < length dst)%nat ->
  parses (Acn_Dec_String_Ascii_Null_Terminated_mult (Z.of_nat max) p (Z.of_nat (length p)) dst)
    (fun d bs => exists l, (length l <= S max)%nat /\ (length l < length dst)%nat /\ Forall is_byte (l ++ p) /\ terminates p l /\ bs = bits_of_bytes (l ++ p) /\
       d = l ++ 0 :: skipn (S (length l)) (repeat 0 (S max) ++ skipn (S max) dst)).
Proof.
  intros p max dst Hp Hd. unfold Acn_Dec_String_Ascii_Null_Terminated_mult. cbv zeta.
  assert (Esz : Z.to_nat (if Z.of_nat (length p) <? 10 then Z.of_nat (length p) else 10) = length p).
  { destruct (Z.ltb_spec (Z.of_nat (length p)) 10); lia. }
  rewrite Esz. apply parses_lift. rewrite clear_ok by assumption. intros d E. injection E as <-.
  replace (Z.to_nat (Z.of_nat max + 1)) with (S max) by lia.
  eapply parses_bindo; [apply parses_read_window|]. intros w bs1 (W1 & W2 & ->).
  eapply parses_weaken; [|apply (parses_dec_null_mult p ltac:(lia) (S max) w [] (repeat 0 (S max) ++ skipn (S max) dst)); assumption].
  cbv beta. intros d bs (l & rest & E & T & L1 & L2 & R & -> & ->). exists l. split; [assumption|].
  split; [rewrite app_length, repeat_length, skipn_length in L2; lia|].
  split; [rewrite <- E; apply Forall_app; auto|]. split; [assumption|]. split; [|reflexivity].
  rewrite <- E. symmetry. apply bits_of_bytes_app.
Qed.
Lemma parses_Null_mult_fit : forall p (max : nat) dst, (1 <= length p <= 10)%nat -> length dst = S max ->
  parses (Acn_Dec_String_Ascii_Null_Terminated_mult (Z.of_nat max) p (Z.of_nat (length p)) dst)
    (fun d bs => exists l, (length l <= max)%nat /\ Forall is_byte (l ++ p) /\ terminates p l /\ bs = bits_of_bytes (l ++ p) /\ d = stored l max dst).
Proof.
  intros p max dst Hp Hd. eapply parses_weaken; [|apply parses_Null_mult; lia]. cbv beta.
  intros d bs (l & L1 & L2 & F & T & -> & ->). exists l. split; [lia|]. split; [assumption|]. split; [assumption|].
  split; [reflexivity|]. apply stored_null. lia.
Qed.

(** Value of a text, whatever its characters. *)
Lemma reads_dec_ascii_null_text : forall p, (0 < length p)%nat -> Forall is_byte p ->
  forall l fuel r w rest, Forall is_byte l -> is_u64 r -> terminates p l -> (length l < fuel)%nat ->
  length w = length p -> w ++ rest = l ++ p ->
  reads (dec_ascii_null fuel p w r) (Some (u64 (r * 10 ^ Z.of_nat (length l) + text_value l))) (bits_of_bytes rest).
Proof.
  intros p Hp Hpb. induction l; intros fuel r w rest F Hr T Hf Hw E; (destruct fuel; [cbn in Hf; lia|]);
    cbn [dec_ascii_null length].
  - cbn [app] in E.
    assert (rest = []). { apply (f_equal (@length Z)) in E. rewrite app_length in E. destruct rest; [reflexivity|cbn in E; lia]. }
    subst rest. rewrite app_nil_r in E. subst w.
    eapply reads_pure_l. { intro s. unfold lift. rewrite window_is_ok by reflexivity. reflexivity. }
    replace (list_eqb p p) with true by (symmetry; now apply list_eqb_iff). unfold text_value. cbn [map dval].
    change (10 ^ Z.of_nat 0) with 1. rewrite Z.mul_1_r, Z.add_0_r, (u64_id r) by assumption. apply reads_ret.
  - apply Forall_inv_tail in F. apply terminates_cons in T. destruct T as [T Hne].
    assert (Hl : length rest = S (length l)).
    { apply (f_equal (@length Z)) in E. cbn [app] in E. rewrite app_length in E. cbn [length] in E. rewrite app_length in E. lia. }
    destruct rest as [|b rest]; [discriminate|].
    assert (Hne' : p <> w).
    { intro X. apply Hne. change (a :: l ++ p) with ((a :: l) ++ p). rewrite <- E.
      rewrite <- Hw, firstn_app, firstn_all, Nat.sub_diag. cbn [firstn]. rewrite app_nil_r. auto. }
    eapply reads_pure_l. { intro s. unfold lift. rewrite window_is_ok by assumption. reflexivity. }
    replace (list_eqb p w) with false.
    2:{ destruct (list_eqb p w) eqn:X; [|reflexivity]. apply list_eqb_iff in X. contradiction. }
    destruct w as [|w0 w]; [cbn in Hw; lia|]. cbn [app] in E.
    assert (E0 : w0 = a) by exact (f_equal (hd 0) E).
    apply (f_equal (@tl Z)) in E. cbn [tl] in E. subst w0.
    cbn [tl hd]. rewrite bits_cons.
    assert (Hb : is_byte b).
    { assert (Forall is_byte (w ++ b :: rest)) by (rewrite E; apply Forall_app; split; assumption).
      apply Forall_app in H. exact (Forall_inv (proj2 H)). }
    eapply reads_bindo with (a := b); [apply reads_ReadByte; exact Hb|].
    rewrite u64_mul10. unfold text_value. cbn [map dval]. rewrite map_length. fold (text_value l).
    replace (u64 (r * 10 ^ Z.of_nat (S (length l)) + ((a - 48) mod 256 * 10 ^ Z.of_nat (length l) + text_value l)))
      with (u64 (u64 (r * 10 + (a - 48) mod 256) * 10 ^ Z.of_nat (length l) + text_value l)).
    + apply IHl; [assumption|apply u64_range|assumption|cbn in Hf; lia| |].
      * rewrite app_length. cbn [length] in *. lia.
      * rewrite <- app_assoc. exact E.
    + rewrite u64_idem, pow10_S. f_equal. lia.
Qed.

Lemma reads_ASCII_NullU_text : forall p l, (1 <= length p <= 10)%nat -> Forall is_byte p -> Forall is_byte l -> terminates p l ->
  reads (Acn_Dec_UInt_ASCII_VarSize_NullTerminated p (Z.of_nat (length p))) (Some (u64 (text_value l))) (bits_of_bytes (l ++ p)).
Proof.
  intros p l Hp Hpb F T. unfold Acn_Dec_UInt_ASCII_VarSize_NullTerminated.
  assert (Esz : Z.to_nat (if Z.of_nat (length p) <? 10 then Z.of_nat (length p) else 10) = length p).
  { destruct (Z.ltb_spec (Z.of_nat (length p)) 10); lia. }
  rewrite Esz. intros s pre rest Hat Hc. unfold bind at 1, get at 1. cbv beta iota.
  set (w := firstn (length p) (l ++ p)). set (q := skipn (length p) (l ++ p)).
  assert (Ewq : w ++ q = l ++ p) by apply firstn_skipn.
  assert (Hw : length w = length p). { unfold w. rewrite firstn_length, app_length. lia. }
  assert (Fb : Forall is_byte (l ++ p)) by (apply Forall_app; split; assumption).
  assert (R : reads (let? w0 := read_window (length p) in dec_ascii_null (S (Z.to_nat (count s))) p w0 0)
     (Some (u64 (text_value l))) (bits_of_bytes (l ++ p))).
  { rewrite <- Ewq at 1. rewrite bits_of_bytes_app.
    eapply reads_bindo with (a := w).
    - rewrite <- Hw. apply reads_read_window. unfold w. now apply Forall_firstn.
    - pose proof (reads_dec_ascii_null_text p ltac:(lia) Hpb l (S (Z.to_nat (count s))) 0 w q F ltac:(split; [lia|reflexivity]) T) as R.
      rewrite Z.mul_0_l, Z.add_0_l in R. apply R; [|assumption|assumption].
      rewrite len_bits_of_bytes, app_length in Hc. lia. }
  exact (R s pre rest Hat Hc).
Qed.
Lemma parses_dec_ascii_null : forall p, (0 < length p)%nat -> forall fuel w r, length w = length p ->
  parses (dec_ascii_null fuel p w r) (fun _ bs => exists l rest, w ++ rest = l ++ p /\ terminates p l /\ Forall is_byte rest /\ bs = bits_of_bytes rest).
Proof.
  intros p Hp. induction fuel; intros w r Hw; cbn [dec_ascii_null]; [apply parses_diverge|].
  apply parses_lift. rewrite window_is_ok by assumption. intros e Ee. injection Ee as <-. destruct (list_eqb p w) eqn:X.
  - apply list_eqb_iff in X. subst w. apply parses_ret. exists [], []. rewrite app_nil_r.
    split; [reflexivity|]. split; [intros i Hi; cbn [length] in Hi; lia|]. auto.
  - destruct w as [|w0 w]; [cbn in Hw; lia|]. cbn [hd tl].
    eapply parses_bindo; [apply parses_ReadByte|]. intros b bs1 [B ->].
    eapply parses_weaken; [|apply IHfuel; rewrite app_length; cbn [length] in *; lia]. cbv beta.
    intros _ bs (l & rest & E & T & R & ->). rewrite <- app_assoc in E. cbn [app] in E.
    exists (w0 :: l), (b :: rest). cbn [app]. split; [now rewrite E|]. split.
    { apply terminates_intro; [|exact T]. intro Y. rewrite <- E in Y. change (w0 :: w ++ b :: rest) with ((w0 :: w) ++ b :: rest) in Y.
      rewrite <- Hw, firstn_app, firstn_all, Nat.sub_diag in Y. cbn [firstn] in Y. rewrite app_nil_r in Y.
      symmetry in Y. apply list_eqb_iff in Y. congruence. }
    split; [constructor; assumption|]. reflexivity.
Qed.
Lemma parses_ASCII_NullU : forall p, (1 <= length p <= 10)%nat -> Forall is_byte p ->
  parses (Acn_Dec_UInt_ASCII_VarSize_NullTerminated p (Z.of_nat (length p)))
    (fun v bs => exists l, Forall is_byte l /\ terminates p l /\ bs = bits_of_bytes (l ++ p) /\ v = u64 (text_value l)).
Proof.
  intros p Hp Hpb. apply parses_det with (P0 := fun _ bs => exists l, Forall is_byte l /\ terminates p l /\ bs = bits_of_bytes (l ++ p)).
  - assert (Esz : Z.to_nat (if Z.of_nat (length p) <? 10 then Z.of_nat (length p) else 10) = length p).
    { destruct (Z.ltb_spec (Z.of_nat (length p)) 10); lia. }
    assert (G : forall fuel, parses (let? w := read_window (length p) in dec_ascii_null fuel p w 0)
       (fun _ bs => exists l, Forall is_byte l /\ terminates p l /\ bs = bits_of_bytes (l ++ p))).
    { intro fuel. eapply parses_bindo; [apply parses_read_window|]. intros w bs1 (W1 & W2 & ->).
      eapply parses_weaken; [|apply (parses_dec_ascii_null p); [lia|assumption]]. cbv beta.
      intros _ bs (l & rest & E & T & R & ->). exists l. split.
      { assert (FA : Forall is_byte (l ++ p)) by (rewrite <- E; apply Forall_app; auto). apply Forall_app in FA. apply FA. }
      split; [assumption|]. rewrite <- E. symmetry. apply bits_of_bytes_app. }
    intros s a s' W E. unfold Acn_Dec_UInt_ASCII_VarSize_NullTerminated in E. cbv zeta in E. rewrite Esz in E.
    destruct (G _ s a s' W E) as (pre & bs & rest & X1 & X2 & _ & (l & L1 & L2 & ->) & X5).
    exists pre, (bits_of_bytes (l ++ p)), rest. split; [assumption|]. split; [assumption|].
    pose proof (reads_ASCII_NullU_text p l Hp Hpb L1 L2) as HR.
    destruct (HR s pre rest X1 X2) as (s1 & E1 & _). unfold Acn_Dec_UInt_ASCII_VarSize_NullTerminated in E1. cbv zeta in E1.
    rewrite Esz in E1. pose proof (eq_trans (eq_sym E) E1) as E2. injection E2 as -> _.
    split; [exact HR|]. split; [|assumption]. exists l. auto.
  - intros _ bs (l & L1 & L2 & ->). eexists. split; [apply reads_ASCII_NullU_text; assumption|]. exists l. auto.
Qed.
Lemma s64_of_u64 : forall x, s64 (u64 x) = s64 x.
Proof. intro x. pose proof (s64_u64 1 x) as E. now rewrite !Z.mul_1_l in E. Qed.
Lemma parses_ASCII_NullS : forall c p, (1 <= length p <= 10)%nat -> Forall is_byte p ->
  parses (Acn_Dec_SInt_ASCII_VarSize_NullTerminated c p (Z.of_nat (length p)))
    (fun v bs => exists sg l, (sg = 1 \/ sg = -1) /\ Forall is_byte l /\ terminates p l /\
       bs = bits_of_bytes (sign_char sg :: l ++ p) /\ v = s64 (sg * text_value l)).
Proof.
  intros c p Hp Hpb. unfold Acn_Dec_SInt_ASCII_VarSize_NullTerminated. eapply parses_bindo; [apply parses_ReadByte|]. intros d bs [Hd ->].
  apply parses_assert. intro E. eapply parses_bindo; [apply parses_ASCII_NullU; assumption|]. intros r bs (l & L1 & L2 & -> & ->).
  destruct (Z.eqb_spec d 45) as [->|].
  - apply parses_lift. intros v Hv. apply sres_val in Hv. apply parses_ret. exists (-1), l. rewrite app_nil_r.
    split; [auto|]. split; [assumption|]. split; [assumption|]. split; [reflexivity|].
    rewrite Hv, <- (s64_u64 (-1) (text_value l)), <- (s64_s64 (-1) (u64 (text_value l))). reflexivity.
  - assert (d = 43) by lia. subst d. apply parses_ret. exists 1, l. rewrite app_nil_r.
    split; [auto|]. split; [assumption|]. split; [assumption|]. split; [reflexivity|]. rewrite s64_of_u64. f_equal. lia.
Qed.

(** *** Reals *)
Lemma parses_get_up : forall k b i, parses (get_up b i k) (fun _ bs => length bs = (8 * k)%nat).
Proof.
  induction k; intros; cbn [get_up]; [apply parses_ret; reflexivity|].
  eapply parses_bindo; [apply parses_ReadByte|]. intros x bs1 [B1 ->]. apply parses_lift. intros ? _.
  eapply parses_weaken; [|apply IHk]. cbv beta. intros z bs H. rewrite app_length, len_Zbits. lia.
Qed.
Lemma parses_get_down : forall k b, parses (get_down b k) (fun _ bs => length bs = (8 * k)%nat).
Proof.
  induction k; intros; cbn [get_down]; [apply parses_ret; reflexivity|].
  eapply parses_bindo; [apply parses_ReadByte|]. intros x bs1 [B1 ->]. apply parses_lift. intros ? _.
  eapply parses_weaken; [|apply IHk]. cbv beta. intros z bs H. rewrite app_length, len_Zbits. lia.
Qed.
Lemma parses_real_be : forall le k, parses (Acn_dec_real_big_endian le k) (fun u bs => 0 <= u < 256 ^ Z.of_nat k /\ bs = Zbits (8 * k) u).
Proof.
  intros le k. eapply parses_det with (P0 := fun _ bs => length bs = (8 * k)%nat).
  - unfold Acn_dec_real_big_endian. cbv zeta. eapply parses_bindo with (P := fun _ bs => length bs = (8 * k)%nat).
    + destruct (negb _); [apply parses_get_up|apply parses_get_down].
    + intros b bs1 H1. apply parses_ret. now rewrite app_nil_r.
  - cbv beta. intros _ bs Hb. exists (bval bs). pose proof (bval_bounds bs) as B.
    replace (2 ^ Z.of_nat (length bs)) with (256 ^ Z.of_nat k) in B
      by (rewrite Hb; change 256 with (2 ^ 8); rewrite <- Z.pow_mul_r by lia; f_equal; lia).
    assert (E : Zbits (8 * k) (bval bs) = bs) by (apply Zbits_bval_n; lia).
    split; [|auto]. rewrite <- E at 2. apply reads_real_be. exact B.
Qed.
Lemma parses_real_le : forall le k, parses (Acn_dec_real_little_endian le k)
  (fun u bs => 0 <= u < 256 ^ Z.of_nat k /\ bs = bits_of_bytes (le_octets k u)).
Proof.
  intros le k. eapply parses_det with (P0 := fun _ bs => length bs = (8 * k)%nat).
  - unfold Acn_dec_real_little_endian. cbv zeta. eapply parses_bindo with (P := fun _ bs => length bs = (8 * k)%nat).
    + destruct (RequiresReverse le); [apply parses_get_up|apply parses_get_down].
    + intros b bs1 H1. apply parses_ret. now rewrite app_nil_r.
  - cbv beta. intros _ bs Hb. destruct (octets_of k bs Hb) as (l & F & L & <-). exists (le_value l).
    pose proof (le_value_range l F) as R. rewrite L in R.
    assert (EO : le_octets k (le_value l) = l) by (rewrite <- L; apply le_octets_value; assumption).
    split; [|rewrite EO; auto]. rewrite <- EO at 2. apply reads_real_le. exact R.
Qed.
