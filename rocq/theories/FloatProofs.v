(** Facts about the binary64 operations of the standard library used by the REAL
    codec. *)
From Verif Require Import Base Bits BitsProofs RealSpec RealC.
From Coq Require Import ZifyBool ZifyNat.
Ltac Zify.zify_post_hook ::= Z.div_mod_to_equations.

Notation bra := (binary_round_aux 53 1024).
Notation fx := (fexp 53 1024).

Lemma fx_eq : forall x, fx x = Z.max (x - 53) (-1074).
Proof. intros. reflexivity. Qed.

Lemma digits_nbits : forall p, Zpos (digits2_pos p) = nbits (Zpos p).
Proof.
  assert (H : forall p, Zpos (digits2_pos p) = Z.log2 (Zpos p) + 1).
  { induction p; cbn [digits2_pos].
    - rewrite Pos2Z.inj_succ, IHp. change (Z.pos p~1) with (2 * Z.pos p + 1).
      rewrite Z.log2_succ_double by lia. lia.
    - rewrite Pos2Z.inj_succ, IHp. change (Z.pos p~0) with (2 * Z.pos p).
      rewrite Z.log2_double by lia. lia.
    - reflexivity. }
  intros p. rewrite H. unfold nbits. destruct (Z.leb_spec (Zpos p) 0); lia.
Qed.

Lemma nbits_mul : forall m j, 0 < m -> 0 <= j -> nbits (m * 2 ^ j) = nbits m + j.
Proof.
  intros m j Hm Hj. unfold nbits.
  assert (0 < 2 ^ j) by (apply Z.pow_pos_nonneg; lia).
  destruct (Z.leb_spec m 0); [lia|]. destruct (Z.leb_spec (m * 2 ^ j) 0); [nia|].
  rewrite Z.log2_mul_pow2 by lia. lia.
Qed.

Lemma it_add : forall {A} (f : A -> A) a b x, Nat.iter (a + b) f x = Nat.iter a f (Nat.iter b f x).
Proof. intros A f. induction a; intros; [reflexivity|].
  change (f (Nat.iter (a + b) f x) = f (Nat.iter a f (Nat.iter b f x))). rewrite IHa. reflexivity. Qed.
Lemma it_succ_r : forall {A} (f : A -> A) a x, Nat.iter (S a) f x = Nat.iter a f (f x).
Proof. intros. replace (S a) with (a + 1)%nat by lia. rewrite it_add. reflexivity. Qed.
Lemma iter_pos_nat : forall {A} (f : A -> A) p x, iter_pos f p x = Nat.iter (Pos.to_nat p) f x.
Proof.
  intros A f. induction p; intros x; cbn [iter_pos].
  - rewrite !IHp. rewrite <- it_succ_r, <- it_add. f_equal. lia.
  - rewrite !IHp. rewrite <- it_add. f_equal. lia.
  - reflexivity.
Qed.

Lemma shr_nat : forall mrs e n, shr mrs e n = (Nat.iter (Z.to_nat n) shr_1 mrs, e + Z.max 0 n).
Proof.
  intros mrs e n. destruct n as [|p|p]; cbn [shr].
  - cbn. f_equal; lia.
  - rewrite iter_pos_nat. f_equal; lia.
  - cbn. f_equal; lia.
Qed.

Notation rec0 m := (Build_shr_record m false false).
Lemma shr_1_double : forall m, 0 <= m -> shr_1 (rec0 (2 * m)) = rec0 m.
Proof. intros [|p|p] H; reflexivity. Qed.
Lemma shr_iter_exact : forall j m, 0 <= m -> Nat.iter j shr_1 (rec0 (m * 2 ^ Z.of_nat j)) = rec0 m.
Proof.
  induction j; intros m Hm.
  - cbn. rewrite Z.mul_1_r. reflexivity.
  - rewrite it_succ_r. rewrite Nat2Z.inj_succ, Z.pow_succ_r by lia.
    replace (m * (2 * 2 ^ Z.of_nat j)) with (2 * (m * 2 ^ Z.of_nat j)) by ring.
    rewrite shr_1_double by (apply Z.mul_nonneg_nonneg; [lia|apply Z.pow_nonneg; lia]).
    apply IHj. exact Hm.
Qed.

Lemma zdigits_pos : forall m, 0 < m -> Zdigits2 m = nbits m.
Proof. intros [|p|p] H; try lia. cbn [Zdigits2]. apply digits_nbits. Qed.

(** Rounding looks only at the value. *)
Lemma bra_shift_g : forall P E s m j e, 0 < m -> 0 <= j -> e + j <= fexp P E (nbits m + e + j) ->
  binary_round_aux P E s (m * 2 ^ j) e loc_Exact = binary_round_aux P E s m (e + j) loc_Exact.
Proof.
  intros P E s m j e Hm Hj Hf.
  assert (0 < 2 ^ j) by (apply Z.pow_pos_nonneg; lia).
  unfold binary_round_aux at 1 2. unfold shr_fexp at 1 3.
  rewrite !zdigits_pos by nia. rewrite nbits_mul by lia.
  cbn [shr_record_of_loc]. rewrite !shr_nat.
  replace (nbits m + j + e) with (nbits m + e + j) by lia.
  replace (nbits m + (e + j)) with (nbits m + e + j) by lia.
  set (F := fexp P E (nbits m + e + j)) in *.
  replace (Z.to_nat (F - e)) with (Z.to_nat (F - (e + j)) + Z.to_nat j)%nat by lia.
  rewrite it_add. pose proof (shr_iter_exact (Z.to_nat j) m ltac:(lia)) as X.
  rewrite Z2Nat.id in X by lia. rewrite X.
  replace (e + Z.max 0 (F - e)) with (e + j + Z.max 0 (F - (e + j))) by lia.
  reflexivity.
Qed.

Lemma bra_shift : forall s m j e, 0 < m -> 0 <= j -> e + j <= fx (nbits m + e + j) ->
  bra s (m * 2 ^ j) e loc_Exact = bra s m (e + j) loc_Exact.
Proof. intros. apply bra_shift_g; assumption. Qed.

Lemma bra_id_g : forall P E s m e, 0 < m -> fexp P E (nbits m + e) = e ->
  binary_round_aux P E s m e loc_Exact = if e <=? E - P then S754_finite s (Z.to_pos m) e else S754_infinity s.
Proof.
  intros P X s m e Hm Hf. unfold binary_round_aux.
  assert (E : shr_fexp P X m e loc_Exact = (rec0 m, e)).
  { unfold shr_fexp. rewrite zdigits_pos by lia. rewrite Hf. rewrite shr_nat.
    cbn [shr_record_of_loc]. rewrite Z.sub_diag. cbn. f_equal; lia. }
  rewrite E. cbn [loc_of_shr_record round_nearest_even shr_m]. rewrite E. cbn [shr_m].
  destruct m; try lia. reflexivity.
Qed.
Lemma bra_id : forall s m e, 0 < m -> fx (nbits m + e) = e ->
  bra s m e loc_Exact = if e <=? 971 then S754_finite s (Z.to_pos m) e else S754_infinity s.
Proof. intros. apply (bra_id_g 53 1024); assumption. Qed.

Lemma shr_1_m : forall r, 0 <= shr_m r -> shr_m (shr_1 r) = shr_m r / 2 /\ 0 <= shr_m (shr_1 r).
Proof.
  intros [m r s] H. cbn [shr_m] in *. destruct m as [|p|p]; [cbn; lia| |lia].
  destruct p as [p|p|]; cbn [shr_1 shr_m]; lia.
Qed.
Lemma shr_iter_m : forall j r, 0 <= shr_m r ->
  shr_m (Nat.iter j shr_1 r) = shr_m r / 2 ^ Z.of_nat j /\ 0 <= shr_m (Nat.iter j shr_1 r).
Proof.
  induction j; intros r H.
  - cbn [Nat.iter nat_rect]. rewrite Z.div_1_r. auto.
  - destruct (shr_1_m r H) as [E N]. rewrite it_succ_r.
    destruct (IHj (shr_1 r) N) as [E1 N1]. split; [|exact N1].
    rewrite E1, E, Z.div_div by lia. f_equal. rewrite Nat2Z.inj_succ, Z.pow_succ_r by lia. reflexivity.
Qed.

Lemma nbits_ge : forall m n, 0 < n -> n <= nbits m -> 2 ^ (n - 1) <= m.
Proof.
  intros m n Hn H. unfold nbits in H. destruct (Z.leb_spec m 0); [lia|].
  apply Z.log2_le_pow2; lia.
Qed.
Lemma nbits_lt : forall m n, 0 <= m -> nbits m <= n -> m < 2 ^ n.
Proof.
  intros m n Hm H. unfold nbits in H. destruct (Z.leb_spec m 0).
  - assert (m = 0) by lia. subst. apply Z.pow_pos_nonneg; lia.
  - apply Z.log2_lt_pow2; lia.
Qed.

Lemma bra_normal : forall m, 53 <= nbits m -> exists M k,
  nbits M = 53 /\ 0 < M /\ nbits m - 53 <= k <= nbits m - 52 /\
  forall s e, -1074 <= e + nbits m - 53 ->
    bra s m e loc_Exact = if e + k <=? 971 then S754_finite s (Z.to_pos M) (e + k) else S754_infinity s.
Proof.
  intros m Hd. set (t := nbits m - 53).
  assert (Hm : 2 ^ (nbits m - 1) <= m) by (apply nbits_ge; lia).
  assert (Hm0 : 0 < m) by (assert (0 < 2 ^ (nbits m - 1)) by (apply Z.pow_pos_nonneg; lia); lia).
  assert (Hm1 : m < 2 ^ nbits m) by (apply nbits_lt; lia).
  set (r := Nat.iter (Z.to_nat t) shr_1 (rec0 m)).
  assert (Hr : 2 ^ 52 <= shr_m r < 2 ^ 53).
  { destruct (shr_iter_m (Z.to_nat t) (rec0 m)) as [E _]; [cbn; lia|].
    cbn [shr_m] in E. unfold r. rewrite E. rewrite Z2Nat.id by lia.
    assert (0 < 2 ^ t) by (apply Z.pow_pos_nonneg; lia).
    split.
    - apply Z.div_le_lower_bound; [lia|]. rewrite <- Z.pow_add_r by lia.
      replace (t + 52) with (nbits m - 1) by lia. exact Hm.
    - apply Z.div_lt_upper_bound; [lia|]. rewrite <- Z.pow_add_r by lia.
      replace (t + 53) with (nbits m) by lia. exact Hm1. }
  set (mr := round_nearest_even (shr_m r) (loc_of_shr_record r)).
  assert (Hmr : 2 ^ 52 <= mr <= 2 ^ 53).
  { unfold mr, round_nearest_even. destruct (loc_of_shr_record r) as [|[]]; try lia.
    destruct (Z.even (shr_m r)); lia. }
  assert (S1 : forall e, -1074 <= e + t -> shr_fexp 53 1024 m e loc_Exact = (r, e + t)).
  { intros e He. unfold shr_fexp. rewrite zdigits_pos by lia. rewrite shr_nat, fx_eq.
    cbn [shr_record_of_loc].
    replace (Z.max (nbits m + e - 53) (-1074) - e) with t by (unfold t in *; lia).
    fold r. f_equal. unfold t in *. lia. }
  destruct (Z.eq_dec mr (2 ^ 53)) as [Emr|Emr].
  - exists (2 ^ 52), (t + 1). split; [reflexivity|]. split; [lia|]. split; [lia|].
    intros s e He. unfold binary_round_aux. rewrite S1 by (unfold t; lia).
    fold mr. rewrite Emr. unfold shr_fexp. rewrite shr_nat, fx_eq.
    change (Zdigits2 (2 ^ 53)) with 54.
    replace (Z.max (54 + (e + t) - 53) (-1074) - (e + t)) with 1 by (unfold t in *; lia).
    change (Z.to_nat 1) with 1%nat. cbn [shr_record_of_loc Nat.iter nat_rect].
    change (shr_m (shr_1 (rec0 (2 ^ 53)))) with (Zpos 4503599627370496).
    change (1024 - 53) with 971. replace (e + t + Z.max 0 1) with (e + (t + 1)) by lia. reflexivity.
  - assert (Nmr : nbits mr = 53) by (apply nbits_unique; lia).
    exists mr, t. split; [exact Nmr|]. split; [lia|]. split; [lia|].
    intros s e He. unfold binary_round_aux. rewrite S1 by (unfold t; lia).
    fold mr. unfold shr_fexp. rewrite shr_nat, fx_eq. rewrite zdigits_pos by lia. rewrite Nmr.
    replace (Z.max (53 + (e + t) - 53) (-1074) - (e + t)) with 0 by (unfold t in *; lia).
    cbn [shr_record_of_loc]. change (Z.to_nat 0) with 0%nat. cbn [Nat.iter nat_rect shr_m].
    replace (e + t + Z.max 0 0) with (e + t) by lia.
    destruct mr; try lia. reflexivity.
Qed.

(** ** Powers of two by repeated doubling *)
Notation pow2 n := (S754_finite false 4503599627370496 (n - 52)).
Lemma dmul_pow2 : forall s m e n, nbits (Zpos m) = 53 -> -1074 <= e + n ->
  dmul (S754_finite s m e) (pow2 n) =
  if e + n <=? 971 then S754_finite s m (e + n) else S754_infinity s.
Proof.
  intros s m e n Hd He. unfold dmul, SFmul. rewrite xorb_false_r.
  replace (Z.pos (m * 4503599627370496)) with (Zpos m * 2 ^ 52) by lia.
  rewrite bra_shift; [|lia|lia|rewrite fx_eq; lia].
  replace (e + (n - 52) + 52) with (e + n) by lia.
  rewrite bra_id; [reflexivity|lia|rewrite fx_eq; lia].
Qed.
Lemma doublings_succ : forall n, 0 <= n -> doublings (n + 1) = dmul (doublings n) two.
Proof.
  intros [|p|p] H; try lia; [reflexivity|].
  unfold doublings. replace (Zpos p + 1) with (Zpos (Pos.succ p)) by lia.
  rewrite Pos.iter_succ. reflexivity.
Qed.
Lemma doublings_small : forall n, 0 <= n <= 1023 -> doublings n = pow2 n.
Proof.
  intros n.
  assert (H : forall k, (Z.of_nat k <= 1023) -> doublings (Z.of_nat k) = pow2 (Z.of_nat k)).
  { induction k; intros Hk; [reflexivity|]. rewrite Nat2Z.inj_succ. unfold Z.succ.
    rewrite doublings_succ by lia. rewrite IHk by lia.
    change two with (pow2 1). rewrite dmul_pow2 by (reflexivity || lia).
    destruct (Z.leb_spec (Z.of_nat k - 52 + 1) 971); [|lia].
    f_equal. lia. }
  intros Hn. rewrite <- (Z2Nat.id n) by lia. apply H. lia.
Qed.
Lemma doublings_big : forall n, 1024 <= n -> doublings n = S754_infinity false.
Proof.
  intros n Hn. replace n with (1024 + Z.of_nat (Z.to_nat (n - 1024))) by lia.
  generalize (Z.to_nat (n - 1024)). intros k. induction k.
  - change (1024 + Z.of_nat 0) with (1023 + 1). rewrite doublings_succ by lia.
    rewrite doublings_small by lia. change two with (pow2 1). rewrite dmul_pow2 by (reflexivity || lia).
    reflexivity.
  - rewrite Nat2Z.inj_succ. replace (1024 + Z.succ (Z.of_nat k)) with (1024 + Z.of_nat k + 1) by lia.
    rewrite doublings_succ by lia. rewrite IHk. reflexivity.
Qed.

Lemma ddiv_pow2 : forall s m e n, nbits (Zpos m) = 53 -> -1074 <= e - n -> e - n <= 971 -> 
  ddiv (S754_finite s m e) (pow2 n) = S754_finite s m (e - n).
Proof.
  intros s m e n Hd He He2. unfold ddiv, SFdiv, SFdiv_core_binary. rewrite xorb_false_r.
  rewrite !zdigits_pos by lia. rewrite Hd. change (nbits 4503599627370496) with 53.
  rewrite fx_eq.
  assert (H52 : 2 ^ 52 = 4503599627370496) by reflexivity.
  assert (D : exists j, 0 <= j <= 1 /\
    Z.min (Z.max (53 + e - (53 + (n - 52)) - 53) (-1074)) (e - (n - 52)) = e - n - j).
  { destruct (Z.eq_dec (e - n) (-1074)); [exists 0|exists 1]; lia. }
  destruct D as (j & Hj & ->).
  replace (e - (n - 52) - (e - n - j)) with (52 + j) by lia.
  assert (Em : match 52 + j with Z0 => Zpos m | Zpos _ => Z.shiftl (Zpos m) (52 + j) | Zneg _ => 0 end
               = (Zpos m * 2 ^ j) * 4503599627370496).
  { rewrite Z.shiftl_mul_pow2 by lia. rewrite Z.pow_add_r by lia. rewrite H52.
    destruct (52 + j) eqn:E; lia. }
  rewrite Em.
  pose proof (Z_div_mod (Zpos m * 2 ^ j * 4503599627370496) 4503599627370496 ltac:(lia)) as DM.
  destruct (Z.div_eucl (Zpos m * 2 ^ j * 4503599627370496) 4503599627370496) as [q r].
  destruct DM as [Eq Er].
  assert (r = 0) by lia. assert (q = Zpos m * 2 ^ j) by lia. subst r q.
  change (new_location 4503599627370496 0) with loc_Exact.
  rewrite bra_shift; [|lia|lia|rewrite fx_eq; lia].
  replace (e - n - j + j) with (e - n) by lia.
  rewrite bra_id; [|lia|rewrite fx_eq; lia].
  destruct (Z.leb_spec (e - n) 971); [reflexivity|lia].
Qed.

(** ** Conversion of a 64-bit number, and the value computed by the decoder *)
Lemma round_scale : forall N, 0 < N < two64 -> exists m k,
  nbits (Zpos m) = 53 /\ nbits N - 53 <= k <= nbits N - 52 /\
  forall e, -1074 <= e + k -> (nbits N <= 53 \/ -1074 <= e + nbits N - 53) ->
    binary_normalize 53 1024 N e false =
    if e + k <=? 971 then S754_finite false m (e + k) else S754_infinity false.
Proof.
  intros N [H0 H1]. destruct N as [|p|p]; try lia.
  destruct (Z_le_gt_dec (nbits (Zpos p)) 53) as [Hs|Hb].
  - assert (Hn : 0 < nbits (Zpos p)) by (unfold nbits; destruct (Z.leb_spec (Zpos p) 0); [lia|]; pose proof (Z.log2_nonneg (Zpos p)); lia).
    set (j := 53 - nbits (Zpos p)).
    assert (0 < 2 ^ j) by (apply Z.pow_pos_nonneg; lia).
    exists (Z.to_pos (Zpos p * 2 ^ j)), (- j).
    assert (Hp : 0 < Zpos p * 2 ^ j) by nia.
    rewrite Z2Pos.id by exact Hp. rewrite nbits_mul by lia.
    split; [lia|]. split; [lia|]. intros e He _.
    cbn [binary_normalize]. unfold binary_round. rewrite digits_nbits, fx_eq. unfold shl_align.
    replace (Z.max (nbits (Zpos p) + e - 53) (-1074) - e) with (- j) by lia.
    destruct j as [|jp|jp] eqn:Ej; [| |lia].
    + cbn [Z.opp]. rewrite Z.mul_1_r. rewrite bra_id; [|lia|rewrite fx_eq; lia].
      replace (e + 0) with e by lia. reflexivity.
    + cbn [Z.opp].
      replace (Zpos (shift_pos jp p)) with (Zpos p * 2 ^ Zpos jp)
        by (rewrite shift_pos_correct; change (Z.pow_pos 2 jp) with (2 ^ Zpos jp); lia).
      rewrite bra_id; [| lia | rewrite nbits_mul, fx_eq by lia; lia].
      replace (Z.max (nbits (Zpos p) + e - 53) (-1074)) with (e + Zneg jp) by lia. reflexivity.
  - destruct (bra_normal (Zpos p) ltac:(lia)) as (M & k & HM & HM0 & Hk & HB).
    exists (Z.to_pos M), k. rewrite Z2Pos.id by exact HM0. split; [exact HM|]. split; [exact Hk|].
    intros e He [Hx|Hx]; [lia|].
    cbn [binary_normalize]. unfold binary_round. rewrite digits_nbits, fx_eq. unfold shl_align.
    replace (Z.max (nbits (Zpos p) + e - 53) (-1074) - e) with (nbits (Zpos p) - 53) by lia.
    destruct (nbits (Zpos p) - 53) eqn:Ed; try lia. apply HB. lia.
Qed.

Lemma round_valid : forall N e, 0 < N < two64 -> -1074 <= e ->
  is_double (binary_normalize 53 1024 N e false).
Proof.
  intros N e HN He. destruct (round_scale N HN) as (m & k & Hm & Hk & HB).
  assert (F : forall x, -1074 <= x <= 971 -> is_double (S754_finite false m x)).
  { intros x Hx. unfold is_double, valid_binary, bounded, canonical_mantissa.
    rewrite digits_nbits, Hm, fx_eq. apply andb_true_intro. split.
    - apply Zeq_is_eq_bool. lia.
    - apply Zle_imp_le_bool. lia. }
  destruct (Z_le_gt_dec (nbits N) 53) as [Hs|Hb].
  - destruct (Z_le_gt_dec (-1074) (e + k)) as [Hl|Hl].
    + rewrite HB by lia. destruct (Z.leb_spec (e + k) 971); [apply F; lia|reflexivity].
    + (* subnormal *)
      destruct N as [|p|p]; try lia. cbn [binary_normalize]. unfold binary_round.
      assert (Hn : 0 < nbits (Zpos p)) by (unfold nbits; destruct (Z.leb_spec (Zpos p) 0); [lia|]; pose proof (Z.log2_nonneg (Zpos p)); lia).
      destruct (Z_le_gt_dec (nbits (Zpos p) + e - 53) (-1074)) as [Hq|Hq].
      * rewrite digits_nbits, fx_eq. unfold shl_align.
        replace (Z.max (nbits (Zpos p) + e - 53) (-1074) - e) with (- (e + 1074)) by lia.
        set (j := e + 1074). assert (0 < 2 ^ j) by (apply Z.pow_pos_nonneg; lia).
        assert (V : is_double (bra false (Zpos p * 2 ^ j) (-1074) loc_Exact)).
        { rewrite bra_id; [|nia|rewrite nbits_mul, fx_eq by lia; lia]. cbn [Z.leb].
          change (-1074 <=? 971) with true. cbn iota.
          unfold is_double, valid_binary, bounded, canonical_mantissa.
          rewrite digits_nbits, Z2Pos.id by nia. rewrite nbits_mul, fx_eq by lia.
          apply andb_true_intro. split; [apply Zeq_is_eq_bool; lia|reflexivity]. }
        destruct j as [|jp|jp] eqn:Ej; [| |lia].
        -- cbn [Z.opp]. rewrite Z.mul_1_r in V. replace e with (-1074) by lia. exact V.
        -- cbn [Z.opp].
           replace (Zpos (shift_pos jp p)) with (Zpos p * 2 ^ Zpos jp)
             by (rewrite shift_pos_correct; change (Z.pow_pos 2 jp) with (2 ^ Zpos jp); lia).
           replace (Z.max (nbits (Zpos p) + e - 53) (-1074)) with (-1074) by lia. exact V.
      * exfalso. lia.
  - rewrite HB by lia. destruct (Z.leb_spec (e + k) 971); [apply F; lia|reflexivity].
Qed.

(** The value computed by GetDoubleByMantissaAndExp: correctly rounded as long as
    the exponent is at least -1023, zero below. *)
Lemma GetDouble_ok : forall c N e, 0 < N < two64 -> -1023 <= e < 2 ^ 31 ->
  GetDoubleByMantissaAndExp c N e = Ok (binary_normalize 53 1024 N e false).
Proof.
  intros c N e HN He. unfold GetDoubleByMantissaAndExp.
  destruct (Z.eqb_spec N 0); [lia|]. clear n.
  destruct (round_scale N HN) as (m & k & Hm & Hk & HB).
  assert (Hn : 1 <= nbits N <= 64).
  { split.
    - unfold nbits; destruct (Z.leb_spec N 0); [lia|]; pose proof (Z.log2_nonneg N); lia.
    - apply nbits_min; [lia|]. unfold two64 in HN. lia. }
  assert (H0 : binary_normalize 53 1024 N 0 false = S754_finite false m k).
  { rewrite HB by lia. rewrite Z.add_0_l. destruct (Z.leb_spec k 971); [reflexivity|lia]. }
  rewrite H0. destruct (Z.leb_spec 0 e).
  - f_equal. destruct (Z_le_gt_dec e 1023).
    + rewrite doublings_small by lia. rewrite dmul_pow2 by (exact Hm || lia).
      rewrite HB by lia. rewrite (Z.add_comm k e). reflexivity.
    + rewrite doublings_big by lia. rewrite HB by lia.
      destruct (Z.leb_spec (e + k) 971); [lia|]. reflexivity.
  - unfold ires, in_s32. destruct (Z.leb_spec (- 2 ^ 31) (- e)); [|lia].
    destruct (Z.ltb_spec (- e) (2 ^ 31)); [|lia]. cbn [andb obind].
    f_equal. unfold u32. rewrite Z.mod_small by (unfold two32; lia).
    rewrite doublings_small by lia.
    destruct (Z_le_gt_dec (-1074) (e + k)).
    + rewrite ddiv_pow2 by (exact Hm || lia). rewrite HB by lia.
      replace (k - - e) with (e + k) by lia.
      destruct (Z.leb_spec (e + k) 971); [reflexivity|lia].
    + assert (e = -1023) by lia. assert (nbits N = 1) by lia.
      assert (N < 2 ^ 1) by (apply nbits_lt; lia). assert (N = 1) by lia. subst N e.
      vm_compute in H0. injection H0 as <- <-. vm_compute. reflexivity.
Qed.
Lemma GetDouble_low : forall c N e, 0 < N < two64 -> - 2 ^ 31 < e < -1023 ->
  GetDoubleByMantissaAndExp c N e = Ok (S754_zero false).
Proof.
  intros c N e HN He. unfold GetDoubleByMantissaAndExp.
  destruct (Z.eqb_spec N 0); [lia|]. clear n.
  destruct (round_scale N HN) as (m & k & Hm & Hk & HB).
  assert (Hn : 1 <= nbits N <= 64).
  { split.
    - unfold nbits; destruct (Z.leb_spec N 0); [lia|]; pose proof (Z.log2_nonneg N); lia.
    - apply nbits_min; [lia|]. unfold two64 in HN. lia. }
  rewrite HB by lia. rewrite Z.add_0_l. destruct (Z.leb_spec k 971); [|lia].
  destruct (Z.leb_spec 0 e); [lia|].
  unfold ires, in_s32. destruct (Z.leb_spec (- 2 ^ 31) (- e)); [|lia].
  destruct (Z.ltb_spec (- e) (2 ^ 31)); [|lia]. cbn [andb obind].
  f_equal. unfold u32. rewrite Z.mod_small by (unfold two32; lia).
  rewrite doublings_big by lia. reflexivity.
Qed.

(** Rounding gives a number in canonical position, for any format. *)
Lemma valid_iff : forall P E s m e, fexp P E (nbits (Zpos m) + e) = e -> e <= E - P ->
  valid_binary P E (S754_finite s m e) = true.
Proof.
  intros P E s m e H1 H2. unfold valid_binary, bounded, canonical_mantissa. rewrite digits_nbits.
  apply andb_true_intro. split; [apply Zeq_is_eq_bool; exact H1|apply Zle_imp_le_bool; exact H2].
Qed.
Lemma bra_valid : forall P E s m e, 2 <= P -> P < E -> 0 < m -> e <= fexp P E (nbits m + e) ->
  valid_binary P E (binary_round_aux P E s m e loc_Exact) = true.
Proof.
  intros P E s m e HP HE Hm He. unfold binary_round_aux, shr_fexp.
  rewrite (zdigits_pos m Hm), shr_nat. set (e1 := fexp P E (nbits m + e)) in *.
  replace (e + Z.max 0 (e1 - e)) with e1 by lia. set (t := e1 - e).
  cbn [shr_record_of_loc].
  set (r := Nat.iter (Z.to_nat t) shr_1 (rec0 m)).
  assert (Hr : shr_m r = m / 2 ^ t).
  { destruct (shr_iter_m (Z.to_nat t) (rec0 m)) as [X _]; [cbn; lia|].
    cbn [shr_m] in X. unfold r. rewrite X. rewrite Z2Nat.id by lia. reflexivity. }
  set (mr := round_nearest_even (shr_m r) (loc_of_shr_record r)).
  assert (Hmr : shr_m r <= mr <= shr_m r + 1).
  { unfold mr, round_nearest_even. destruct (loc_of_shr_record r) as [|[]]; try lia.
    destruct (Z.even (shr_m r)); lia. }
  assert (H2t : 0 < 2 ^ t) by (apply Z.pow_pos_nonneg; lia).
  assert (Hm1 : m < 2 ^ nbits m) by (apply nbits_lt; lia).
  assert (Hn0 : 1 <= nbits m) by (unfold nbits; destruct (Z.leb_spec m 0); [lia|]; pose proof (Z.log2_nonneg m); lia).
  assert (H2P : 2 ^ (P - 1) < 2 ^ P) by (apply Z.pow_lt_mono_r; lia).
  assert (Hup : shr_m r < 2 ^ P).
  { rewrite Hr. apply Z.div_lt_upper_bound; [lia|]. rewrite <- Z.pow_add_r by lia.
    eapply Z.lt_le_trans; [exact Hm1|]. apply Z.pow_le_mono_r; [lia|].
    unfold t, e1, fexp, emin. lia. }
  assert (Hlo : 0 <= shr_m r) by (rewrite Hr; apply Z.div_pos; lia).
  assert (Hnorm : e1 > 3 - E - P -> 2 ^ (P - 1) <= shr_m r).
  { intros G. rewrite Hr. apply Z.div_le_lower_bound; [lia|]. rewrite <- Z.pow_add_r by lia.
    assert (2 ^ (nbits m - 1) <= m) by (apply nbits_ge; lia).
    eapply Z.le_trans; [|eassumption]. apply Z.pow_le_mono_r; [lia|].
    unfold t, e1, fexp, emin in *. lia. }
  assert (He1 : 3 - E - P <= e1) by (unfold e1, fexp, emin; lia).
  rewrite shr_nat. cbn [shr_record_of_loc].
  destruct (Z.eq_dec mr 0) as [E0|N0].
  { rewrite E0. cbn [Zdigits2].
    assert (X : e1 = 3 - E - P).
    { destruct (Z_le_gt_dec e1 (3 - E - P)); [lia|]. specialize (Hnorm ltac:(lia)).
      assert (0 < 2 ^ (P - 1)) by (apply Z.pow_pos_nonneg; lia). lia. }
    replace (Z.to_nat (fexp P E (0 + e1) - e1)) with O by (unfold fexp, emin; lia).
    reflexivity. }
  assert (Hmp : 0 < mr) by lia.
  rewrite (zdigits_pos mr Hmp).
  destruct (Z.eq_dec mr (2 ^ P)) as [EP|NP].
  - assert (NB : nbits mr = P + 1).
    { rewrite EP. apply nbits_unique; [lia|]. replace (P + 1 - 1) with P by lia. rewrite Z.pow_add_r by lia. lia. }
    rewrite NB. replace (fexp P E (P + 1 + e1) - e1) with 1 by (unfold fexp, emin; lia).
    change (Z.to_nat 1) with 1%nat. cbn [Nat.iter nat_rect].
    rewrite EP. replace (2 ^ P) with (2 * 2 ^ (P - 1)) by (rewrite <- Z.pow_succ_r by lia; f_equal; lia).
    rewrite shr_1_double by (apply Z.pow_nonneg; lia). cbn [shr_m].
    assert (H2 : 0 < 2 ^ (P - 1)) by (apply Z.pow_pos_nonneg; lia).
    destruct (2 ^ (P - 1)) as [|q|q] eqn:Eq; try lia.
    destruct (Z.leb_spec (e1 + Z.max 0 1) (E - P)); [|reflexivity].
    apply valid_iff; [|lia].
    assert (NQ : nbits (Zpos q) = P) by (apply nbits_unique; [lia|]; rewrite Eq; lia).
    rewrite NQ. unfold fexp, emin. lia.
  - assert (NB : nbits mr <= P) by (apply nbits_pow; lia).
    assert (F : fexp P E (nbits mr + e1) = e1).
    { destruct (Z.eq_dec e1 (3 - E - P)).
      - unfold fexp, emin. lia.
      - assert (nbits mr = P); [|unfold fexp, emin; lia]. apply nbits_unique; lia. }
    rewrite F, Z.sub_diag. change (Z.to_nat 0) with 0%nat. cbn [Nat.iter nat_rect shr_m].
    destruct mr as [|q|q]; try lia.
    destruct (Z.leb_spec (e1 + Z.max 0 0) (E - P)); [|reflexivity].
    replace (e1 + Z.max 0 0) with e1 in * by lia. apply valid_iff; [exact F|lia].
Qed.
Lemma round_any_valid : forall P E s p e, 2 <= P -> P < E -> valid_binary P E (binary_round P E s p e) = true.
Proof.
  intros P E s p e HP HE. unfold binary_round, shl_align. rewrite digits_nbits.
  destruct (fexp P E (nbits (Zpos p) + e) - e) as [|d|d] eqn:D.
  - apply bra_valid; try lia.
  - apply bra_valid; try lia.
  - rewrite shift_pos_correct. change (Z.pow_pos 2 d) with (2 ^ Zpos d).
    assert (0 < 2 ^ Zpos d) by (apply Z.pow_pos_nonneg; lia).
    apply bra_valid; try lia.
    rewrite Z.mul_comm, nbits_mul by lia.
    replace (nbits (Z.pos p) + Z.pos d + fexp P E (nbits (Z.pos p) + e)) with (nbits (Zpos p) + e) by lia. lia.
Qed.
Lemma to_float_valid : forall x, is_float (to_float x).
Proof.
  intros [s|s| |s m e]; try reflexivity. unfold to_float, is_float.
  destruct s; cbn [binary_normalize Z.opp]; apply round_any_valid; lia.
Qed.
