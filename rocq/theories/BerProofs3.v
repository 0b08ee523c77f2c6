(** Lengths and primitive values. *)
From Verif Require Import Base Bits BitsProofs BitStream Ints IntsProofs Misc MiscProofs Contracts RealSpec OidSpec ByteStream ByteStreamProofs BerSpec Ber RealProofs BerProofs BerProofs2.
From Coq Require Import ZifyBool ZifyNat.
Ltac Zify.zify_post_hook ::= Z.div_mod_to_equations.

Lemma len_len_ok : forall k f t n, 256 ^ Z.of_nat k <= t < 256 ^ Z.of_nat (S k) -> (S k < f)%nat -> 0 <= n -> n + Z.of_nat (S k) < 256 ->
  len_len f t n = Ok (n + Z.of_nat (S k)).
Proof.
  induction k; intros f t n T F N M; (destruct f as [|f]; [lia|]); cbn [len_len].
  - change (256 ^ Z.of_nat 0) with 1 in T. change (256 ^ Z.of_nat 1) with 256 in T.
    destruct (0 <? t) eqn:E; [|lia]. rewrite Z.shiftr_div_pow2 by lia. change (2 ^ 8) with 256.
    rewrite Z.div_small by lia. destruct f; [lia|]. unfold byte_of. rewrite Z.mod_small by lia. reflexivity.
  - rewrite !pow256S in T. pose proof (pow256pos k). destruct (0 <? t) eqn:E; [|lia].
    rewrite Z.shiftr_div_pow2 by lia. change (2 ^ 8) with 256. unfold byte_of. rewrite Z.mod_small by lia.
    rewrite IHk; [f_equal; lia| |lia..].
    rewrite pow256S. split; [apply Z.div_le_lower_bound; lia|apply Z.div_lt_upper_bound; lia].
Qed.
Lemma puts_Length : forall n, 0 <= n < 2 ^ 31 -> puts (BerEncodeLength n) tt (length_octets n).
Proof.
  intros n N. unfold BerEncodeLength, length_octets. destruct (n <=? 127) eqn:E.
  - destruct (n <? 128) eqn:F; [|lia]. unfold byte_of. rewrite Z.mod_small by lia. apply puts_PutByte.
  - destruct (n <? 128) eqn:F; [lia|]. pose proof (nbytes_u_le n 4 ltac:(lia) ltac:(lia)) as L.
    destruct (nbytes_u_bounds n) as (k & K & R); [lia|].
    eapply puts_lift. { unfold u32, two32. rewrite Z.mod_small by lia. apply (len_len_ok k); auto; lia. }
    rewrite Z.add_0_l, <- K. replace (Z.lor (nbytes_u n) 128) with (128 + nbytes_u n).
    2: { assert (nbytes_u n = 1 \/ nbytes_u n = 2 \/ nbytes_u n = 3 \/ nbytes_u n = 4) as [-> |[-> |[-> | ->]]] by lia; reflexivity. }
    change (?x :: be ?a ?b) with ([x] ++ be a b). eapply puts_bind; [apply puts_PutByte|].
    unfold u64, two64. rewrite Z.mod_small by lia. apply puts_EncodeUInt. unfold is_u64, two64. lia.
Qed.
Lemma bounded_Length : forall n, - 2 ^ 31 <= n < 2 ^ 31 -> bounded (BerEncodeLength n).
Proof.
  intros n N. unfold BerEncodeLength. destruct (n <=? 127) eqn:E.
  - apply bounded_PutByte. unfold byte_of, is_byte. lia.
  - pose proof (nbytes_u_le n 4 ltac:(lia) ltac:(lia)) as L. destruct (nbytes_u_bounds n) as (k & K & R); [lia|].
    eapply bounded_lift. { unfold u32, two32. rewrite Z.mod_small by lia. apply (len_len_ok k); auto; lia. }
    apply bounded_bind; [|intros; apply bounded_EncodeUInt]. apply bounded_PutByte. rewrite Z.add_0_l, <- K. unfold is_byte.
    assert (nbytes_u n = 1 \/ nbytes_u n = 2 \/ nbytes_u n = 3 \/ nbytes_u n = 4) as [-> |[-> |[-> | ->]]] by lia; cbn; lia.
Qed.

Lemma len_bits : forall b, is_byte b -> (Z.land b 128 =? 0) = (b <? 128) /\ Z.land b 127 = b mod 128.
Proof.
  intros b H. pose proof (bytes_all (fun b => Bool.eqb (Z.land b 128 =? 0) (b <? 128) && (Z.land b 127 =? b mod 128)) b H eq_refl) as E.
  cbv beta in E. apply andb_prop in E. destruct E as [E1 E2]. apply Bool.eqb_prop in E1. rewrite E1. split; [reflexivity|lia].
Qed.
Lemma s32_wrap : forall x, s32 (x mod 2 ^ 32) = wrap32 x.
Proof. intros x. unfold s32, two32, wrap32. cbv zeta. destruct (_ <? _) eqn:E; lia. Qed.
Lemma wrap_id : forall x, 0 <= x < 2 ^ 31 -> wrap32 x = x.
Proof. intros x H. unfold wrap32. lia. Qed.
Lemma gets_Length : forall bs a, Forall is_byte bs -> len_result bs = Some a -> gets BerDecodeLength a bs.
Proof.
  intros bs a F H. destruct bs as [|b t]; [discriminate|]. inversion_clear F. cbn [len_result] in H.
  destruct (len_bits b H0) as [E1 E2]. unfold BerDecodeLength. unfold is_byte in H0.
  change (b :: t) with ([b] ++ t). eapply gets_bind; [apply gets_GetByte|]. cbv beta. rewrite E1, E2.
  destruct (b <? 128) eqn:L.
  - destruct t; [|discriminate]. inversion H; subst. rewrite Z.mod_small by lia. apply gets_ret.
  - cbv zeta. destruct (b =? 128) eqn:L2.
    + assert (b = 128) as -> by lia. destruct t; [|discriminate]. inversion H; subst. apply gets_ret.
    + destruct (_ =? _) eqn:L3 in H; [|discriminate]. inversion H; subst.
      destruct (b mod 128 =? 0) eqn:L4; [lia|]. replace (Z.to_nat (b mod 128)) with (length t) by lia. rewrite get_len_num.
      eapply gets_bind0; [apply (gets_num 32); auto; lia|]. destruct (num_val 32 ltac:(lia) t 0 H1) as [-> _]; [lia|].
      rewrite Z.mul_0_l, Z.add_0_l, s32_wrap. apply gets_ret.
Qed.
Lemma accepts_Length : accepts BerDecodeLength (fun a bs => Forall is_byte bs /\ len_result bs = Some a).
Proof.
  unfold BerDecodeLength. eapply accepts_weaken.
  - eapply accepts_bind; [apply accepts_GetByte|]. intros b x [-> Hb]. cbv beta.
    instantiate (1 := fun b a bs => Forall is_byte bs /\ len_result (b :: bs) = Some a).
    destruct (len_bits b Hb) as [E1 E2]. rewrite E1, E2. cbn [len_result]. unfold is_byte in Hb.
    destruct (b <? 128) eqn:L; [apply accepts_ret; rewrite Z.mod_small by lia; auto|].
    cbv zeta. destruct (b mod 128 =? 0) eqn:L2.
    + assert (b = 128) as -> by lia. apply accepts_ret. auto.
    + rewrite get_len_num. eapply accepts_weaken.
      * eapply accepts_bind; [apply (accepts_num 32); lia|]. intros r x (Lx & Fx & ->).
        instantiate (1 := fun r a bs => bs = [] /\ a = s32 r). apply accepts_ret. auto.
      * intros a bs (r & y & z & -> & (Ly & Fy & ->) & -> & ->). rewrite app_nil_r. split; [assumption|].
        destruct (b =? 128) eqn:L3; [lia|]. destruct (Z.of_nat (length y) =? b - 128) eqn:L4; [|lia].
        destruct (num_val 32 ltac:(lia) y 0 Fy) as [-> _]; [lia|]. now rewrite Z.mul_0_l, Z.add_0_l, s32_wrap.
  - intros a bs (b & x & y & -> & [-> Hb] & F & E). split; [constructor; auto|exact E].
Qed.
Lemma s32_r : forall x, - 2 ^ 31 <= s32 x < 2 ^ 31. Proof. apply s32_range. Qed.
Lemma guarded_Length : guarded BerDecodeLength (fun n => - 2 ^ 31 <= n < 2 ^ 31).
Proof.
  unfold BerDecodeLength. eapply guarded_bind; [apply guarded_GetByte|]. intros b Hb.
  destruct (len_bits b Hb) as [E1 E2]. rewrite E1, E2. unfold is_byte in Hb. destruct (b <? 128); [apply guarded_ret; lia|].
  cbv zeta. destruct (b mod 128 =? 0); [apply guarded_ret; lia|]. rewrite get_len_num.
  eapply guarded_bind; [apply (guarded_num 32); lia|]. intros r _. apply guarded_ret. apply s32_r.
Qed.
Lemma length_result : forall bs n, Forall is_byte bs -> length_of bs = Some (Def n) -> n < 2 ^ 31 -> len_result bs = Some n /\ 0 <= n.
Proof.
  intros bs n F H N. destruct bs as [|b t]; [discriminate|]. inversion_clear F. unfold is_byte in H0. cbn [length_of len_result] in *. destruct t as [|b2 t].
  - destruct (b <? 128); [now inversion H; subst|]. destruct (b =? 128); discriminate.
  - destruct (_ && _) eqn:E; [|discriminate]. assert (n = unsigned_octets (b2 :: t)) as -> by congruence. pose proof (unsigned_range _ H1).
    destruct (b <? 128) eqn:L; [lia|]. destruct (b =? 128) eqn:L2; [lia|]. destruct (_ =? _) eqn:L3; [|lia].
    set (u := unsigned_octets (b2 :: t)) in *. clearbody u. rewrite wrap_id by lia. split; [reflexivity|lia].
Qed.
Lemma result_length : forall b t a, is_byte b -> Forall is_byte t -> len_result (b :: t) = Some a -> b <= 132 -> 0 <= a ->
  length_of (b :: t) = Some (Def a).
Proof.
  intros b t a Hb F H L A. unfold is_byte in Hb. cbn [length_of len_result] in *.
  destruct (b <? 128) eqn:E; [destruct t; [|discriminate]; inversion H; now subst|].
  destruct (b =? 128) eqn:E2; [destruct t; [|discriminate]; inversion H; lia|].
  destruct (Z.of_nat (length t) =? b - 128) eqn:E3 in H; [|discriminate]. destruct t as [|b2 t]; [cbn [length] in E3; lia|].
  destruct (_ && _) eqn:E4; [|lia]. assert (a = wrap32 (unsigned_octets (b2 :: t))) as -> by congruence. f_equal. f_equal.
  pose proof (unsigned_range _ F) as U. assert (256 ^ Z.of_nat (length (b2 :: t)) <= 256 ^ 4) by (apply Z.pow_le_mono_r; lia).
  set (u := unsigned_octets (b2 :: t)) in *. clearbody u. change (256 ^ 4) with (2 ^ 32) in *.
  assert (0 <= u < 2 ^ 32) by lia. unfold wrap32 in *. lia.
Qed.
Lemma length_octets_ok : forall n, 0 <= n < 2 ^ 31 -> Forall is_byte (length_octets n) /\ length_of (length_octets n) = Some (Def n).
Proof.
  intros n N. unfold length_octets. destruct (n <? 128) eqn:E.
  - split; [constructor; auto; unfold is_byte; lia|]. cbn. now rewrite E.
  - pose proof (nbytes_u_le n 4 ltac:(lia) ltac:(lia)) as L. split; [constructor; [unfold is_byte; lia|apply be_bytes]|].
    destruct (nbytes_u_bounds n) as (k & K & R); [lia|]. rewrite K, Nat2Z.id. cbn [length_of be].
    change (?x :: be k n) with (be (S k) n). rewrite len_be, unsigned_be_, Z.mod_small by lia.
    destruct (_ && _) eqn:Q; [reflexivity|lia].
Qed.

(** ** INTEGER *)
Lemma signed_unsigned : forall l, Forall is_byte l -> l <> [] ->
  signed_octets l = if unsigned_octets l <? 2 ^ (8 * Z.of_nat (length l) - 1) then unsigned_octets l
                    else unsigned_octets l - 2 ^ (8 * Z.of_nat (length l)).
Proof.
  intros l F N. unfold signed_octets. rewrite pow256 by lia. destruct l as [|b t]; [easy|]. inversion_clear F.
  cbn [hd length]. replace (8 * Z.of_nat (S (length t)) - 1) with (8 * Z.of_nat (length t) + 7) by lia.
  rewrite Z.pow_add_r by lia. change (2 ^ 7) with 128. cbn [unsigned_octets]. pose proof (unsigned_range t H0) as R.
  rewrite pow256 in * by lia. unfold is_byte in H. set (p := 2 ^ (8 * Z.of_nat (length t))) in *.
  destruct (128 <=? b) eqn:E, (_ <? _) eqn:E2; try reflexivity; nia.
Qed.
Lemma uint2int_signed : forall c l, Forall is_byte l -> (1 <= length l <= 8)%nat ->
  uint2int c (unsigned_octets l) (Z.of_nat (length l)) = Ok (signed_octets l).
Proof.
  intros c l F L. rewrite signed_unsigned; [|assumption|destruct l; [cbn in L; lia|discriminate]].
  apply uint2int_ok; [lia|]. rewrite <- pow256 by lia. now apply unsigned_range.
Qed.
Lemma signed_be_ : forall n v, (1 <= n)%nat -> - 2 ^ (8 * Z.of_nat n - 1) <= v < 2 ^ (8 * Z.of_nat n - 1) -> signed_octets (be n v) = v.
Proof.
  intros n v N V. rewrite signed_unsigned; [|apply be_bytes|destruct n; [lia|discriminate]].
  rewrite len_be, unsigned_be_, pow256 by lia.
  replace (2 ^ (8 * Z.of_nat n)) with (2 * 2 ^ (8 * Z.of_nat n - 1)).
  2: { rewrite <- Z.pow_succ_r by lia. f_equal. lia. }
  set (p := 2 ^ (8 * Z.of_nat n - 1)) in *. destruct (Z.le_gt_cases 0 v).
  - rewrite Z.mod_small by lia. destruct (v <? p) eqn:E; lia.
  - rewrite <- (Z.mod_add v 1) by lia. rewrite Z.mod_small by lia. destruct (_ <? p) eqn:E; lia.
Qed.
Lemma be_mod64 : forall n v, (n <= 8)%nat -> be n (v mod 2 ^ 64) = be n v.
Proof.
  intros n v L. rewrite <- (be_mod n (v mod 2 ^ 64)), <- (be_mod n v). f_equal.
  pose proof (pow256pos n). replace (2 ^ 64) with (256 ^ Z.of_nat n * 256 ^ Z.of_nat (8 - n)).
  2: { rewrite <- Z.pow_add_r by lia. replace (Z.of_nat n + Z.of_nat (8 - n)) with 8 by lia. reflexivity. }
  pose proof (pow256pos (8 - n)). rewrite Z.rem_mul_r by lia. rewrite Z.mul_comm, Z.mod_add, Z.mod_mod by lia. reflexivity.
Qed.
Lemma nbytes_s_fit : forall v, is_s64 v -> - 2 ^ (8 * nbytes_s v - 1) <= v < 2 ^ (8 * nbytes_s v - 1).
Proof.
  intros v V. pose proof (nbytes_s_bits v) as B. pose proof (nbytes_s_range v V) as R.
  set (w := if v <? 0 then - v - 1 else v) in *.
  assert (0 <= w) by (unfold w; destruct (v <? 0) eqn:?; lia).
  assert (w < 2 ^ (8 * nbytes_s v - 1)).
  { unfold nbits in B. destruct (w <=? 0) eqn:E; [apply Z.le_lt_trans with 0; [lia|apply Z.pow_pos_nonneg; lia]|].
    apply Z.lt_le_trans with (2 ^ Z.succ (Z.log2 w)); [apply Z.log2_spec; lia|apply Z.pow_le_mono_r; lia]. }
  unfold w in *. destruct (v <? 0) eqn:?; lia.
Qed.
Lemma len_int_octets : forall v, is_s64 v -> Z.of_nat (length (int_octets v)) = nbytes_s v /\ 1 <= nbytes_s v <= 8.
Proof. intros v V. pose proof (nbytes_s_range v V). unfold int_octets. rewrite len_be. lia. Qed.
Lemma short_length : forall n, n < 128 -> length_octets n = [n].
Proof. intros n N. unfold length_octets. destruct (n <? 128) eqn:E; [reflexivity|lia]. Qed.
Lemma puts_Integer : forall c t v, is_u64 t -> is_s64 v -> sfits c (- v) ->
  puts (BerEncodeInteger c t v) tt (tlv (tag_octets t) (int_octets v)).
Proof.
  intros c t v T V S. destruct (len_int_octets v V) as [L R]. unfold BerEncodeInteger, tlv. rewrite L.
  rewrite short_length by lia.
  eapply puts_bind; [now apply puts_Tag|]. eapply puts_lift; [now apply GetLengthSInt_ok|].
  cbv zeta. unfold byte_of. rewrite Z.mod_small by lia.
  eapply puts_bind; [apply puts_PutByte|]. eapply puts_lift; [now apply int2uint_ok|].
  unfold int_octets. rewrite <- be_mod64 by lia. apply puts_EncodeUInt2. lia.
Qed.
Lemma num_unsigned : forall l, Forall is_byte l -> (length l <= 8)%nat -> num 64 0 l = unsigned_octets l.
Proof.
  intros l F L. destruct (num_val 64 ltac:(lia) l 0 F) as [-> _]; [lia|]. rewrite Z.mul_0_l, Z.add_0_l.
  apply Z.mod_small. pose proof (unsigned_range l F). assert (256 ^ Z.of_nat (length l) <= 256 ^ 8) by (apply Z.pow_le_mono_r; lia). lia.
Qed.
Lemma gets_Integer : forall c t id lo l, 0 <= t < 2 ^ 32 -> Forall is_byte id -> same_ident (tag_octets t) id ->
  Forall is_byte lo -> length_of lo = Some (Def (Z.of_nat (length l))) -> Forall is_byte l -> (1 <= length l <= 8)%nat ->
  gets (BerDecodeInteger c t) (signed_octets l) (id ++ lo ++ l).
Proof.
  intros c t id lo l T Fi Si Fl Ll F L. unfold BerDecodeInteger.
  eapply gets_bind; [now apply gets_Tag|]. eapply gets_bind; [apply gets_Length; [assumption|]|].
  { eapply length_result; [assumption|exact Ll|lia]. }
  rewrite Nat2Z.id, get_uint_num. eapply gets_bind0; [apply gets_num; auto; lia|]. rewrite num_unsigned by (auto; lia).
  eapply gets_lift; [now apply uint2int_signed|apply gets_ret].
Qed.
Lemma accepts_Integer : forall c t, is_u64 t ->
  accepts (BerDecodeInteger c t) (fun v bs => exists id lo l, bs = id ++ lo ++ l /\ same_ident (tag_octets t) id /\
    len_result lo = Some (Z.of_nat (length l)) /\ (1 <= length l <= 8)%nat /\ v = signed_octets l).
Proof.
  intros c t T. unfold BerDecodeInteger. eapply accepts_weaken.
  - eapply accepts_bind; [now apply accepts_Tag|]. intros u0 x0 _.
    instantiate (1 := fun _ v bs => exists lo l, bs = lo ++ l /\ len_result lo = Some (Z.of_nat (length l)) /\ (1 <= length l <= 8)%nat /\ v = signed_octets l).
    eapply accepts_weaken.
    + eapply accepts_bind; [apply accepts_Length|]. intros n x (Fx & Ex).
      instantiate (1 := fun n v l => n = Z.of_nat (length l) /\ (1 <= length l <= 8)%nat /\ v = signed_octets l).
      rewrite get_uint_num. eapply accepts_weaken.
      * eapply accepts_bind; [apply accepts_num; lia|]. intros u y (Ly & Fy & ->).
        instantiate (1 := fun u v bs => bs = [] /\ 1 <= n <= 8 /\ uint2int c u n = Ok v).
        apply accepts_lift. intros v Ev. apply accepts_ret. split; [reflexivity|]. split; [|assumption].
        unfold uint2int in Ev. cbv zeta in Ev. destruct ((_ <? 0) || _) eqn:Q; [discriminate|]. lia.
      * intros v bs (u & y & z & -> & (Ly & Fy & ->) & -> & Rn & E). rewrite app_nil_r.
        assert (n = Z.of_nat (length y)) as -> by lia. split; [reflexivity|]. split; [lia|].
        rewrite num_unsigned, uint2int_signed in E by (auto; lia). now inversion E.
    + intros v bs (n & x & y & -> & (Fx & Ex) & -> & L & ->). exists x, y. auto.
  - intros v bs (u & x & y & -> & (Fx & Sx) & lo & l & -> & H). exists x, lo, l. auto.
Qed.

(** ** BOOLEAN, NULL *)
Lemma puts_Boolean : forall t v, is_u64 t -> puts (BerEncodeBoolean t v) tt (tlv (tag_octets t) (bool_octets v)).
Proof.
  intros t v T. unfold BerEncodeBoolean, tlv. eapply puts_bind; [now apply puts_Tag|].
  eapply puts_bind; [apply (puts_PutByte 1)|]. destruct v; apply puts_PutByte.
Qed.
Lemma gets_Boolean : forall t id lo b, 0 <= t < 2 ^ 32 -> Forall is_byte id -> same_ident (tag_octets t) id ->
  Forall is_byte lo -> length_of lo = Some (Def 1) ->
  gets (BerDecodeBoolean t) (negb (b =? 0)) (id ++ lo ++ [b]).
Proof.
  intros t id lo b T Fi Si Fl Ll. unfold BerDecodeBoolean.
  eapply gets_bind; [now apply gets_Tag|]. eapply gets_bind; [apply gets_Length; [assumption|]|].
  { eapply length_result; [assumption|exact Ll|lia]. }
  cbn [Z.eqb Pos.eqb negb]. eapply gets_bind0; [apply gets_GetByte|]. apply gets_ret.
Qed.
Lemma accepts_Boolean : forall t, is_u64 t ->
  accepts (BerDecodeBoolean t) (fun v bs => exists id lo b, bs = id ++ lo ++ [b] /\ same_ident (tag_octets t) id /\
    len_result lo = Some 1 /\ v = negb (b =? 0)).
Proof.
  intros t T. unfold BerDecodeBoolean. eapply accepts_weaken.
  - eapply accepts_bind; [now apply accepts_Tag|]. intros u0 x0 _.
    eapply accepts_bind; [apply accepts_Length|]. intros n x (Fx & Ex).
    instantiate (1 := fun n v bs => n = 1 /\ exists b, bs = [b] /\ v = negb (b =? 0)).
    destruct (n =? 1) eqn:N; [|apply accepts_none]. cbn [negb]. eapply accepts_weaken.
    + eapply accepts_bind; [apply accepts_GetByte|]. intros b y [-> _].
      instantiate (1 := fun b v bs => bs = [] /\ v = negb (b =? 0)). apply accepts_ret. auto.
    + intros v bs (b & y & z & -> & [-> _] & -> & ->). split; [lia|]. exists b. auto.
  - intros v bs (u & x & y & -> & (Fx & Sx) & n & lo & z & -> & (Fl & El) & -> & b & -> & ->). exists x, lo, b. auto.
Qed.
Lemma puts_Null : forall t, is_u64 t -> puts (BerEncodeNull t) tt (tlv (tag_octets t) []).
Proof.
  intros t T. unfold BerEncodeNull, tlv. eapply puts_bind; [now apply puts_Tag|]. apply puts_PutByte.
Qed.
Lemma gets_Null : forall t id lo, 0 <= t < 2 ^ 32 -> Forall is_byte id -> same_ident (tag_octets t) id ->
  Forall is_byte lo -> length_of lo = Some (Def 0) -> gets (BerDecodeNull t) tt (id ++ lo).
Proof.
  intros t id lo T Fi Si Fl Ll. unfold BerDecodeNull.
  eapply gets_bind; [now apply gets_Tag|]. eapply gets_bind0; [apply gets_Length; [assumption|]|].
  { eapply length_result; [assumption|exact Ll|lia]. }
  apply gets_ret.
Qed.
Lemma accepts_Null : forall t, is_u64 t ->
  accepts (BerDecodeNull t) (fun v bs => exists id lo, bs = id ++ lo /\ same_ident (tag_octets t) id /\ len_result lo = Some 0).
Proof.
  intros t T. unfold BerDecodeNull. eapply accepts_weaken.
  - eapply accepts_bind; [now apply accepts_Tag|]. intros u0 x0 _.
    eapply accepts_bind; [apply accepts_Length|]. intros n x (Fx & Ex).
    instantiate (1 := fun n v bs => n = 0 /\ bs = []).
    destruct (n =? 0) eqn:N; [|apply accepts_none]. cbn [negb]. apply accepts_ret. split; [lia|reflexivity].
  - intros v bs (u & x & y & -> & (Fx & Sx) & n & lo & z & -> & (Fl & El) & -> & ->). exists x, lo. rewrite app_nil_r. auto.
Qed.
