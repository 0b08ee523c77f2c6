(** Proofs about Ber.v. *)
From Verif Require Import Base Bits BitsProofs BitStream Ints IntsProofs Misc MiscProofs RealSpec OidSpec ByteStream ByteStreamProofs BerSpec Ber.
From Coq Require Import ZifyBool ZifyNat.
From Verif Require Import RealProofs.
Ltac Zify.zify_post_hook ::= Z.div_mod_to_equations.

(** ** Octets *)
Lemma len_be : forall n v, length (be n v) = n.
Proof. induction n; intros; cbn; auto. Qed.
Lemma be_bytes : forall n v, Forall is_byte (be n v).
Proof. induction n; intros v; cbn [be]; constructor; auto. unfold is_byte. apply Z.mod_pos_bound. lia. Qed.
Lemma pow256S : forall n, 256 ^ Z.of_nat (S n) = 256 * 256 ^ Z.of_nat n.
Proof. intros. rewrite Nat2Z.inj_succ, Z.pow_succ_r; lia. Qed.
Lemma pow256pos : forall n, 0 < 256 ^ Z.of_nat n.
Proof. intros. apply Z.pow_pos_nonneg; lia. Qed.
Lemma unsigned_be_ : forall n v, unsigned_octets (be n v) = v mod 256 ^ Z.of_nat n.
Proof.
  induction n; intros v; cbn [be unsigned_octets]; [now rewrite Z.mod_1_r|].
  rewrite len_be, IHn, pow256S. pose proof (pow256pos n).
  rewrite (Z.mul_comm 256), Z.rem_mul_r by lia. lia.
Qed.
Lemma be_mod : forall n v, be n (v mod 256 ^ Z.of_nat n) = be n v.
Proof.
  assert (forall k n v, (k <= n)%nat -> be k (v mod 256 ^ Z.of_nat n) = be k v) as H.
  { induction k; intros n v L; cbn [be]; [reflexivity|]. rewrite IHk by lia. f_equal.
    pose proof (pow256pos k) as P. pose proof (pow256pos n) as Pn.
    replace (Z.of_nat n) with (Z.of_nat (n - S k) + Z.of_nat (S k)) by lia.
    rewrite Z.pow_add_r, pow256S by lia. pose proof (pow256pos (n - S k)) as Q.
    replace (256 ^ Z.of_nat (n - S k) * (256 * 256 ^ Z.of_nat k)) with (256 ^ Z.of_nat k * (256 * 256 ^ Z.of_nat (n - S k))) by ring.
    rewrite Z.rem_mul_r by nia.
    rewrite (Z.mul_comm (256 ^ Z.of_nat k)), Z.div_add by lia.
    rewrite (Z.div_small (v mod _)) by (apply Z.mod_pos_bound; lia). rewrite Z.add_0_l.
    now rewrite Z.rem_mul_r, <- Z.add_mod_idemp_r, Z.mul_comm, Z.mod_mul, Z.add_0_r, Z.mod_mod by lia. }
  intros. apply H. lia.
Qed.
Lemma unsigned_range : forall l, Forall is_byte l -> 0 <= unsigned_octets l < 256 ^ Z.of_nat (length l).
Proof. intros. rewrite pow256 by lia. now apply unsigned_octets_range. Qed.
Lemma be_unsigned : forall l, Forall is_byte l -> be (length l) (unsigned_octets l) = l.
Proof.
  induction l as [|b t IH]; intros F; [reflexivity|]. inversion_clear F. cbn [length be unsigned_octets].
  pose proof (unsigned_range t H0). unfold is_byte in H. pose proof (pow256pos (length t)).
  rewrite Z.div_add_l, (Z.div_small (unsigned_octets t)), Z.add_0_r, Z.mod_small by lia. f_equal.
  rewrite <- be_mod. rewrite Z.add_comm, Z.mod_add, Z.mod_small by lia. now apply IH.
Qed.
Lemma unsigned_inj : forall a b, Forall is_byte a -> Forall is_byte b -> length a = length b ->
  unsigned_octets a = unsigned_octets b -> a = b.
Proof. intros a b A B L E. rewrite <- (be_unsigned a A), <- (be_unsigned b B). now rewrite L, E. Qed.
Lemma nbytes_u_pow : forall n v, 256 ^ Z.of_nat n <= v < 256 ^ Z.of_nat (S n) -> nbytes_u v = Z.of_nat (S n).
Proof.
  intros n v H. unfold nbytes_u, nbits. pose proof (pow256pos n).
  destruct (v <=? 0) eqn:E; [lia|]. rewrite !pow256 in H by lia.
  assert (8 * Z.of_nat n <= Z.log2 v < 8 * Z.of_nat (S n)); [|lia].
  split; [apply Z.log2_le_pow2; lia|apply Z.log2_lt_pow2; lia].
Qed.

(** ** Bytes *)
Lemma upd_mid : forall A (pre : list A) x rest v, upd (pre ++ x :: rest) (length pre) v = pre ++ v :: rest.
Proof. induction pre; intros; cbn; [reflexivity|]. now rewrite IHpre. Qed.
Lemma puts_PutByte : forall v, puts (ByteStream_PutByte v) tt [v].
Proof.
  intros v s pre old rest [M C] L R. destruct old as [|x [|]]; try discriminate. cbn [length app] in *.
  unfold ByteStream_PutByte, bbind, bget. rewrite Z.gtb_ltb. destruct (size s + 1 <? cur s + 1) eqn:E; [lia|].
  unfold bwr, updZ. rewrite M, C, app_length. cbn [length].
  destruct ((_ <? 0) || _) eqn:E2; [lia|]. rewrite Nat2Z.id, upd_mid.
  eexists. split; [reflexivity|]. repeat split; cbn; [now rewrite <- app_assoc|rewrite app_length; cbn; lia].
Qed.
Lemma nth_mid : forall (pre : list Z) x rest, nthZ (pre ++ x :: rest) (Z.of_nat (length pre)) = Ok x.
Proof.
  intros. unfold nthZ. destruct (_ <? 0) eqn:E; [lia|]. rewrite Nat2Z.id, nth_error_app2, Nat.sub_diag by lia. reflexivity.
Qed.
Lemma gets_GetByte : forall v, gets ByteStream_GetByte v [v].
Proof.
  intros v s pre rest _ [M C] R. cbn [length app] in *.
  unfold ByteStream_GetByte, bbind, bget. rewrite Z.gtb_ltb. destruct (size s + 1 <? cur s + 1) eqn:E; [lia|].
  unfold brd. rewrite M, C, nth_mid.
  eexists. split; [reflexivity|]. repeat split; cbn; [now rewrite <- app_assoc|rewrite app_length; cbn; lia|congruence].
Qed.
Lemma GetByte_inv : forall s r s', 0 <= cur s -> ByteStream_GetByte s = Ok (r, s') ->
  (r = None /\ s' = s /\ size s < cur s) \/
  (exists b pre rest, r = Some b /\ bat s pre (b :: rest) /\ cur s <= size s /\
     s' = mkby (mem s) (size s) (cur s + 1) (ws s)).
Proof.
  intros s r s' C E. unfold ByteStream_GetByte, bbind, bget in E. rewrite Z.gtb_ltb in E.
  destruct (size s + 1 <? cur s + 1) eqn:F; [inversion E; subst; left; repeat split; lia|]. right.
  unfold brd, nthZ in E. destruct (cur s <? 0) eqn:G; [lia|].
  destruct (nth_error (mem s) (Z.to_nat (cur s))) as [b|] eqn:N; [|discriminate].
  inversion E; subst. apply nth_error_split in N. destruct N as (pre & rest & M & L).
  exists b, pre, rest. repeat split; auto; lia.
Qed.
Lemma accepts_GetByte : accepts ByteStream_GetByte (fun b bs => bs = [b] /\ is_byte b).
Proof.
  intros s a s' M L E. destruct (GetByte_inv s _ s' (proj1 L) E) as [[? _]|(b & pre & rest & H & B1 & C1 & ->)]; [discriminate|].
  inversion H; subst. exists pre, [b], rest. split; [exact B1|]. split; [|split; [reflexivity|cbn; lia]].
  split; [reflexivity|]. destruct B1 as [B1 _]. rewrite B1 in M. now apply Forall_elt in M.
Qed.
Lemma guarded_GetByte : guarded ByteStream_GetByte is_byte.
Proof.
  intros s (M & C & L). unfold ByteStream_GetByte, bbind, bget. rewrite Z.gtb_ltb.
  destruct (size s + 1 <? cur s + 1) eqn:F; [exists None, s; repeat split; auto; lia|].
  unfold brd, nthZ. destruct (cur s <? 0) eqn:G; [lia|].
  destruct (nth_error (mem s) (Z.to_nat (cur s))) as [b|] eqn:N; [|apply nth_error_None in N; lia].
  exists (Some b). eexists. split; [reflexivity|]. cbn. repeat split; try lia.
  all: apply nth_error_In in N; rewrite Forall_forall in M; apply M in N; apply N.
Qed.
Lemma bounded_PutByte : forall v, is_byte v -> bounded (ByteStream_PutByte v).
Proof.
  intros v V s (M & C & L). unfold ByteStream_PutByte, bbind, bget. rewrite Z.gtb_ltb.
  destruct (size s + 1 <? cur s + 1) eqn:F; [exists None, s; repeat split; auto; lia|].
  unfold bwr, updZ. destruct ((_ <? 0) || _) eqn:G; [lia|].
  exists (Some tt). eexists. split; [reflexivity|]. cbn.
  destruct (nth_error (mem s) (Z.to_nat (cur s))) as [b|] eqn:N; [|apply nth_error_None in N; lia].
  apply nth_error_split in N. destruct N as (pre & rest & N & L2). rewrite <- L2, N, upd_mid.
  repeat split; try lia.
  - rewrite !app_length. reflexivity.
  - rewrite N in M. apply Forall_app in M. destruct M as [M1 M2]. inversion M2; subst. apply Forall_app. auto.
  - now rewrite !firstn_app, !Nat.sub_diag, !firstn_all.
  - rewrite !skipn_app. replace (Z.to_nat (size s + 1) - length pre)%nat with (S (Z.to_nat (size s) - length pre)) by lia.
    reflexivity.
Qed.

(** ** Numbers *)
Lemma aux_byte : forall v i, (i < 8)%nat ->
  exists m, nthZ ber_aux (Z.of_nat i) = Ok m /\
    byte_of (Z.shiftr (Z.land v m) (8 * Z.of_nat i)) = (v / 256 ^ Z.of_nat i) mod 256.
Proof.
  intros v i H. exists (Z.shiftl 255 (8 * Z.of_nat i)). split.
  - do 8 (destruct i; [reflexivity|]). lia.
  - rewrite Z.shiftr_land, Z.shiftr_shiftl_l, Z.sub_diag by lia. change (Z.shiftl 255 0) with (Z.ones 8).
    rewrite Z.land_ones, Z.shiftr_div_pow2, pow256 by lia. unfold byte_of. now rewrite Z.mod_mod.
Qed.
Lemma puts_uint_true : forall k v, (k <= 8)%nat -> puts (put_uint k v true) tt (be k v).
Proof.
  induction k; intros v L; cbn [put_uint be]; [apply puts_ret|].
  destruct (aux_byte v k) as (m & E & F); [lia|]. eapply puts_lift; [exact E|]. cbv zeta. rewrite F. cbn [orb].
  change (?x :: be k v) with ([x] ++ be k v). eapply puts_bind; [apply puts_PutByte|]. apply IHk. lia.
Qed.
Lemma puts_uint_false : forall k v, (k <= 8)%nat -> 0 <= v < 256 ^ Z.of_nat k ->
  puts (put_uint k v false) tt (if v =? 0 then [] else be (Z.to_nat (nbytes_u v)) v).
Proof.
  induction k; intros v L R; cbn [put_uint].
  - cbn in R. assert (v = 0) as -> by lia. apply puts_ret.
  - destruct (aux_byte v k) as (m & E & F); [lia|]. eapply puts_lift; [exact E|]. cbv zeta. rewrite F. cbn [orb].
    pose proof (pow256pos k). rewrite pow256S in R.
    assert (0 <= v / 256 ^ Z.of_nat k < 256) as Q by (split; [apply Z.div_pos; lia|apply Z.div_lt_upper_bound; lia]).
    rewrite (Z.mod_small (v / _)) by lia. destruct (v / 256 ^ Z.of_nat k =? 0) eqn:Z0; cbn [negb].
    + assert (0 <= v < 256 ^ Z.of_nat k) as S. { split; [lia|]. apply Z.eqb_eq in Z0. apply Z.div_small_iff in Z0; lia. }
      change (if v =? 0 then _ else _) with ([] ++ (if v =? 0 then [] else be (Z.to_nat (nbytes_u v)) v)).
      eapply puts_bind; [apply puts_ret|]. apply IHk; lia.
    + assert (256 ^ Z.of_nat k <= v) as S.
      { destruct (Z.le_gt_cases (256 ^ Z.of_nat k) v); [assumption|]. rewrite Z.div_small in Z0 by lia. discriminate. }
      rewrite (nbytes_u_pow k v) by (rewrite pow256S; lia). rewrite Nat2Z.id.
      destruct (v =? 0) eqn:V; [lia|]. cbn [be]. rewrite (Z.mod_small (v / _)) by lia.
      change (?x :: be k v) with ([x] ++ be k v). eapply puts_bind; [apply puts_PutByte|]. apply puts_uint_true. lia.
Qed.
Lemma puts_EncodeUInt : forall v, is_u64 v -> puts (BerEncodeUInt v) tt (be (Z.to_nat (nbytes_u v)) v).
Proof.
  intros v V. unfold BerEncodeUInt. destruct (v =? 0) eqn:E.
  - assert (v = 0) as -> by lia. apply puts_PutByte.
  - pose proof (puts_uint_false 8 v (le_n 8)) as H. rewrite E in H. apply H. exact V.
Qed.
Lemma puts_EncodeUInt2 : forall v n, 0 <= n <= 8 -> puts (BerEncodeUInt2 v n) tt (be (Z.to_nat n) v).
Proof.
  intros v n N. unfold BerEncodeUInt2. assert (Z.to_nat n <= 8)%nat as L by lia. clear N.
  induction (Z.to_nat n) as [|k IH]; cbn [put_uint2 be]; [apply puts_ret|].
  destruct (aux_byte v k) as (m & E & F); [lia|]. eapply puts_lift; [exact E|]. rewrite F.
  change (?x :: be k v) with ([x] ++ be k v). eapply puts_bind; [apply puts_PutByte|]. apply IH. lia.
Qed.
Lemma bounded_put_uint : forall k v w, (k <= 8)%nat -> bounded (put_uint k v w).
Proof.
  induction k; intros v w L; cbn [put_uint]; [apply bounded_ret|].
  destruct (aux_byte v k) as (m & E & F); [lia|]. eapply bounded_lift; [exact E|]. cbv zeta. rewrite F.
  apply bounded_bind; [|intros; apply IHk; lia].
  destruct (_ || _); [|apply bounded_ret]. apply bounded_PutByte. unfold is_byte. lia.
Qed.
Lemma bounded_EncodeUInt : forall v, bounded (BerEncodeUInt v).
Proof.
  intros. unfold BerEncodeUInt. destruct (v =? 0); [|apply bounded_put_uint; lia]. apply bounded_PutByte. unfold is_byte. lia.
Qed.
Lemma bounded_EncodeUInt2 : forall v n, n <= 8 -> bounded (BerEncodeUInt2 v n).
Proof.
  intros v n N. unfold BerEncodeUInt2. assert (Z.to_nat n <= 8)%nat as L by lia. clear N.
  induction (Z.to_nat n) as [|k IH]; cbn [put_uint2]; [apply bounded_ret|].
  destruct (aux_byte v k) as (m & E & F); [lia|]. eapply bounded_lift; [exact E|]. rewrite F.
  apply bounded_bind; [|intros; apply IH; lia]. apply bounded_PutByte. unfold is_byte. lia.
Qed.

(** Reading numbers: three loops with the same body. *)
Lemma lor_shl : forall m r b, 8 <= m -> 0 <= r -> is_byte b ->
  Z.lor ((Z.shiftl r 8) mod 2 ^ m) b = (r * 256 + b) mod 2 ^ m.
Proof.
  intros m r b M R Hb. unfold is_byte in *.
  replace (2 ^ m) with (256 * 2 ^ (m - 8)) by (change 256 with (2 ^ 8); rewrite <- Z.pow_add_r by lia; f_equal; lia).
  assert (0 < 2 ^ (m - 8)) by (apply Z.pow_pos_nonneg; lia).
  rewrite Z.shiftl_mul_pow2 by lia. change (2 ^ 8) with 256.
  rewrite (Z.mul_comm r), Z.mul_mod_distr_l by lia. rewrite (Z.mul_comm 256 (r mod _)).
  change 256 with (2 ^ 8) at 1. rewrite lor_add by lia. change (2 ^ 8) with 256.
  rewrite Z.rem_mul_r by lia. replace ((256 * r + b) mod 256) with b by lia.
  replace ((256 * r + b) / 256) with r by lia. ring.
Qed.
Section Numbers.
Variable m : Z.
Hypothesis m_big : 8 <= m.
Fixpoint get_num (k : nat) (r : Z) : B (option Z) :=
  match k with
  | O => bret (Some r)
  | S k' => do? b := ByteStream_GetByte in get_num k' (Z.lor ((Z.shiftl r 8) mod 2 ^ m) b)
  end.
Definition num (r : Z) (bs : list Z) : Z := fold_left (fun r b => (r * 256 + b) mod 2 ^ m) bs r.
Lemma num_val : forall bs r, Forall is_byte bs -> 0 <= r < 2 ^ m ->
  num r bs = (r * 256 ^ Z.of_nat (length bs) + unsigned_octets bs) mod 2 ^ m /\ 0 <= num r bs < 2 ^ m.
Proof.
  assert (0 < 2 ^ m) by (apply Z.pow_pos_nonneg; lia).
  induction bs as [|b t IH]; intros r F R; cbn [length unsigned_octets].
  - cbn. rewrite Z.mul_1_r, Z.add_0_r. now rewrite Z.mod_small.
  - inversion_clear F.
    change (num r (b :: t)) with (num ((r * 256 + b) mod 2 ^ m) t).
    destruct (IH ((r * 256 + b) mod 2 ^ m) H1) as [E1 E2]; [apply Z.mod_pos_bound; lia|]. split; [|exact E2].
    rewrite E1, pow256S.
    rewrite <- Z.add_mod_idemp_l, Z.mul_mod_idemp_l, Z.add_mod_idemp_l by lia. f_equal. ring.
Qed.
Lemma gets_num : forall bs r, Forall is_byte bs -> 0 <= r -> gets (get_num (length bs) r) (num r bs) bs.
Proof.
  induction bs as [|b t IH]; intros r F R; cbn [get_num length num fold_left]; [apply gets_ret|].
  inversion_clear F. change (b :: t) with ([b] ++ t). eapply gets_bind; [apply gets_GetByte|].
  rewrite lor_shl by auto. apply IH; auto. apply Z.mod_pos_bound, Z.pow_pos_nonneg; lia.
Qed.
Lemma accepts_num : forall k r, 0 <= r ->
  accepts (get_num k r) (fun a bs => length bs = k /\ Forall is_byte bs /\ a = num r bs).
Proof.
  induction k; intros r R; cbn [get_num]; [apply accepts_ret; cbn; auto|].
  eapply accepts_weaken.
  - eapply accepts_bind; [apply accepts_GetByte|]. intros a x [-> Ha]. cbv beta. rewrite lor_shl by auto.
    apply IHk. apply Z.mod_pos_bound, Z.pow_pos_nonneg; lia.
  - intros a bs (b & x & y & -> & [-> Hb] & L & F & E). cbn [app length]. repeat split; auto.
Qed.
Lemma guarded_num : forall k r, 0 <= r < 2 ^ m -> guarded (get_num k r) (fun a => 0 <= a < 2 ^ m).
Proof.
  induction k; intros r R; cbn [get_num]; [now apply guarded_ret|].
  eapply guarded_bind; [apply guarded_GetByte|]. intros b Hb. rewrite lor_shl by (auto; lia).
  apply IHk. apply Z.mod_pos_bound, Z.pow_pos_nonneg; lia.
Qed.
End Numbers.
Lemma get_tag_num : forall k r, get_tag k r = get_num 64 k r. Proof. reflexivity. Qed.
Lemma get_uint_num : forall k r, get_uint k r = get_num 64 k r. Proof. reflexivity. Qed.
Lemma get_len_num : forall k r, get_len k r = get_num 32 k r. Proof. reflexivity. Qed.
