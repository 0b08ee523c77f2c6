(** Tags and lengths. *)
From Verif Require Import Base Bits BitsProofs BitStream Ints IntsProofs Misc MiscProofs RealSpec OidSpec ByteStream ByteStreamProofs BerSpec Ber RealProofs BerProofs.
From Coq Require Import ZifyBool ZifyNat.
Ltac Zify.zify_post_hook ::= Z.div_mod_to_equations.

Lemma nbytes_u_bounds : forall v, 0 < v -> exists n, nbytes_u v = Z.of_nat (S n) /\ 256 ^ Z.of_nat n <= v < 256 ^ Z.of_nat (S n).
Proof.
  intros v V. set (n := Z.to_nat (Z.log2 v / 8)). pose proof (Z.log2_nonneg v).
  assert (256 ^ Z.of_nat n <= v < 256 ^ Z.of_nat (S n)) as H0.
  { rewrite !pow256 by lia. split.
    - transitivity (2 ^ Z.log2 v); [apply Z.pow_le_mono_r; lia|apply Z.log2_spec; lia].
    - apply Z.lt_le_trans with (2 ^ Z.succ (Z.log2 v)); [apply Z.log2_spec; lia|apply Z.pow_le_mono_r; lia]. }
  exists n. split; [now apply nbytes_u_pow|assumption].
Qed.
Lemma nbytes_u_le : forall v n, 0 <= v < 256 ^ n -> 1 <= n -> 1 <= nbytes_u v <= n.
Proof.
  intros v n V N. destruct (Z.eq_dec v 0) as [->|]; [cbn; lia|].
  destruct (nbytes_u_bounds v) as (k & -> & B1 & B2); [lia|]. split; [lia|].
  assert (Z.of_nat k < n); [|lia]. apply (Z.pow_lt_mono_r_iff 256); lia.
Qed.

Lemma tag_size_ok : forall k f t n, 256 ^ Z.of_nat k <= t < 256 ^ Z.of_nat (S k) -> (S k < f)%nat ->
  tag_size f t n = Ok (n + Z.of_nat (S k)).
Proof.
  induction k; intros f t n T F; (destruct f as [|f]; [lia|]); cbn [tag_size].
  - change (256 ^ Z.of_nat 0) with 1 in T. change (256 ^ Z.of_nat 1) with 256 in T.
    destruct (0 <? t) eqn:E; [|lia]. rewrite Z.shiftr_div_pow2 by lia. change (2 ^ 8) with 256.
    rewrite Z.div_small by lia. destruct f; [lia|]. reflexivity.
  - rewrite !pow256S in T. pose proof (pow256pos k). destruct (0 <? t) eqn:E; [|lia].
    rewrite Z.shiftr_div_pow2 by lia. change (2 ^ 8) with 256. rewrite IHk; [f_equal; lia| |lia].
    rewrite pow256S. split; [apply Z.div_le_lower_bound; lia|apply Z.div_lt_upper_bound; lia].
Qed.
Lemma tag_len : forall t, is_u64 t -> (if t =? 0 then Ok 1 else tag_size 9 t 0) = Ok (nbytes_u t).
Proof.
  intros t T. destruct (t =? 0) eqn:E; [assert (t = 0) as -> by lia; reflexivity|].
  unfold is_u64, two64 in T. pose proof (nbytes_u_le t 8 T ltac:(lia)).
  destruct (nbytes_u_bounds t) as (k & L & R); [lia|]. rewrite (tag_size_ok k) by (auto; lia). now rewrite L.
Qed.
Lemma len_tag_octets : forall t, Z.of_nat (length (tag_octets t)) = nbytes_u t.
Proof.
  intros t. unfold tag_octets. rewrite len_be. unfold nbytes_u. lia.
Qed.
Lemma tag_octets_bytes : forall t, Forall is_byte (tag_octets t). Proof. intros. apply be_bytes. Qed.
Lemma tag_octets_val : forall t, 0 <= t -> unsigned_octets (tag_octets t) = t.
Proof.
  intros t T. unfold tag_octets. rewrite unsigned_be_. destruct (Z.eq_dec t 0) as [->|]; [reflexivity|].
  destruct (nbytes_u_bounds t) as (k & -> & R); [lia|]. rewrite Nat2Z.id. apply Z.mod_small. lia.
Qed.
Lemma octets_tag : forall l, Forall is_byte l -> l <> [] -> (hd 1 l <> 0 \/ length l = 1%nat) -> tag_octets (unsigned_octets l) = l.
Proof.
  intros l F N H. rewrite <- (be_unsigned l F) at 2. unfold tag_octets. f_equal.
  destruct l as [|b t]; [easy|]. inversion_clear F. pose proof (unsigned_range t H1) as R. unfold is_byte in H0.
  cbn [hd length unsigned_octets] in *. pose proof (pow256pos (length t)).
  destruct (Z.eq_dec b 0) as [->|].
  - destruct H as [H|H]; [easy|]. destruct t; [reflexivity|discriminate].
  - rewrite (nbytes_u_pow (length t)); [lia|]. rewrite pow256S. nia.
Qed.

Lemma lor_head : forall x xs, Forall is_byte xs ->
  Z.lor (unsigned_octets (x :: xs)) (Z.shiftl 0x20 (8 * Z.of_nat (length xs))) = unsigned_octets (Z.lor x 0x20 :: xs).
Proof.
  intros x xs F. cbn [unsigned_octets]. pose proof (unsigned_range xs F) as R. rewrite pow256 in * by lia.
  rewrite <- !lor_add by lia. rewrite <- !Z.shiftl_mul_pow2 by lia.
  rewrite <- Z.lor_assoc, (Z.lor_comm (unsigned_octets xs)), Z.lor_assoc, <- Z.shiftl_lor. reflexivity.
Qed.
Lemma lor32_byte : forall x, is_byte x -> is_byte (Z.lor x 32).
Proof.
  intros x H. pose proof (bytes_all (fun x => (0 <=? Z.lor x 32) && (Z.lor x 32 <? 256)) x H eq_refl). unfold is_byte. lia.
Qed.
Lemma match_ident : forall a b, Forall is_byte a -> Forall is_byte b -> length a = length b -> a <> [] ->
  (Z.lor (unsigned_octets a) (Z.shiftl 0x20 ((Z.of_nat (length a) - 1) * 8)) =?
   Z.lor (unsigned_octets b) (Z.shiftl 0x20 ((Z.of_nat (length a) - 1) * 8))) = true <-> same_ident a b.
Proof.
  intros a b A B L N. destruct a as [|x xs]; [easy|]. destruct b as [|y ys]; [easy|].
  inversion_clear A. inversion_clear B. cbn [length] in *.
  replace ((Z.of_nat (S (length xs)) - 1) * 8) with (8 * Z.of_nat (length xs)) by lia.
  rewrite lor_head by assumption. replace (length xs) with (length ys) by lia. rewrite lor_head by assumption.
  rewrite Z.eqb_eq. cbn [same_ident]. split.
  - intros E. apply unsigned_inj in E; [|constructor; auto using lor32_byte..|cbn; lia]. inversion E. auto.
  - intros [-> E]. cbn [unsigned_octets]. now rewrite E.
Qed.

Lemma puts_Tag : forall t, is_u64 t -> puts (BerEncodeTag t) tt (tag_octets t).
Proof. intros. now apply puts_EncodeUInt. Qed.
Lemma small_tag : forall t, 0 <= t < 2 ^ 32 -> is_u64 t /\ 1 <= nbytes_u t <= 4.
Proof. intros t T. split; [unfold is_u64, two64; lia|]. apply nbytes_u_le; [exact T|lia]. Qed.
Lemma tag_num : forall bs, Forall is_byte bs -> Z.of_nat (length bs) <= 4 -> num 64 0 bs = unsigned_octets bs.
Proof.
  intros bs F L. destruct (num_val 64 ltac:(lia) bs 0 F) as [-> _]; [lia|]. rewrite Z.mul_0_l, Z.add_0_l.
  apply Z.mod_small. pose proof (unsigned_range bs F). assert (256 ^ Z.of_nat (length bs) <= 256 ^ 4) by (apply Z.pow_le_mono_r; lia). lia.
Qed.
Lemma decode_tag : forall t s pre bs rest, 0 <= t < 2 ^ 32 -> Forall is_byte (mem s) -> Forall is_byte bs ->
  length bs = length (tag_octets t) ->
  bat s pre (bs ++ rest) -> Z.of_nat (length pre + length bs) <= size s ->
  exists r s', BerDecodeTag t s = Ok (r, s') /\ bat s' (pre ++ bs) rest /\ size s' = size s /\ ws s' = ws s /\ mem s' = mem s /\
    (r = Some tt <-> same_ident (tag_octets t) bs).
Proof.
  intros t s pre bs rest T M F L H R. destruct (small_tag t T) as [U N]. pose proof (len_tag_octets t) as LT.
  unfold BerDecodeTag, bbind at 1, blift at 1. rewrite tag_len by assumption. cbv beta iota zeta.
  destruct ((_ <? 0) || _) eqn:E; [lia|]. replace (Z.to_nat (nbytes_u t)) with (length bs) by lia.
  rewrite get_tag_num. destruct (gets_num 64 ltac:(lia) bs 0 F ltac:(lia) s pre rest M H R) as (s' & E' & B' & S' & W' & M').
  unfold bopt, bbind. rewrite E'. rewrite tag_num by (auto; lia).
  pose proof (match_ident (tag_octets t) bs (tag_octets_bytes t) F ltac:(lia)) as MI.
  rewrite tag_octets_val, LT in MI by lia. specialize (MI ltac:(intros Q; rewrite Q in *; cbn in *; lia)).
  destruct (_ =? _) eqn:Q; eexists; exists s'; (split; [reflexivity|]); split; auto; repeat split; auto; try tauto.
  - intros X. discriminate.
  - intros X. apply MI in X. discriminate.
Qed.
Lemma same_len : forall a b, same_ident a b -> length a = length b.
Proof. intros [|] [|] H; cbn in *; intuition congruence. Qed.
Lemma gets_Tag : forall t bs, 0 <= t < 2 ^ 32 -> Forall is_byte bs -> same_ident (tag_octets t) bs -> gets (BerDecodeTag t) tt bs.
Proof.
  intros t bs T F S s pre rest M H R.
  destruct (decode_tag t s pre bs rest T M F (eq_sym (same_len _ _ S)) H R) as (r & s' & E & B & S' & W & M' & Q).
  exists s'. apply Q in S. subst r. auto.
Qed.
Lemma accepts_Tag : forall t, is_u64 t -> accepts (BerDecodeTag t) (fun _ bs => Forall is_byte bs /\ same_ident (tag_octets t) bs).
Proof.
  intros t T. unfold BerDecodeTag. apply accepts_lift. intros n En. rewrite tag_len in En by assumption. inversion En; subst n.
  pose proof (len_tag_octets t) as LT.
  destruct ((_ <? 0) || _) eqn:E; [apply accepts_UB|]. cbv zeta. rewrite get_tag_num. eapply accepts_weaken.
  - eapply accepts_bind; [apply accepts_num; lia|]. intros a x (L & F & ->). cbv beta.
    rewrite tag_num by (auto; lia).
    instantiate (1 := fun a _ bs => bs = [] /\ forall x, a = num 64 0 x -> length x = length (tag_octets t) -> Forall is_byte x -> same_ident (tag_octets t) x).
    cbv beta. rewrite <- (tag_num x) at 1 by (auto; lia).
    destruct (_ =? _) eqn:Q; [|apply accepts_none]. apply accepts_ret. split; [reflexivity|].
    intros y Ey Ly Fy. rewrite !tag_num in * by (auto; lia). apply unsigned_inj in Ey; auto; [|lia]. subst y.
    pose proof (match_ident (tag_octets t) x (tag_octets_bytes t) F ltac:(lia)) as MI.
    rewrite tag_octets_val, LT in MI by (unfold is_u64 in T; lia). apply MI; auto.
    intros X. rewrite X in *. cbn in *. lia.
  - intros a bs (b & x & y & -> & (L & F & E1) & -> & H). rewrite app_nil_r. split; [assumption|]. apply H; auto. lia.
Qed.
Lemma guarded_Tag : forall t, 0 <= t < 2 ^ 32 -> guarded (BerDecodeTag t) (fun _ => True).
Proof.
  intros t T. destruct (small_tag t T) as [U N]. unfold BerDecodeTag. eapply guarded_lift; [now apply tag_len|].
  cbv zeta. destruct ((_ <? 0) || _) eqn:E; [lia|]. eapply guarded_bind; [rewrite get_tag_num; apply guarded_num; lia|].
  intros a _. destruct (_ =? _); [now apply guarded_ret|apply guarded_none].
Qed.

(** ** Identifier octets *)
Lemma ident_octets : forall class cons n l, 0 <= class < 4 -> 0 <= n -> is_ident class cons n l ->
  Forall is_byte l /\ tag_octets (unsigned_octets l) = l.
Proof.
  intros class cons n l C N H. unfold is_ident in H. destruct (n <? 31) eqn:E.
  - subst l. assert (Forall is_byte [64 * class + (if cons then 32 else 0) + n]) as F.
    { constructor; auto. unfold is_byte. destruct cons; lia. }
    split; [exact F|]. apply octets_tag; auto. discriminate.
  - destruct H as (sub & (ds & e & -> & D & De & _ & _) & ->).
    assert (Forall is_byte ((64 * class + (if cons then 32 else 0) + 31) :: map (Z.add 128) ds ++ [e])) as F.
    { constructor; [unfold is_byte; destruct cons; lia|]. apply Forall_app. split.
      - apply Forall_map. eapply Forall_impl; [|exact D]. unfold is_digit, is_byte. cbv beta. lia.
      - constructor; auto. unfold is_digit, is_byte in *. lia. }
    split; [exact F|]. apply octets_tag; auto; [discriminate|]. left. cbn [hd]. destruct cons; lia.
Qed.
Lemma ident_same : forall class c1 c2 n l1 l2, 0 <= class < 4 -> 0 <= n -> is_ident class c1 n l1 -> is_ident class c2 n l2 ->
  (n < 31 \/ tl l1 = tl l2) -> same_ident l1 l2.
Proof.
  intros class c1 c2 n l1 l2 C N H1 H2 T. unfold is_ident in *.
  assert (forall x, 0 <= x < 32 -> Z.lor (64 * class + (if c1 then 32 else 0) + x) 32 = Z.lor (64 * class + (if c2 then 32 else 0) + x) 32) as Q.
  { intros x X. assert (forall b : bool, Z.lor (64 * class + (if b then 32 else 0) + x) 32 = 64 * class + 32 + x) as G.
    { intros b. replace (64 * class + (if b then 32 else 0) + x) with ((2 * class + (if b then 1 else 0)) * 2 ^ 5 + x) by (destruct b; lia).
      rewrite <- lor_add by lia. rewrite <- Z.lor_assoc, (Z.lor_comm x), Z.lor_assoc.
      change 32 with (Z.shiftl 1 5) at 1. rewrite <- Z.shiftl_mul_pow2, <- Z.shiftl_lor by lia.
      replace (Z.lor (2 * class + (if b then 1 else 0)) 1) with (2 * class + 1).
      - rewrite Z.shiftl_mul_pow2, lor_add by lia. lia.
      - rewrite (Z.mul_comm 2). change 2 with (2 ^ 1). destruct b; [|rewrite Z.add_0_r].
        + rewrite <- lor_add by lia. now rewrite <- Z.lor_assoc.
        + now rewrite lor_add by lia. }
    now rewrite !G. }
  destruct (n <? 31) eqn:E.
  - subst. cbn. split; [reflexivity|]. apply Q. lia.
  - destruct H1 as (s1 & _ & ->). destruct H2 as (s2 & _ & ->). cbn in *. destruct T as [T|T]; [lia|]. split; [exact T|].
    apply Q. lia.
Qed.
