(** Proofs about Oid.v. *)
From Verif Require Import Base Bits StrSpec BitStream Ints Octets OidSpec Oid Contracts Parse.
From Verif Require Import BitsProofs BitStreamProofs BitStreamProofs3 IntsProofs SafeProofs HistoryProofs RangeProofs TameProofs
  ParseProofs OctetsProofs OctetsProofs2 MiscProofs.
From Coq Require Import ZifyBool ZifyNat.
Ltac Zify.zify_post_hook ::= Z.div_mod_to_equations.

(** ** The specification determines the octets *)
Lemma base128_snoc : forall ds e, base128 (ds ++ [e]) = base128 ds * 128 + e.
Proof. intros. unfold base128. now rewrite fold_left_app. Qed.

Lemma base128_nn : forall ds, Forall is_digit ds -> 0 <= base128 ds.
Proof.
  induction ds using rev_ind; intros H; [unfold base128; cbn; lia|].
  apply Forall_app in H. destruct H as [H1 H2]. inversion H2; subst. rewrite base128_snoc.
  specialize (IHds H1). unfold is_digit in *. lia.
Qed.

Lemma base128_pos : forall ds, Forall is_digit ds -> ds <> [] -> hd 1 ds <> 0 -> 1 <= base128 ds.
Proof.
  induction ds using rev_ind; intros H Hn Hh; [congruence|].
  apply Forall_app in H. destruct H as [H1 H2]. inversion H2; subst. rewrite base128_snoc.
  destruct ds as [|d ds].
  - cbn in Hh. unfold is_digit, base128 in *. cbn. lia.
  - assert (1 <= base128 (d :: ds)) by (apply IHds; auto; discriminate). unfold is_digit in *. lia.
Qed.

Lemma base128_inj : forall a b, Forall is_digit a -> Forall is_digit b -> hd 1 a <> 0 -> hd 1 b <> 0 ->
  base128 a = base128 b -> a = b.
Proof.
  induction a as [|x a IH] using rev_ind; intros b Ha Hb H1 H2 HE.
  - destruct b; auto. exfalso. pose proof (base128_pos _ Hb ltac:(discriminate) H2). change (base128 []) with 0 in HE. lia.
  - destruct (list_eq_dec Z.eq_dec b []) as [->|NE]; [|destruct (exists_last NE) as (b' & y & ->)].
    + exfalso. pose proof (base128_pos _ Ha ltac:(destruct a; discriminate) H1). change (base128 []) with 0 in HE. lia.
    + apply Forall_app in Ha, Hb. destruct Ha as [A1 A2], Hb as [B1 B2]. inversion A2; inversion B2; subst.
      rewrite !base128_snoc in HE. unfold is_digit in H3, H7.
      assert (x = y) by lia. assert (base128 a = base128 b') by lia. subst y. f_equal.
      apply IH; auto.
      * destruct a; cbn in *; [lia|auto].
      * destruct b'; cbn in *; [lia|auto].
Qed.

Lemma subid_unique : forall v a b, is_subid v a -> is_subid v b -> a = b.
Proof.
  intros v a b (ds & e & -> & D & E & H & HV) (ds' & e' & -> & D' & E' & H' & HV').
  rewrite HV in HV'. rewrite !base128_snoc in HV'. unfold is_digit in E, E'.
  assert (e = e') by lia. assert (base128 ds = base128 ds') by lia. subst e'.
  rewrite (base128_inj ds ds'); auto.
Qed.

(** ** Encoder *)
Lemma sub_digits_ok : forall k fuel n v, (k < fuel)%nat -> 0 <= v < 128 ^ Z.of_nat (S k) -> n + Z.of_nat k < 16 ->
  exists ds e, sub_digits fuel n v = Ok (e :: rev ds) /\ Forall is_digit ds /\ is_digit e /\ hd 1 ds <> 0 /\
    v = base128 (ds ++ [e]) /\ (length ds <= k)%nat.
Proof.
  induction k; intros fuel n v Hf Hv Hn; (destruct fuel as [|f]; [lia|]); cbn [sub_digits].
  - destruct (16 <=? n) eqn:E; [lia|]. change (128 ^ Z.of_nat 1) with 128 in Hv.
    rewrite (Z.div_small v 128) by lia. cbn [Z.eqb].
    exists [], v. rewrite (Z.mod_small v) by lia. rewrite byte_of_id by (unfold is_byte; lia).
    splits; auto; unfold is_digit, base128; cbn; try lia.
  - destruct (16 <=? n) eqn:E; [lia|].
    assert (BD : is_digit (byte_of (v mod 128)) /\ byte_of (v mod 128) = v mod 128).
    { rewrite byte_of_id by (unfold is_byte; lia). unfold is_digit. lia. }
    destruct BD as [B1 B2].
    destruct (v / 128 =? 0) eqn:E0.
    + exists [], (byte_of (v mod 128)). splits; auto; unfold base128; cbn [fold_left app hd length]; try lia.
    + destruct (IHk f (n + 1) (v / 128)) as (ds & e & R1 & R2 & R3 & R4 & R5 & R6); try lia.
      { replace (Z.of_nat (S (S k))) with (Z.succ (Z.of_nat (S k))) in Hv by lia. rewrite Z.pow_succ_r in Hv by lia.
        split; [lia|]. apply Z.div_lt_upper_bound; lia. }
      rewrite R1. cbn [obind]. exists (ds ++ [e]), (byte_of (v mod 128)).
      splits; auto.
      * rewrite rev_app_distr. reflexivity.
      * apply Forall_app; auto.
      * destruct ds; cbn; auto. intros ->. unfold base128 in R5. cbn in R5. lia.
      * rewrite base128_snoc, <- R5, B2. lia.
      * rewrite app_length. cbn. lia.
Qed.

Lemma lor_80 : forall d, is_digit d -> Z.lor d 128 = 128 + d.
Proof. intros d H. unfold is_digit in H. rewrite Z.lor_comm. change 128 with (1 * 2 ^ 7) at 1. rewrite lor_add; lia. Qed.

Lemma sub_put_ok : forall e ds out, Forall is_digit ds -> (length out + length ds < 200)%nat ->
  sub_put (S (length ds)) (e :: rev ds) out = Ok (out ++ map (Z.add 128) ds ++ [e]).
Proof.
  intros e ds out HD HL.
  assert (G : forall ds2 ds1 out, ds = ds1 ++ ds2 -> (length out + length ds2 < 200)%nat ->
     sub_put (S (length ds2)) (e :: rev ds) out = Ok (out ++ map (Z.add 128) ds2 ++ [e])).
  { induction ds2 as [|d ds2 IH]; intros ds1 o EQ HO.
    - cbn [length sub_put]. change (Z.of_nat 0) with 0. unfold nthZ. cbn [Z.ltb Z.compare Z.to_nat nth_error obind].
      replace (200 <=? Z.of_nat (length o)) with false by (cbn in HO; lia). reflexivity.
    - cbn [length]. remember (S (length ds2)) as m eqn:Em. cbn [sub_put].
      assert (HN : nthZ (e :: rev ds) (Z.of_nat m) = Ok d).
      { unfold nthZ. replace (Z.of_nat m <? 0) with false by lia. rewrite Nat2Z.id. rewrite Em. cbn [nth_error].
        rewrite EQ, rev_app_distr. cbn [rev]. rewrite <- app_assoc. rewrite nth_error_app2 by (rewrite rev_length; lia).
        rewrite rev_length, Nat.sub_diag. reflexivity. }
      rewrite HN. cbn [obind]. replace (200 <=? Z.of_nat (length o)) with false by (cbn in HO; lia).
      assert (EM : (match m with O => d | S _ => Z.lor d 128 end) = 128 + d).
      { rewrite Em. apply lor_80. rewrite EQ in HD. apply Forall_app in HD. destruct HD as [_ HD]. now inversion HD. }
      rewrite EM. rewrite (IH (ds1 ++ [d])).
      + cbn [map]. rewrite <- app_assoc. reflexivity.
      + rewrite <- app_assoc. exact EQ.
      + rewrite app_length. cbn in HO |- *. lia. }
  apply (G ds []); auto.
Qed.

Lemma subid_exists : forall v, is_u64 v -> exists l, is_subid v l /\ (length l <= 10)%nat /\
  forall out, (length out + 10 <= 200)%nat -> sub_encode out v = Ok (out ++ l).
Proof.
  intros v Hv. destruct (sub_digits_ok 9 17 0 v) as (ds & e & R1 & R2 & R3 & R4 & R5 & R6); try lia.
  { unfold is_u64, two64 in Hv. change (128 ^ Z.of_nat 10) with (64 * 2 ^ 64). lia. }
  exists (map (Z.add 128) ds ++ [e]). splits.
  - exists ds, e. auto.
  - rewrite app_length, map_length. cbn. lia.
  - intros out HO. unfold sub_encode. rewrite R1. cbn [obind length]. rewrite rev_length. apply sub_put_ok; auto. lia.
Qed.

Lemma subid_len : forall v l, is_u64 v -> is_subid v l -> (1 <= length l <= 10)%nat.
Proof.
  intros v l Hv HS. destruct (subid_exists v Hv) as (l' & H1 & H2 & _).
  rewrite (subid_unique v l l') by auto. destruct H1 as (ds & e & -> & _). rewrite app_length in *. cbn in *. lia.
Qed.

Lemma sub_encode_ok : forall v l out, is_u64 v -> is_subid v l -> (length out + 10 <= 200)%nat ->
  sub_encode out v = Ok (out ++ l).
Proof.
  intros v l out Hv HS HO. destruct (subid_exists v Hv) as (l' & H1 & _ & H2).
  rewrite (subid_unique v l l') by auto. auto.
Qed.

Lemma sub_encode_all_ok : forall vs ls values i out, Forall is_u64 vs -> Forall2 is_subid vs ls -> 0 <= i ->
  firstn (length vs) (skipn (Z.to_nat i) values) = vs ->
  (length out + 10 * length vs <= 200)%nat ->
  sub_encode_all (length vs) values i out = Ok (out ++ concat ls).
Proof.
  induction vs as [|v vs IH]; intros ls values i out HU HF Hi HS HO; inversion HF; subst; cbn [sub_encode_all length].
  - cbn. now rewrite app_nil_r.
  - inversion HU; subst. cbn [length firstn] in HS.
    destruct (skipn (Z.to_nat i) values) as [|w rest] eqn:ES; [discriminate|]. injection HS as -> HS.
    rewrite (nthZ_skipn _ _ _ _ Hi ES). cbn [obind].
    rewrite (sub_encode_ok v y out) by (auto; cbn in HO; lia). cbn [obind].
    pose proof (subid_len v y H2 H1) as HL.
    rewrite (IH l' values (i + 1)); auto; try lia.
    + cbn [concat]. now rewrite app_assoc.
    + replace (Z.to_nat (i + 1)) with (Z.to_nat i + 1)%nat by lia. rewrite <- skipn_skipn', ES. cbn [skipn]. now rewrite HS.
    + rewrite app_length. cbn in HO. lia.
Qed.

Lemma subid_bytes : forall v l, is_subid v l -> Forall is_byte l.
Proof.
  intros v l (ds & e & -> & D & E & _). apply Forall_app. split.
  - apply Forall_map. eapply Forall_impl; [|exact D]. unfold is_digit, is_byte. intros; lia.
  - constructor; auto. unfold is_digit, is_byte in *. lia.
Qed.
Lemma subids_bytes : forall vs ls, Forall2 is_subid vs ls -> Forall is_byte (concat ls).
Proof. induction 1; cbn; [constructor|]. apply Forall_app. split; auto. eapply subid_bytes; eauto. Qed.
Lemma subids_len : forall vs ls, Forall is_u64 vs -> Forall2 is_subid vs ls ->
  (length vs <= length (concat ls) <= 10 * length vs)%nat.
Proof.
  induction vs; intros ls HU HF; inversion HF; subst; cbn; [lia|]. inversion HU; subst.
  rewrite app_length. pose proof (subid_len _ _ H2 H1). specialize (IHvs _ H4 H3). lia.
Qed.

Lemma overwrites_oid_bytes : forall l, Forall is_byte l -> overwrites (oid_bytes l) tt (bits_of_bytes l).
Proof.
  induction 1; cbn [oid_bytes bits_of_bytes]; [apply overwrites_ret|].
  eapply overwrites_bind; [|exact IHForall]. rewrite Zbits8. apply overwrites_AppendByte0; auto.
Qed.

Lemma writes_oid_tail : forall c l, Forall is_byte l -> Z.of_nat (length l) < 16384 ->
  writes (oid_tail c l) tt (frag (octets l)).
Proof.
  intros c l HB HL. unfold oid_tail.
  assert (LO : length (octets l) = length l) by (unfold octets; apply map_length).
  destruct (_ <=? 127) eqn:E.
  - rewrite frag_small by lia. rewrite LO, concat_octets. eapply writes_bind; [apply writes_u8; lia|].
    apply overwrites_writes, overwrites_oid_bytes; auto.
  - rewrite frag_mid by lia. rewrite LO, concat_octets, app_assoc.
    eapply writes_bind; [|apply overwrites_writes, overwrites_oid_bytes; auto].
    eapply writes_bind; [apply overwrites_writes, overwrites_AppendBit|apply writes_u15; lia].
Qed.

Lemma writes_RelativeOID : forall c vs ls rest, Forall is_u64 vs -> Forall2 is_subid vs ls -> (length vs <= 20)%nat ->
  writes (RelativeOID_uper_encode c (Z.of_nat (length vs)) (vs ++ rest)) tt (frag (octets (concat ls))).
Proof.
  intros c vs ls rest HU HF HL. unfold RelativeOID_uper_encode. rewrite Nat2Z.id.
  eapply writes_pure_l.
  - intros s. unfold lift. rewrite (sub_encode_all_ok vs ls (vs ++ rest) 0 []); auto; try lia.
    + cbn [Z.to_nat skipn]. apply firstn_app_exact.
    + cbn. lia.
  - apply writes_oid_tail; [eapply subids_bytes; eauto|]. pose proof (subids_len vs ls HU HF). lia.
Qed.

Lemma writes_ObjectIdentifier : forall c a b vs ls rest, is_u64 a -> is_u64 b -> is_u64 (40 * a + b) -> Forall is_u64 vs ->
  Forall2 is_subid (40 * a + b :: vs) ls -> (length vs <= 18)%nat ->
  writes (ObjectIdentifier_uper_encode c (Z.of_nat (2 + length vs)) (a :: b :: vs ++ rest)) tt (frag (octets (concat ls))).
Proof.
  intros c a b vs ls rest Ha Hb Hab HU HF HL. inversion HF; subst. unfold ObjectIdentifier_uper_encode.
  eapply writes_pure_l; [intros s; reflexivity|]. eapply writes_pure_l; [intros s; reflexivity|].
  assert (EV : u64 (u64 (a * 40) + b) = 40 * a + b).
  { rewrite (u64_id (a * 40)); [rewrite u64_id; [lia|]|]; unfold is_u64 in *; lia. }
  rewrite EV. eapply writes_pure_l.
  { intros s. unfold lift. rewrite (sub_encode_ok _ y []); auto; cbn; lia. }
  cbn [app]. replace (Z.to_nat (Z.of_nat (2 + length vs) - 2)) with (length vs) by lia.
  pose proof (subid_len _ _ Hab H1) as Hy.
  eapply writes_pure_l.
  - intros s. unfold lift. rewrite (sub_encode_all_ok vs l'); auto; try lia.
    + change (Z.to_nat 2) with 2%nat. cbn [skipn]. apply firstn_app_exact.
  - cbn [concat]. apply writes_oid_tail.
    + apply (subids_bytes _ _ HF).
    + pose proof (subids_len vs l' HU H3). rewrite app_length. lia.
Qed.

(** ** Decoder *)
Lemma land_7F : forall b, is_byte b -> Z.land b 127 = b mod 128.
Proof. intros. change 127 with (Z.ones 7). now rewrite Z.land_ones by lia. Qed.
Lemma land_80' : forall b, is_byte b -> (Z.land b 128 =? 0) = (b <? 128).
Proof.
  intros b H. pose proof (land_pow2_testbit b 7 ltac:(lia)) as HT. change (2 ^ 7) with 128 in HT.
  assert (Z.testbit b 7 = (128 <=? b)).
  { rewrite Z.testbit_eqb by lia. change (2 ^ 7) with 128. unfold is_byte in H. lia. }
  rewrite H0 in HT. destruct (Z.land b 128 =? 0); cbn [negb] in HT; lia.
Qed.

Lemma reads_sub_decode : forall ds e r si, Forall is_digit ds -> is_digit e -> 0 <= si ->
  fold_left (fun a d => a * 128 + d) (ds ++ [e]) si < two64 ->
  reads (sub_decode (S (length ds) + r) si) (Some (r, fold_left (fun a d => a * 128 + d) (ds ++ [e]) si))
    (bits_of_bytes (map (Z.add 128) ds ++ [e])).
Proof.
  assert (MONO : forall l si, Forall is_digit l -> 0 <= si -> si <= fold_left (fun a d => a * 128 + d) l si).
  { induction l; intros si HD Hs; cbn; [lia|]. inversion HD; subst. unfold is_digit in H1.
    specialize (IHl (si * 128 + a) H2 ltac:(lia)). lia. }
  induction ds as [|d ds IH]; intros e r si HD HE Hs HB; cbn [length plus sub_decode map app bits_of_bytes].
  - unfold is_digit in HE. cbn [fold_left app] in *.
    eapply reads_eq; [|symmetry; apply app_nil_r]. rewrite Zbits8, <- (app_nil_r (Zbits 8 e)).
    eapply reads_bindo; [apply reads_ReadByte; unfold is_byte; lia|]. cbv beta.
    rewrite land_80' by (unfold is_byte; lia). replace (e <? 128) with true by lia.
    rewrite land_7F by (unfold is_byte; lia). rewrite (Z.mod_small e) by lia. unfold u64, two64 in *.
    rewrite (shl_lor_u 64 si 7 e) by lia. change (2 ^ 7) with 128. apply reads_ret.
  - inversion HD; subst. unfold is_digit in H1. cbn [fold_left app] in *.
    assert (HM : si * 128 + d < two64).
    { eapply Z.le_lt_trans; [|exact HB]. apply MONO; [apply Forall_app; auto|lia]. }
    rewrite Zbits8. eapply reads_bindo; [apply reads_ReadByte; unfold is_byte; lia|]. cbv beta.
    rewrite land_80' by (unfold is_byte; lia). replace (128 + d <? 128) with false by lia.
    rewrite land_7F by (unfold is_byte; lia). replace ((128 + d) mod 128) with d by lia. unfold u64.
    assert (HS : (si + 1) * 2 ^ 7 <= 2 ^ 64) by (unfold two64 in HM; lia).
    change two64 with (2 ^ 64). rewrite (shl_lor_u 64 si 7 d) by lia. change (2 ^ 7) with 128.
    apply (IH e r (si * 128 + d)); auto; lia.
Qed.

Lemma reads_subid : forall v l r, is_u64 v -> is_subid v l ->
  reads (sub_decode (length l + r) 0) (Some (r, v)) (bits_of_bytes l).
Proof.
  intros v l r Hv (ds & e & -> & D & E & _ & HV). rewrite app_length, map_length, Nat.add_comm with (n := length ds). cbn [length].
  rewrite HV. apply reads_sub_decode; auto; [lia|]. unfold base128 in HV. rewrite <- HV. apply Hv.
Qed.

Lemma upd_here : forall (a : list Z) b v, upd (a ++ 0 :: b) (length a) v = (a ++ [v]) ++ b.
Proof. intros. rewrite upd_app, <- app_assoc. reflexivity. Qed.

Lemma reads_dec_arcs : forall vs ls f dn m, Forall is_u64 vs -> Forall2 is_subid vs ls ->
  (length vs <= f)%nat -> (length vs <= m)%nat ->
  reads (dec_arcs f (length (concat ls)) (Z.of_nat (length dn)) (dn ++ repeat 0 m))
    (Some (O, Z.of_nat (length (dn ++ vs)), dn ++ vs ++ repeat 0 (m - length vs)))
    (bits_of_bytes (concat ls)).
Proof.
  induction vs as [|v vs IH]; intros ls f dn m HU HF Hf Hm; inversion HF; subst; cbn [concat].
  - cbn [length bits_of_bytes app]. rewrite Nat.sub_0_r, app_nil_r. destruct f; apply reads_ret.
  - inversion HU; subst. pose proof (subid_len _ _ H2 H1) as HL.
    destruct f as [|f]; [cbn in Hf; lia|]. destruct m as [|m]; [cbn in Hm; lia|].
    rewrite app_length. destruct (length y + length (concat l'))%nat as [|q] eqn:EQ; [lia|]. cbn [dec_arcs].
    rewrite <- EQ, bits_of_bytes_app. eapply reads_bindo; [apply reads_subid; eauto|]. cbv beta. cbn [fst snd].
    eapply reads_pure_l.
    + intros s. unfold lift, updZ. rewrite app_length. cbn [repeat length].
      destruct (_ || _) eqn:E; [lia|]. rewrite Nat2Z.id, upd_here. reflexivity.
    + specialize (IH l' f (dn ++ [v]) m H4 H3 ltac:(cbn in Hf; lia) ltac:(cbn in Hm; lia)).
      rewrite app_length in IH. cbn [length] in IH. replace (Z.of_nat (length dn + 1)) with (Z.of_nat (length dn) + 1) in IH by lia.
      rewrite <- !app_assoc in IH. cbn [app length Nat.sub] in *. rewrite <- app_assoc. exact IH.
Qed.

Lemma len15 : forall n, 0 <= n < 16384 -> exists h l2, 128 <= h <= 255 /\ 0 <= l2 <= 255 /\
  [true] ++ Zbits 15 n = Zbits 8 h ++ Zbits 8 l2 /\ Z.land (Z.lor (Z.shiftl h 8) l2) 0x7FFF = n.
Proof.
  intros n Hn. exists (128 + n / 256), (n mod 256). splits; try lia.
  - assert (HZ : Zbits 16 (32768 + n) = [true] ++ Zbits 15 n).
    { change 16%nat with (1 + 15)%nat. rewrite Zbits_app. f_equal.
      - change (Z.of_nat 15) with 15. rewrite Z.shiftr_div_pow2 by lia. change (2 ^ 15) with 32768.
        replace ((32768 + n) / 32768) with 1 by lia. reflexivity.
      - apply Zbits_cong. change (2 ^ Z.of_nat 15) with 32768. lia. }
    rewrite <- HZ. change 16%nat with (8 + 8)%nat. rewrite Zbits_app. f_equal.
    + change (Z.of_nat 8) with 8. rewrite Z.shiftr_div_pow2 by lia. change (2 ^ 8) with 256. f_equal. lia.
    + apply Zbits_cong. change (2 ^ Z.of_nat 8) with 256. lia.
  - rewrite Z.shiftl_mul_pow2 by lia. rewrite lor_add by lia. change (2 ^ 8) with 256.
    change 0x7FFF with (Z.ones 15). rewrite Z.land_ones by lia. change (2 ^ 15) with 32768. lia.
Qed.

Lemma reads_oid_length : forall c n, 0 <= n < 16384 ->
  reads (oid_decode_length c) (Some n) (if n <=? 127 then Zbits 8 n else [true] ++ Zbits 15 n).
Proof.
  intros c n Hn. unfold oid_decode_length. destruct (n <=? 127) eqn:E.
  - rewrite <- (app_nil_r (Zbits 8 n)). eapply reads_bindo; [apply reads_u8; lia|]. cbv beta.
    replace (127 <? n) with false by lia. apply reads_ret.
  - destruct (len15 n Hn) as (h & l2 & H1 & H2 & H3 & H4). rewrite H3.
    eapply reads_bindo; [apply reads_u8; lia|]. cbv beta. replace (127 <? h) with true by lia.
    rewrite <- (app_nil_r (Zbits 8 l2)). eapply reads_bindo; [apply reads_u8; lia|]. cbv beta. rewrite H4. apply reads_ret.
Qed.

Lemma frag_octets_small : forall l, Z.of_nat (length l) < 16384 ->
  frag (octets l) = (if Z.of_nat (length l) <=? 127 then Zbits 8 (Z.of_nat (length l)) else [true] ++ Zbits 15 (Z.of_nat (length l)))
    ++ bits_of_bytes l.
Proof.
  intros l HL. assert (LO : length (octets l) = length l) by (unfold octets; apply map_length).
  destruct (_ <=? 127) eqn:E.
  - rewrite frag_small by lia. rewrite LO, concat_octets. reflexivity.
  - rewrite frag_mid by lia. rewrite LO, concat_octets, app_assoc. reflexivity.
Qed.

Lemma reads_RelativeOID : forall c vs ls, Forall is_u64 vs -> Forall2 is_subid vs ls -> (length vs <= 20)%nat ->
  reads (RelativeOID_uper_decode c) (Some (Z.of_nat (length vs), vs ++ repeat 0 (20 - length vs)))
    (frag (octets (concat ls))).
Proof.
  intros c vs ls HU HF HL. pose proof (subids_len vs ls HU HF) as HS. unfold RelativeOID_uper_decode.
  rewrite frag_octets_small by lia. eapply reads_bindo; [apply reads_oid_length; lia|]. cbv beta.
  rewrite Nat2Z.id, <- (app_nil_r (bits_of_bytes _)). eapply reads_bindo.
  - apply (reads_dec_arcs vs ls 20 [] 20); auto.
  - cbv beta. cbn [app length oid_done Nat.eqb]. apply reads_ret.
Qed.

Lemma reads_ObjectIdentifier : forall c a b vs ls, 0 <= a -> 0 <= b < 40 -> is_u64 (40 * a + b) -> Forall is_u64 vs ->
  Forall2 is_subid (40 * a + b :: vs) ls -> (length vs <= 18)%nat ->
  reads (ObjectIdentifier_uper_decode c) (Some (Z.of_nat (2 + length vs), a :: b :: vs ++ repeat 0 (18 - length vs)))
    (frag (octets (concat ls))).
Proof.
  intros c a b vs ls Ha Hb Hab HU HF HL. inversion HF; subst.
  pose proof (subids_len vs l' HU H3) as HS. pose proof (subid_len _ _ Hab H1) as Hy.
  unfold ObjectIdentifier_uper_decode. cbn [concat].
  rewrite frag_octets_small by (rewrite app_length; lia). eapply reads_bindo; [apply reads_oid_length; rewrite app_length; lia|]. cbv beta.
  rewrite Nat2Z.id, bits_of_bytes_app, app_length. eapply reads_bindo; [apply reads_subid; eauto|]. cbv beta. cbn [fst snd].
  replace ((40 * a + b) / 40) with a by lia. replace ((40 * a + b) mod 40) with b by lia.
  eapply reads_pure_l; [intros s; reflexivity|]. cbv beta.
  eapply reads_pure_l; [intros s; reflexivity|]. cbv beta.
  rewrite <- (app_nil_r (bits_of_bytes _)). eapply reads_bindo.
  - apply (reads_dec_arcs vs l' 18 [a; b] 18); auto.
  - cbv beta. cbn [app length oid_done Nat.eqb]. apply reads_ret.
Qed.

(** ** Safety of the decoders on any input *)
Lemma safe_sub_decode : forall rem si, is_u64 si -> safe (sub_decode rem si) (fun p => is_u64 (snd p)).
Proof.
  induction rem; intros si Hs; cbn [sub_decode]; [apply safe_ret_some; auto|].
  eapply safe_bindo; [apply safe_ReadByte|]. intros b Hb. cbv beta in Hb |- *.
  assert (HU : is_u64 (Z.lor (u64 (Z.shiftl si 7)) (Z.land b 127))).
  { rewrite land_7F by auto. unfold u64, is_u64, two64. rewrite Z.shiftl_mul_pow2 by lia.
    assert (EM : (si * 2 ^ 7) mod 2 ^ 64 = (si mod 2 ^ 57) * 2 ^ 7).
    { change (2 ^ 64) with (2 ^ 57 * 2 ^ 7). now rewrite Z.mul_mod_distr_r by lia. }
    rewrite EM, lor_add by lia. unfold is_u64, two64 in Hs. lia. }
  destruct (_ =? 0); [apply safe_ret_some; auto|apply IHrem; auto].
Qed.

Lemma updZ_ok : forall l i v, 0 <= i < Z.of_nat (length l) -> updZ l i v = Ok (upd l (Z.to_nat i) v).
Proof. intros. unfold updZ. destruct (_ || _) eqn:E; [lia|reflexivity]. Qed.
Lemma Forall_upd : forall (P : Z -> Prop) l i v, Forall P l -> P v -> Forall P (upd l i v).
Proof. induction l; intros i v HF Hv; cbn; auto. inversion HF; subst. destruct i; constructor; auto. Qed.

Lemma safe_dec_arcs : forall f rem n vals, 0 <= n -> n + Z.of_nat f <= 20 -> length vals = 20%nat -> Forall is_u64 vals ->
  safe (dec_arcs f rem n vals) (fun r => n <= snd (fst r) <= n + Z.of_nat f /\ length (snd r) = 20%nat /\ Forall is_u64 (snd r)
    /\ (fst (fst r) = O -> 0 < Z.of_nat rem -> 0 < Z.of_nat f -> n < snd (fst r))).
Proof.
  induction f; intros rem n vals Hn Hf HL HU; cbn [dec_arcs].
  - apply safe_ret_some. cbn [fst snd]. splits; auto; lia.
  - destruct rem as [|r]; [apply safe_ret_some; cbn [fst snd]; splits; auto; lia|].
    eapply safe_bindo; [apply safe_sub_decode; unfold is_u64, two64; lia|]. intros [r' si] Hsi. cbn [fst snd] in Hsi |- *.
    eapply safe_pure_l; [intros s; unfold lift; rewrite updZ_ok by lia; reflexivity|]. cbv beta.
    eapply safe_weaken; [|apply IHf; try lia].
    + intros q (Q1 & Q2 & Q3 & Q4). splits; auto; try lia.
    + now rewrite upd_length.
    + apply Forall_upd; auto.
Qed.

Lemma land_nn_l : forall a b, 0 <= b -> 0 <= Z.land a b.
Proof. intros. apply Z.land_nonneg. auto. Qed.

Lemma safe_oid_length : forall c, safe (oid_decode_length c) (fun n => 0 <= n).
Proof.
  intros c. unfold oid_decode_length. eapply safe_bindo; [apply safe_len255|]. intros h Hh. cbv beta in Hh |- *.
  destruct (_ <? _); [|apply safe_ret_some; lia]. eapply safe_bindo; [apply safe_len255|]. intros l Hl. cbv beta.
  apply safe_ret_some. apply land_nn_l. lia.
Qed.

Lemma safe_ObjectIdentifier : forall c, safe (ObjectIdentifier_uper_decode c)
  (fun p => 2 <= fst p <= 20 /\ length (snd p) = 20%nat /\ Forall is_u64 (snd p)).
Proof.
  intros c. unfold ObjectIdentifier_uper_decode. eapply safe_bindo; [apply safe_oid_length|]. intros n Hn. cbv beta.
  eapply safe_bindo; [apply safe_sub_decode; unfold is_u64, two64; lia|]. intros [r si] Hs. cbn [fst snd] in Hs |- *.
  eapply safe_pure_l; [intros s; reflexivity|]. cbv beta. eapply safe_pure_l; [intros s; reflexivity|]. cbv beta.
  eapply safe_bindo; [apply safe_dec_arcs; try lia; [reflexivity|]|].
  - unfold oid_zero. cbn [upd repeat Z.to_nat]. change (Pos.to_nat 1) with 1%nat. cbn [upd].
    assert (U0 : is_u64 0) by (unfold is_u64, two64; lia).
    repeat apply Forall_cons; auto; unfold is_u64, two64 in *; lia.
  - intros [[r' m] vals] (Q1 & Q2 & Q3 & _). cbn [fst snd] in *. unfold oid_done.
    destruct (Nat.eqb r' 0); [apply safe_ret_some; cbn [fst snd]; splits; auto; lia|apply safe_ret_none].
Qed.
Lemma safe_RelativeOID : forall c, safe (RelativeOID_uper_decode c)
  (fun p => 0 <= fst p <= 20 /\ length (snd p) = 20%nat /\ Forall is_u64 (snd p)).
Proof.
  intros c. unfold RelativeOID_uper_decode. eapply safe_bindo; [apply safe_oid_length|]. intros n Hn. cbv beta.
  eapply safe_bindo; [apply safe_dec_arcs; try lia; [reflexivity|]|].
  - unfold oid_zero. apply Forall_forall. intros x Hx. apply repeat_spec in Hx. subst. unfold is_u64, two64. lia.
  - intros [[r' m] vals] (Q1 & Q2 & Q3 & _). cbn [fst snd] in *. unfold oid_done.
    destruct (Nat.eqb r' 0); [apply safe_ret_some; cbn [fst snd]; splits; auto; lia|apply safe_ret_none].
Qed.

(** C07 *)
Lemma tame_sub_decode : forall rem si, tame (sub_decode rem si).
Proof.
  induction rem; intros si; cbn [sub_decode]; [apply tame_ret|]. apply tame_bindo; [apply tame_ReadByte|].
  intros b. destruct (_ =? 0); [apply tame_ret|auto].
Qed.
Lemma tame_dec_arcs : forall f rem n vals, tame (dec_arcs f rem n vals).
Proof.
  induction f; intros rem n vals; cbn [dec_arcs]; [apply tame_ret|]. destruct rem; [apply tame_ret|].
  apply tame_bindo; [apply tame_sub_decode|]. intros p. apply tame_lift. intros v _. auto.
Qed.
Lemma tame_oid_length : forall c, tame (oid_decode_length c).
Proof.
  intros c. apply tame_bindo; [apply tame_DecodeConstraint|]. intros h. destruct (_ <? _); [|apply tame_ret].
  apply tame_bindo; [apply tame_DecodeConstraint|]. intros l. apply tame_ret.
Qed.
Lemma tame_ObjectIdentifier : forall c, tame (ObjectIdentifier_uper_decode c).
Proof.
  intros c. apply tame_bindo; [apply tame_oid_length|]. intros n. apply tame_bindo; [apply tame_sub_decode|]. intros p.
  apply tame_lift. intros v1 _. apply tame_lift. intros v2 _. apply tame_bindo; [apply tame_dec_arcs|].
  intros [[r m] vals]. apply tame_ret.
Qed.
Lemma tame_RelativeOID : forall c, tame (RelativeOID_uper_decode c).
Proof.
  intros c. apply tame_bindo; [apply tame_oid_length|]. intros n. apply tame_bindo; [apply tame_dec_arcs|].
  intros [[r m] vals]. apply tame_ret.
Qed.

(** C42 *)
Lemma parses_sub_decode : forall rem si, parses (sub_decode rem si)
  (fun p bs => (length bs + 8 * fst p = 8 * rem)%nat).
Proof.
  induction rem; intros si; cbn [sub_decode]; [apply parses_ret; cbn; lia|].
  eapply parses_bindo; [apply parses_ReadByte|]. intros b bs [Hb ->]. destruct (_ =? 0).
  - apply parses_ret. cbn [fst]. rewrite app_nil_r, len_Zbits. lia.
  - eapply parses_weaken; [|apply IHrem]. intros p bs H. cbv beta in *. rewrite app_length, len_Zbits. lia.
Qed.
Lemma parses_dec_arcs : forall f rem n vals, parses (dec_arcs f rem n vals)
  (fun r bs => (length bs + 8 * fst (fst r) = 8 * rem)%nat).
Proof.
  induction f; intros rem n vals; cbn [dec_arcs]; [apply parses_ret; cbn; lia|]. destruct rem; [apply parses_ret; cbn; lia|].
  eapply parses_bindo; [apply parses_sub_decode|]. intros [r' si] bs Hr. cbn [fst snd] in Hr |- *.
  apply parses_lift. intros vals' _. eapply parses_weaken; [|apply IHf]. intros q bs2 H2. cbv beta in *.
  rewrite app_length. lia.
Qed.
Lemma parses_oid_length : forall c, parses (oid_decode_length c)
  (fun n bs => 0 <= n /\ (length bs = 8%nat /\ n = bval bs /\ n <= 127 \/ length bs = 16%nat /\ 32768 + n = bval bs)).
Proof.
  intros c. unfold oid_decode_length. eapply parses_bindo; [apply parses_u8|]. intros h bs [Hh ->]. cbv beta.
  destruct (_ <? _) eqn:E.
  - eapply parses_bindo; [apply parses_u8|]. intros l bs [Hl ->]. apply parses_ret. split; [apply land_nn_l; lia|].
    right. rewrite app_nil_r. rewrite app_length, !len_Zbits. split; auto.
    rewrite bval_app, !bval_Zbits, len_Zbits. change (2 ^ Z.of_nat 8) with 256. rewrite Z.shiftl_mul_pow2 by lia.
    rewrite lor_add by lia. change 0x7FFF with (Z.ones 15). rewrite Z.land_ones by lia.
    change (2 ^ 15) with 32768. change (2 ^ 8) with 256. lia.
  - apply parses_ret. split; [lia|]. left. rewrite app_nil_r, len_Zbits, bval_Zbits. change (2 ^ Z.of_nat 8) with 256. lia.
Qed.
(** The octets announced are exactly the octets consumed. *)
Definition oid_form (bs : list bool) : Prop :=
  exists h t, bs = h ++ t /\ (length h = 8%nat /\ Z.of_nat (length t) = 8 * bval h /\ bval h <= 127 \/
    length h = 16%nat /\ Z.of_nat (length t) = 8 * (bval h - 32768)).
Lemma parses_ObjectIdentifier : forall c, parses (ObjectIdentifier_uper_decode c) (fun _ bs => oid_form bs).
Proof.
  intros c. eapply parses_bindo; [apply parses_oid_length|]. intros n h [Hn Hh]. cbv beta.
  eapply parses_bindo; [apply parses_sub_decode|]. intros [r si] b1 H1. cbn [fst snd] in H1 |- *.
  apply parses_lift. intros v1 _. apply parses_lift. intros v2 _.
  eapply parses_bindo; [apply parses_dec_arcs|]. intros [[r' m] vals] b2 H2. cbn [fst snd] in H2. unfold oid_done.
  destruct (Nat.eqb r' 0) eqn:E; [|apply parses_none]. apply Nat.eqb_eq in E. subst r'.
  apply parses_ret. rewrite app_nil_r. exists h, (b1 ++ b2). split; auto. rewrite app_length. lia.
Qed.
Lemma parses_RelativeOID : forall c, parses (RelativeOID_uper_decode c) (fun _ bs => oid_form bs).
Proof.
  intros c. eapply parses_bindo; [apply parses_oid_length|]. intros n h [Hn Hh]. cbv beta.
  eapply parses_bindo; [apply parses_dec_arcs|]. intros [[r' m] vals] b2 H2. cbn [fst snd] in H2. unfold oid_done.
  destruct (Nat.eqb r' 0) eqn:E; [|apply parses_none]. apply Nat.eqb_eq in E. subst r'.
  apply parses_ret. rewrite app_nil_r. exists h, b2. split; auto. lia.
Qed.
