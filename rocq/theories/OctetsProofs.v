(** Proofs about Octets.v: fragmentation, octet strings, bit strings. *)
From Verif Require Import Base Bits StrSpec BitStream Ints Contracts Octets.
From Verif Require Import BitsProofs BitStreamProofs BitStreamProofs2 BitStreamProofs3 IntsProofs SafeProofs HistoryProofs TameProofs Parse ParseProofs.
From Coq Require Import ZifyBool ZifyNat.
Ltac Zify.zify_post_hook ::= Z.div_mod_to_equations.

Lemma Zbits_cong : forall n a b, a mod 2 ^ Z.of_nat n = b mod 2 ^ Z.of_nat n -> Zbits n a = Zbits n b.
Proof. intros. rewrite <- (Zbits_mod n a), <- (Zbits_mod n b). now f_equal. Qed.

Lemma concat_octets : forall l, concat (octets l) = bits_of_bytes l.
Proof. induction l; cbn [octets map concat bits_of_bytes]; [reflexivity|]. now rewrite <- IHl. Qed.
Lemma concat_single : forall l, concat (single_bits l) = l.
Proof. induction l; [reflexivity|]. cbn. now f_equal. Qed.

(** Unfolding of the specification. *)
Lemma frag_fuel_enough : forall f g items, (length items < f)%nat -> (length items < g)%nat ->
  frag_bits f items = frag_bits g items.
Proof.
  induction f; intros g items Hf Hg; [lia|]. destruct g; [lia|].
  cbn [frag_bits]. destruct (Z.of_nat (length items) <=? 127) eqn:E1; [reflexivity|].
  destruct (Z.of_nat (length items) <? 16384) eqn:E2; [reflexivity|].
  cbn zeta. rewrite (IHf g); [reflexivity| |]; rewrite skipn_length; lia.
Qed.

Lemma frag_small : forall items, Z.of_nat (length items) <= 127 ->
  frag items = Zbits 8 (Z.of_nat (length items)) ++ concat items.
Proof. intros. unfold frag. cbn [frag_bits]. destruct (_ <=? 127) eqn:E; [reflexivity|lia]. Qed.

Lemma frag_mid : forall items, 127 < Z.of_nat (length items) < 16384 ->
  frag items = [true] ++ Zbits 15 (Z.of_nat (length items)) ++ concat items.
Proof.
  intros. unfold frag. cbn [frag_bits]. destruct (_ <=? 127) eqn:E; [lia|].
  destruct (_ <? 16384) eqn:E2; [|lia].
  change (Zbits 15 (Z.of_nat (length items))) with
    (Z.testbit (Z.of_nat (length items)) (Z.of_nat 14) :: Zbits 14 (Z.of_nat (length items))).
  rewrite (testbit_high0 _ 14); [reflexivity|lia|lia|lia].
Qed.

Lemma frag_big : forall items k, 16384 <= Z.of_nat (length items) ->
  k = Z.min 4 (Z.of_nat (length items) / 16384) ->
  frag items = Zbits 8 (192 + k) ++ concat (firstn (Z.to_nat (k * 16384)) items) ++
    frag (skipn (Z.to_nat (k * 16384)) items).
Proof.
  intros items k Hn Hk. unfold frag at 1. cbn [frag_bits].
  destruct (_ <=? 127) eqn:E; [lia|]. destruct (_ <? 16384) eqn:E2; [lia|].
  rewrite <- Hk.
  assert (1 <= k <= 4) by lia.
  replace ([true; true] ++ Zbits 6 k ++ _) with (([true; true] ++ Zbits 6 k) ++
     concat (firstn (Z.to_nat (k * 16384)) items) ++
        frag_bits (length items) (skipn (Z.to_nat (k * 16384)) items)) by (now rewrite <- app_assoc).
  f_equal.
  - assert (k = 1 \/ k = 2 \/ k = 3 \/ k = 4) as [->|[->|[->| ->]]] by lia; reflexivity.
  - f_equal. apply frag_fuel_enough; rewrite ?skipn_length; lia.
Qed.

(** ** Generic encoder *)
Lemma frag_block_ok : forall rem, 16384 <= rem ->
  frag_block rem = (Z.min 4 (rem / 16384) * 16384, 192 + Z.min 4 (rem / 16384)).
Proof.
  intros. unfold frag_block.
  destruct (0x10000 <=? rem) eqn:E1; [replace (Z.min 4 (rem / 16384)) with 4 by lia; reflexivity|].
  destruct (0xC000 <=? rem) eqn:E2; [replace (Z.min 4 (rem / 16384)) with 3 by lia; reflexivity|].
  destruct (0x8000 <=? rem) eqn:E3; [replace (Z.min 4 (rem / 16384)) with 2 by lia; reflexivity|].
  replace (Z.min 4 (rem / 16384)) with 1 by lia; reflexivity.
Qed.

Lemma writes_u8 : forall c v, 0 <= v <= 255 ->
  writes (BitStream_EncodeConstraintWholeNumber c v 0 0xFF) tt (Zbits 8 v).
Proof.
  intros. eapply writes_eq; [apply writes_EncodeConstraint; unfold is_s64, two63; try lia; left; unfold is_s64, two63; lia|].
  rewrite Z.sub_0_r. reflexivity.
Qed.
Lemma writes_u15 : forall c v, 0 <= v <= 32767 ->
  writes (BitStream_EncodeConstraintWholeNumber c v 0 0x7FFF) tt (Zbits 15 v).
Proof.
  intros. eapply writes_eq; [apply writes_EncodeConstraint; unfold is_s64, two63; try lia; left; unfold is_s64, two63; lia|].
  rewrite Z.sub_0_r. reflexivity.
Qed.
Lemma reads_u8 : forall c v, 0 <= v <= 255 ->
  reads (BitStream_DecodeConstraintWholeNumber c 0 0xFF) (Some v) (Zbits 8 v).
Proof.
  intros. eapply reads_eq; [apply reads_DecodeConstraint; unfold is_s64, two63; try lia; left; unfold is_s64, two63; lia|].
  rewrite Z.sub_0_r. reflexivity.
Qed.

Definition slice {A} (off len : Z) (l : list A) : list A := firstn (Z.to_nat len) (skipn (Z.to_nat off) l).

Lemma slice_all : forall {A} (l : list A) off len, 0 <= off -> off + len = Z.of_nat (length l) -> slice off len l = skipn (Z.to_nat off) l.
Proof. intros. unfold slice. apply firstn_all2. rewrite skipn_length. lia. Qed.

Lemma writes_enc_frag : forall c chk blk items fuel off,
  (forall o len, 0 <= o -> 0 <= len -> o + len <= Z.of_nat (length items) -> o mod 16384 = 0 ->
     writes (blk o len) true (concat (slice o len items))) ->
  0 <= off <= Z.of_nat (length items) -> off mod 16384 = 0 ->
  (Z.of_nat (length items) - off) / 16384 < Z.of_nat fuel ->
  writes (enc_frag c chk blk fuel off (Z.of_nat (length items) - off)) true (frag (skipn (Z.to_nat off) items)).
Proof.
  intros c chk blk items fuel off Hblk. revert off.
  induction fuel; intros off Hoff Hmod Hfuel; [lia|].
  cbn [enc_frag].
  destruct (0x4000 <=? Z.of_nat (length items) - off) eqn:E.
  - rewrite frag_block_ok by lia.
    set (k := Z.min 4 ((Z.of_nat (length items) - off) / 16384)).
    assert (Hk : 1 <= k <= 4) by lia.
    assert (Hk2 : k * 16384 <= Z.of_nat (length items) - off) by lia.
    assert (Hkdef : k = Z.min 4 (Z.of_nat (length (skipn (Z.to_nat off) items)) / 16384)).
    { unfold k. rewrite skipn_length. f_equal. f_equal. lia. }
    rewrite (frag_big _ k) by (auto; rewrite skipn_length; lia).
    clearbody k.
    apply writes_bind with (a := tt); [apply writes_u8; lia|].
    apply writes_bind with (a := true).
    + apply (Hblk off (k * 16384)); lia.
    + rewrite andb_false_r. rewrite skipn_skipn'.
      replace (Z.of_nat (length items) - off - k * 16384) with (Z.of_nat (length items) - (off + k * 16384)) by lia.
      replace (Z.to_nat off + Z.to_nat (k * 16384))%nat with (Z.to_nat (off + k * 16384)) by lia.
      apply IHfuel; lia.
  - assert (Hl : Z.of_nat (length (skipn (Z.to_nat off) items)) = Z.of_nat (length items) - off)
      by (rewrite skipn_length; lia).
    pose proof (Hblk off (Z.of_nat (length items) - off) ltac:(lia) ltac:(lia) ltac:(lia) ltac:(lia)) as HB.
    rewrite slice_all in HB by lia.
    destruct (_ <=? 0x7F) eqn:E2.
    + rewrite frag_small, Hl by lia. eapply writes_bind; [|exact HB].
      apply writes_u8. lia.
    + rewrite frag_mid, Hl by lia. rewrite app_assoc. eapply writes_bind; [|exact HB].
      eapply writes_bind; [apply overwrites_writes, overwrites_AppendBit|].
      apply writes_u15. lia.
Qed.

(** ** Generic decoder *)
Lemma frag_size_ok : forall k, 1 <= k <= 4 -> frag_size (192 + k) = Some (k * 16384) /\ Z.land (192 + k) 0xC0 = 0xC0.
Proof. intros. assert (k = 1 \/ k = 2 \/ k = 3 \/ k = 4) as [->|[->|[->| ->]]] by lia; split; reflexivity. Qed.

Lemma land_C0_small : forall h, 0 <= h < 192 -> Z.land h 0xC0 <> 0xC0.
Proof.
  intros h H E.
  assert (T7 : Z.testbit h 7 = true) by (rewrite <- (andb_true_r (Z.testbit h 7)); change true with (Z.testbit 0xC0 7); rewrite <- Z.land_spec, E; reflexivity).
  assert (T6 : Z.testbit h 6 = true) by (rewrite <- (andb_true_r (Z.testbit h 6)); change true with (Z.testbit 0xC0 6); rewrite <- Z.land_spec, E; reflexivity).
  rewrite Z.testbit_true in T7, T6 by lia. change (2 ^ 7) with 128 in *. change (2 ^ 6) with 64 in *. lia.
Qed.
Lemma land_80 : forall h, 0 <= h < 256 -> (0 <? Z.land h 0x80) = (128 <=? h).
Proof.
  intros h H. change 0x80 with (2 ^ 7).
  pose proof (land_pow2_testbit h 7 ltac:(lia)) as E.
  assert (0 <= Z.land h (2 ^ 7)) by (apply Z.land_nonneg; left; lia).
  rewrite Z.testbit_eqb in E by lia. change (2 ^ 7) with 128 in *. lia.
Qed.

Lemma reads_dec_frag : forall {A} c (blk : A -> Z -> Z -> M (option A)) (Inv : A -> Z -> Prop) items szmin szmax fuel,
  (forall a o len, Inv a o -> 0 <= o -> 0 <= len -> o + len <= Z.of_nat (length items) -> o mod 16384 = 0 ->
     exists a', reads (blk a o len) (Some a') (concat (slice o len items)) /\ Inv a' (o + len)) ->
  szmin <= Z.of_nat (length items) <= szmax ->
  forall a off, Inv a off ->
  0 <= off <= Z.of_nat (length items) -> off mod 16384 = 0 ->
  (Z.of_nat (length items) - off) / 16384 < Z.of_nat fuel ->
  exists a', reads (let? h := BitStream_DecodeConstraintWholeNumber c 0 0xFF in
                    dec_frag c blk szmin szmax fuel a off h)
     (Some (Z.of_nat (length items), a')) (frag (skipn (Z.to_nat off) items)) /\ Inv a' (Z.of_nat (length items)).
Proof.
  intros A c blk Inv items szmin szmax fuel Hblk Hsz. 
  induction fuel; intros a off HI Hoff Hmod Hfuel; [lia|].
  destruct (Z_le_gt_dec 16384 (Z.of_nat (length items) - off)) as [E|E].
  - set (k := Z.min 4 ((Z.of_nat (length items) - off) / 16384)).
    assert (Hk : 1 <= k <= 4) by lia.
    assert (Hk2 : k * 16384 <= Z.of_nat (length items) - off) by lia.
    assert (Hkdef : k = Z.min 4 (Z.of_nat (length (skipn (Z.to_nat off) items)) / 16384)).
    { unfold k. rewrite skipn_length. f_equal. f_equal. lia. }
    rewrite (frag_big _ k) by (auto; rewrite skipn_length; lia).
    clearbody k.
    destruct (Hblk a off (k * 16384) HI) as [a1 [HR1 HI1]]; try lia.
    destruct (IHfuel a1 (off + k * 16384) HI1) as [a2 [HR2 HI2]]; try lia.
    exists a2. split; [|exact HI2].
    eapply reads_bindo; [apply reads_u8; lia|].
    cbn [dec_frag]. destruct (frag_size_ok k Hk) as [Hs Hm]. rewrite Hs, Hm. cbn match.
    change (0xC0 =? 0xC0) with true. cbn match.
    destruct (off + k * 16384 <=? szmax) eqn:E2; [|lia].
    eapply reads_bindo; [exact HR1|].
    rewrite skipn_skipn'. replace (Z.to_nat off + Z.to_nat (k * 16384))%nat with (Z.to_nat (off + k * 16384)) by lia.
    exact HR2.
  - assert (Hl : Z.of_nat (length (skipn (Z.to_nat off) items)) = Z.of_nat (length items) - off)
      by (rewrite skipn_length; lia).
    destruct (Hblk a off (Z.of_nat (length items) - off) HI) as [a1 [HR1 HI1]]; try lia.
    rewrite slice_all in HR1 by lia.
    replace (off + (Z.of_nat (length items) - off)) with (Z.of_nat (length items)) in HI1 by lia.
    exists a1. split; [|exact HI1].
    set (rem := Z.of_nat (length items) - off) in *.
    assert (HT : reads (if off + rem <=? szmax then
          let? a' := blk a off rem in
          if (szmin <=? off + rem) && (off + rem <=? szmax) then ret (Some (off + rem, a'))
          else ret None
        else ret None) (Some (Z.of_nat (length items), a1)) (concat (skipn (Z.to_nat off) items))).
    { destruct (off + rem <=? szmax) eqn:E1; [|lia].
      replace (concat _) with (concat (skipn (Z.to_nat off) items) ++ []) by apply app_nil_r.
      eapply reads_bindo; [exact HR1|].
      destruct (szmin <=? off + rem) eqn:E3; [|lia]. cbn [andb].
      replace (off + rem) with (Z.of_nat (length items)) by lia. apply reads_ret. }
    destruct (Z_le_gt_dec rem 127) as [E2|E2].
    + rewrite frag_small, Hl by lia. eapply reads_bindo; [apply reads_u8; lia|].
      cbn [dec_frag].
      destruct (Z.land rem 0xC0 =? 0xC0) eqn:E3; [exfalso; apply (land_C0_small rem); lia|].
      rewrite land_80 by lia. destruct (128 <=? rem) eqn:E4; [lia|].
      apply (reads_bindo _ _ _ _ rem _ [] _ (reads_ret _ _)). exact HT.
    + rewrite frag_mid, Hl by lia. rewrite app_assoc.
      replace ([true] ++ Zbits 15 rem) with (Zbits 8 (128 + rem / 256) ++ Zbits 8 (rem mod 256)).
      2:{ change ([true] ++ Zbits 15 rem) with (true :: Zbits 15 rem).
          change (Zbits 8 (128 + rem / 256)) with (Z.testbit (128 + rem / 256) 7 :: Zbits 7 (128 + rem / 256)).
          cbn [app]. f_equal.
          - rewrite Z.testbit_true by lia. change (2 ^ 7) with 128. lia.
          - change 15%nat with (7 + 8)%nat. rewrite Zbits_app. f_equal.
            + apply Zbits_cong. change (2 ^ Z.of_nat 7) with 128.
              rewrite Z.shiftr_div_pow2 by lia. change (2 ^ Z.of_nat 8) with 256. lia.
            + apply Zbits_cong. change (2 ^ Z.of_nat 8) with 256. lia. }
      rewrite <- app_assoc. eapply reads_bindo; [apply reads_u8; lia|].
      cbn [dec_frag].
      destruct (Z.land (128 + rem / 256) 0xC0 =? 0xC0) eqn:E3; [exfalso; apply (land_C0_small (128 + rem / 256)); lia|].
      rewrite land_80 by lia. destruct (128 <=? 128 + rem / 256) eqn:E4; [|lia].
      eapply reads_bindo; [|exact HT].
      replace (Zbits 8 (rem mod 256)) with (Zbits 8 (rem mod 256) ++ []) by apply app_nil_r.
      eapply reads_bindo; [apply reads_u8; lia|].
      replace (Z.land _ 0x7FFF) with rem; [apply reads_ret|].
      rewrite Z.shiftl_mul_pow2 by lia. rewrite lor_add by (change (2 ^ 8) with 256; lia).
      change 0x7FFF with (Z.ones 15). rewrite Z.land_ones by lia.
      change (2 ^ 8) with 256. change (2 ^ 15) with 32768. lia.
Qed.

Lemma safe_dec_frag : forall {A} c (blk : A -> Z -> Z -> M (option A)) (Inv : A -> Prop) szmin szmax fuel,
  (forall a o len, Inv a -> 0 <= o -> 0 <= len -> o + len <= szmax -> o mod 16384 = 0 ->
     safe (blk a o len) Inv) ->
  forall a off h, Inv a -> 0 <= off <= szmax -> off mod 16384 = 0 ->
  (szmax - off) / 16384 < Z.of_nat fuel -> 0 <= h <= 255 ->
  safe (dec_frag c blk szmin szmax fuel a off h) (fun p => szmin <= fst p <= szmax /\ Inv (snd p)).
Proof.
  intros A c blk Inv szmin szmax fuel Hblk.
  induction fuel; intros a off h HI Hoff Hmod Hfuel Hh; [lia|].
  cbn [dec_frag]. destruct (Z.land h 0xC0 =? 0xC0) eqn:E.
  - destruct (frag_size h) as [bs|] eqn:Eb; [|apply safe_ret_none].
    assert (Hb : bs mod 16384 = 0 /\ 16384 <= bs).
    { unfold frag_size in Eb.
      repeat match type of Eb with (if ?b then _ else _) = _ => destruct b end; inversion Eb; split; (reflexivity || lia). }
    destruct (off + bs <=? szmax) eqn:E2; [|apply safe_ret_none].
    eapply safe_bindo; [apply Hblk; auto; lia|]. intros a' Ha'.
    eapply safe_bindo; [apply safe_len255|]. intros h' Hh'.
    apply IHfuel; auto; lia.
  - eapply safe_bindo with (P := fun rem => 0 <= rem).
    + destruct (0 <? Z.land h 0x80).
      * eapply safe_bindo; [apply safe_len255|]. intros l2 Hl2. apply safe_ret_some.
        apply Z.land_nonneg. right. lia.
      * apply safe_ret_some. lia.
    + intros rem Hrem. destruct (off + rem <=? szmax) eqn:E2; [|apply safe_ret_none].
      eapply safe_bindo; [apply Hblk; auto; lia|]. intros a' Ha'.
      destruct ((szmin <=? off + rem) && _) eqn:E3; [|apply safe_ret_none].
      apply safe_ret_some. cbn. split; [lia|exact Ha'].
Qed.

Lemma frag_size_pos : forall h bs, frag_size h = Some bs -> bs mod 16384 = 0 /\ 16384 <= bs.
Proof.
  intros h bs E. unfold frag_size in E.
  repeat match type of E with (if ?b then _ else _) = _ => destruct b end; inversion E; split; (reflexivity || lia).
Qed.

Lemma tamed_dec_frag : forall {A} c (blk : A -> Z -> Z -> M (option A)) szmin szmax fuel,
  (forall a o len, 0 <= len -> tamed (blk a o len) (fun _ => True)) ->
  forall a off h, 0 <= h -> tamed (dec_frag c blk szmin szmax fuel a off h) (fun _ => True).
Proof.
  intros A c blk szmin szmax fuel Hblk.
  induction fuel; intros a off h Hh; [apply tamed_diverge|].
  cbn [dec_frag]. destruct (Z.land h 0xC0 =? 0xC0).
  - destruct (frag_size h) as [bs|] eqn:Eb; [|apply tamed_none].
    apply frag_size_pos in Eb. destruct (off + bs <=? szmax); [|apply tamed_none].
    eapply tamed_bindo; [apply Hblk; lia|]. intros a' _.
    eapply tamed_bindo; [apply tamed_u8|]. intros h' Hh'. cbv beta in Hh'. apply IHfuel. lia.
  - eapply tamed_bindo with (P := fun rem => 0 <= rem).
    + destruct (0 <? Z.land h 0x80).
      * eapply tamed_bindo; [apply tamed_u8|]. intros l2 _. apply tamed_some. apply Z.land_nonneg. right. lia.
      * apply tamed_some. lia.
    + intros rem Hr. cbv beta in Hr. destruct (off + rem <=? szmax); [|apply tamed_none].
      eapply tamed_bindo; [apply Hblk; lia|]. intros a' _.
      destruct ((szmin <=? off + rem) && _); [apply tamed_some; auto|apply tamed_none].
Qed.

(** Prefix parsing; the bits consumed are at least [m] per item. *)
Lemma parses_dec_frag : forall {A} c (blk : A -> Z -> Z -> M (option A)) szmin szmax fuel m,
  (forall a o len, 0 <= len -> parses (blk a o len) (fun _ bs => m * len <= Z.of_nat (length bs))) ->
  forall a off h, 0 <= h ->
  parses (dec_frag c blk szmin szmax fuel a off h)
    (fun p bs => szmin <= fst p <= szmax /\ m * (fst p - off) <= Z.of_nat (length bs)).
Proof.
  intros A c blk szmin szmax fuel m Hblk.
  induction fuel; intros a off h Hh; [apply parses_diverge|].
  cbn [dec_frag]. destruct (Z.land h 0xC0 =? 0xC0).
  - destruct (frag_size h) as [bs|] eqn:Eb; [|apply parses_none].
    apply frag_size_pos in Eb. destruct (off + bs <=? szmax); [|apply parses_none].
    eapply parses_bindo; [apply Hblk; lia|]. intros a' b1 H1. cbv beta in H1.
    eapply parses_bindo; [apply parses_u8|]. intros h' b2 [H2 _].
    eapply parses_weaken; [|apply IHfuel; lia]. cbv beta. intros p b3 [P1 P2]. rewrite !app_length. split; [lia|].
    replace (fst p - off) with (bs + (fst p - (off + bs))) by lia. rewrite Z.mul_add_distr_l. lia.
  - eapply parses_bindo with (P := fun rem _ => 0 <= rem).
    + destruct (0 <? Z.land h 0x80).
      * eapply parses_bindo; [apply parses_u8|]. intros l2 b1 _. apply parses_ret. apply Z.land_nonneg. right. lia.
      * apply parses_ret. lia.
    + intros rem b1 Hr. cbv beta in Hr. destruct (off + rem <=? szmax) eqn:EM; [|apply parses_none].
      eapply parses_bindo; [apply Hblk; lia|]. intros a' b2 H2. cbv beta in H2.
      destruct ((szmin <=? off + rem) && _) eqn:E; [|apply parses_none]. apply parses_ret. cbn [fst].
      rewrite !app_length. cbn [length]. split; [lia|]. replace (off + rem - off) with rem by lia. lia.
Qed.

(** ** Octet strings *)
Lemma skipn_nth_cons : forall {A} (l : list A) i x d, (i < length l)%nat -> nth i l d = x -> skipn i l = x :: skipn (S i) l.
Proof.
  induction l; intros i x d Hi Hx; cbn in Hi; [lia|].
  destruct i; cbn in Hx |- *; [now subst|]. apply IHl with (d := d); [lia|auto].
Qed.

Lemma writes_append_bytes0 : forall arr k i, Forall is_byte arr -> 0 <= i -> i + Z.of_nat k <= Z.of_nat (length arr) ->
  writes (append_bytes0 arr k i) true (bits_of_bytes (firstn k (skipn (Z.to_nat i) arr))).
Proof.
  induction k; intros i HB Hi HL; cbn [append_bytes0 firstn].
  - destruct (skipn (Z.to_nat i) arr); apply writes_ret.
  - set (b := nth (Z.to_nat i) arr 0).
    assert (Hb : is_byte b) by (apply Forall_nth; auto; lia).
    rewrite (skipn_nth_cons arr (Z.to_nat i) b 0) by (auto; lia). cbn [bits_of_bytes].
    apply writes_pure_l with (a := b). { intros s. unfold lift. rewrite nthZ_nth by lia. reflexivity. }
    apply writes_bind with (a := true).
    + rewrite Zbits8. apply overwrites_writes, overwrites_AppendByte0. auto.
    + replace (S (Z.to_nat i)) with (Z.to_nat (i + 1)) by lia. apply IHk; auto; lia.
Qed.

Lemma octets_slice : forall l off len, concat (slice off len (octets l)) = bits_of_bytes (firstn (Z.to_nat len) (skipn (Z.to_nat off) l)).
Proof. intros. unfold slice, octets. rewrite <- concat_octets. unfold octets. now rewrite skipn_map, firstn_map. Qed.

Lemma writes_EncodeOctetString_fragmentation : forall c arr n, Forall is_byte arr -> 0 <= n <= Z.of_nat (length arr) ->
  writes (BitStream_EncodeOctetString_fragmentation c arr n) true (frag (octets (firstn (Z.to_nat n) arr))).
Proof.
  intros c arr n HB Hn. unfold BitStream_EncodeOctetString_fragmentation.
  destruct (n <? 0) eqn:E; [lia|].
  set (items := octets (firstn (Z.to_nat n) arr)).
  assert (HL : Z.of_nat (length items) = n) by (unfold items, octets; rewrite map_length, firstn_length; lia).
  replace (enc_frag _ _ _ _ 0 n) with
    (enc_frag c true (fun off len => append_bytes0 arr (Z.to_nat len) off) (frag_fuel n) 0 (Z.of_nat (length items) - 0))
    by (f_equal; lia).
  apply writes_enc_frag; try (unfold frag_fuel; lia).
  intros o len Ho Hlen Hol _. unfold items. rewrite octets_slice.
  replace (firstn (Z.to_nat len) (skipn (Z.to_nat o) (firstn (Z.to_nat n) arr)))
    with (firstn (Z.to_nat len) (skipn (Z.to_nat o) arr)).
  - apply writes_append_bytes0; auto; lia.
  - rewrite skipn_firstn_comm, firstn_firstn. f_equal. lia.
Qed.

Lemma upd_split : forall {A} (l : list A) i v, (i < length l)%nat -> upd l i v = firstn i l ++ v :: skipn (S i) l.
Proof. induction l; intros [|i] v Hi; cbn in *; try lia; auto. rewrite IHl by lia. reflexivity. Qed.

(** Contents of the destination after [off] bytes of [l] were stored. *)
Definition filled (l arr0 : list Z) (off : Z) : list Z := firstn (Z.to_nat off) l ++ skipn (Z.to_nat off) arr0.

Lemma filled_length : forall l arr0 off, 0 <= off <= Z.of_nat (length l) -> (length l <= length arr0)%nat ->
  length (filled l arr0 off) = length arr0.
Proof. intros. unfold filled. rewrite app_length, firstn_length, skipn_length. lia. Qed.

Lemma filled_step : forall l arr0 off, 0 <= off < Z.of_nat (length l) -> (length l <= length arr0)%nat ->
  upd (filled l arr0 off) (Z.to_nat off) (nth (Z.to_nat off) l 0) = filled l arr0 (off + 1).
Proof.
  intros l arr0 off Ho Hl. rewrite upd_split by (rewrite filled_length by lia; lia).
  unfold filled at 1 2.
  set (k := Z.to_nat off).
  assert (LF : length (firstn k l) = k) by (rewrite firstn_length; lia).
  rewrite firstn_app, LF, firstn_all2, Nat.sub_diag, firstn_O, app_nil_r by lia.
  rewrite skipn_app, LF. rewrite (skipn_all2 (n := S k)) by lia. replace (S k - k)%nat with 1%nat by lia. rewrite skipn_skipn'.
  cbn [app]. unfold filled. replace (Z.to_nat (off + 1)) with (k + 1)%nat by lia.
  rewrite <- (firstn_skipn k (firstn (k + 1) l)). rewrite firstn_firstn.
  replace (Nat.min k (k + 1)) with k by lia. rewrite skipn_firstn_comm. replace (k + 1 - k)%nat with 1%nat by lia.
  rewrite (skipn_nth_cons l k (nth k l 0) 0) by (auto; lia). cbn [firstn]. now rewrite <- app_assoc.
Qed.

Lemma reads_read_bytes : forall k l arr0 i, Forall is_byte l -> (length l <= length arr0)%nat ->
  0 <= i -> i + Z.of_nat k <= Z.of_nat (length l) ->
  reads (read_bytes k (filled l arr0 i) i) (Some (filled l arr0 (i + Z.of_nat k)))
    (bits_of_bytes (firstn k (skipn (Z.to_nat i) l))).
Proof.
  induction k; intros l arr0 i HB HL Hi Hk; cbn [read_bytes firstn].
  - replace (i + Z.of_nat 0) with i by lia. destruct (skipn (Z.to_nat i) l); apply reads_ret.
  - set (b := nth (Z.to_nat i) l 0).
    assert (Hb : is_byte b) by (apply Forall_nth; auto; lia).
    rewrite (skipn_nth_cons l (Z.to_nat i) b 0) by (auto; lia). cbn [bits_of_bytes].
    rewrite Zbits8. eapply reads_bindo; [apply reads_ReadByte; auto|].
    apply reads_pure_l with (a := filled l arr0 (i + 1)).
    { intros s. unfold lift, updZ. rewrite filled_length by lia.
      destruct ((i <? 0) || (Z.of_nat (length arr0) <=? i)) eqn:E; [lia|]. unfold b. rewrite filled_step by lia. reflexivity. }
    replace (S (Z.to_nat i)) with (Z.to_nat (i + 1)) by lia.
    replace (i + Z.of_nat (S k)) with (i + 1 + Z.of_nat k) by lia. apply IHk; auto; lia.
Qed.

Lemma filled_0 : forall l arr0, filled l arr0 0 = arr0.
Proof. reflexivity. Qed.

Lemma reads_DecodeOctetString_fragmentation : forall c l arr0 max, Forall is_byte l ->
  (length l <= length arr0)%nat -> 1 <= Z.of_nat (length l) <= max ->
  reads (BitStream_DecodeOctetString_fragmentation c arr0 max)
    (Some (Z.of_nat (length l), l ++ skipn (length l) arr0)) (frag (octets l)).
Proof.
  intros c l arr0 max HB HL Hm. unfold BitStream_DecodeOctetString_fragmentation.
  assert (EL : length (octets l) = length l) by apply map_length.
  assert (HF : Z.of_nat (length l) / 16384 <= max / 16384) by (apply Z.div_le_mono; lia).
  assert (HBL : forall a o len, a = filled l arr0 o -> 0 <= o -> 0 <= len -> o + len <= Z.of_nat (length (octets l)) ->
    o mod 16384 = 0 ->
    exists a', reads (read_bytes (Z.to_nat len) a o) (Some a') (concat (slice o len (octets l))) /\ a' = filled l arr0 (o + len)).
  { intros a o len -> Ho Hlen Hol _. exists (filled l arr0 (o + len)). split; auto.
    rewrite octets_slice. replace len with (Z.of_nat (Z.to_nat len)) at 2 by lia. apply reads_read_bytes; auto; lia. }
  destruct (reads_dec_frag c (fun a off len => read_bytes (Z.to_nat len) a off)
    (fun a off => a = filled l arr0 off) (octets l) 1 max (frag_fuel max) HBL ltac:(lia) arr0 0 eq_refl
    ltac:(lia) ltac:(reflexivity) ltac:(unfold frag_fuel; rewrite Z.sub_0_r; lia)) as (a' & HR & HI).
  rewrite EL in *. change (Z.to_nat 0) with 0%nat in HR. rewrite skipn_O in HR.
  subst a'. unfold filled in HR. rewrite Nat2Z.id, firstn_all in HR. exact HR.
Qed.

Lemma writes_EncodeOctetString : forall c arr n min max, Forall is_byte arr -> 0 <= n <= Z.of_nat (length arr) ->
  0 <= min <= n -> n <= max ->
  writes (BitStream_EncodeOctetString c arr n min max) true (sized min max (octets (firstn (Z.to_nat n) arr))).
Proof.
  intros c arr n min max HB Hn Hmin Hmax. unfold BitStream_EncodeOctetString.
  replace ((min <=? n) && (n <=? max)) with true by lia. unfold sized.
  destruct (max <? 65536) eqn:E; [|apply writes_EncodeOctetString_fragmentation; auto].
  rewrite concat_octets. unfold octets. rewrite map_length, firstn_length. replace (Z.of_nat (Nat.min _ _)) with n by lia.
  eapply writes_bind with (a := tt); [|apply writes_EncodeOctets; auto].
  destruct (negb (min =? max)) eqn:E2.
  - apply writes_EncodeConstraint; unfold is_s64, two63; try lia. left. unfold is_s64, two63. lia.
  - unfold crange. replace (max - min) with 0 by lia. apply writes_ret.
Qed.

Lemma store0_ok : forall arr d, (length d <= length arr)%nat -> store arr 0 d = Ok (d ++ skipn (length d) arr).
Proof. intros. unfold store. destruct ((0 <? 0) || _) eqn:E; [lia|]. reflexivity. Qed.

Lemma reads_DecodeOctetString : forall c l arr0 min max, Forall is_byte l -> (length l <= length arr0)%nat ->
  0 <= min <= Z.of_nat (length l) -> Z.of_nat (length l) <= max -> max < 65536 \/ l <> [] ->
  reads (BitStream_DecodeOctetString c arr0 min max)
    (Some (Z.of_nat (length l), l ++ skipn (length l) arr0)) (sized min max (octets l)).
Proof.
  intros c l arr0 min max HB HL Hmin Hmax HE. unfold BitStream_DecodeOctetString, sized.
  destruct (max <? 65536) eqn:E.
  - rewrite concat_octets. unfold octets. rewrite map_length.
    eapply reads_bindo with (a := Z.of_nat (length l)).
    + destruct (min <? max) eqn:E2.
      * apply reads_DecodeConstraint; unfold is_s64, two63; try lia. left. unfold is_s64, two63. lia.
      * unfold crange. replace (max - min) with 0 by lia. replace min with (Z.of_nat (length l)) by lia. apply reads_ret.
    + replace ((min <=? Z.of_nat (length l)) && (Z.of_nat (length l) <=? max)) with true by lia.
      replace (bits_of_bytes l) with (bits_of_bytes l ++ []) by apply app_nil_r.
      eapply reads_bind; [apply reads_DecodeOctets; auto|]. cbn match.
      apply reads_pure_l with (a := l ++ skipn (length l) arr0); [|apply reads_ret].
      intros s. unfold lift. rewrite store0_ok by auto. reflexivity.
  - apply reads_DecodeOctetString_fragmentation; auto. destruct HE; [lia|]. destruct l; [congruence|cbn [length] in *; lia].
Qed.

(** ** Bit strings *)
Lemma single_slice : forall l off len, concat (slice off len (single_bits l)) = firstn (Z.to_nat len) (skipn (Z.to_nat off) l).
Proof. intros. unfold slice, single_bits. rewrite skipn_map, firstn_map. apply concat_single. Qed.

Lemma writes_EncodeBitString : forall c arr n min max, Forall is_byte arr -> 0 <= n <= 8 * Z.of_nat (length arr) ->
  0 <= min <= n -> n <= max ->
  writes (BitStream_EncodeBitString c arr n min max) true (sized min max (single_bits (take_bits n arr))).
Proof.
  intros c arr n min max HB Hn Hmin Hmax. unfold BitStream_EncodeBitString, sized.
  assert (HL : Z.of_nat (length (take_bits n arr)) = n).
  { unfold take_bits. rewrite firstn_length, len_bits_of_bytes. lia. }
  assert (HL2 : Z.of_nat (length (single_bits (take_bits n arr))) = n) by (unfold single_bits; rewrite map_length; auto).
  destruct (max <? 65536) eqn:E.
  - rewrite HL2, concat_single.
    eapply writes_bind with (a := tt).
    + destruct (negb (min =? max)) eqn:E2.
      * apply writes_EncodeConstraint; unfold is_s64, two63; try lia. left. unfold is_s64, two63. lia.
      * unfold crange. replace (max - min) with 0 by lia. apply writes_ret.
    + replace (take_bits n arr) with (take_bits n arr ++ []) by apply app_nil_r.
      eapply writes_bind; [apply writes_AppendBits; auto|apply writes_ret].
  - set (items := single_bits (take_bits n arr)) in *.
    replace (enc_frag _ _ _ _ 0 n) with
      (enc_frag c false (fun off len => BitStream_AppendBits c (tail_from arr (Z.quot off 8)) len ;;; ret true)
         (frag_fuel n) 0 (Z.of_nat (length items) - 0)) by (f_equal; lia).
    apply writes_enc_frag; try (unfold frag_fuel; lia).
    intros o len Ho Hlen Hol Hom. unfold items. rewrite single_slice.
    replace (firstn (Z.to_nat len) (skipn (Z.to_nat o) (take_bits n arr))) with
      (take_bits len (tail_from arr (Z.quot o 8)) ++ []).
    + eapply writes_bind; [|apply writes_ret]. rewrite Z.quot_div_nonneg by lia. apply writes_AppendBits.
      * apply Forall_skipn; auto.
      * unfold tail_from. rewrite skipn_length. lia.
    + rewrite app_nil_r. unfold take_bits, tail_from. rewrite bits_of_bytes_skipn, Z.quot_div_nonneg by lia.
      replace (8 * Z.to_nat (o / 8))%nat with (Z.to_nat o) by lia.
      rewrite skipn_firstn_comm, firstn_firstn. f_equal. lia.
Qed.

Lemma pack_app8 : forall a b k, length a = (8 * k)%nat -> pack (a ++ b) = pack a ++ pack b.
Proof.
  intros a b k H. destruct (bytes_of_bits_exist k a H) as (l & L1 & L2 & L3). subst a.
  rewrite pack_bytes by auto. pose proof (pack_bytes l [] L1) as X. rewrite !app_nil_r in X. now rewrite X.
Qed.
Lemma pack_len : forall a, Z.of_nat (length (pack a)) = (Z.of_nat (length a) + 7) / 8.
Proof.
  intros a. pose proof (firstn_skipn (8 * (length a / 8)) a) as E. rewrite <- E at 1.
  rewrite pack_app8 with (k := (length a / 8)%nat) by (rewrite firstn_length; lia). rewrite app_length.
  destruct (bytes_of_bits_exist (length a / 8) (firstn (8 * (length a / 8)) a)) as (l & L1 & L2 & L3); [rewrite firstn_length; lia|].
  rewrite <- L2. pose proof (pack_bytes l [] L1) as X. rewrite !app_nil_r in X. rewrite X, L3.
  assert (length (skipn (8 * (length a / 8)) a) < 8)%nat as HS by (rewrite skipn_length; lia).
  assert (length (skipn (8 * (length a / 8)) a) = length a - 8 * (length a / 8))%nat as HS2 by (rewrite skipn_length; lia).
  destruct (skipn (8 * (length a / 8)) a) as [|x0 [|x1 [|x2 [|x3 [|x4 [|x5 [|x6 [|x7 t]]]]]]]]; cbn [length pack] in *; lia.
Qed.

(** Destination after [off] bits were stored. *)
Definition bfilled (l : list bool) (arr0 : list Z) (off : Z) : list Z :=
  pack (firstn (Z.to_nat off) l) ++ skipn (Z.to_nat ((off + 7) / 8)) arr0.

Lemma reads_ReadBits_list : forall bs, reads (BitStream_ReadBits (Z.of_nat (length bs))) (Some (pack bs)) bs.
Proof.
  intros bs. set (n := Z.of_nat (length bs)).
  destruct (bytes_of_bits_exist (length bs) (bs ++ zeros (8 * length bs - length bs))) as (l & L1 & L2 & L3).
  { rewrite app_length, len_zeros. lia. }
  assert (T : take_bits n l = bs). { unfold take_bits, n. rewrite L2, Nat2Z.id. apply firstn_app_exact. }
  assert (HB : 0 <= n <= 8 * Z.of_nat (length l)) by lia.
  pose proof (reads_ReadBits l n L1 HB) as HR. rewrite T in HR.
  rewrite bytes_of_nbits_pack, T in HR by auto. exact HR.
Qed.

Lemma reads_read_bits_at : forall l arr0 o len, 0 <= o -> o mod 8 = 0 -> 0 <= len -> o + len <= Z.of_nat (length l) ->
  Z.of_nat (length l) <= 8 * Z.of_nat (length arr0) ->
  reads (read_bits_at (bfilled l arr0 o) o len) (Some (bfilled l arr0 (o + len)))
    (firstn (Z.to_nat len) (skipn (Z.to_nat o) l)).
Proof.
  intros l arr0 o len Ho Hm Hl Hol HA. unfold read_bits_at.
  set (bs := firstn (Z.to_nat len) (skipn (Z.to_nat o) l)).
  assert (HB : Z.of_nat (length bs) = len) by (unfold bs; rewrite firstn_length, skipn_length; lia).
  replace bs with (bs ++ []) at 1 by apply app_nil_r.
  eapply reads_bindo; [rewrite <- HB; apply reads_ReadBits_list|].
  apply reads_pure_l with (a := bfilled l arr0 (o + len)); [|apply reads_ret].
  intros s. unfold lift, store. rewrite Z.quot_div_nonneg by lia.
  assert (P1 : Z.of_nat (length (pack (firstn (Z.to_nat o) l))) = o / 8) by (rewrite pack_len, firstn_length; lia).
  assert (P2 : Z.of_nat (length (bfilled l arr0 o)) = Z.of_nat (length arr0)).
  { unfold bfilled. rewrite app_length, skipn_length. lia. }
  assert (P3 : Z.of_nat (length (pack bs)) = (len + 7) / 8) by (rewrite pack_len; lia).
  rewrite P2, P3. destruct ((o / 8 <? 0) || _) eqn:E; [lia|].
  replace (blit (bfilled l arr0 o) (Z.to_nat (o / 8)) (pack bs)) with (bfilled l arr0 (o + len)); [reflexivity|].
  unfold blit. unfold bfilled.
  replace (firstn (Z.to_nat (o + len)) l) with (firstn (Z.to_nat o) l ++ bs).
  2:{ unfold bs. replace (Z.to_nat (o + len)) with (Z.to_nat o + Z.to_nat len)%nat by lia.
      rewrite <- (firstn_skipn (Z.to_nat o) (firstn (Z.to_nat o + Z.to_nat len) l)).
      rewrite firstn_firstn, skipn_firstn_comm. f_equal; f_equal; lia. }
  rewrite pack_app8 with (k := Z.to_nat (o / 8)) by (rewrite firstn_length; lia).
  assert (P4 : length (pack (firstn (Z.to_nat o) l)) = Z.to_nat (o / 8)) by lia.
  rewrite <- P4 at 1. rewrite firstn_app_exact. rewrite <- app_assoc. f_equal. f_equal.
  rewrite skipn_app, (skipn_all2 (pack (firstn (Z.to_nat o) l))), skipn_skipn' by lia. cbn [app]. f_equal. lia.
Qed.

Lemma reads_DecodeBitString : forall c l arr0 min max, Z.of_nat (length l) <= 8 * Z.of_nat (length arr0) ->
  0 <= min <= Z.of_nat (length l) -> Z.of_nat (length l) <= max -> max < 65536 \/ l <> [] ->
  reads (BitStream_DecodeBitString c arr0 min max)
    (Some (Z.of_nat (length l), pack l ++ skipn (length (pack l)) arr0)) (sized min max (single_bits l)).
Proof.
  intros c l arr0 min max HA Hmin Hmax HE. unfold BitStream_DecodeBitString, sized.
  assert (EL : length (single_bits l) = length l) by apply map_length.
  assert (EF : bfilled l arr0 (Z.of_nat (length l)) = pack l ++ skipn (length (pack l)) arr0).
  { unfold bfilled. rewrite Nat2Z.id, firstn_all. do 2 f_equal. pose proof (pack_len l). lia. }
  destruct (max <? 65536) eqn:E.
  - rewrite concat_single, EL.
    eapply reads_bindo with (a := Z.of_nat (length l)).
    + destruct (negb (min =? max)) eqn:E2.
      * apply reads_DecodeConstraint; unfold is_s64, two63; try lia. left. unfold is_s64, two63. lia.
      * unfold crange. replace (max - min) with 0 by lia. replace min with (Z.of_nat (length l)) by lia. apply reads_ret.
    + pose proof (reads_read_bits_at l arr0 0 (Z.of_nat (length l)) ltac:(lia) ltac:(reflexivity) ltac:(lia) ltac:(lia) ltac:(lia)) as HR.
      change (bfilled l arr0 0) with arr0 in HR. change (Z.to_nat 0) with 0%nat in HR.
      rewrite skipn_O, Nat2Z.id, firstn_all, Z.add_0_l, EF in HR.
      eapply reads_eq; [eapply reads_bindo; [exact HR|apply reads_ret]|apply app_nil_r].
  - assert (HF : Z.of_nat (length l) / 16384 <= max / 16384) by (apply Z.div_le_mono; lia).
    assert (HN : 1 <= Z.of_nat (length l)).
    { destruct HE; [lia|]. destruct l; [congruence|cbn [length] in *; lia]. }
    assert (HBL : forall a o len, a = bfilled l arr0 o -> 0 <= o -> 0 <= len ->
      o + len <= Z.of_nat (length (single_bits l)) -> o mod 16384 = 0 ->
      exists a', reads (read_bits_at a o len) (Some a') (concat (slice o len (single_bits l))) /\ a' = bfilled l arr0 (o + len)).
    { intros a o len -> Ho Hlen Hol Hom. exists (bfilled l arr0 (o + len)). split; auto.
      rewrite single_slice. apply reads_read_bits_at; auto; lia. }
    destruct (reads_dec_frag c read_bits_at (fun a off => a = bfilled l arr0 off) (single_bits l) 1 max (frag_fuel max)
      HBL ltac:(lia) arr0 0 eq_refl ltac:(lia) ltac:(reflexivity) ltac:(unfold frag_fuel; rewrite Z.sub_0_r; lia))
      as (a' & HR & HI).
    rewrite EL in *. change (Z.to_nat 0) with 0%nat in HR. rewrite skipn_O in HR.
    subst a'. rewrite EF in HR. exact HR.
Qed.
