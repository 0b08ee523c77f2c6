(** Loops and fragmentation of the generated uPER code: exact behaviour on
    well-formed values. *)
From Verif Require Import Base Bits StrSpec BitStream Ints Contracts Octets Misc Oid UperTypes UperSpec Uper.
From Verif Require Import BitsProofs BitStreamProofs BitStreamProofs2 BitStreamProofs3 IntsProofs SafeProofs HistoryProofs TameProofs Parse ParseProofs OctetsProofs.
From Coq Require Import ZifyBool ZifyNat.
Ltac Zify.zify_post_hook ::= Z.div_mod_to_equations.

Lemma skipn_S_nth : forall {A} (l : list A) i x, nth_error l i = Some x -> skipn i l = x :: skipn (S i) l.
Proof. induction l; destruct i; cbn; intros x H; inversion H; subst; auto. now apply IHl. Qed.

Lemma slice_S : forall {A} (l : list A) i k x, 0 <= i -> nth_error l (Z.to_nat i) = Some x ->
  slice i (Z.of_nat (S k)) l = x :: slice (i + 1) (Z.of_nat k) l.
Proof.
  intros. unfold slice. rewrite (skipn_S_nth _ _ _ H0).
  replace (Z.to_nat (Z.of_nat (S k))) with (S k) by lia. cbn [firstn]. f_equal.
  replace (Z.to_nat (i + 1)) with (S (Z.to_nat i)) by lia.
  replace (Z.to_nat (Z.of_nat k)) with k by lia. reflexivity.
Qed.
Lemma slice_0 : forall {A} (l : list A) i, slice i 0 l = [].
Proof. reflexivity. Qed.

Lemma nth_error_ok : forall {A} (l : list A) i, 0 <= i < Z.of_nat (length l) -> exists x, nth_error l (Z.to_nat i) = Some x.
Proof.
  intros. destruct (nth_error l (Z.to_nat i)) eqn:E; [eauto|].
  apply nth_error_None in E. lia.
Qed.

(** ** Encoder loops *)
Lemma writes_enc_items : forall {A} (f : bool -> A -> M bool) (g : A -> list bool) l e gd k i,
  (forall x, In x l -> writes (f true x) true (g x)) ->
  0 <= i -> i + Z.of_nat k <= Z.of_nat (length l) ->
  writes (enc_items f (l ++ e) gd k i true) true (concat (slice i (Z.of_nat k) (map g l))).
Proof.
  intros A f g l e gd k. induction k; intros i Hf Hi Hk.
  - apply writes_ret.
  - cbn [enc_items negb]. rewrite andb_false_r.
    destruct (nth_error_ok l i ltac:(lia)) as [x Hx].
    rewrite nth_error_app1 by lia. rewrite Hx.
    rewrite (slice_S _ _ _ (g x)) by (auto; now apply map_nth_error). cbn [concat].
    eapply writes_pure_l with (a := x); [reflexivity|].
    eapply writes_bind; [apply Hf; eapply nth_error_In; eauto|].
    apply IHk; auto; lia.
Qed.

Lemma writes_enc_frag_r : forall c blk items fuel off,
  (forall o len, 0 <= o -> 0 <= len -> o + len <= Z.of_nat (length items) -> o mod 16384 = 0 ->
     writes (blk true o len) true (concat (slice o len items))) ->
  0 <= off <= Z.of_nat (length items) -> off mod 16384 = 0 ->
  (Z.of_nat (length items) - off) / 16384 < Z.of_nat fuel ->
  writes (enc_frag_r c blk fuel off (Z.of_nat (length items) - off) true) true (frag (skipn (Z.to_nat off) items)).
Proof.
  intros c blk items fuel off Hblk. revert off.
  induction fuel; intros off Hoff Hmod Hfuel; [lia|].
  cbn [enc_frag_r].
  destruct (0x4000 <=? Z.of_nat (length items) - off) eqn:E.
  - rewrite frag_block_ok by lia.
    set (k := Z.min 4 ((Z.of_nat (length items) - off) / 16384)).
    assert (Hk : 1 <= k <= 4) by lia.
    assert (Hk2 : k * 16384 <= Z.of_nat (length items) - off) by lia.
    assert (Hkdef : k = Z.min 4 (Z.of_nat (length (skipn (Z.to_nat off) items)) / 16384)).
    { unfold k. rewrite skipn_length. f_equal. f_equal. lia. }
    rewrite (frag_big _ k) by (auto; rewrite skipn_length; lia).
    clearbody k.
    apply writes_bind with (a := tt); [apply writes_u8; lia|].
    apply writes_bind with (a := true).
    + apply (Hblk off (k * 16384)); lia.
    + rewrite skipn_skipn'.
      replace (Z.of_nat (length items) - off - k * 16384) with (Z.of_nat (length items) - (off + k * 16384)) by lia.
      replace (Z.to_nat off + Z.to_nat (k * 16384))%nat with (Z.to_nat (off + k * 16384)) by lia.
      apply IHfuel; lia.
  - assert (Hl : Z.of_nat (length (skipn (Z.to_nat off) items)) = Z.of_nat (length items) - off)
      by (rewrite skipn_length; lia).
    pose proof (Hblk off (Z.of_nat (length items) - off) ltac:(lia) ltac:(lia) ltac:(lia) ltac:(lia)) as HB.
    rewrite slice_all in HB by lia.
    destruct (_ <=? 0x7F) eqn:E2.
    + rewrite frag_small, Hl by lia. eapply writes_bind; [|exact HB].
      apply writes_u8. lia.
    + rewrite frag_mid, Hl by lia. rewrite app_assoc. eapply writes_bind; [|exact HB].
      eapply writes_bind; [apply overwrites_writes, overwrites_AppendBit|].
      apply writes_u15. lia.
Qed.

(** ** Fixed size *)
Lemma ffrag_fuel_enough : forall f g items, (length items < f)%nat -> (length items < g)%nat ->
  ffrag_bits f items = ffrag_bits g items.
Proof.
  induction f; intros g items Hf Hg; [lia|]. destruct g; [lia|].
  cbn [ffrag_bits]. destruct (Z.of_nat (length items) =? 0) eqn:E0; [reflexivity|].
  destruct (Z.of_nat (length items) <=? 127) eqn:E1; [reflexivity|].
  destruct (Z.of_nat (length items) <? 16384) eqn:E2; [reflexivity|].
  cbn zeta. rewrite (IHf g); [reflexivity| |]; rewrite skipn_length; lia.
Qed.
Lemma ffrag_0 : forall items, Z.of_nat (length items) = 0 -> ffrag items = [].
Proof. intros. unfold ffrag. cbn [ffrag_bits]. destruct (_ =? 0) eqn:E; [reflexivity|lia]. Qed.
Lemma ffrag_small : forall items, 0 < Z.of_nat (length items) < 16384 -> ffrag items = frag items.
Proof.
  intros. unfold ffrag, frag. cbn [ffrag_bits frag_bits]. destruct (_ =? 0) eqn:E; [lia|].
  destruct (_ <=? 127); [reflexivity|]. destruct (_ <? 16384) eqn:E1; [reflexivity|lia].
Qed.
Lemma ffrag_big : forall items k, 16384 <= Z.of_nat (length items) ->
  k = Z.min 4 (Z.of_nat (length items) / 16384) ->
  ffrag items = Zbits 8 (192 + k) ++ concat (firstn (Z.to_nat (k * 16384)) items) ++
    ffrag (skipn (Z.to_nat (k * 16384)) items).
Proof.
  intros items k Hn Hk. unfold ffrag at 1. cbn [ffrag_bits].
  destruct (_ =? 0) eqn:E0; [lia|].
  destruct (_ <=? 127) eqn:E; [lia|]. destruct (_ <? 16384) eqn:E2; [lia|].
  rewrite <- Hk.
  assert (1 <= k <= 4) by lia.
  replace ([true; true] ++ Zbits 6 k ++ _) with (([true; true] ++ Zbits 6 k) ++
     concat (firstn (Z.to_nat (k * 16384)) items) ++
        ffrag_bits (length items) (skipn (Z.to_nat (k * 16384)) items)) by (now rewrite <- app_assoc).
  f_equal.
  - assert (k = 1 \/ k = 2 \/ k = 3 \/ k = 4) as [->|[->|[->| ->]]] by lia; reflexivity.
  - f_equal. apply ffrag_fuel_enough; rewrite ?skipn_length; lia.
Qed.

(** The block at offset [off], then the rest. *)
Lemma ffrag_block : forall (items : list (list bool)) off k, 0 <= off <= Z.of_nat (length items) ->
  16384 <= Z.of_nat (length items) - off -> k = Z.min 4 ((Z.of_nat (length items) - off) / 16384) ->
  ffrag (skipn (Z.to_nat off) items) =
    (Zbits 8 (192 + k) ++ concat (slice off (k * 16384) items)) ++ ffrag (skipn (Z.to_nat (off + k * 16384)) items).
Proof.
  intros. rewrite (ffrag_big _ k).
  - rewrite <- app_assoc. unfold slice. do 2 f_equal. rewrite skipn_skipn'. do 2 f_equal. lia.
  - rewrite skipn_length. lia.
  - rewrite skipn_length. lia.
Qed.

Lemma small_parts_eq : forall m, 0 <= m < 65536 ->
  small_parts m = (if m <? 16384 then [] else [(192 + m / 16384, (m / 16384) * 16384)]) /\
  m - parts_total (small_parts m) = m mod 16384.
Proof.
  intros m Hm. unfold small_parts.
  destruct (0xC000 <=? m) eqn:E1; [|destruct (0x8000 <=? m) eqn:E2; [|destruct (0x4000 <=? m) eqn:E3]].
  - destruct (0x8000 <=? m - 0xC000) eqn:E2; [lia|]. destruct (0x4000 <=? m - 0xC000) eqn:E3; [lia|].
    cbn [app parts_total fold_right snd]. destruct (m <? 16384) eqn:E; [lia|].
    replace (m / 16384) with 3 by lia. split; [reflexivity|lia].
  - destruct (0x4000 <=? m - 0x8000) eqn:E3; [lia|].
    cbn [app parts_total fold_right snd]. destruct (m <? 16384) eqn:E; [lia|].
    replace (m / 16384) with 2 by lia. split; [reflexivity|lia].
  - cbn [app parts_total fold_right snd]. destruct (m <? 16384) eqn:E; [lia|].
    replace (m / 16384) with 1 by lia. split; [reflexivity|lia].
  - cbn [app parts_total fold_right snd]. destruct (m <? 16384) eqn:E; [|lia]. split; [reflexivity|lia].
Qed.

Lemma writes_enc_64K : forall c blk items k off,
  (forall o len, 0 <= o -> 0 <= len -> o + len <= Z.of_nat (length items) -> o mod 16384 = 0 ->
     writes (blk true o len) true (concat (slice o len items))) ->
  0 <= off -> off + Z.of_nat k * 65536 <= Z.of_nat (length items) -> off mod 16384 = 0 ->
  exists B, writes (enc_64K c blk k off true) true B /\
    ffrag (skipn (Z.to_nat off) items) = B ++ ffrag (skipn (Z.to_nat (off + Z.of_nat k * 65536)) items).
Proof.
  intros c blk items k off Hblk. revert off. induction k; intros off Hoff Hk Hmod.
  - exists []. split; [apply writes_ret|]. cbn [app]. do 2 f_equal. lia.
  - cbn [enc_64K]. destruct (IHk (off + 0x10000)) as [B [HB HE]]; try lia.
    exists ((Zbits 8 0xC4 ++ concat (slice off 0x10000 items)) ++ B). split.
    + rewrite <- app_assoc. eapply writes_bind; [apply writes_u8; lia|].
      eapply writes_bind; [apply Hblk; lia|]. exact HB.
    + rewrite (ffrag_block _ off 4) by lia. change (192 + 4) with 0xC4. change (4 * 16384) with 0x10000.
      rewrite HE, <- !app_assoc. do 5 f_equal. lia.
Qed.

Lemma writes_enc_last : forall c blk items off,
  (forall o len, 0 <= o -> 0 <= len -> o + len <= Z.of_nat (length items) -> o mod 16384 = 0 ->
     writes (blk true o len) true (concat (slice o len items))) ->
  0 <= off <= Z.of_nat (length items) -> off mod 16384 = 0 ->
  Z.of_nat (length items) - off < 16384 ->
  writes (enc_small c blk [] off (Z.of_nat (length items) - off) true) true (ffrag (skipn (Z.to_nat off) items)).
Proof.
  intros c blk items off Hblk Hoff Hmod Hlt. cbn [enc_small negb].
  set (rem := Z.of_nat (length items) - off) in *.
  assert (Hl : Z.of_nat (length (skipn (Z.to_nat off) items)) = rem) by (rewrite skipn_length; lia).
  destruct (rem =? 0) eqn:E.
  - rewrite ffrag_0 by lia. apply writes_ret.
  - rewrite ffrag_small by lia.
    pose proof (Hblk off rem ltac:(lia) ltac:(lia) ltac:(lia) ltac:(lia)) as HB.
    rewrite slice_all in HB by lia.
    destruct (_ <=? 0x7F) eqn:E2.
    + rewrite frag_small, Hl by lia. eapply writes_bind; [|exact HB]. apply writes_u8. lia.
    + rewrite frag_mid, Hl by lia. rewrite app_assoc. eapply writes_bind; [|exact HB].
      eapply writes_bind; [apply overwrites_writes, overwrites_AppendBit|].
      apply writes_u15. lia.
Qed.

Lemma writes_enc_fixed : forall c blk items n,
  (forall o len, 0 <= o -> 0 <= len -> o + len <= Z.of_nat (length items) -> o mod 16384 = 0 ->
     writes (blk true o len) true (concat (slice o len items))) ->
  n = Z.of_nat (length items) ->
  writes (enc_fixed c blk n true) true (ffrag items).
Proof.
  intros c blk items n Hblk ->. unfold enc_fixed.
  set (n := Z.of_nat (length items)) in *.
  destruct (writes_enc_64K c blk items (Z.to_nat (n / 0x10000)) 0 Hblk) as [B [HB HE]]; try lia.
  change (skipn (Z.to_nat 0) items) with items in HE. rewrite HE.
  eapply writes_bind; [exact HB|].
  replace (0 + Z.of_nat (Z.to_nat (n / 0x10000)) * 65536) with (n / 0x10000 * 0x10000) by lia.
  set (off := n / 0x10000 * 0x10000).
  destruct (small_parts_eq (n mod 0x10000) ltac:(lia)) as [-> ->].
  destruct (_ <? 16384) eqn:E.
  - replace (n mod 0x10000 mod 16384) with (n - off) by lia. apply writes_enc_last; auto; unfold off; lia.
  - set (k := (n mod 0x10000) / 16384). assert (Hk : 1 <= k <= 3) by lia.
    cbn [enc_small negb]. rewrite (ffrag_block items off k) by lia. rewrite <- app_assoc.
    eapply writes_bind; [apply writes_u8; lia|].
    eapply writes_bind; [apply Hblk; unfold off; lia|].
    replace (n mod 0x10000 mod 16384) with (n - (off + k * 16384)) by lia.
    apply writes_enc_last; auto; unfold off; lia.
Qed.

(** ** Sized encoders *)
Lemma usized_small : forall min max items, max < 65536 ->
  usized false min max items = Zbits (crange min max) (Z.of_nat (length items) - min) ++ concat items.
Proof.
  intros. unfold usized, sized. replace (65536 <=? max) with false by lia. rewrite andb_false_r.
  replace (max <? 65536) with true by lia. reflexivity.
Qed.
Lemma usized_fixed : forall min max items, 65536 <= max -> min = max -> usized false min max items = ffrag items.
Proof. intros. unfold usized. replace (min =? max) with true by lia. replace (65536 <=? max) with true by lia. reflexivity. Qed.
Lemma usized_frag : forall min max items, 65536 <= max -> min <> max -> usized false min max items = frag items.
Proof.
  intros. unfold usized, sized. replace (min =? max) with false by lia. replace (max <? 65536) with false by lia. reflexivity.
Qed.
Lemma crange_same : forall a, crange a a = O.
Proof. intros. unfold crange. rewrite Z.sub_diag. reflexivity. Qed.

Lemma writes_sized_enc : forall {A} c (f : bool -> A -> M bool) (g : A -> list bool) l e n min max,
  (forall x, In x l -> writes (f true x) true (g x)) ->
  n = Z.of_nat (length l) -> 0 <= min <= n -> n <= max -> max < 2 ^ 31 ->
  writes (sized_enc c f (l ++ e) n min max true) true (usized false min max (map g l)).
Proof.
  intros A c f g l e n min max Hf Hn Hmin Hmax Hb. unfold sized_enc.
  assert (Hblk : forall o len, 0 <= o -> 0 <= len -> o + len <= Z.of_nat (length (map g l)) -> o mod 16384 = 0 ->
     writes (enc_items f (l ++ e) false (Z.to_nat len) o true) true (concat (slice o len (map g l)))).
  { intros o len Ho Hl Hle _. rewrite map_length in Hle.
    replace len with (Z.of_nat (Z.to_nat len)) at 2 by lia. apply writes_enc_items; auto. lia. }
  destruct (max <? 65536) eqn:E1.
  - rewrite usized_small by lia. rewrite map_length.
    assert (Hit : forall k, k = length l -> writes (enc_items f (l ++ e) true k 0 true) true (concat (map g l))).
    { intros k ->. eapply writes_eq; [apply writes_enc_items; eauto; lia|].
      rewrite slice_all; [reflexivity|lia|rewrite map_length; lia]. }
    destruct (min =? max) eqn:E2.
    + replace max with min by lia. rewrite crange_same. cbn [Zbits app]. apply Hit. lia.
    + eapply writes_bind; [|apply Hit; lia].
      rewrite <- Hn. apply writes_EncodeConstraint; try (unfold is_s64, two63; lia). left; unfold is_s64, two63; lia.
  - destruct (min =? max) eqn:E2.
    + rewrite usized_fixed by lia. apply writes_enc_fixed; [exact Hblk|]. rewrite map_length. lia.
    + rewrite usized_frag by lia.
      replace n with (Z.of_nat (length (map g l)) - 0) at 2 by (rewrite map_length; lia).
      eapply writes_eq; [apply writes_enc_frag_r; [exact Hblk|..]; rewrite ?map_length; unfold frag_fuel; lia|].
      reflexivity.
Qed.

(** ** Decoder loops *)
Lemma reads_dec_items : forall {A B} (f : bool -> M (option B)) (g : A -> list bool) (h : A -> B) l cap k i,
  (forall x, In x l -> reads (f true) (Some (h x)) (g x)) ->
  0 <= i -> i + Z.of_nat k <= Z.of_nat (length l) -> Z.of_nat (length l) <= cap ->
  reads (dec_items f cap k i) (Some (slice i (Z.of_nat k) (map h l))) (concat (slice i (Z.of_nat k) (map g l))).
Proof.
  intros A B f g h l cap k. induction k; intros i Hf Hi Hk Hc.
  - apply reads_ret.
  - cbn [dec_items]. destruct (cap <=? i) eqn:E; [lia|].
    destruct (nth_error_ok l i ltac:(lia)) as [x Hx].
    rewrite (slice_S _ _ _ (g x)) by (auto; now apply map_nth_error).
    rewrite (slice_S _ _ _ (h x)) by (auto; now apply map_nth_error). cbn [concat].
    eapply reads_bindo; [apply Hf; eapply nth_error_In; eauto|].
    rewrite <- (app_nil_r (concat _)).
    eapply reads_bindo; [apply IHk; auto; lia|]. apply reads_ret.
Qed.

Lemma reads_dec_items_u : forall {A B} (f : bool -> M (option B)) junk (g : A -> list bool) (h : A -> B) l cap k i,
  (forall x, In x l -> reads (f true) (Some (h x)) (g x)) ->
  0 <= i -> i + Z.of_nat k <= Z.of_nat (length l) -> Z.of_nat (length l) <= cap ->
  reads (dec_items_u f junk cap k i true) (slice i (Z.of_nat k) (map h l), true) (concat (slice i (Z.of_nat k) (map g l))).
Proof.
  intros A B f junk g h l cap k. induction k; intros i Hf Hi Hk Hc.
  - apply reads_ret.
  - cbn [dec_items_u]. destruct (cap <=? i) eqn:E; [lia|].
    destruct (nth_error_ok l i ltac:(lia)) as [x Hx].
    rewrite (slice_S _ _ _ (g x)) by (auto; now apply map_nth_error).
    rewrite (slice_S _ _ _ (h x)) by (auto; now apply map_nth_error). cbn [concat].
    eapply reads_bind; [apply Hf; eapply nth_error_In; eauto|]. cbn match.
    rewrite <- (app_nil_r (concat _)).
    eapply reads_bind; [apply IHk; auto; lia|]. cbn [fst snd]. apply reads_ret.
Qed.

Lemma firstn_slice : forall {A} (l : list A) o len, 0 <= o -> 0 <= len ->
  firstn (Z.to_nat (o + len)) l = firstn (Z.to_nat o) l ++ slice o len l.
Proof.
  intros. unfold slice. replace (Z.to_nat (o + len)) with (Z.to_nat o + Z.to_nat len)%nat by lia.
  generalize (Z.to_nat o) (Z.to_nat len). intros p q. revert l. induction p; intros l; [reflexivity|].
  destruct l; cbn; [now rewrite firstn_nil|]. now rewrite IHp.
Qed.

Lemma reads_dec_64K : forall {A} c (blk : A -> Z -> Z -> M (A * bool)) (Inv : A -> Z -> Prop) items k,
  (forall a o len, Inv a o -> 0 <= o -> 0 <= len -> o + len <= Z.of_nat (length items) -> o mod 16384 = 0 ->
     exists a', reads (blk a o len) (a', true) (concat (slice o len items)) /\ Inv a' (o + len)) ->
  forall a off, Inv a off ->
  0 <= off -> off + Z.of_nat k * 65536 <= Z.of_nat (length items) -> off mod 16384 = 0 ->
  exists B a', reads (dec_64K c blk k a off) (Some a') B /\ Inv a' (off + Z.of_nat k * 65536) /\
    ffrag (skipn (Z.to_nat off) items) = B ++ ffrag (skipn (Z.to_nat (off + Z.of_nat k * 65536)) items).
Proof.
  intros A c blk Inv items k Hblk. induction k; intros a off HI Hoff Hk Hmod.
  - exists [], a. split; [apply reads_ret|]. cbn [app]. split; [replace (off + _) with off by lia; auto|]. do 2 f_equal. lia.
  - cbn [dec_64K]. destruct (Hblk a off 0x10000 HI) as [a1 [HR1 HI1]]; try lia.
    destruct (IHk a1 (off + 0x10000) HI1) as [B [a2 [HB [HI2 HE]]]]; try lia.
    exists ((Zbits 8 0xC4 ++ concat (slice off 0x10000 items)) ++ B), a2. split; [|split].
    + rewrite <- app_assoc. eapply reads_bindo; [apply reads_u8; lia|].
      change (0xC4 =? 0xC4) with true. cbn match.
      eapply reads_bind; [exact HR1|]. exact HB.
    + replace (off + Z.of_nat (S k) * 65536) with (off + 0x10000 + Z.of_nat k * 65536) by lia. exact HI2.
    + rewrite (ffrag_block _ off 4) by lia. change (192 + 4) with 0xC4. change (4 * 16384) with 0x10000.
      rewrite HE, <- !app_assoc. do 5 f_equal. lia.
Qed.

Lemma reads_u16 : forall c v, 0 <= v <= 65535 ->
  reads (BitStream_DecodeConstraintWholeNumber c 0 0xFFFF) (Some v) (Zbits 16 v).
Proof.
  intros. eapply reads_eq; [apply reads_DecodeConstraint; unfold is_s64, two63; try lia; left; unfold is_s64, two63; lia|].
  rewrite Z.sub_0_r. reflexivity.
Qed.

Lemma reads_dec_last : forall {A} c (blk : A -> Z -> Z -> M (A * bool)) (Inv : A -> Z -> Prop) items,
  (forall a o len, Inv a o -> 0 <= o -> 0 <= len -> o + len <= Z.of_nat (length items) -> o mod 16384 = 0 ->
     exists a', reads (blk a o len) (a', true) (concat (slice o len items)) /\ Inv a' (o + len)) ->
  forall a off, Inv a off ->
  0 <= off <= Z.of_nat (length items) -> off mod 16384 = 0 ->
  Z.of_nat (length items) - off < 16384 ->
  exists a', reads (dec_small c blk [] a off (Z.of_nat (length items) - off)) (Some a') (ffrag (skipn (Z.to_nat off) items)) /\
    Inv a' (Z.of_nat (length items)).
Proof.
  intros A c blk Inv items Hblk a off HI Hoff Hmod Hlt. cbn [dec_small].
  set (rem := Z.of_nat (length items) - off) in *.
  assert (Hl : Z.of_nat (length (skipn (Z.to_nat off) items)) = rem) by (rewrite skipn_length; lia).
  destruct (rem =? 0) eqn:E.
  - exists a. rewrite ffrag_0 by lia. split; [apply reads_ret|]. replace (Z.of_nat _) with off by lia. exact HI.
  - destruct (Hblk a off rem HI) as [a1 [HR1 HI1]]; try lia.
    rewrite slice_all in HR1 by lia.
    replace (off + rem) with (Z.of_nat (length items)) in HI1 by lia.
    exists a1. split; [|exact HI1]. rewrite ffrag_small by lia.
    assert (HT : reads (let* p := blk a off rem in ret (if snd p then Some (fst p) else None)) (Some a1)
                  (concat (skipn (Z.to_nat off) items))).
    { rewrite <- (app_nil_r (concat _)). eapply reads_bind; [exact HR1|]. cbn [snd fst]. apply reads_ret. }
    destruct (rem <=? 0x7F) eqn:E2.
    + rewrite frag_small, Hl by lia. eapply reads_bindo; [apply reads_u8; lia|].
      rewrite Z.eqb_refl. exact HT.
    + rewrite frag_mid, Hl by lia. rewrite app_assoc.
      assert (EH : [true] ++ Zbits 15 rem = Zbits 16 (0x8000 + rem)).
      { change (Zbits 16 (0x8000 + rem)) with (Z.testbit (0x8000 + rem) 15 :: Zbits 15 (0x8000 + rem)).
        cbn [app]. f_equal.
        - symmetry. rewrite Z.testbit_true by lia. change (2 ^ 15) with 32768. lia.
        - apply Zbits_cong. change (2 ^ Z.of_nat 15) with 32768. lia. }
      rewrite EH. eapply reads_bindo; [apply reads_u16; lia|].
      replace (Z.land 0x8000 (0x8000 + rem)) with 0x8000.
      2:{ rewrite Z.land_comm. change (0x8000 + rem) with (1 * 2 ^ 15 + rem). rewrite <- lor_add by (change (2 ^ 15) with 32768; lia).
          rewrite Z.land_lor_distr_l. replace (Z.land rem 32768) with 0; [reflexivity|].
          symmetry. change 32768 with (2 ^ 15). apply Z.bits_inj'. intros n Hn.
          rewrite Z.land_spec, Z.bits_0. destruct (Z.eq_dec n 15) as [->|Hne].
          - assert (T : Z.testbit rem 15 = false); [|now rewrite T].
            rewrite Z.testbit_false by lia. change (2 ^ 15) with 32768. lia.
          - rewrite (Z.pow2_bits_false 15 n) by lia. apply andb_false_r. }
      replace (Z.land 0x7FFF (0x8000 + rem)) with rem.
      2:{ rewrite Z.land_comm. change 0x7FFF with (Z.ones 15). rewrite Z.land_ones by lia. change (2 ^ 15) with 32768. lia. }
      change (0 <? 0x8000) with true. rewrite Z.eqb_refl. cbn [andb]. exact HT.
Qed.

Lemma reads_dec_fixed : forall {A} c (blk : A -> Z -> Z -> M (A * bool)) (Inv : A -> Z -> Prop) items n,
  (forall a o len, Inv a o -> 0 <= o -> 0 <= len -> o + len <= Z.of_nat (length items) -> o mod 16384 = 0 ->
     exists a', reads (blk a o len) (a', true) (concat (slice o len items)) /\ Inv a' (o + len)) ->
  n = Z.of_nat (length items) ->
  forall a, Inv a 0 ->
  exists a', reads (dec_fixed c blk n a) (Some a') (ffrag items) /\ Inv a' n.
Proof.
  intros A c blk Inv items n Hblk -> a HI. unfold dec_fixed.
  set (n := Z.of_nat (length items)) in *.
  destruct (reads_dec_64K c blk Inv items (Z.to_nat (n / 0x10000)) Hblk a 0 HI) as [B [a1 [HB [HI1 HE]]]]; try lia.
  change (skipn (Z.to_nat 0) items) with items in HE. rewrite HE.
  replace (0 + Z.of_nat (Z.to_nat (n / 0x10000)) * 65536) with (n / 0x10000 * 0x10000) in * by lia.
  set (off := n / 0x10000 * 0x10000) in *.
  destruct (small_parts_eq (n mod 0x10000) ltac:(lia)) as [-> ->].
  destruct (_ <? 16384) eqn:E.
  - replace (n mod 0x10000 mod 16384) with (n - off) by lia.
    destruct (reads_dec_last c blk Inv items Hblk a1 off HI1) as [a2 [HR2 HI2]]; try (unfold off; lia).
    exists a2. split; [|exact HI2]. eapply reads_bindo; [exact HB|exact HR2].
  - set (k := (n mod 0x10000) / 16384). assert (Hk : 1 <= k <= 3) by lia.
    destruct (Hblk a1 off (k * 16384) HI1) as [a2 [HR2 HI2]]; try (unfold off; lia).
    destruct (reads_dec_last c blk Inv items Hblk a2 (off + k * 16384) HI2) as [a3 [HR3 HI3]]; try (unfold off; lia).
    exists a3. split; [|exact HI3]. eapply reads_bindo; [exact HB|].
    cbn [dec_small]. rewrite (ffrag_block items off k) by lia. rewrite <- app_assoc.
    eapply reads_bindo; [apply reads_u8; lia|]. rewrite Z.eqb_refl.
    eapply reads_bind; [exact HR2|]. cbn [fst snd].
    replace (n mod 0x10000 mod 16384) with (n - (off + k * 16384)) by lia. exact HR3.
Qed.

Lemma reads_sized_dec : forall {A B} c (f : bool -> M (option B)) junk (g : A -> list bool) (h : A -> B) l min max,
  (forall x, In x l -> reads (f true) (Some (h x)) (g x)) ->
  0 <= min <= Z.of_nat (length l) -> Z.of_nat (length l) <= max -> max < 2 ^ 31 ->
  reads (sized_dec c f junk min max true) (Some (map h l)) (usized false min max (map g l)).
Proof.
  intros A B c f junk g h l min max Hf Hmin Hmax Hb. unfold sized_dec.
  destruct (max <? 65536) eqn:E1.
  - rewrite usized_small by lia. rewrite map_length.
    assert (Hit : forall k, k = length l -> reads (dec_items f max k 0) (Some (map h l)) (concat (map g l))).
    { intros k ->. pose proof (reads_dec_items f g h l max (length l) 0 Hf ltac:(lia) ltac:(lia) ltac:(lia)) as HR.
      rewrite slice_all in HR by (rewrite ?map_length; lia). rewrite slice_all in HR by (rewrite ?map_length; lia).
      exact HR. }
    destruct (min =? max) eqn:E2.
    + replace max with min by lia. rewrite crange_same. cbn [Zbits app].
      replace min with max by lia. apply Hit. lia.
    + eapply reads_bindo with (a := Z.of_nat (length l)); [|apply Hit; lia].
      apply reads_DecodeConstraint; try (unfold is_s64, two63; lia). left; unfold is_s64, two63; lia.
  - set (Inv := fun (a : list B) o => a = firstn (Z.to_nat o) (map h l)).
    destruct (min =? max) eqn:E2.
    + rewrite usized_fixed by lia.
      destruct (reads_dec_fixed c (fun a off len =>
          let* p := dec_items_u f junk max (Z.to_nat len) off true in ret (a ++ fst p, snd p)) Inv (map g l) max)
        with (a := @nil B) as [a' [HR HI]].
      * intros a o len -> Ho Hlen Hle Hmod. rewrite map_length in Hle. eexists. split.
        -- rewrite <- (app_nil_r (concat _)). eapply reads_bind.
           ++ replace len with (Z.of_nat (Z.to_nat len)) at 2 by lia. apply reads_dec_items_u with (h := h); auto; lia.
           ++ cbn [fst snd]. apply reads_ret.
        -- unfold Inv. rewrite firstn_slice by lia. do 2 f_equal. lia.
      * rewrite map_length. lia.
      * reflexivity.
      * unfold Inv in HI. rewrite firstn_all2 in HI by (rewrite map_length; lia). subst a'. exact HR.
    + rewrite usized_frag by lia.
      destruct (reads_dec_frag c (fun a off len =>
        let? l := dec_items f max (Z.to_nat len) off in ret (Some (a ++ l))) Inv (map g l) min max (frag_fuel max))
        with (a := @nil B) (off := 0) as [a' [HR HI]].
      * intros a o len -> Ho Hlen Hle Hmod. rewrite map_length in Hle. eexists. split.
        -- rewrite <- (app_nil_r (concat _)). eapply reads_bindo.
           ++ replace len with (Z.of_nat (Z.to_nat len)) at 2 by lia. apply reads_dec_items with (h := h); auto; lia.
           ++ apply reads_ret.
        -- unfold Inv. rewrite firstn_slice by lia. do 2 f_equal. lia.
      * rewrite map_length. lia.
      * reflexivity.
      * rewrite map_length. lia.
      * reflexivity.
      * rewrite map_length. unfold frag_fuel. lia.
      * rewrite map_length in *. unfold Inv in HI. rewrite firstn_all2 in HI by (rewrite map_length; lia). subst a'.
        change (skipn (Z.to_nat 0) (map g l)) with (map g l) in HR.
        intros s pre rest Hs Hc. destruct (HR s pre rest Hs Hc) as [s' [E [Ha Hrest]]].
        exists s'. split; [|auto]. unfold bindo, bind in *.
        destruct (BitStream_DecodeConstraintWholeNumber c 0 0xFF s) as [[[h0|] s0]| | |]; try discriminate E.
        rewrite E. reflexivity.
Qed.
