(** ACN boolean patterns, deferred determinants and IEEE 754 reals. *)
From Verif Require Import Base Bits BitStream Ints Contracts Misc Octets RealSpec RealC AcnSpec Acn AcnStr AcnReal.
From Verif Require Import BitsProofs BitStreamProofs BitStreamProofs2 BitStreamProofs3 IntsProofs SafeProofs MiscProofs.
From Verif Require Import FloatProofs RealProofs AcnProofs1 AcnProofs3.
From Coq Require Import ZifyBool ZifyNat.
Ltac Zify.zify_post_hook ::= Z.div_mod_to_equations.

(** ** Boolean patterns *)
Lemma reads_pat_loop : forall l p2 p1 ok, Forall is_byte l -> (length l <= length p2)%nat ->
  reads (pat_loop (p1 ++ p2) (Z.of_nat (length p1)) ok (length l))
    (Some (ok && list_eqb (firstn (length l) p2) l)) (bits_of_bytes l).
Proof.
  induction l; intros p2 p1 ok F Hl; cbn [pat_loop length].
  - cbn. rewrite andb_true_r. apply reads_ret.
  - destruct p2 as [|x p2]; [cbn in Hl; lia|]. rewrite bits_cons.
    eapply reads_bindo with (a := a); [apply reads_ReadByte; exact (Forall_inv F)|].
    eapply reads_pure_l with (a := ok && (a =? x)).
    { intro s. unfold lift. rewrite nthZ_mid. destruct ok; reflexivity. }
    replace (p1 ++ x :: p2) with ((p1 ++ [x]) ++ p2) by (rewrite <- app_assoc; reflexivity).
    replace (Z.of_nat (length p1) + 1) with (Z.of_nat (length (p1 ++ [x]))) by (rewrite app_length; cbn; lia).
    replace (ok && list_eqb (firstn (S (length l)) (x :: p2)) (a :: l)) with
      ((ok && (a =? x)) && list_eqb (firstn (length l) p2) l).
    + apply IHl; [exact (Forall_inv_tail F)|cbn in Hl; lia].
    + cbn [firstn]. unfold list_eqb. cbn [length combine forallb fst snd Nat.eqb].
      rewrite (Z.eqb_sym a x). destruct ok, (x =? a), (Nat.eqb _ _); reflexivity.
Qed.

Lemma split_nbits : forall bs n, Z.of_nat (length bs) = n ->
  exists l t, bs = bits_of_bytes l ++ t /\ Forall is_byte l /\ Z.of_nat (length l) = n / 8 /\ Z.of_nat (length t) = n mod 8.
Proof.
  intros bs n H. destruct (bytes_of_bits_exist (Z.to_nat (n / 8)) (firstn (8 * Z.to_nat (n / 8)) bs)) as (l & F & E & L).
  { rewrite firstn_length. lia. }
  exists l, (skipn (8 * Z.to_nat (n / 8)) bs). rewrite E, firstn_skipn. splits; auto; rewrite ?skipn_length; lia.
Qed.

Lemma last_bits : forall n t x, 0 < n mod 8 -> is_byte x -> Z.of_nat (length t) = n mod 8 ->
  (bval t =? Z.shiftr x (8 - n mod 8)) = true <-> t = Zbits (Z.to_nat (n mod 8)) (Z.shiftr x (8 - n mod 8)).
Proof.
  intros n t x Hn Hx Ht. pose proof (shiftr_byte_range x (n mod 8) Hx ltac:(lia)).
  split.
  - intro E. apply Z.eqb_eq in E. rewrite <- E. symmetry. apply Zbits_bval_n. lia.
  - intros ->. rewrite bval_Zbits, Z2Nat.id, Z.mod_small by lia. apply Z.eqb_refl.
Qed.

Lemma take_bits_iff : forall p n l t, Forall is_byte p -> 0 <= n <= 8 * Z.of_nat (length p) ->
  Forall is_byte l -> Z.of_nat (length l) = n / 8 -> Z.of_nat (length t) = n mod 8 ->
  (bits_of_bytes l ++ t = take_bits n p <->
   firstn (length l) p = l /\
   t = (if 0 <? n mod 8 then Zbits (Z.to_nat (n mod 8)) (Z.shiftr (nth (Z.to_nat (n / 8)) p 0) (8 - n mod 8)) else [])).
Proof.
  intros p n l t Fp Hn Fl Hl Ht. rewrite take_bits_split by assumption.
  replace (Z.to_nat (n / 8)) with (length l) by lia. split.
  - intro E. apply app_split in E.
    2:{ rewrite !len_bits_of_bytes, firstn_length. lia. }
    destruct E as [E1 E2]. split; [|exact E2]. symmetry. apply bits_of_bytes_inj; [assumption|now apply Forall_firstn|exact E1].
  - intros [E1 E2]. rewrite E1. now rewrite E2.
Qed.

Lemma reads_ReadBitPattern : forall p n bs, Forall is_byte p -> 0 <= n <= 8 * Z.of_nat (length p) ->
  Z.of_nat (length bs) = n ->
  exists r, reads (BitStream_ReadBitPattern p n) (Some r) bs /\ (r = true <-> bs = take_bits n p).
Proof.
  intros p n bs Fp Hn Hb. destruct (split_nbits bs n Hb) as (l & t & -> & Fl & Hl & Ht).
  pose proof (reads_pat_loop l p [] true Fl ltac:(lia)) as R. cbn [app length] in R.
  change (Z.of_nat 0) with 0 in R. rewrite andb_true_l in R.
  unfold BitStream_ReadBitPattern. rewrite Z.quot_div_nonneg, Z.rem_mod_nonneg by lia.
  replace (Z.to_nat (n / 8)) with (length l) by lia.
  pose proof (take_bits_iff p n l t Fp Hn Fl Hl Ht) as I.
  destruct (Z.ltb_spec 0 (n mod 8)).
  - set (x := nth (Z.to_nat (n / 8)) p 0) in *.
    assert (X : is_byte x) by (eapply Forall_forall; [exact Fp|]; apply nth_In; lia).
    exists (list_eqb (firstn (length l) p) l && (bval t =? Z.shiftr x (8 - n mod 8))). split.
    + eapply reads_bindo; [exact R|]. rewrite <- (app_nil_r t) at 2.
      eapply reads_bindo with (a := bval t).
      { eapply reads_eq; [apply reads_ReadPartialByte; [lia|]|].
        - pose proof (bval_bounds t). rewrite Ht in H0. exact H0.
        - apply Zbits_bval_n. lia. }
      eapply reads_pure_l; [|apply reads_ret]. intro s. unfold lift.
      rewrite nthZ_nth by lia. fold x. destruct (list_eqb _ _); reflexivity.
    + rewrite I, andb_true_iff, list_eqb_iff, (last_bits n t x) by assumption. reflexivity.
  - assert (t = []) as -> by (destruct t; [reflexivity|cbn in Ht; lia]). rewrite app_nil_r in *.
    exists (list_eqb (firstn (length l) p) l). split.
    + rewrite <- (app_nil_r (bits_of_bytes l)). eapply reads_bindo; [exact R|]. apply reads_ret.
    + rewrite I, list_eqb_iff. intuition.
Qed.

Lemma reads_skip_bytes : forall l, Forall is_byte l -> reads (skip_bytes (length l)) (Some tt) (bits_of_bytes l).
Proof.
  induction l; intros F; cbn [skip_bytes length]; [apply reads_ret|]. rewrite bits_cons.
  eapply reads_bindo with (a := a); [apply reads_ReadByte; exact (Forall_inv F)|]. apply IHl. exact (Forall_inv_tail F).
Qed.
Lemma reads_ReadBitPattern_ignore : forall n bs, Z.of_nat (length bs) = n ->
  reads (BitStream_ReadBitPattern_ignore_value n) (Some tt) bs.
Proof.
  intros n bs Hb. destruct (split_nbits bs n Hb) as (l & t & -> & Fl & Hl & Ht).
  unfold BitStream_ReadBitPattern_ignore_value. rewrite Z.quot_div_nonneg, Z.rem_mod_nonneg by lia.
  replace (Z.to_nat (n / 8)) with (length l) by lia.
  eapply reads_bindo; [apply reads_skip_bytes; exact Fl|].
  destruct (Z.ltb_spec 0 (n mod 8)).
  - rewrite <- (app_nil_r t). eapply reads_bindo with (a := bval t); [|apply reads_ret].
    eapply reads_eq; [apply reads_ReadPartialByte; [lia|]|].
    + pose proof (bval_bounds t). rewrite Ht in H0. exact H0.
    + apply Zbits_bval_n. lia.
  - assert (t = []) as -> by (destruct t; [reflexivity|cbn in Ht; lia]). apply reads_ret.
Qed.

Lemma reads_tf_loop : forall l q1 p1 q2 p2 t f, Forall is_byte l -> length p1 = length q1 ->
  (length l <= length p2)%nat -> (length l <= length q2)%nat ->
  reads (tf_loop (p1 ++ p2) (q1 ++ q2) (Z.of_nat (length p1)) t f (length l))
    (Some (t && list_eqb (firstn (length l) p2) l, f && list_eqb (firstn (length l) q2) l)) (bits_of_bytes l).
Proof.
  induction l; intros q1 p1 q2 p2 t f F E Hl Hm; cbn [tf_loop length].
  - cbn. rewrite !andb_true_r. apply reads_ret.
  - destruct p2 as [|x p2]; [cbn in Hl; lia|]. destruct q2 as [|y q2]; [cbn in Hm; lia|]. rewrite bits_cons.
    eapply reads_bindo with (a := a); [apply reads_ReadByte; exact (Forall_inv F)|].
    eapply reads_pure_l with (a := t && (a =? x)).
    { intro s. unfold lift. rewrite nthZ_mid. destruct t; reflexivity. }
    eapply reads_pure_l with (a := f && (a =? y)).
    { intro s. unfold lift. rewrite E, nthZ_mid. destruct f; reflexivity. }
    replace (p1 ++ x :: p2) with ((p1 ++ [x]) ++ p2) by (rewrite <- app_assoc; reflexivity).
    replace (q1 ++ y :: q2) with ((q1 ++ [y]) ++ q2) by (rewrite <- app_assoc; reflexivity).
    replace (Z.of_nat (length p1) + 1) with (Z.of_nat (length (p1 ++ [x]))) by (rewrite app_length; cbn; lia).
    assert (G : forall ok z w, ok && list_eqb (firstn (S (length l)) (z :: w)) (a :: l) =
      ((ok && (a =? z)) && list_eqb (firstn (length l) w) l)).
    { intros. cbn [firstn]. unfold list_eqb. cbn [length combine forallb fst snd Nat.eqb].
      rewrite (Z.eqb_sym a z). destruct ok, (z =? a), (Nat.eqb _ _); reflexivity. }
    rewrite 2G. apply IHl; [exact (Forall_inv_tail F)|rewrite 2app_length; cbn; lia|cbn in Hl; lia|cbn in Hm; lia].
Qed.

Lemma reads_TrueFalse : forall p q n bs, Forall is_byte p -> Forall is_byte q ->
  0 <= n <= 8 * Z.of_nat (length p) -> n <= 8 * Z.of_nat (length q) -> Z.of_nat (length bs) = n ->
  exists r, reads (BitStream_DecodeTrueFalseBoolean p q n) r bs /\
    (r = Some true <-> bs = take_bits n p) /\
    (r = Some false <-> bs = take_bits n q /\ bs <> take_bits n p) /\
    (r = None <-> bs <> take_bits n p /\ bs <> take_bits n q).
Proof.
  intros p q n bs Fp Fq Hn Hq Hb. destruct (split_nbits bs n Hb) as (l & t & -> & Fl & Hl & Ht).
  pose proof (reads_tf_loop l [] [] q p true true Fl eq_refl ltac:(lia) ltac:(lia)) as R. cbn [app length] in R.
  change (Z.of_nat 0) with 0 in R. rewrite 2andb_true_l in R.
  unfold BitStream_DecodeTrueFalseBoolean. rewrite Z.quot_div_nonneg, Z.rem_mod_nonneg by lia.
  replace (Z.to_nat (n / 8)) with (length l) by lia.
  pose proof (take_bits_iff p n l t Fp Hn Fl Hl Ht) as I.
  pose proof (take_bits_iff q n l t Fq ltac:(lia) Fl Hl Ht) as J.
  assert (V : exists bt bf, (bt = true <-> bits_of_bytes l ++ t = take_bits n p) /\
     (bf = true <-> bits_of_bytes l ++ t = take_bits n q) /\
     reads (let? (t, f) := tf_loop p q 0 true true (length l) in
      let? (t, f) :=
      (if 0 <? n mod 8
       then
        let? b := BitStream_ReadPartialByte (n mod 8) in
        let* t' := lift (if t then obind (nthZ p (n / 8)) (fun x : Z => Ok (b =? Z.shiftr x (8 - n mod 8))) else Ok false) in
        let* f' := lift (if f then obind (nthZ q (n / 8)) (fun x : Z => Ok (b =? Z.shiftr x (8 - n mod 8))) else Ok false) in
        ret (Some (t', f'))
       else ret (Some (t, f))) in
      ret (if t then Some true else if f then Some false else None))
      (if bt then Some true else if bf then Some false else None) (bits_of_bytes l ++ t)).
  { destruct (Z.ltb_spec 0 (n mod 8)).
    - set (x := nth (Z.to_nat (n / 8)) p 0) in *. set (y := nth (Z.to_nat (n / 8)) q 0) in *.
      assert (X : is_byte x) by (eapply Forall_forall; [exact Fp|]; apply nth_In; lia).
      assert (Y : is_byte y) by (eapply Forall_forall; [exact Fq|]; apply nth_In; lia).
      exists (list_eqb (firstn (length l) p) l && (bval t =? Z.shiftr x (8 - n mod 8))).
      exists (list_eqb (firstn (length l) q) l && (bval t =? Z.shiftr y (8 - n mod 8))).
      split; [|split].
      + rewrite I, andb_true_iff, list_eqb_iff, (last_bits n t x) by assumption. reflexivity.
      + rewrite J, andb_true_iff, list_eqb_iff, (last_bits n t y) by assumption. reflexivity.
      + eapply reads_bindo; [exact R|]. cbv beta iota.
        rewrite <- (app_nil_r t) at 3.
        eapply reads_bindo with (a := (list_eqb (firstn (length l) p) l && (bval t =? Z.shiftr x (8 - n mod 8)),
          list_eqb (firstn (length l) q) l && (bval t =? Z.shiftr y (8 - n mod 8)))); [|cbv beta iota; apply reads_ret].
        match goal with |- reads ?f ?r _ => change (reads f r t) end.
        rewrite <- (app_nil_r t) at 3.
        eapply reads_bindo with (a := bval t).
        { eapply reads_eq; [apply reads_ReadPartialByte; [lia|]|].
          - pose proof (bval_bounds t). rewrite Ht in H0. exact H0.
          - apply Zbits_bval_n. lia. }
        eapply reads_pure_l.
        { intro s. unfold lift. rewrite nthZ_nth by lia. fold x.
          instantiate (1 := list_eqb (firstn (length l) p) l && (bval t =? Z.shiftr x (8 - n mod 8))).
          destruct (list_eqb _ _); reflexivity. }
        eapply reads_pure_l; [|apply reads_ret].
        intro s. unfold lift. rewrite nthZ_nth by lia. fold y. destruct (list_eqb (firstn (length l) q) l); reflexivity.
    - assert (t = []) as -> by (destruct t; [reflexivity|cbn in Ht; lia]). rewrite app_nil_r in *.
      exists (list_eqb (firstn (length l) p) l), (list_eqb (firstn (length l) q) l). split; [|split].
      + rewrite I, list_eqb_iff. intuition.
      + rewrite J, list_eqb_iff. intuition.
      + rewrite <- (app_nil_r (bits_of_bytes l)). eapply reads_bindo; [exact R|]. cbv beta iota.
        rewrite <- (app_nil_r (@nil bool)).
        eapply reads_bindo; [apply reads_ret|]. cbv beta iota. apply reads_ret. }
  destruct V as (bt & bf & V1 & V2 & V3). eexists. split; [exact V3|].
  destruct bt, bf; rewrite <- V1, <- V2; intuition congruence.
Qed.

(** ** Deferred determinants *)
Lemma patch_run : forall enc v d s A old bs B, det_set d = false ->
  overwrites (enc v) tt bs -> Forall is_byte (buf s) -> bits_of_bytes (buf s) = A ++ old ++ B ->
  Z.of_nat (length A) = 8 * fst (det_pos d) + snd (det_pos d) -> 0 <= snd (det_pos d) < 8 ->
  length old = length bs -> Z.of_nat (length A + length bs) <= 8 * count s ->
  exists m, Acn_PatchDet enc v d s = Ok ((true, mkdet (det_pos d) true v (det_str d)), mkbs m (count s) (curByte s) (curBit s)) /\
    Forall is_byte m /\ bits_of_bytes m = A ++ bs ++ B.
Proof.
  intros enc v d s A old bs B Hd W F E Hp Hb Hl Hc.
  destruct (W (mkbs (buf s) (count s) (fst (det_pos d)) (snd (det_pos d))) A old B) as (s' & R & (F' & E' & _ & _) & C').
  - unfold at_, pos. cbn [buf curByte curBit]. auto.
  - assumption.
  - assumption.
  - exists (buf s'). unfold Acn_PatchDet. rewrite Hd. cbn [negb].
    unfold bind, Acn_BitStream_GetPos, bind, get, ret, Acn_BitStream_SetPos, set_cur in *. cbn [fst snd] in *.
    rewrite R. cbn [fst snd] in *. cbn [count] in C'. rewrite C'. rewrite <- app_assoc in E'. auto.
Qed.

Lemma patch_again : forall enc v d s, det_set d = true ->
  Acn_PatchDet enc v d s = Ok ((det_value d =? v, d), s).
Proof. intros. unfold Acn_PatchDet. rewrite H. reflexivity. Qed.

(** Save, encode anything, patch. *)
Lemma writes_deferred : forall {A} enc0 enc v d0 (body : M A) a bs0 bs bb, length bs0 = length bs ->
  writes (enc0 0) tt bs0 -> overwrites (enc v) tt bs -> writes body a bb ->
  writes (let* d := Acn_InitDet enc0 d0 in let* x := body in let* r := Acn_PatchDet enc v d in ret (x, fst r, det_value (snd r)))
    (a, true, v) (bs ++ bb).
Proof.
  intros A enc0 enc v d0 body a bs0 bs bb Hl W0 W WB s pre n tl At Hn Hbs.
  rewrite app_length in Hbs.
  destruct (W0 s pre n tl At Hn ltac:(lia)) as (s1 & R1 & At1 & C1).
  destruct (WB s1 (pre ++ bs0) (n - length bs0)%nat tl At1) as (s2 & R2 & At2 & C2).
  { rewrite app_length, C1. lia. }
  { lia. }
  destruct At as (F & E & P & B). destruct At2 as (F2 & E2 & P2 & B2).
  destruct (patch_run enc v (mkdet (curByte s, curBit s) false 0 (det_str d0)) s2 pre bs0 bs
    (bb ++ zeros (n - length bs0 - length bb) ++ tl)) as (m & R3 & F3 & E3); try assumption; try reflexivity.
  - rewrite E2, <- !app_assoc. reflexivity.
  - rewrite C2, C1. lia.
  - exists (mkbs m (count s2) (curByte s2) (curBit s2)).
    unfold bind at 1. unfold Acn_InitDet, bind at 1, Acn_BitStream_GetPos, bind at 1, get, ret at 1.
    unfold bind at 1. rewrite R1. unfold ret at 1. unfold bind at 1. rewrite R2. unfold bind at 1. rewrite R3.
    split; [reflexivity|]. split; [|cbn [count]; lia].
    unfold at_. cbn [buf curByte curBit]. unfold pos in *. cbn [curByte curBit]. split; [assumption|]. split; [|split; [|exact B2]].
    + rewrite E3, app_length, <- !app_assoc, Nat.sub_add_distr, Hl. reflexivity.
    + rewrite !app_length in *. lia.
Qed.

Lemma bit_test : forall v k, 0 <= k -> negb (Z.land (Z.shiftr v k) 1 =? 0) = Z.testbit v k.
Proof.
  intros v k Hk. change 1 with (Z.ones 1). rewrite Z.land_ones by lia. rewrite Z.shiftr_div_pow2 by lia.
  pose proof (Z.testbit_spec' v k Hk) as T. change (2 ^ 1) with 2.
  destruct (Z.testbit v k); cbn [Z.b2z] in T; rewrite <- T; reflexivity.
Qed.
Lemma overwrites_patch_bits : forall c v nBits k i, (Z.of_nat k = nBits - i) -> 0 <= i -> nBits <= 64 ->
  overwrites (patch_bits c v nBits i k) tt (Zbits k v).
Proof.
  induction k; intros i Hk Hi Hn; cbn [patch_bits].
  - apply overwrites_ret.
  - destruct (Z.leb_spec 64 (nBits - 1 - i)); [lia|].
    change (Zbits (S k) v) with ([Z.testbit v (Z.of_nat k)] ++ Zbits k v).
    eapply overwrites_bind; [|apply IHk; lia].
    rewrite bit_test by lia. replace (nBits - 1 - i) with (Z.of_nat k) by lia. apply overwrites_AppendBit.
Qed.
Lemma overwrites_patch_ConstSize : forall c v nBits, 0 <= nBits <= 64 ->
  overwrites (patch_bits c v nBits 0 (Z.to_nat nBits)) tt (Zbits (Z.to_nat nBits) v).
Proof. intros. apply overwrites_patch_bits; lia. Qed.
Lemma overwrites_Bool1 : forall c v, overwrites (Acn_Enc_Bool_1bit c v) tt [negb (v =? 0)].
Proof. intros. apply overwrites_AppendBit. Qed.

(** IA5String determinants *)
Lemma overwrites_zero_bits : forall c k, overwrites (zero_bits c k) tt (zeros k).
Proof.
  induction k; cbn [zero_bits]; [apply overwrites_ret|].
  change (zeros (S k)) with ([false] ++ zeros k). eapply overwrites_bind; [apply overwrites_AppendBit|assumption].
Qed.
Lemma overwrites_char_bits : forall c ch k, overwrites (char_bits c ch k) tt (Zbits k ch).
Proof.
  induction k; cbn [char_bits]; [apply overwrites_ret|].
  change (Zbits (S k) ch) with ([Z.testbit ch (Z.of_nat k)] ++ Zbits k ch).
  eapply overwrites_bind; [|assumption]. rewrite bit_test by lia. apply overwrites_AppendBit.
Qed.
Lemma strlen_from_ok : forall l tl r, Forall (fun ch => ch <> 0) l ->
  strlen_from (l ++ 0 :: tl) r = Ok (r + Z.of_nat (length l)).
Proof.
  induction l; intros tl r F; cbn [strlen_from app length].
  - cbn. f_equal. lia.
  - destruct (Z.eqb_spec a 0) as [|_]; [exfalso; exact (Forall_inv F e)|].
    rewrite IHl by exact (Forall_inv_tail F). f_equal. lia.
Qed.
Lemma strlen_ok : forall mem l, c_string mem l -> strlen mem = Ok (Z.of_nat (length l)).
Proof. intros mem l (tl & -> & F). unfold strlen. rewrite strlen_from_ok by assumption. f_equal. Qed.

Lemma firstn_repeat : forall (x : Z) n m, firstn n (repeat x m) = repeat x (Nat.min n m).
Proof. intros x. induction n; intros [|m]; cbn [firstn repeat Nat.min]; f_equal; auto. Qed.

Lemma overwrites_chars_loop : forall c k mem l1 l2 tl, mem = l1 ++ l2 ++ 0 :: tl ->
  overwrites (chars_loop c mem (Z.of_nat (length (l1 ++ l2))) (Z.of_nat (length l1)) k) tt (ia5_padded l2 k).
Proof.
  induction k; intros mem l1 l2 tl ->; cbn [chars_loop].
  - unfold ia5_padded. cbn. apply overwrites_ret.
  - destruct l2 as [|x l2].
    + eapply overwrites_pure_l with (a := 32).
      { intro s. unfold lift. rewrite app_nil_r. destruct (Z.ltb_spec (Z.of_nat (length l1)) (Z.of_nat (length l1))); [lia|reflexivity]. }
      replace (ia5_padded [] (S k)) with (Zbits 7 32 ++ ia5_padded [] k).
      2:{ unfold ia5_padded. cbn [app repeat firstn map concat]. reflexivity. }
      eapply overwrites_bind; [apply overwrites_char_bits|].
      (* past the end every character is a space *)
      assert (G : forall k j, Z.of_nat (length (l1 ++ @nil Z)) <= j ->
        overwrites (chars_loop c (l1 ++ [] ++ 0 :: tl) (Z.of_nat (length (l1 ++ @nil Z))) j k) tt (ia5_padded [] k)).
      { clear. induction k; intros j Hj; cbn [chars_loop]; [apply overwrites_ret|].
        eapply overwrites_pure_l with (a := 32).
        { intro s. unfold lift. destruct (Z.ltb_spec j (Z.of_nat (length (l1 ++ @nil Z)))); [lia|reflexivity]. }
        replace (ia5_padded [] (S k)) with (Zbits 7 32 ++ ia5_padded [] k).
        2:{ unfold ia5_padded. cbn [app repeat firstn map concat]. reflexivity. }
        eapply overwrites_bind; [apply overwrites_char_bits|]. apply IHk. lia. }
      apply G. rewrite app_nil_r. lia.
    + eapply overwrites_pure_l with (a := x).
      { intro s. unfold lift. rewrite app_length. cbn [length app].
        destruct (Z.ltb_spec (Z.of_nat (length l1)) (Z.of_nat (length l1 + S (length l2)))); [|lia]. rewrite nthZ_mid. reflexivity. }
      replace (ia5_padded (x :: l2) (S k)) with (Zbits 7 x ++ ia5_padded l2 k).
      2:{ unfold ia5_padded. cbn [app firstn map concat]. f_equal. f_equal. f_equal.
          rewrite !firstn_app, !firstn_repeat. f_equal. f_equal. lia. }
      eapply overwrites_bind; [apply overwrites_char_bits|].
      replace (l1 ++ x :: l2) with ((l1 ++ [x]) ++ l2) by (rewrite <- app_assoc; reflexivity).
      replace (Z.of_nat (length l1) + 1) with (Z.of_nat (length (l1 ++ [x]))) by (rewrite app_length; cbn; lia).
      apply IHk with (tl := tl). rewrite <- app_assoc. reflexivity.
Qed.
Lemma len_ia5_padded : forall l n, length (ia5_padded l n) = (n * 7)%nat.
Proof.
  intros. unfold ia5_padded.
  assert (G : forall q, length (concat (map (Zbits 7) q)) = (length q * 7)%nat).
  { induction q; [reflexivity|]. cbn [map concat length]. rewrite app_length, IHq, len_Zbits. lia. }
  rewrite G, firstn_length, app_length, repeat_length. lia.
Qed.

(** strncpy(d, s, 255) of a C string: its first 255 characters, zeros after a
    shorter one. *)
Lemma strncpy_ok : forall n l tl, Forall (fun ch => ch <> 0) l ->
  strncpy (l ++ 0 :: tl) n = Ok (firstn n (l ++ repeat 0 n)).
Proof.
  induction n; intros l tl F; [destruct l; reflexivity|]. destruct l as [|x l]; cbn [strncpy app].
  - cbn [Z.eqb]. f_equal. symmetry. rewrite firstn_all2; [reflexivity|rewrite repeat_length; lia].
  - destruct (Z.eqb_spec x 0) as [e|_]; [exfalso; exact (Forall_inv F e)|].
    rewrite IHn by exact (Forall_inv_tail F). cbn [obind firstn]. do 2 f_equal.
    rewrite !firstn_app, !firstn_repeat. f_equal. f_equal. lia.
Qed.

Lemma patch_IA5_run : forall c mem l n d s A old B, c_string mem l -> Z.of_nat (length l) < 2 ^ 31 ->
  det_set d = false -> Forall is_byte (buf s) -> bits_of_bytes (buf s) = A ++ old ++ B ->
  Z.of_nat (length A) = 8 * fst (det_pos d) + snd (det_pos d) -> 0 <= snd (det_pos d) < 8 ->
  length old = (n * 7)%nat -> Z.of_nat (length A + n * 7) <= 8 * count s ->
  exists m, Acn_PatchDet_IA5String_FixSize c mem (Z.of_nat n) d s =
      Ok ((true, mkdet (det_pos d) true (det_value d) (firstn 255 (l ++ repeat 0 255) ++ [0])),
          mkbs m (count s) (curByte s) (curBit s)) /\
    Forall is_byte m /\ bits_of_bytes m = A ++ ia5_padded l n ++ B.
Proof.
  intros c mem l n d s A old B Hs Hl Hd F E Hp Hb Ho Hc.
  pose proof Hs as (tl & Em & Fl).
  pose proof (overwrites_chars_loop c n mem [] l tl Em) as W. cbn [app length] in W. change (Z.of_nat 0) with 0 in W.
  destruct (W (mkbs (buf s) (count s) (fst (det_pos d)) (snd (det_pos d))) A old B) as (s' & R & (F' & E' & _ & _) & C').
  - unfold at_, pos. cbn [buf curByte curBit]. auto.
  - now rewrite len_ia5_padded.
  - now rewrite len_ia5_padded.
  - exists (buf s'). unfold Acn_PatchDet_IA5String_FixSize. rewrite Hd. cbn [negb].
    unfold bind at 1, lift at 1. rewrite (strlen_ok mem l Hs).
    assert (S32 : s32 (Z.of_nat (length l)) = Z.of_nat (length l)).
    { apply sN_id; lia. }
    rewrite S32, Nat2Z.id.
    unfold bind, Acn_BitStream_GetPos, bind, get, ret, Acn_BitStream_SetPos, set_cur, lift in *. cbn [fst snd] in *.
    rewrite R. cbn [fst snd] in *. rewrite Em, strncpy_ok by assumption.
    cbn [count] in C'. rewrite C'. rewrite <- app_assoc in E'. auto.
Qed.

(** ** IEEE 754 reals *)
Lemma le_octets_byte : forall k v, Forall is_byte (le_octets k v).
Proof. induction k; intros; cbn [le_octets]; constructor; auto. red. lia. Qed.
Lemma len_le_octets : forall k v, length (le_octets k v) = k.
Proof. induction k; intros; cbn [le_octets length]; auto. Qed.
Lemma le_value_octets : forall k v, le_value (le_octets k v) = v mod 256 ^ Z.of_nat k.
Proof.
  induction k; intros; cbn [le_octets le_value].
  - change (256 ^ Z.of_nat 0) with 1. now rewrite Z.mod_1_r.
  - rewrite IHk. replace (Z.of_nat (S k)) with (1 + Z.of_nat k) by lia. rewrite Z.pow_add_r by lia.
    change (256 ^ 1) with 256. pose proof (Z.pow_pos_nonneg 256 (Z.of_nat k) ltac:(lia) ltac:(lia)).
    rewrite Z.rem_mul_r by lia. lia.
Qed.
Lemma be_bits : forall k v, bits_of_bytes (rev (le_octets k v)) = Zbits (8 * k) v.
Proof.
  induction k; intros; cbn [le_octets rev]; [reflexivity|].
  rewrite bits_of_bytes_app, IHk, bits_cons. change (bits_of_bytes []) with (@nil bool). rewrite app_nil_r.
  replace (8 * S k)%nat with (8 * k + 8)%nat by lia. rewrite Zbits_app. f_equal.
  - change (Z.of_nat 8) with 8. now rewrite Z.shiftr_div_pow2 by lia.
  - exact (Zbits_mod 8 v).
Qed.

Lemma overwrites_put_up : forall l2 l1, Forall is_byte l2 ->
  overwrites (put_up (l1 ++ l2) (Z.of_nat (length l1)) (length l2)) tt (bits_of_bytes l2).
Proof.
  induction l2; intros l1 F; cbn [put_up length].
  - apply overwrites_ret.
  - eapply overwrites_pure_l. { intro s. unfold lift. rewrite nthZ_mid. reflexivity. }
    rewrite bits_cons. eapply overwrites_bind; [apply overwrites_AppendByte0; exact (Forall_inv F)|].
    replace (l1 ++ a :: l2) with ((l1 ++ [a]) ++ l2) by (rewrite <- app_assoc; reflexivity).
    replace (Z.of_nat (length l1) + 1) with (Z.of_nat (length (l1 ++ [a]))) by (rewrite app_length; cbn; lia).
    apply IHl2. exact (Forall_inv_tail F).
Qed.
Lemma overwrites_put_down : forall l1 l2, Forall is_byte l1 ->
  overwrites (put_down (l1 ++ l2) (length l1)) tt (bits_of_bytes (rev l1)).
Proof.
  induction l1 using rev_ind; intros l2 F; cbn [put_down length].
  - apply overwrites_ret.
  - rewrite app_length, Nat.add_comm. cbn [Nat.add length put_down]. apply Forall_app in F. destruct F as [F Fx].
    rewrite <- app_assoc. cbn [app].
    eapply overwrites_pure_l. { intro s. unfold lift. rewrite nthZ_mid. reflexivity. }
    rewrite rev_app_distr. cbn [rev app]. rewrite bits_cons.
    eapply overwrites_bind; [apply overwrites_AppendByte0; exact (Forall_inv Fx)|]. now apply IHl1.
Qed.
Lemma updZ_mid : forall l1 x l2 y, updZ (l1 ++ x :: l2) (Z.of_nat (length l1)) y = Ok (l1 ++ y :: l2).
Proof. intros. rewrite updZ_app by reflexivity. reflexivity. Qed.
Lemma reads_get_up : forall l b1 b2, Forall is_byte l -> length b2 = length l ->
  reads (get_up (b1 ++ b2) (Z.of_nat (length b1)) (length l)) (Some (b1 ++ l)) (bits_of_bytes l).
Proof.
  induction l; intros b1 b2 F H; cbn [get_up length].
  - destruct b2; [|discriminate]. apply reads_ret.
  - destruct b2 as [|y b2]; [discriminate|]. rewrite bits_cons.
    eapply reads_bindo with (a := a); [apply reads_ReadByte; exact (Forall_inv F)|].
    eapply reads_pure_l. { intro s. unfold lift. rewrite updZ_mid. reflexivity. }
    replace (b1 ++ a :: b2) with ((b1 ++ [a]) ++ b2) by (rewrite <- app_assoc; reflexivity).
    replace (b1 ++ a :: l) with ((b1 ++ [a]) ++ l) by (rewrite <- app_assoc; reflexivity).
    replace (Z.of_nat (length b1) + 1) with (Z.of_nat (length (b1 ++ [a]))) by (rewrite app_length; cbn; lia).
    apply IHl; [exact (Forall_inv_tail F)|now injection H].
Qed.
Lemma reads_get_down : forall l b1 b2, Forall is_byte l -> length b1 = length l ->
  reads (get_down (b1 ++ b2) (length l)) (Some (rev l ++ b2)) (bits_of_bytes l).
Proof.
  induction l; intros b1 b2 F H; cbn [get_down length].
  - destruct b1; [|discriminate]. apply reads_ret.
  - destruct (exists_last (l := b1)) as (b & y & ->); [intros ->; discriminate|]. rewrite bits_cons.
    rewrite app_length, Nat.add_comm in H. cbn in H. injection H as H.
    eapply reads_bindo with (a := a); [apply reads_ReadByte; exact (Forall_inv F)|].
    rewrite <- app_assoc. cbn [app].
    eapply reads_pure_l. { intro s. unfold lift. rewrite <- H, updZ_mid. reflexivity. }
    cbn [rev]. rewrite <- app_assoc. cbn [app]. apply IHl; [exact (Forall_inv_tail F)|assumption].
Qed.

Lemma obj_bytes_rev : forall le k u, obj_bytes (negb le) k u = rev (obj_bytes le k u).
Proof. intros. destruct le; cbn [negb obj_bytes]; unfold obj_bytes; [reflexivity|now rewrite rev_involutive]. Qed.
Lemma obj_bytes_byte : forall le k u, Forall is_byte (obj_bytes le k u).
Proof. intros. destruct le; unfold obj_bytes; [|apply Forall_rev]; apply le_octets_byte. Qed.
Lemma len_obj_bytes : forall le k u, length (obj_bytes le k u) = k.
Proof. intros. destruct le; unfold obj_bytes; rewrite ?rev_length; apply len_le_octets. Qed.
Lemma obj_value_bytes : forall le k u, obj_value le (obj_bytes le k u) = u mod 256 ^ Z.of_nat k.
Proof. intros. destruct le; unfold obj_value, obj_bytes; rewrite ?rev_involutive; apply le_value_octets. Qed.

Lemma overwrites_real_be : forall le k u, overwrites (Acn_enc_real_big_endian le k u) tt (Zbits (8 * k) u).
Proof.
  intros. unfold Acn_enc_real_big_endian, RequiresReverse. rewrite <- be_bits. destruct le; cbn [negb].
  - pose proof (overwrites_put_down (obj_bytes true k u) [] (obj_bytes_byte true k u)) as W.
    rewrite app_nil_r, len_obj_bytes in W. exact W.
  - pose proof (overwrites_put_up (obj_bytes false k u) [] (obj_bytes_byte false k u)) as W.
    rewrite len_obj_bytes in W. exact W.
Qed.
Lemma overwrites_real_le : forall le k u, overwrites (Acn_enc_real_little_endian le k u) tt (bits_of_bytes (le_octets k u)).
Proof.
  intros. unfold Acn_enc_real_little_endian, RequiresReverse. destruct le.
  - pose proof (overwrites_put_up (obj_bytes true k u) [] (obj_bytes_byte true k u)) as W.
    rewrite len_obj_bytes in W. exact W.
  - pose proof (overwrites_put_down (obj_bytes false k u) [] (obj_bytes_byte false k u)) as W.
    rewrite app_nil_r, len_obj_bytes in W. unfold obj_bytes in W at 2. rewrite rev_involutive in W. exact W.
Qed.
Lemma reads_real_be : forall le k u, 0 <= u < 256 ^ Z.of_nat k ->
  reads (Acn_dec_real_big_endian le k) (Some u) (Zbits (8 * k) u).
Proof.
  intros le k u Hu. unfold Acn_dec_real_big_endian, RequiresReverse. rewrite <- be_bits.
  rewrite <- (app_nil_r (bits_of_bytes _)).
  assert (E : u = obj_value le (obj_bytes le k u)) by (rewrite obj_value_bytes, Z.mod_small by lia; reflexivity).
  eapply reads_bindo with (a := obj_bytes le k u); [|rewrite E at 2; apply reads_ret].
  pose proof (Forall_rev (le_octets_byte k u)) as F.
  destruct le; cbn [negb].
  - pose proof (reads_get_down (rev (le_octets k u)) (obj_bytes true k 0) [] F) as R.
    rewrite (len_obj_bytes true k 0), rev_length, (len_le_octets k u), !app_nil_r, rev_involutive in R. exact (R eq_refl).
  - pose proof (reads_get_up (rev (le_octets k u)) [] (obj_bytes false k 0) F) as R.
    rewrite (len_obj_bytes false k 0), rev_length, (len_le_octets k u) in R. exact (R eq_refl).
Qed.
Lemma reads_real_le : forall le k u, 0 <= u < 256 ^ Z.of_nat k ->
  reads (Acn_dec_real_little_endian le k) (Some u) (bits_of_bytes (le_octets k u)).
Proof.
  intros le k u Hu. unfold Acn_dec_real_little_endian, RequiresReverse.
  rewrite <- (app_nil_r (bits_of_bytes _)).
  assert (E : u = obj_value le (obj_bytes le k u)) by (rewrite obj_value_bytes, Z.mod_small by lia; reflexivity).
  eapply reads_bindo with (a := obj_bytes le k u); [|rewrite E at 2; apply reads_ret].
  pose proof (le_octets_byte k u) as F.
  destruct le; cbn [negb].
  - pose proof (reads_get_up (le_octets k u) [] (obj_bytes true k 0) F) as R.
    rewrite (len_obj_bytes true k 0), (len_le_octets k u) in R. exact (R eq_refl).
  - pose proof (reads_get_down (le_octets k u) (obj_bytes false k 0) [] F) as R.
    rewrite (len_obj_bytes false k 0), (len_le_octets k u), !app_nil_r in R. exact (R eq_refl).
Qed.

(** The fields of a pattern. *)
Lemma ieee_fields : forall mb eb (s : bool) e f, 0 < mb -> 0 < eb -> 0 <= e < 2 ^ eb -> 0 <= f < 2 ^ mb ->
  let u := (if s then 2 ^ (mb + eb) else 0) + e * 2 ^ mb + f in
  0 <= u < 2 ^ (mb + eb + 1) /\
  Z.testbit u (mb + eb) = s /\ (u / 2 ^ mb) mod 2 ^ eb = e /\ u mod 2 ^ mb = f.
Proof.
  intros mb eb s e f Hm He Eb Fb u.
  assert (P : 2 ^ (mb + eb) = 2 ^ mb * 2 ^ eb) by (apply Z.pow_add_r; lia).
  assert (P1 : 2 ^ (mb + eb + 1) = 2 * 2 ^ (mb + eb)) by (rewrite Z.pow_add_r by lia; lia).
  pose proof (Z.pow_pos_nonneg 2 mb ltac:(lia) ltac:(lia)). pose proof (Z.pow_pos_nonneg 2 eb ltac:(lia) ltac:(lia)).
  assert (L : 0 <= e * 2 ^ mb + f < 2 ^ (mb + eb)) by (rewrite P; nia).
  assert (U : u = (if s then 1 else 0) * 2 ^ (mb + eb) + (e * 2 ^ mb + f)) by (unfold u; destruct s; lia).
  split; [|split; [|split]].
  - destruct s; lia.
  - pose proof (Z.testbit_spec' u (mb + eb) ltac:(lia)) as T. rewrite U, Z.add_comm, Z.div_add in T by lia.
    rewrite Z.div_small in T by lia.
    replace (Z.testbit u (mb + eb)) with (Z.testbit (e * 2 ^ mb + f + (if s then 1 else 0) * 2 ^ (mb + eb)) (mb + eb)) by (f_equal; lia).
    destruct (Z.testbit _ _), s; cbn in T; try reflexivity; discriminate.
  - rewrite U, P. replace ((if s then 1 else 0) * (2 ^ mb * 2 ^ eb) + (e * 2 ^ mb + f)) with
      (f + (e + (if s then 1 else 0) * 2 ^ eb) * 2 ^ mb) by lia.
    rewrite Z.div_add, Z.div_small by lia. rewrite Z.add_0_l, Z.mod_add by lia. apply Z.mod_small. lia.
  - rewrite U, P. replace ((if s then 1 else 0) * (2 ^ mb * 2 ^ eb) + (e * 2 ^ mb + f)) with
      (f + (e + (if s then 1 else 0) * 2 ^ eb) * 2 ^ mb) by lia.
    rewrite Z.mod_add by lia. apply Z.mod_small. lia.
Qed.

(** The shape of a valid finite number. *)
Lemma valid_shape : forall prec emax s m e, 1 < prec -> prec < emax -> valid_binary prec emax (S754_finite s m e) = true ->
  Zpos m < 2 ^ prec /\ 3 - emax - prec <= e <= emax - prec /\ (Zpos m < 2 ^ (prec - 1) -> e = 3 - emax - prec).
Proof.
  intros prec emax s m e Hp He V. unfold valid_binary, bounded, canonical_mantissa in V.
  apply andb_prop in V. destruct V as [V1 V2]. apply Zeq_bool_eq in V1. apply Zle_bool_imp_le in V2.
  rewrite digits_nbits in V1. unfold fexp, emin in V1.
  pose proof (nbits_pow (Zpos m) prec ltac:(lia)) as B. pose proof (nbits_pow (Zpos m) (prec - 1) ltac:(lia)) as B1.
  pose proof (nbits_pos (Zpos m) ltac:(lia)).
  assert (nbits (Zpos m) <= prec) by lia. split; [now apply B|]. split; [lia|].
  intro Hm. apply B1 in Hm. lia.
Qed.
Lemma double_bits_ok : forall x, is_double x ->
  0 <= double_bits x < 2 ^ 64 /\ ieee_value 52 11 (double_bits x) = x.
Proof.
  intros x V.
  assert (G : forall (s : bool) e f, 0 <= e < 2 ^ 11 -> 0 <= f < 2 ^ 52 ->
    let u := (if s then 2 ^ 63 else 0) + e * 2 ^ 52 + f in 0 <= u < 2 ^ 64 /\
    ieee_value 52 11 u = if e =? 2047 then if f =? 0 then S754_infinity s else S754_nan
      else if e =? 0 then if f =? 0 then S754_zero s else S754_finite s (Z.to_pos f) (-1074)
      else S754_finite s (Z.to_pos (f + 2 ^ 52)) (e - 1075)).
  { intros s e f Eb Fb u. destruct (ieee_fields 52 11 s e f ltac:(lia) ltac:(lia) Eb Fb) as (U & T & D & M).
    change (52 + 11 + 1) with 64 in U. change (52 + 11) with 63 in *. fold u in U, T, D, M. split; [exact U|].
    unfold ieee_value. change (52 + 11) with 63. rewrite T, D, M.
    change (2 ^ 11 - 1) with 2047. change (2 ^ (11 - 1) - 1) with 1023. change (1 - 1023 - 52) with (-1074).
    replace (e - 1023 - 52) with (e - 1075) by lia. reflexivity. }
  destruct x as [s|s| |s m e].
  - pose proof (G s 0 0 ltac:(lia) ltac:(lia)) as R. cbv zeta in R. rewrite Z.mul_0_l, !Z.add_0_r in R. exact R.
  - pose proof (G s 2047 0 ltac:(lia) ltac:(lia)) as R. cbv zeta in R. rewrite Z.add_0_r in R. exact R.
  - exact (G false 2047 (2 ^ 51) ltac:(lia) ltac:(lia)).
  - destruct (valid_shape 53 1024 s m e ltac:(lia) ltac:(lia) V) as (M & E & N).
    change (53 - 1) with 52 in N. unfold double_bits. destruct (Z.ltb_spec (Zpos m) (2 ^ 52)).
    + pose proof (G s 0 (Zpos m) ltac:(lia) ltac:(lia)) as R. cbv zeta in R. rewrite Z.mul_0_l, !Z.add_0_r in R.
      change (0 =? 2047) with false in R. change (0 =? 0) with true in R. change (Zpos m =? 0) with false in R.
      cbv iota in R. change (Z.to_pos (Zpos m)) with m in R. rewrite (N H). exact R.
    + pose proof (G s (e + 1075) (Zpos m - 2 ^ 52) ltac:(lia) ltac:(lia)) as R. cbv zeta in R.
      rewrite <- Z.add_assoc in R. replace (e + 1075 =? 2047) with false in R by lia.
      replace (e + 1075 =? 0) with false in R by lia. replace (Zpos m - 2 ^ 52 + 2 ^ 52) with (Zpos m) in R by lia.
      replace (e + 1075 - 1075) with e in R by lia. exact R.
Qed.
Lemma float_bits_ok : forall x, is_float x ->
  0 <= float_bits x < 2 ^ 32 /\ ieee_value 23 8 (float_bits x) = x.
Proof.
  intros x V.
  assert (G : forall (s : bool) e f, 0 <= e < 2 ^ 8 -> 0 <= f < 2 ^ 23 ->
    let u := (if s then 2 ^ 31 else 0) + e * 2 ^ 23 + f in 0 <= u < 2 ^ 32 /\
    ieee_value 23 8 u = if e =? 255 then if f =? 0 then S754_infinity s else S754_nan
      else if e =? 0 then if f =? 0 then S754_zero s else S754_finite s (Z.to_pos f) (-149)
      else S754_finite s (Z.to_pos (f + 2 ^ 23)) (e - 150)).
  { intros s e f Eb Fb u. destruct (ieee_fields 23 8 s e f ltac:(lia) ltac:(lia) Eb Fb) as (U & T & D & M).
    change (23 + 8 + 1) with 32 in U. change (23 + 8) with 31 in *. fold u in U, T, D, M. split; [exact U|].
    unfold ieee_value. change (23 + 8) with 31. rewrite T, D, M.
    change (2 ^ 8 - 1) with 255. change (2 ^ (8 - 1) - 1) with 127. change (1 - 127 - 23) with (-149).
    replace (e - 127 - 23) with (e - 150) by lia. reflexivity. }
  destruct x as [s|s| |s m e].
  - pose proof (G s 0 0 ltac:(lia) ltac:(lia)) as R. cbv zeta in R. rewrite Z.mul_0_l, !Z.add_0_r in R. exact R.
  - pose proof (G s 255 0 ltac:(lia) ltac:(lia)) as R. cbv zeta in R. rewrite Z.add_0_r in R. exact R.
  - exact (G false 255 (2 ^ 22) ltac:(lia) ltac:(lia)).
  - destruct (valid_shape 24 128 s m e ltac:(lia) ltac:(lia) V) as (M & E & N).
    change (24 - 1) with 23 in N. unfold float_bits. destruct (Z.ltb_spec (Zpos m) (2 ^ 23)).
    + pose proof (G s 0 (Zpos m) ltac:(lia) ltac:(lia)) as R. cbv zeta in R. rewrite Z.mul_0_l, !Z.add_0_r in R.
      change (0 =? 255) with false in R. change (0 =? 0) with true in R. change (Zpos m =? 0) with false in R.
      cbv iota in R. change (Z.to_pos (Zpos m)) with m in R. rewrite (N H). exact R.
    + pose proof (G s (e + 150) (Zpos m - 2 ^ 23) ltac:(lia) ltac:(lia)) as R. cbv zeta in R.
      rewrite <- Z.add_assoc in R. replace (e + 150 =? 255) with false in R by lia.
      replace (e + 150 =? 0) with false in R by lia. replace (Zpos m - 2 ^ 23 + 2 ^ 23) with (Zpos m) in R by lia.
      replace (e + 150 - 150) with e in R by lia. exact R.
Qed.
