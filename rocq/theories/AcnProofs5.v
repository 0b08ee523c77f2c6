(** ACN character strings. *)
From Verif Require Import Base Bits BitStream Ints Contracts Misc Octets AcnSpec Acn AcnStr.
From Verif Require Import BitsProofs BitStreamProofs BitStreamProofs2 BitStreamProofs3 IntsProofs SafeProofs MiscProofs.
From Verif Require Import OctetsProofs AcnProofs1 AcnProofs3 AcnProofs4.
From Coq Require Import ZifyBool ZifyNat.
Ltac Zify.zify_post_hook ::= Z.div_mod_to_equations.

(** ** Encoders *)
Lemma writes_enc_fix : forall (put : Z -> M unit) (g : Z -> list bool) tl l2 l1,
  Forall (fun ch => writes (put ch) tt (g ch)) l2 ->
  writes (enc_fix put (l1 ++ l2 ++ tl) (length l2) (Z.of_nat (length l1))) tt (concat (map g l2)).
Proof.
  intros put g tl. induction l2; intros l1 F; cbn [enc_fix length map concat app].
  - apply writes_ret.
  - eapply writes_pure_l. { intro s. unfold lift. rewrite nthZ_mid. reflexivity. }
    eapply writes_bind; [exact (Forall_inv F)|].
    replace (l1 ++ a :: l2 ++ tl) with ((l1 ++ [a]) ++ l2 ++ tl) by (rewrite <- app_assoc; reflexivity).
    replace (Z.of_nat (length l1) + 1) with (Z.of_nat (length (l1 ++ [a]))) by (rewrite app_length; cbn; lia).
    apply IHl2. exact (Forall_inv_tail F).
Qed.
Lemma writes_enc_str : forall (put : Z -> M unit) (g : Z -> list bool) tl l2 l1 k,
  Forall (fun ch => writes (put ch) tt (g ch)) l2 -> Forall (fun ch => ch <> 0) l2 -> (length l2 <= k)%nat ->
  writes (enc_str put (l1 ++ l2 ++ 0 :: tl) k (Z.of_nat (length l1))) tt (concat (map g l2)).
Proof.
  intros put g tl. induction l2; intros l1 k F N Hk; cbn [length map concat app].
  - destruct k; cbn [enc_str]; [apply writes_ret|].
    eapply writes_pure_l. { intro s. unfold lift. rewrite nthZ_mid. reflexivity. }
    cbn [Z.eqb]. apply writes_ret.
  - destruct k; [cbn in Hk; lia|]. cbn [enc_str].
    eapply writes_pure_l. { intro s. unfold lift. rewrite nthZ_mid. reflexivity. }
    destruct (Z.eqb_spec a 0) as [e|_]; [exfalso; exact (Forall_inv N e)|].
    eapply writes_bind; [exact (Forall_inv F)|].
    replace (l1 ++ a :: l2 ++ 0 :: tl) with ((l1 ++ [a]) ++ l2 ++ 0 :: tl) by (rewrite <- app_assoc; reflexivity).
    replace (Z.of_nat (length l1) + 1) with (Z.of_nat (length (l1 ++ [a]))) by (rewrite app_length; cbn; lia).
    apply IHl2; [exact (Forall_inv_tail F)|exact (Forall_inv_tail N)|cbn in Hk; lia].
Qed.
Lemma concat_bytes : forall l, concat (map (Zbits 8) l) = bits_of_bytes l.
Proof. induction l; [reflexivity|]. cbn [map concat]. now rewrite IHl, bits_cons. Qed.
Lemma writes_put_ascii : forall c ch, is_byte ch -> writes (put_ascii c ch) tt (Zbits 8 ch).
Proof. intros. apply overwrites_writes. exact (overwrites_AppendByte c ch false H). Qed.
Lemma writes_put_asciis : forall c l, Forall is_byte l -> Forall (fun ch => writes (put_ascii c ch) tt (Zbits 8 ch)) l.
Proof. intros. eapply Forall_impl; [|eassumption]. intros. now apply writes_put_ascii. Qed.

Lemma char_loop_first : forall set l1 ch, In ch set ->
  char_loop (length set) ch (l1 ++ set) (Z.of_nat (length l1)) = Ok (Z.of_nat (length l1) + first_index ch set).
Proof.
  induction set; intros l1 ch H; [destruct H|]. cbn [char_loop length first_index].
  rewrite nthZ_mid. cbn [obind]. destruct (Z.eqb_spec ch a) as [|Hne]; [f_equal; lia|].
  replace (l1 ++ a :: set) with ((l1 ++ [a]) ++ set) by (rewrite <- app_assoc; reflexivity).
  replace (Z.of_nat (length l1) + 1) with (Z.of_nat (length (l1 ++ [a]))) by (rewrite app_length; cbn; lia).
  rewrite IHset by (destruct H; [congruence|assumption]). f_equal. rewrite app_length. cbn [length]. lia.
Qed.
Lemma GetCharIndex_first : forall ch set, In ch set ->
  GetCharIndex ch set (Z.of_nat (length set)) = Ok (first_index ch set).
Proof. intros. unfold GetCharIndex. rewrite Nat2Z.id. exact (char_loop_first set [] ch H). Qed.
Lemma first_index_nth : forall ch set, In ch set ->
  0 <= first_index ch set < Z.of_nat (length set) /\ nthZ set (first_index ch set) = Ok ch.
Proof.
  intros ch set H.
  assert (G : 0 <= first_index ch set < Z.of_nat (length set) /\ nth (Z.to_nat (first_index ch set)) set 0 = ch).
  { induction set; [destruct H|]. cbn [first_index length]. destruct (Z.eqb_spec ch a) as [E|Hne].
    - split; [lia|]. cbn. auto.
    - destruct IHset as [B N]; [destruct H; [congruence|assumption]|]. split; [lia|].
      replace (Z.to_nat (1 + first_index ch set)) with (S (Z.to_nat (first_index ch set))) by lia. exact N. }
  destruct G as [B N]. split; [exact B|]. rewrite nthZ_nth by lia. now rewrite N.
Qed.
Lemma schar_id : forall ch, 0 <= ch < 128 -> schar ch = ch.
Proof. intros. unfold schar. apply sN_id; lia. Qed.
Lemma writes_put_index : forall c set ch, Z.of_nat (length set) < 2 ^ 62 -> char_of set ch ->
  writes (put_index c set (Z.of_nat (length set)) ch) tt
    (Zbits (crange 0 (Z.of_nat (length set) - 1)) (first_index ch set)).
Proof.
  intros c set ch Hs [Hc Hin]. unfold put_index. rewrite schar_id by assumption.
  eapply writes_pure_l. { intro s. unfold lift. rewrite GetCharIndex_first by assumption. reflexivity. }
  destruct (first_index_nth ch set Hin) as [B _].
  eapply writes_eq; [apply writes_EncodeConstraint; unfold is_s64, two63, sfits; try left; unfold is_s64, two63; lia|].
  f_equal. lia.
Qed.
Lemma writes_put_indexes : forall c set l, Z.of_nat (length set) < 2 ^ 62 -> Forall (char_of set) l ->
  Forall (fun ch => writes (put_index c set (Z.of_nat (length set)) ch) tt
    (Zbits (crange 0 (Z.of_nat (length set) - 1)) (first_index ch set))) l.
Proof. intros. eapply Forall_impl; [|eassumption]. intros. now apply writes_put_index. Qed.

Lemma writes_Ascii_FixSize : forall c l tl, Forall is_byte l ->
  writes (Acn_Enc_String_Ascii_FixSize c (Z.of_nat (length l)) (l ++ tl)) tt (bits_of_bytes l).
Proof.
  intros. unfold Acn_Enc_String_Ascii_FixSize. rewrite Nat2Z.id, <- concat_bytes.
  exact (writes_enc_fix (put_ascii c) (Zbits 8) tl l [] (writes_put_asciis c l H)).
Qed.
Lemma writes_CharIndex_FixSize : forall c set l tl, Z.of_nat (length set) < 2 ^ 62 -> Forall (char_of set) l ->
  writes (Acn_Enc_String_CharIndex_FixSize c (Z.of_nat (length l)) set (Z.of_nat (length set)) (l ++ tl)) tt (index_bits set l).
Proof.
  intros. unfold Acn_Enc_String_CharIndex_FixSize. rewrite Nat2Z.id.
  exact (writes_enc_fix (put_index c set (Z.of_nat (length set))) _ tl l [] (writes_put_indexes c set l H H0)).
Qed.
Lemma writes_Ascii_private : forall c mem l max, c_string mem l -> Forall is_byte l -> Z.of_nat (length l) <= max ->
  writes (Acn_Enc_String_Ascii_private c max mem) tt (bits_of_bytes l).
Proof.
  intros c mem l max (tl & -> & N) F H. unfold Acn_Enc_String_Ascii_private. rewrite <- concat_bytes.
  apply (writes_enc_str (put_ascii c) (Zbits 8) tl l [] (Z.to_nat max) (writes_put_asciis c l F) N). lia.
Qed.
Lemma writes_CharIndex_private : forall c set mem l max, Z.of_nat (length set) < 2 ^ 62 ->
  c_string mem l -> Forall (char_of set) l -> Z.of_nat (length l) <= max ->
  writes (Acn_Enc_String_CharIndex_private c max set (Z.of_nat (length set)) mem) tt (index_bits set l).
Proof.
  intros c set mem l max Hs (tl & -> & N) F H. unfold Acn_Enc_String_CharIndex_private.
  apply (writes_enc_str (put_index c set (Z.of_nat (length set))) _ tl l [] (Z.to_nat max) (writes_put_indexes c set l Hs F) N). lia.
Qed.
Lemma writes_Null : forall c mem l max null, c_string mem l -> Forall is_byte l -> Z.of_nat (length l) <= max -> is_byte null ->
  writes (Acn_Enc_String_Ascii_Null_Terminated c max null mem) tt (bits_of_bytes (l ++ [null])).
Proof.
  intros. unfold Acn_Enc_String_Ascii_Null_Terminated. rewrite bits_of_bytes_app.
  eapply writes_bind; [now apply writes_Ascii_private|]. rewrite bits_cons. cbn [bits_of_bytes]. rewrite app_nil_r.
  now apply writes_put_ascii.
Qed.
Lemma writes_Null_mult : forall c mem l max p tl, c_string mem l -> Forall is_byte l -> Z.of_nat (length l) <= max -> Forall is_byte p ->
  writes (Acn_Enc_String_Ascii_Null_Terminated_mult c max (p ++ tl) (Z.of_nat (length p)) mem) tt (bits_of_bytes (l ++ p)).
Proof.
  intros. unfold Acn_Enc_String_Ascii_Null_Terminated_mult. rewrite bits_of_bytes_app.
  eapply writes_bind; [now apply writes_Ascii_private|]. exact (writes_Ascii_FixSize c p tl H2).
Qed.
Lemma writes_enc_strlen : forall c mem l min max, c_string mem l -> 0 <= min -> max < 2 ^ 31 ->
  min <= Z.of_nat (length l) <= max ->
  writes (enc_strlen c max min mem) tt (Zbits (crange min max) (Z.of_nat (length l) - min)).
Proof.
  intros c mem l min max Hs Hm HM Hl. unfold enc_strlen.
  eapply writes_pure_l. { intro s. unfold lift. rewrite (strlen_ok mem l Hs). reflexivity. }
  cbv zeta. replace (s32 (Z.of_nat (length l))) with (Z.of_nat (length l)) by (symmetry; apply sN_id; lia).
  destruct (Z.leb_spec (Z.of_nat (length l)) max); [|lia].
  apply writes_EncodeConstraint; unfold is_s64, two63, sfits; try left; unfold is_s64, two63; lia.
Qed.
Lemma writes_Ascii_Internal : forall c mem l min max, c_string mem l -> Forall is_byte l -> 0 <= min -> max < 2 ^ 31 ->
  min <= Z.of_nat (length l) <= max ->
  writes (Acn_Enc_String_Ascii_Internal_Field_Determinant c max min mem) tt
    (Zbits (crange min max) (Z.of_nat (length l) - min) ++ bits_of_bytes l).
Proof.
  intros. unfold Acn_Enc_String_Ascii_Internal_Field_Determinant.
  eapply writes_bind; [now apply writes_enc_strlen|]. apply writes_Ascii_private; [assumption|assumption|lia].
Qed.
Lemma writes_CharIndex_Internal : forall c set mem l min max, Z.of_nat (length set) < 2 ^ 62 ->
  c_string mem l -> Forall (char_of set) l -> 0 <= min -> max < 2 ^ 31 -> min <= Z.of_nat (length l) <= max ->
  writes (Acn_Enc_String_CharIndex_Internal_Field_Determinant c max set (Z.of_nat (length set)) min mem) tt
    (Zbits (crange min max) (Z.of_nat (length l) - min) ++ index_bits set l).
Proof.
  intros. unfold Acn_Enc_String_CharIndex_Internal_Field_Determinant.
  eapply writes_bind; [now apply writes_enc_strlen|]. apply writes_CharIndex_private; [assumption|assumption|assumption|lia].
Qed.

(** ** Decoders *)
Lemma store1_mid : forall d1 x d2 y, store (d1 ++ x :: d2) (Z.of_nat (length d1)) [y] = Ok (d1 ++ y :: d2).
Proof.
  intros. unfold store. rewrite app_length. cbn [length].
  destruct ((Z.of_nat (length d1) <? 0) || (Z.of_nat (length d1 + S (length d2)) <? Z.of_nat (length d1) + Z.of_nat 1)) eqn:E; [lia|].
  rewrite Nat2Z.id. unfold blit. rewrite firstn_app, firstn_all, Nat.sub_diag. cbn [firstn length].
  rewrite app_nil_r. f_equal. cbn [app]. f_equal. f_equal.
  rewrite Nat.add_1_r, skipn_app. rewrite skipn_all2 by lia.
  replace (S (length d1) - length d1)%nat with 1%nat by lia. reflexivity.
Qed.
Lemma reads_dec_str : forall (get1 : M (option Z)) (g : Z -> list bool) l d2 d1,
  Forall (fun ch => reads get1 (Some ch) (g ch)) l -> (length l <= length d2)%nat ->
  reads (dec_str get1 (d1 ++ d2) (length l) (Z.of_nat (length d1))) (Some (d1 ++ l ++ skipn (length l) d2)) (concat (map g l)).
Proof.
  intros get1 g. induction l; intros d2 d1 F Hl; cbn [dec_str length map concat app].
  - cbn [skipn]. apply reads_ret.
  - destruct d2 as [|x d2]; [cbn in Hl; lia|].
    eapply reads_bindo with (a := a); [exact (Forall_inv F)|].
    eapply reads_pure_l. { intro s. unfold lift. rewrite store1_mid. reflexivity. }
    cbn [skipn].
    replace (d1 ++ a :: d2) with ((d1 ++ [a]) ++ d2) by (rewrite <- app_assoc; reflexivity).
    replace (d1 ++ a :: l ++ skipn (length l) d2) with ((d1 ++ [a]) ++ l ++ skipn (length l) d2) by (rewrite <- app_assoc; reflexivity).
    replace (Z.of_nat (length d1) + 1) with (Z.of_nat (length (d1 ++ [a]))) by (rewrite app_length; cbn; lia).
    apply IHl; [exact (Forall_inv_tail F)|cbn in Hl; lia].
Qed.
Lemma clear_ok : forall dst (max : nat), (max < length dst)%nat ->
  clear dst (Z.of_nat max) = Ok (repeat 0 (S max) ++ skipn (S max) dst).
Proof.
  intros. unfold clear. replace (Z.to_nat (Z.of_nat max + 1)) with (S max) by lia.
  rewrite store0_ok by (rewrite repeat_length; lia). now rewrite repeat_length.
Qed.
Lemma skipn_repeat0 : forall n m (x : Z), skipn n (repeat x m) = repeat x (m - n).
Proof. induction n; intros [|m] x; cbn [skipn repeat Nat.sub]; auto. Qed.
Lemma reads_dec_cleared : forall (get1 : M (option Z)) (g : Z -> list bool) l (max : nat) dst,
  Forall (fun ch => reads get1 (Some ch) (g ch)) l -> (length l <= max)%nat -> (max < length dst)%nat ->
  reads (let* d := lift (clear dst (Z.of_nat max)) in dec_str get1 d (length l) 0) (Some (stored l max dst)) (concat (map g l)).
Proof.
  intros get1 g l max dst F Hl Hd.
  eapply reads_pure_l. { intro s. unfold lift. rewrite clear_ok by assumption. reflexivity. }
  pose proof (reads_dec_str get1 g l (repeat 0 (S max) ++ skipn (S max) dst) [] F) as R. cbn [app length] in R.
  unfold stored. rewrite skipn_app, skipn_repeat0, repeat_length in R.
  replace (length l - S max)%nat with 0%nat in R by lia. apply R. rewrite app_length, repeat_length. lia.
Qed.
Lemma reads_bytes : forall l, Forall is_byte l -> Forall (fun ch => reads BitStream_ReadByte (Some ch) (Zbits 8 ch)) l.
Proof. intros. eapply Forall_impl; [|eassumption]. intros. now apply reads_ReadByte. Qed.
Lemma reads_get_index : forall c set ch, Z.of_nat (length set) < 2 ^ 62 -> In ch set ->
  reads (get_index c set (Z.of_nat (length set))) (Some ch)
    (Zbits (crange 0 (Z.of_nat (length set) - 1)) (first_index ch set)).
Proof.
  intros c set ch Hs Hin. unfold get_index. destruct (first_index_nth ch set Hin) as [B N].
  rewrite <- (app_nil_r (Zbits _ _)).
  eapply reads_bindo with (a := first_index ch set).
  { eapply reads_eq; [apply reads_DecodeConstraint; unfold is_s64, two63, sfits; try left; unfold is_s64, two63; lia|]. f_equal. lia. }
  destruct ((first_index ch set <? 0) || (Z.of_nat (length set) <=? first_index ch set)) eqn:E; [lia|].
  eapply reads_pure_l; [|apply reads_ret]. intro s. unfold lift. rewrite N. reflexivity.
Qed.
Lemma reads_indexes : forall c set l, Z.of_nat (length set) < 2 ^ 62 -> Forall (char_of set) l ->
  Forall (fun ch => reads (get_index c set (Z.of_nat (length set))) (Some ch)
    (Zbits (crange 0 (Z.of_nat (length set) - 1)) (first_index ch set))) l.
Proof. intros. eapply Forall_impl; [|eassumption]. intros a [_ Ha]. now apply reads_get_index. Qed.

Lemma reads_Ascii_private : forall l (max : nat) dst, Forall is_byte l -> (length l <= max)%nat -> (max < length dst)%nat ->
  reads (Acn_Dec_String_Ascii_private (Z.of_nat max) (Z.of_nat (length l)) dst) (Some (stored l max dst)) (bits_of_bytes l).
Proof.
  intros. unfold Acn_Dec_String_Ascii_private. rewrite Nat2Z.id, <- concat_bytes.
  apply reads_dec_cleared; [now apply reads_bytes|assumption|assumption].
Qed.
Lemma reads_CharIndex_private : forall c set l (max : nat) dst, Z.of_nat (length set) < 2 ^ 62 -> Forall (char_of set) l ->
  (length l <= max)%nat -> (max < length dst)%nat ->
  reads (Acn_Dec_String_CharIndex_private c (Z.of_nat max) (Z.of_nat (length l)) set (Z.of_nat (length set)) dst)
    (Some (stored l max dst)) (index_bits set l).
Proof.
  intros. unfold Acn_Dec_String_CharIndex_private. rewrite Nat2Z.id.
  apply reads_dec_cleared with (g := fun ch => Zbits (crange 0 (Z.of_nat (length set) - 1)) (first_index ch set));
    [now apply reads_indexes|assumption|assumption].
Qed.
Lemma min_le : forall a b, a <= b -> (if a <=? b then a else b) = a.
Proof. intros. destruct (Z.leb_spec a b); lia. Qed.
Lemma reads_Ascii_External : forall l (max : nat) dst, Forall is_byte l -> (length l <= max)%nat -> (max < length dst)%nat ->
  reads (Acn_Dec_String_Ascii_External_Field_Determinant (Z.of_nat max) (Z.of_nat (length l)) dst) (Some (stored l max dst)) (bits_of_bytes l).
Proof.
  intros. unfold Acn_Dec_String_Ascii_External_Field_Determinant. rewrite min_le by lia. now apply reads_Ascii_private.
Qed.
Lemma reads_CharIndex_External : forall c set l (max : nat) dst, Z.of_nat (length set) < 2 ^ 62 -> Forall (char_of set) l ->
  (length l <= max)%nat -> (max < length dst)%nat ->
  reads (Acn_Dec_String_CharIndex_External_Field_Determinant c (Z.of_nat max) set (Z.of_nat (length set)) (Z.of_nat (length l)) dst)
    (Some (stored l max dst)) (index_bits set l).
Proof.
  intros. unfold Acn_Dec_String_CharIndex_External_Field_Determinant. rewrite min_le by lia. now apply reads_CharIndex_private.
Qed.
Lemma reads_strlen : forall c n min max, 0 <= min -> max < 2 ^ 31 -> min <= n <= max ->
  reads (BitStream_DecodeConstraintWholeNumber c min max) (Some n) (Zbits (crange min max) (n - min)).
Proof.
  intros. apply reads_DecodeConstraint; unfold is_s64, two63, sfits; try left; unfold is_s64, two63; lia.
Qed.
Lemma reads_Ascii_Internal : forall c l min (max : nat) dst, Forall is_byte l -> 0 <= min <= Z.of_nat (length l) ->
  (length l <= max)%nat -> Z.of_nat max < 2 ^ 31 -> (max < length dst)%nat ->
  reads (Acn_Dec_String_Ascii_Internal_Field_Determinant c (Z.of_nat max) min dst) (Some (stored l max dst))
    (Zbits (crange min (Z.of_nat max)) (Z.of_nat (length l) - min) ++ bits_of_bytes l).
Proof.
  intros. unfold Acn_Dec_String_Ascii_Internal_Field_Determinant.
  eapply reads_bindo; [apply reads_strlen; lia|]. rewrite min_le by lia. now apply reads_Ascii_private.
Qed.
Lemma reads_CharIndex_Internal : forall c set l min (max : nat) dst, Z.of_nat (length set) < 2 ^ 62 -> Forall (char_of set) l ->
  0 <= min <= Z.of_nat (length l) -> (length l <= max)%nat -> Z.of_nat max < 2 ^ 31 -> (max < length dst)%nat ->
  reads (Acn_Dec_String_CharIndex_Internal_Field_Determinant c (Z.of_nat max) set (Z.of_nat (length set)) min dst)
    (Some (stored l max dst)) (Zbits (crange min (Z.of_nat max)) (Z.of_nat (length l) - min) ++ index_bits set l).
Proof.
  intros. unfold Acn_Dec_String_CharIndex_Internal_Field_Determinant.
  eapply reads_bindo; [apply reads_strlen; lia|]. rewrite min_le by lia. now apply reads_CharIndex_private.
Qed.

(** One terminator byte *)
Lemma reads_dec_null : forall null, is_byte null -> forall l d1 d2 k, Forall is_byte l -> ~ In null l -> (length l < k)%nat ->
  (length l < length d2)%nat ->
  reads (dec_null null (d1 ++ d2) k (Z.of_nat (length d1)))
    (Some (d1 ++ l ++ 0 :: skipn (S (length l)) d2)) (bits_of_bytes (l ++ [null])).
Proof.
  intros null Hn. induction l; intros d1 d2 k F N Hk Hd; (destruct k; [cbn in Hk; lia|]); (destruct d2 as [|x d2]; [cbn in Hd; lia|]);
    cbn [dec_null app length].
  - cbn [skipn]. rewrite bits_cons. eapply reads_bindo with (a := null); [now apply reads_ReadByte|].
    rewrite Z.eqb_refl. cbn [negb]. eapply reads_pure_l; [|apply reads_ret].
    intro s. unfold lift. rewrite store1_mid. reflexivity.
  - change (skipn (S (S (length l))) (x :: d2)) with (skipn (S (length l)) d2).
    rewrite bits_cons. eapply reads_bindo with (a := a); [apply reads_ReadByte; exact (Forall_inv F)|].
    destruct (Z.eqb_spec a null) as [->|Hne]; [exfalso; apply N; now left|]. cbn [negb].
    eapply reads_pure_l. { intro s. unfold lift. rewrite store1_mid. reflexivity. }
    replace (d1 ++ a :: d2) with ((d1 ++ [a]) ++ d2) by (rewrite <- app_assoc; reflexivity).
    replace (Z.of_nat (length d1) + 1) with (Z.of_nat (length (d1 ++ [a]))) by (rewrite app_length; cbn; lia).
    replace (d1 ++ a :: l ++ 0 :: skipn (S (length l)) d2) with ((d1 ++ [a]) ++ l ++ 0 :: skipn (S (length l)) d2)
      by (rewrite <- app_assoc; reflexivity).
    apply IHl; [exact (Forall_inv_tail F)|intro; apply N; now right|cbn in Hk; lia|cbn in Hd; lia].
Qed.
Lemma stored_null : forall l (max : nat) dst, (length l <= max)%nat ->
  l ++ 0 :: skipn (S (length l)) (repeat 0 (S max) ++ skipn (S max) dst) = stored l max dst.
Proof.
  intros. unfold stored. rewrite skipn_app, skipn_repeat0, repeat_length.
  replace (S (length l) - S max)%nat with 0%nat by lia.
  replace (S max - length l)%nat with (S (S max - S (length l))) by lia. reflexivity.
Qed.
Lemma reads_Null : forall l (max : nat) null dst, Forall is_byte l -> is_byte null -> ~ In null l -> (length l <= max)%nat ->
  (max < length dst)%nat ->
  reads (Acn_Dec_String_Ascii_Null_Terminated (Z.of_nat max) null dst) (Some (stored l max dst)) (bits_of_bytes (l ++ [null])).
Proof.
  intros l max null dst F Hn N Hl Hd. unfold Acn_Dec_String_Ascii_Null_Terminated.
  eapply reads_pure_l. { intro s. unfold lift. rewrite clear_ok by assumption. reflexivity. }
  rewrite <- (stored_null l max dst Hl).
  apply (reads_dec_null null Hn l [] (repeat 0 (S max) ++ skipn (S max) dst)); auto; [lia|].
  rewrite app_length, repeat_length. lia.
Qed.

(** Several terminator bytes *)
Lemma reads_dec_null_mult : forall p, (0 < length p)%nat -> Forall is_byte p ->
  forall l d1 d2 k w rest, Forall is_byte l -> terminates p l -> (length l <= k)%nat -> (length l < length d2)%nat ->
  length w = length p -> w ++ rest = l ++ p ->
  reads (dec_null_mult p w (d1 ++ d2) k (Z.of_nat (length d1)))
    (Some (d1 ++ l ++ 0 :: skipn (S (length l)) d2)) (bits_of_bytes rest).
Proof.
  intros p Hp Hpb. induction l; intros d1 d2 k w rest F T Hk Hd Hw E; (destruct d2 as [|x d2]; [cbn in Hd; lia|]).
  - cbn [app] in E.
    assert (rest = []). { apply (f_equal (@length Z)) in E. rewrite app_length in E. destruct rest; [reflexivity|cbn in E; lia]. }
    subst rest. rewrite app_nil_r in E. subst w. cbn [app length skipn].
    assert (Fin : reads (let* dst := lift (store (d1 ++ x :: d2) (Z.of_nat (length d1)) [0]) in
      let* e := lift (window_is p p) in ret (if e then Some dst else None)) (Some (d1 ++ 0 :: d2)) (bits_of_bytes [])).
    { eapply reads_pure_l. { intro s. unfold lift. rewrite store1_mid. reflexivity. }
      eapply reads_pure_l. { intro s. unfold lift. rewrite window_is_ok by reflexivity. reflexivity. }
      replace (list_eqb p p) with true by (symmetry; now apply list_eqb_iff). apply reads_ret. }
    destruct k; cbn [dec_null_mult]; [exact Fin|].
    eapply reads_pure_l. { intro s. unfold lift. rewrite window_is_ok by reflexivity. reflexivity. }
    replace (list_eqb p p) with true by (symmetry; now apply list_eqb_iff). exact Fin.
  - destruct k; [cbn in Hk; lia|]. cbn [dec_null_mult length].
    change (skipn (S (S (length l))) (x :: d2)) with (skipn (S (length l)) d2).
    apply terminates_cons in T. destruct T as [T Hne].
    assert (Hl : length rest = S (length l)).
    { apply (f_equal (@length Z)) in E. cbn [app] in E. rewrite app_length in E. cbn [length] in E.
      rewrite app_length in E. lia. }
    destruct rest as [|b rest]; [discriminate|].
    assert (Hne' : p <> w).
    { intro X. apply Hne. change (a :: l ++ p) with ((a :: l) ++ p). rewrite <- E.
      rewrite <- Hw, firstn_app, firstn_all, Nat.sub_diag. cbn [firstn]. rewrite app_nil_r. auto. }
    eapply reads_pure_l. { intro s. unfold lift. rewrite window_is_ok by assumption. reflexivity. }
    replace (list_eqb p w) with false.
    2:{ destruct (list_eqb p w) eqn:X; [|reflexivity]. apply list_eqb_iff in X. contradiction. }
    destruct w as [|w0 w]; [cbn in Hw; lia|]. cbn [app] in E.
    assert (E0 : w0 = a) by exact (f_equal (hd 0) E).
    apply (f_equal (@tl Z)) in E. cbn [tl] in E. subst w0. cbn [tl hd]. rewrite bits_cons.
    assert (Hb : is_byte b).
    { assert (Q : Forall is_byte (w ++ b :: rest)).
      { rewrite E. apply Forall_app. split; [exact (Forall_inv_tail F)|assumption]. }
      apply Forall_app in Q. exact (Forall_inv (proj2 Q)). }
    eapply reads_pure_l. { intro s. unfold lift. rewrite store1_mid. reflexivity. }
    eapply reads_bindo with (a := b); [apply reads_ReadByte; exact Hb|].
    replace (d1 ++ a :: d2) with ((d1 ++ [a]) ++ d2) by (rewrite <- app_assoc; reflexivity).
    replace (Z.of_nat (length d1) + 1) with (Z.of_nat (length (d1 ++ [a]))) by (rewrite app_length; cbn; lia).
    replace (d1 ++ (a :: l) ++ 0 :: skipn (S (length l)) d2) with ((d1 ++ [a]) ++ l ++ 0 :: skipn (S (length l)) d2)
      by (rewrite <- app_assoc; reflexivity).
    apply IHl; [exact (Forall_inv_tail F)|assumption|cbn in Hk; lia|cbn in Hd; lia| |].
    + rewrite app_length. cbn [length] in *. lia.
    + rewrite <- app_assoc. exact E.
Qed.
Lemma reads_Null_mult : forall l (max : nat) p dst, Forall is_byte l -> Forall is_byte p -> (1 <= length p <= 10)%nat ->
  terminates p l -> (length l <= max)%nat -> (max < length dst)%nat ->
  reads (Acn_Dec_String_Ascii_Null_Terminated_mult (Z.of_nat max) p (Z.of_nat (length p)) dst) (Some (stored l max dst))
    (bits_of_bytes (l ++ p)).
Proof.
  intros l max p dst F Fp Hp T Hl Hd. unfold Acn_Dec_String_Ascii_Null_Terminated_mult.
  assert (Esz : Z.to_nat (if Z.of_nat (length p) <? 10 then Z.of_nat (length p) else 10) = length p).
  { destruct (Z.ltb_spec (Z.of_nat (length p)) 10); lia. }
  rewrite Esz. cbv zeta.
  eapply reads_pure_l. { intro s. unfold lift. rewrite clear_ok by assumption. reflexivity. }
  set (w := firstn (length p) (l ++ p)). set (q := skipn (length p) (l ++ p)).
  assert (Ewq : w ++ q = l ++ p) by apply firstn_skipn.
  assert (Hw : length w = length p). { unfold w. rewrite firstn_length, app_length. lia. }
  assert (Fb : Forall is_byte (l ++ p)) by (apply Forall_app; auto).
  rewrite <- Ewq at 1. rewrite bits_of_bytes_app.
  eapply reads_bindo with (a := w).
  - rewrite <- Hw. apply reads_read_window. unfold w. now apply Forall_firstn.
  - rewrite <- (stored_null l max dst Hl).
    apply (reads_dec_null_mult p ltac:(lia) Fp l [] (repeat 0 (S max) ++ skipn (S max) dst)); auto; [lia|].
    rewrite app_length, repeat_length. lia.
Qed.
(** A single terminator byte that does not occur in the string. *)
Lemma terminates_absent : forall b p l, ~ In b l -> terminates (b :: p) l.
Proof.
  intros b p l N i Hi E. rewrite skipn_app in E.
  destruct (skipn i l) as [|x t] eqn:Es.
  - apply (f_equal (@length Z)) in Es. rewrite skipn_length in Es. cbn in Es. lia.
  - cbn [app firstn length] in E. injection E as E0 _. apply N.
    rewrite <- (firstn_skipn i l), Es, E0. apply in_app_iff. right. now left.
Qed.

Lemma stored_c_string : forall l (max : nat) dst, Forall (fun ch => ch <> 0) l -> (length l <= max)%nat ->
  c_string (stored l max dst) l.
Proof.
  intros l max dst N H. unfold stored, c_string. replace (S max - length l)%nat with (S (max - length l)) by lia.
  cbn [repeat app]. eexists. split; [reflexivity|assumption].
Qed.
