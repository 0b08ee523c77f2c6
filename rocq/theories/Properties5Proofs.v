(** Proofs for Properties5.v. *)
From Verif Require Import Base Bits BitStream Contracts BitsProofs BitStreamProofs BitStreamProofs2 BitStreamProofs3 Ints IntsProofs SafeProofs TameProofs RealSpec RealC FloatProofs RealProofs.
From Coq Require Import ZifyBool ZifyNat.
Ltac Zify.zify_post_hook ::= Z.div_mod_to_equations.

Lemma testbit7 : forall h, is_byte h -> Z.testbit h 7 = (128 <=? h).
Proof.
  intros h Hb. apply Bool.eqb_prop.
  apply (bytes_all (fun h => Bool.eqb (Z.testbit h 7) (128 <=? h)) h Hb). vm_compute. reflexivity.
Qed.

Lemma decode_x690 : forall c l r, Forall is_byte l -> Z.of_nat (length l) <= 127 ->
  x690_real l = Some r ->
  match l with h :: _ => Z.testbit h 7 = true -> h mod 4 <> 3 | [] => True end ->
  match r with RNum _ M E => M < two64 /\ (shl_wrap c = true \/ 0 <= E) | _ => True end ->
  reads (BitStream_DecodeReal c) (Some (flushed r)) (bits_of_bytes (Z.of_nat (length l) :: l)).
Proof.
  intros c l r Hl Hn Hr H3 Hside. destruct l as [|h t].
  { injection Hr as <-. cbn [length]. unfold BitStream_DecodeReal. cbn [bits_of_bytes].
    eapply reads_bindo with (a := 0) (bs2 := []); [apply reads_ReadByte; unfold is_byte; lia|].
    cbn. apply reads_ret. }
  pose proof (Forall_inv Hl) as Hh. apply Forall_inv_tail in Hl. cbn [x690_real] in Hr.
  rewrite (testbit7 h Hh) in *. destruct (Z.leb_spec 128 h) as [H|H].
  - specialize (H3 eq_refl). destruct (Z.eqb_spec (h mod 4) 3) as [|Hne]; [contradiction|].
    unfold binary_real in Hr. destruct (base_log h) as [k|] eqn:Ek; [|discriminate].
    set (n := Z.to_nat (h mod 4 + 1)) in *.
    destruct (skipn n t) as [|b0 man0] eqn:Em; [discriminate|]. rewrite <- Em in Hr. injection Hr as <-.
    assert (Hlen : (n < length t)%nat).
    { destruct (Nat.lt_ge_cases n (length t)) as [|G]; [assumption|]. rewrite skipn_all2 in Em by exact G. discriminate. }
    assert (Hf : Z.of_nat (length (firstn n t)) = h mod 4 + 1).
    { rewrite firstn_length_le by lia. unfold n. lia. }
    assert (Hlt : length t = (length (firstn n t) + length (skipn n t))%nat).
    { rewrite <- app_length, firstn_skipn. reflexivity. }
    cbn [length] in Hn. destruct Hside as [HM Hs].
    replace (Z.of_nat (length (h :: t)) :: h :: t)
      with (Z.of_nat (1 + length (firstn n t) + length (skipn n t)) :: h :: firstn n t ++ skipn n t).
    2:{ rewrite firstn_skipn. cbn [length]. f_equal. lia. }
    apply reads_DecodeReal_binary; try assumption; try lia.
    + apply Forall_firstn; assumption.
    + apply Forall_skipn; assumption.
    + destruct Hs as [|G]; [left; assumption|right]. destruct (base_log_cases h k Ek) as [->|[->| ->]]; lia.
  - destruct t as [|b t]; [|discriminate].
    cbn [length Z.of_nat]. unfold BitStream_DecodeReal. cbn [bits_of_bytes].
    eapply reads_bindo with (a := Z.pos (Pos.of_succ_nat 0)); [apply reads_ReadByte; unfold is_byte; lia|].
    cbn [Z.eqb Pos.of_succ_nat].
    eapply reads_bindo with (a := h); [apply reads_ReadByte; assumption|].
    repeat (match type of Hr with (if ?x then _ else _) = _ => destruct x end;
            [injection Hr as <-; cbn [flushed nearest]; apply reads_ret|]).
    discriminate.
Qed.

Lemma encode_x690 : forall x, is_double x -> encodable x -> x690_real (real_octets x) = Some (exactly x).
Proof.
  intros [s|s| |s m e] Hd Hk; cbn [encodable] in Hk.
  - subst. reflexivity.
  - destruct s; reflexivity.
  - reflexivity.
  - assert (Hm : Zpos m < 2 ^ 53 /\ -1074 <= e <= 971).
    { unfold is_double, valid_binary, bounded, canonical_mantissa in Hd.
      apply andb_prop in Hd. destruct Hd as [H1 H2]. apply Zeq_bool_eq in H1. apply Zle_bool_imp_le in H2.
      rewrite fx_eq in H1. rewrite digits_nbits in H1.
      assert (53 <= nbits (Zpos m)).
      { destruct (Z.lt_ge_cases (nbits (Zpos m)) 53) as [G|]; [|assumption].
        pose proof (nbits_lt (Zpos m) 52 ltac:(lia) ltac:(lia)). lia. }
      split; [|lia]. apply nbits_lt; lia. }
    cbn [real_octets exactly].
    pose proof (nbytes_s_exp e ltac:(lia)) as Hle.
    destruct (header_value s (nbytes_s e) ltac:(lia)) as (Hb & H128 & Hbl & H4 & HF & Hs).
    unfold x690_real. cbv zeta.
    rewrite (testbit7 _ Hb). destruct (Z.leb_spec 128 (128 + (if s then 64 else 0) + (nbytes_s e - 1))); [|lia].
    rewrite H4. destruct (Z.eqb_spec (nbytes_s e - 1) 3); [lia|].
    destruct (be_octets_ok (nbytes_s e) e ltac:(lia)) as (_ & _ & L1).
    assert (Hu : 1 <= nbytes_u (Zpos m)).
    { unfold nbytes_u. pose proof (nbits_pos1 m). lia. }
    destruct (be_octets_ok (nbytes_u (Zpos m)) (Zpos m) ltac:(lia)) as (_ & _ & L2).
    replace (Z.to_nat (nbytes_s e - 1 + 1)) with (length (be_octets (nbytes_s e) e)) by lia.
    rewrite firstn_app, firstn_all, Nat.sub_diag, firstn_O, app_nil_r.
    rewrite skipn_app, skipn_all, Nat.sub_diag, skipn_O, app_nil_l.
    unfold binary_real. rewrite Hbl.
    destruct (be_octets (nbytes_u (Zpos m)) (Zpos m)) as [|b l] eqn:E; [cbn [length] in L2; lia|].
    rewrite <- E. rewrite HF, Hs, Z.mul_1_r, Z.mul_1_l.
    pose proof (nbytes_s_bits e) as NS.
    rewrite unsigned_be; [rewrite signed_be|..]; try lia; [reflexivity|..].
    + destruct (e <? 0) eqn:E0.
      * assert (- e - 1 < 2 ^ (8 * nbytes_s e - 1)); [|lia]. apply nbits_lt; lia.
      * assert (e < 2 ^ (8 * nbytes_s e - 1)); [|lia]. apply nbits_lt; lia.
    + split; [lia|]. apply nbits_lt; [lia|]. pose proof (nbytes_u_bits (Zpos m)). lia.
Qed.

Lemma tame_dec_ibytes : forall c k v, tame (dec_ibytes c k v).
Proof.
  induction k; intros v; cbn [dec_ibytes]; [apply tame_ret|].
  apply tame_bindo; [apply tame_ReadByte|]. intros b. apply tame_lift. intros w _. apply IHk.
Qed.
Lemma tame_DecodeReal : forall c, tame (BitStream_DecodeReal c).
Proof.
  intros c. unfold BitStream_DecodeReal. apply tame_bindo; [apply tame_ReadByte|]. intros n.
  destruct (n =? 0); [apply tame_ret|]. apply tame_bindo; [apply tame_ReadByte|]. intros h.
  repeat (match goal with |- tame (if ?x then _ else _) => destruct x end; [apply tame_ret|]).
  unfold DecodeRealAsBinaryEncoding.
  match goal with |- tame (if ?x then _ else _) => destruct x end; [apply tame_ret|].
  apply tame_peek. intros b. apply tame_bindo; [apply tame_dec_ibytes|]. intros e.
  apply tame_bindo; [apply tame_dec_ubytes|]. intros N. apply tame_lift. intros x _. apply tame_lift. intros y _.
  apply tame_ret.
Qed.
Lemma tame_DecodeReal_fp32 : forall c, tame (BitStream_DecodeReal_fp32 c).
Proof. intros c. apply tame_bindo; [apply tame_DecodeReal|]. intros. apply tame_ret. Qed.

Lemma encode_kept : forall c x, is_double x -> encodable x ->
  writes (BitStream_EncodeReal c x) tt (real_bits x) /\ x690_real (real_octets x) = Some (exactly x).
Proof.
  intros c x Hx He. split; [|apply encode_x690; assumption].
  replace (real_bits x) with (real_bits (sent x)); [apply writes_EncodeReal_any; assumption|].
  destruct x as [s|s| |s m e]; try reflexivity. cbn [sent encodable] in *.
  destruct (Z.ltb_spec (Zpos m) (2 ^ 52)); [lia|reflexivity].
Qed.

Lemma decode_kept : forall c x, is_double x -> kept x ->
  (shl_wrap c = true \/ match x with S754_finite _ _ e => 0 <= e | _ => True end) ->
  reads (BitStream_DecodeReal c) (Some x) (real_bits x).
Proof.
  intros c x Hx Hk HC. pose proof (reads_DecodeReal_any c x Hx) as R.
  rewrite (sent_kept x Hk), (returned_kept x Hk) in R. apply R. exact HC.
Qed.

Lemma any_double : forall c x, is_double x -> shl_wrap c = true ->
  writes (BitStream_EncodeReal c x) tt (real_bits (sent x)) /\
  reads (BitStream_DecodeReal c) (Some (returned x)) (real_bits (sent x)).
Proof.
  intros c x Hx HC. split; [apply writes_EncodeReal_any; assumption|apply reads_DecodeReal_any; auto].
Qed.

(** [returned] is the identity exactly on [kept]. *)
Lemma returned_iff : forall x, returned x = x <-> kept x.
Proof.
  intros [s|s| |s m e]; cbn [returned kept]; try tauto.
  - split; [intros H; injection H as <-; reflexivity|intros ->; reflexivity].
  - destruct (Z.ltb_spec (Zpos m) (2 ^ 52)); destruct (Z.ltb_spec e (-1023)); cbn [orb];
      split; intros G; try discriminate; try reflexivity; try lia.
Qed.

Lemma decode_nearest : forall c l r, Forall is_byte l -> Z.of_nat (length l) <= 127 ->
  x690_real l = Some r ->
  match l with h :: _ => Z.testbit h 7 = true -> h mod 4 <> 3 | [] => True end ->
  match r with RNum _ M E => M < two64 /\ -1023 <= E /\ (shl_wrap c = true \/ 0 <= E) | _ => True end ->
  reads (BitStream_DecodeReal c) (Some (nearest r)) (bits_of_bytes (Z.of_nat (length l) :: l)).
Proof.
  intros c l r Hl Hn Hr H3 HS. pose proof (decode_x690 c l r Hl Hn Hr H3) as R.
  destruct r as [| | | |s M E]; try (apply R; exact I).
  destruct HS as (H1 & H2 & H4). cbn [flushed] in R. destruct (Z.ltb_spec E (-1023)); [lia|].
  apply R. auto.
Qed.

Lemma float_round : forall c x, is_float x -> x <> S754_zero true -> shl_wrap c = true ->
  writes (BitStream_EncodeReal c (float_to_double x)) tt (real_bits (float_to_double x)) /\
  reads (BitStream_DecodeReal_fp32 c) (Some x) (real_bits (float_to_double x)).
Proof.
  intros c x Hx Hz HC. split; [|apply reads_DecodeReal_fp32; auto].
  pose proof (float_is_double x Hx) as Hd. pose proof (float_kept x Hx Hz) as Hk.
  pose proof (writes_EncodeReal_any c _ Hd) as W. rewrite (sent_kept _ Hk) in W. exact W.
Qed.

Lemma safe_DecodeReal_fp32 : forall c, ovf_wrap c = true -> shl_wrap c = true ->
  safe (BitStream_DecodeReal_fp32 c) (fun _ => True).
Proof.
  intros c H1 H2. unfold BitStream_DecodeReal_fp32. eapply safe_bindo; [apply safe_DecodeReal; assumption|].
  intros a _. apply safe_ret_some. exact I.
Qed.
