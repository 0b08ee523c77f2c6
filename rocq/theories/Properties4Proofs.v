(** Remaining proofs for Properties4.v. *)
From Verif Require Import Base Bits StrSpec BitStream Ints Octets Misc Oid Contracts Parse UperTypes UperSpec Uper UperWf UperSizes UperClasses UperShape.
From Verif Require Import BitsProofs BitStreamProofs IntsProofs HistoryProofs OctetsProofs ParseProofs UperProofs1 UperProofs3 UperProofs4 UperProofs5
  UperProofs6 UperProofs7 UperProofs8 Properties3Proofs.
From Coq Require Import ZifyBool ZifyNat.
Ltac Zify.zify_post_hook ::= Z.div_mod_to_equations.

Lemma round_trip : forall c t v mem n, wft t -> valid t v -> sides c t v ->
  Forall is_byte mem -> 0 <= n <= len mem -> len (ubits false t v) <= 8 * n ->
  exists s0 s1, BitStream_Init mem n = Ok s0 /\ enc c t true v s0 = Ok (true, s1) /\
    forall tail, Forall is_byte tail -> exists s2,
      dec c t true (BitStream_AttachBuffer (firstn (Z.to_nat (BitStream_GetLength s1)) (buf s1) ++ tail) (BitStream_GetLength s1))
      = Ok (Some (norm t v), s2) /\ pos s2 = pos s1.
Proof.
  intros c t v mem n Hw Hv Hs HM Hn HL.
  exact (e2e (enc c t true v) (dec c t true) _ _ _ mem n (writes_uper c t v Hw Hv Hs) (reads_uper c t v Hw Hv Hs) HM Hn HL).
Qed.
Lemma round_trip_sized : forall c t v mem n, ovf_wrap c = true -> shl_wrap c = true -> wft t -> computed t -> cont_fit t ->
  valid t v -> settled t v -> Forall is_byte mem -> required_bytes t <= n <= len mem ->
  exists s0 s1, BitStream_Init mem n = Ok s0 /\ enc c t true v s0 = Ok (true, s1) /\
    forall tail, Forall is_byte tail -> exists s2,
      dec c t true (BitStream_AttachBuffer (firstn (Z.to_nat (BitStream_GetLength s1)) (buf s1) ++ tail) (BitStream_GetLength s1))
      = Ok (Some v, s2) /\ pos s2 = pos s1.
Proof.
  intros c t v mem n H1 H2 Hw Hc Hf Hv Hs HM Hn.
  pose proof (proj1 umax_ok t Hw Hc v Hv) as HU. unfold required_bytes in Hn.
  pose proof (round_trip c t v mem n Hw Hv (sides_wrap c t v H1 H2 Hw Hc Hf Hv) HM) as HR.
  rewrite (proj1 settled_ok t v Hv Hs) in HR. apply HR; lia.
Qed.
Lemma buffer_suffices : forall c t v mem n, wft t -> computed t -> valid t v -> sides c t v -> Forall is_byte mem ->
  required_bytes t <= n <= len mem ->
  exists s0 s1, BitStream_Init mem n = Ok s0 /\ enc c t true v s0 = Ok (true, s1) /\ pos s1 <= umax t /\
    BitStream_GetLength s1 <= required_bytes t.
Proof.
  intros c t v mem n Hw Hc Hv Hs HM Hn. pose proof (proj1 umax_ok t Hw Hc v Hv) as HU. unfold required_bytes in *.
  destruct (run_writes _ _ _ mem n (writes_uper c t v Hw Hv Hs) HM) as (s0 & s1 & E0 & E1 & HC & HLm & HF & HP & HCb & _ & _); try lia.
  exists s0, s1. splits; auto; [lia|]. rewrite GetLength_pos by auto. lia.
Qed.
Lemma std_bits : forall c t v, wft t -> conform t -> valid t v -> sides c t v -> writes (enc c t true v) true (ubits true t v).
Proof. intros c t v Hw Hc Hv Hs. rewrite <- (proj1 conform_ok t Hw Hc v Hv). apply writes_uper; auto. Qed.
Lemma std_reads : forall c t v, wft t -> conform t -> valid t v -> sides c t v -> reads (dec c t true) (Some (norm t v)) (ubits true t v).
Proof. intros c t v Hw Hc Hv Hs. rewrite <- (proj1 conform_ok t Hw Hc v Hv). apply reads_uper; auto. Qed.

(** Decoding one value after the other. *)
Fixpoint dec_list (c : cfg) (ts : list ty) : M (option (list value)) :=
  match ts with
  | [] => ret (Some [])
  | t :: ts => let? v := dec c t true in let? l := dec_list c ts in ret (Some (v :: l))
  end.
Fixpoint enc_list (c : cfg) (l : list (ty * value)) : M bool :=
  match l with
  | [] => ret true
  | (t, v) :: l => let* r := enc c t true v in if r then enc_list c l else ret false
  end.
Lemma list_writes : forall c l, Forall (fun p => wft (fst p) /\ valid (fst p) (snd p) /\ sides c (fst p) (snd p)) l ->
  writes (enc_list c l) true (concat (map (fun p => ubits false (fst p) (snd p)) l)).
Proof.
  intros c l H. induction H as [|[t v] l (H1 & H2 & H3) _ IH]; cbn [enc_list map concat fst snd]; [apply writes_ret|].
  eapply writes_bind; [apply writes_uper; auto|]. cbv iota. auto.
Qed.
Lemma list_reads : forall c l, Forall (fun p => wft (fst p) /\ valid (fst p) (snd p) /\ sides c (fst p) (snd p)) l ->
  reads (dec_list c (map fst l)) (Some (map (fun p => norm (fst p) (snd p)) l)) (concat (map (fun p => ubits false (fst p) (snd p)) l)).
Proof.
  intros c l H. induction H as [|[t v] l (H1 & H2 & H3) _ IH]; cbn [dec_list map concat fst snd]; [apply reads_ret|].
  eapply reads_bindo; [apply reads_uper; auto|]. rewrite <- (app_nil_r (concat _)). eapply reads_bindo; [exact IH|]. apply reads_ret.
Qed.

Lemma truncated : forall c t v s pre rest, ovf_wrap c = true -> wft t -> strict t = true -> valid t v -> sides c t v ->
  at_ s pre (ubits false t v ++ rest) -> wfp s -> 8 * count s < len pre + len (ubits false t v) ->
  forall b s', dec c t true s <> Ok (Some b, s').
Proof.
  intros c t v s pre rest Ho Hw Hs Hv Hd HA HW HL.
  eapply parses_truncated; [apply parses_uper; eauto|apply (reads_uper c t v); auto|exact HA|auto|lia].
Qed.

(** An OCTET STRING of fixed size 65536 lacks the final zero length. *)
Lemma concat_bytes : forall n, length (concat (octets (repeat 0 n))) = (8 * n)%nat.
Proof. induction n; cbn [repeat octets map concat]; [reflexivity|]. rewrite app_length, len_bits_of_byte. unfold octets in IHn. lia. Qed.
Lemma fixed64K : forall v, v = repeat 0 (Z.to_nat 65536) ->
  len (ubits false (TOct 65536 65536) (VOct v)) = 8 + 8 * 65536 /\ len (ubits true (TOct 65536 65536) (VOct v)) = 16 + 8 * 65536.
Proof.
  intros v Hv. cbn [ubits]. unfold usized, sized. change (negb false && (65536 =? 65536) && (65536 <=? 65536)) with true.
  change (negb true && (65536 =? 65536) && (65536 <=? 65536)) with false. change (65536 <? 65536) with false. cbv iota.
  assert (HL : len (octets v) = 65536) by (subst; unfold octets; rewrite map_length, repeat_length; lia).
  assert (HC : len (concat (octets v)) = 8 * 65536) by (subst; rewrite concat_bytes; lia).
  assert (HF : firstn (Z.to_nat (4 * 16384)) (octets v) = octets v) by (apply firstn_all2; lia).
  assert (HS : skipn (Z.to_nat (4 * 16384)) (octets v) = []) by (apply skipn_all2; lia).
  pose proof (ffrag_big (octets v) 4 ltac:(lia)) as E1. rewrite E1 by (rewrite HL; reflexivity).
  rewrite (frag_big (octets v) 4) by (rewrite HL; reflexivity || lia).
  rewrite HF, HS. change (ffrag []) with (@nil bool). change (frag []) with (Zbits 8 0 ++ []).
  rewrite !app_length, !len_Zbits. cbn [length]. lia.
Qed.

(** A failed item in the middle of a block of 64K items goes unnoticed. *)
Definition item3 : ty := TInt (INoExt (Concrete 0 2)) true 8.
Lemma item3_bad : forall c r, reads (dec c item3 r) None [true; true].
Proof.
  intros c r. unfold item3. cbn [dec int_dec range_dec]. change (0 =? 2) with false. change (8 =? 64) with false. cbn [negb andb].
  unfold BitStream_DecodeConstraintPosWholeNumberUIntN, BitStream_DecodeConstraintPosWholeNumber.
  change (0 <=? 2) with true. unfold assert_or_false. cbn [negb]. change (u64 (2 - 0) =? 0) with false. cbv iota.
  replace [true; true] with (([true; true] ++ []) ++ []) by reflexivity.
  apply (reads_bind _ _ (let? bv := _ in ret (Some (bv mod 2 ^ 8))) (fun o => match o with Some z => ret (Some (VInt z)) | None => ret None end) None None ([true; true] ++ []) []); [|apply reads_ret].
  apply (reads_bind _ _ _ (fun o => match o with Some z => ret (Some (z mod 2 ^ 8)) | None => ret None end) None None [true; true] []); [|apply reads_ret].
  eapply reads_pure_l with (a := tt); [intros; reflexivity|]. eapply reads_pure_l with (a := 2); [intros; reflexivity|].
  replace [true; true] with (Zbits (Z.to_nat 2) 3 ++ []) by reflexivity.
  eapply reads_bindo; [apply reads_DecodeNonNeg; lia|]. change (u64 (2 - 0) <? 3) with true. cbv iota. apply reads_ret.
Qed.
Lemma item3_good : forall c, reads (dec c item3 true) (Some (VInt 0)) [false; false].
Proof.
  intros c. exact (reads_uper c item3 (VInt 0) ltac:(cbn; lia) ltac:(cbn; lia)
    ltac:(constructor; [cbn; auto|constructor])).
Qed.
Lemma reads_tail : forall c k i cap r, 0 <= i -> i + Z.of_nat k <= cap -> (k <> O \/ r = true) ->
  reads (dec_items_u (dec c item3) VJunk cap k i r) (repeat (VInt 0) k, true) (zeros (2 * k)).
Proof.
  intros c. induction k; intros i cap r Hi Hk Hr; cbn [dec_items_u].
  - destruct Hr as [Hr| ->]; [congruence|]. apply reads_ret.
  - destruct (Z.leb_spec cap i); [lia|].
    replace (zeros (2 * S k)) with ([false; false] ++ zeros (2 * k) ++ []).
    2:{ rewrite app_nil_r. unfold zeros. replace (2 * S k)%nat with (2 + 2 * k)%nat by lia. reflexivity. }
    eapply reads_bind; [apply (item3_good c)|]. cbv iota beta.
    eapply reads_bind; [apply IHk; auto; lia|]. cbn [fst snd repeat]. apply reads_ret.
Qed.
Lemma lost_item : forall c, reads (dec c (TSeqOf item3 65536 65536) true)
  (Some (VSeqOf (VJunk :: repeat (VInt 0) (Z.to_nat 65535))))
  (Zbits 8 196 ++ [true; true] ++ zeros (2 * Z.to_nat 65535)).
Proof.
  intros c. cbn [dec]. rewrite <- (app_nil_r (Zbits 8 196 ++ _)).
  eapply reads_bindo; [|apply reads_ret].
  unfold sized_dec. change (65536 <? 65536) with false. change (65536 =? 65536) with true. cbv iota.
  unfold dec_fixed. change (Z.to_nat (65536 / 65536)) with 1%nat. change (65536 mod 65536) with 0. change (small_parts 0) with (@nil (Z * Z)).
  change (0 - parts_total []) with 0. change (65536 / 65536 * 65536) with 65536. cbn [dec_64K dec_small]. change (0 =? 0) with true. cbv iota.
  rewrite <- (app_nil_r (Zbits 8 196 ++ _)). eapply reads_bindo with (a := VJunk :: repeat (VInt 0) (Z.to_nat 65535)); [|apply reads_ret].
  eapply reads_bindo; [apply (reads_DecodeConstraint c 196 0 255); unfold is_s64, two63; try lia; left; unfold is_s64, two63; lia|].
  change (196 =? 196) with true. cbv iota.
  rewrite <- (app_nil_r ([true; true] ++ _)).
  eapply reads_bind with (a := (VJunk :: repeat (VInt 0) (Z.to_nat 65535), true)); [|cbn [fst snd]; apply reads_ret].
  rewrite <- (app_nil_r ([true; true] ++ _)).
  eapply reads_bind with (a := (VJunk :: repeat (VInt 0) (Z.to_nat 65535), true)); [|cbn [fst snd app]; apply reads_ret].
  replace (Z.to_nat 65536) with (S (Z.to_nat 65535)) by lia. cbn [dec_items_u]. change (65536 <=? 0) with false. cbv iota.
  eapply reads_bind; [apply item3_bad|]. cbv iota beta.
  rewrite <- (app_nil_r (zeros _)). eapply reads_bind; [apply reads_tail; lia|]. cbn [fst snd]. apply reads_ret.
Qed.
