(** The generated uPER encoder and decoder on valid values of any type. *)
From Verif Require Import Base Bits StrSpec BitStream Ints Contracts Octets Misc OidSpec Oid RealSpec RealC RealProofs UperTypes UperSpec Uper UperWf.
From Verif Require Import BitsProofs BitStreamProofs BitStreamProofs2 BitStreamProofs3 IntsProofs SafeProofs HistoryProofs TameProofs
  Parse ParseProofs OctetsProofs OctetsProofs2 MiscProofs OidProofs Properties2Proofs UperProofs1 UperProofs2.
From Coq Require Import ZifyBool ZifyNat.
Ltac Zify.zify_post_hook ::= Z.div_mod_to_equations.

(** ** Types without a statement *)
Lemma concat_nils : forall (l : list (list bool)), (forall x, In x l -> x = []) -> concat l = [].
Proof. induction l; intros H; [reflexivity|]. cbn [concat]. rewrite (H a) by (now left). rewrite IHl; auto. intros x Hx. apply H. now right. Qed.

Lemma silent_ubits :
  (forall t, silent t = true -> forall std v, ubits std t v = []) /\
  (forall fs, silent_fields fs = true -> forall std l, presence_bits fs l = [] /\ fields_bits std fs l = []) /\
  (forall cs : alts, True).
Proof.
  apply ty_mutind; try (intros; exact I); try (intros; discriminate).
  - intros _ std v. destruct v; reflexivity.
  - intros t IH min max H std v. cbn [silent] in H. apply andb_prop in H. destruct H as [H HSt]. destruct v; try reflexivity. cbn [ubits].
    unfold usized, sized. replace (65536 <=? max) with false by lia. rewrite andb_false_r.
    replace (max <? 65536) with true by lia. replace max with min by lia. rewrite crange_same. cbn [Zbits app].
    apply concat_nils. intros x Hx. apply in_map_iff in Hx. destruct Hx as (y & <- & _). apply IH. exact HSt.
  - intros fs IH H std v. destruct v; try reflexivity. cbn [ubits silent] in *. destruct (IH H std l) as [-> ->]. reflexivity.
  - intros _ std l. split; reflexivity.
  - intros o t IHt fs IHf H std l. cbn [silent_fields] in H. destruct o; try discriminate. apply andb_prop in H. destruct H as [H HSt].
    destruct l as [|[e v] l]; [split; reflexivity|]. cbn [presence_bits presence fields_bits app].
    destruct (IHf HSt std l) as [-> ->]. split; [reflexivity|]. rewrite app_nil_r.
    destruct e; [|reflexivity]. destruct v; [|reflexivity]. apply IHt. exact H.
Qed.
Lemma silent_ubits_t : forall t std v, silent t = true -> ubits std t v = [].
Proof. intros. now apply silent_ubits. Qed.

Lemma silent_dec : forall c,
  (forall t, silent t = true -> exists v, reads (dec c t true) (Some v) []) /\
  (forall fs, silent_fields fs = true -> has_presence fs = false /\
      exists l, reads (dec_fields c fs (repeat true (fields_len fs)) true) (Some l) []) /\
  (forall cs : alts, True).
Proof.
  intros c. apply ty_mutind; try (intros; exact I); try (intros; discriminate).
  - intros _. exists VNull. apply reads_ret.
  - intros t IH min max H. cbn [silent] in H. apply andb_prop in H. destruct H as [H HSt]. destruct (IH HSt) as [v HR]. cbn [dec].
    unfold sized_dec. replace (max <? 65536) with true by lia. replace (min =? max) with true by lia.
    pose proof (reads_dec_items (dec c t) (fun _ => []) (fun x => x) (repeat v (Z.to_nat max)) max (Z.to_nat max) 0) as HI.
    rewrite map_id, repeat_length in HI.
    destruct (Z_lt_le_dec max 0) as [Hm|Hm].
    { eexists. eapply reads_theno. replace (Z.to_nat max) with O by lia. apply reads_ret. }
    eexists. eapply reads_theno.
    eapply reads_eq; [apply HI; try lia|].
    + intros x Hx. apply repeat_spec in Hx. subst. exact HR.
    + apply concat_nils. intros x Hx. unfold slice in Hx. cbn [skipn Z.to_nat] in Hx.
      rewrite firstn_map in Hx. apply in_map_iff in Hx. destruct Hx as (y & <- & _). reflexivity.
  - intros fs IH H. cbn [silent] in H. destruct (IH H) as [HP [l HR]]. cbn [dec]. rewrite HP.
    eexists. eapply reads_theno. exact HR.
  - intros _. split; [reflexivity|]. exists []. apply reads_ret.
  - intros o t IHt fs IHf H. cbn [silent_fields] in H. destruct o; try discriminate. apply andb_prop in H. destruct H as [H HSt].
    destruct (IHt H) as [v HR]. destruct (IHf HSt) as [HP [l HL]]. split; [exact HP|].
    cbn [fields_len repeat dec_fields]. rewrite H.
    eexists. change (@nil bool) with (@nil bool ++ []). eapply reads_bindo; [exact HR|]. eapply reads_theno. exact HL.
Qed.

(** ** Presence bits *)
Lemma writes_presence : forall c fs l, valid_fields fs l ->
  writes (enc_presence c fs l true) true (presence_bits fs l).
Proof.
  induction fs as [|o t fs IH]; intros l HV.
  - destruct l; [|easy]. apply writes_ret.
  - destruct l as [|[e v] l]; [easy|]. cbn [valid_fields] in HV. destruct HV as [HV HVs].
    cbn [enc_presence presence_bits]. destruct o; cbn [presence app]; [now apply IH|..];
    (match goal with |- writes _ _ (?b :: ?r) => change (b :: r) with ([b] ++ r) end;
     eapply writes_bind; [apply overwrites_writes, overwrites_AppendBit|now apply IH]).
Qed.
Lemma reads_presence : forall fs l, valid_fields fs l ->
  reads (dec_presence fs) (Some (map fst l)) (presence_bits fs l).
Proof.
  induction fs as [|o t fs IH]; intros l HV.
  - destruct l; [|easy]. apply reads_ret.
  - destruct l as [|[e v] l]; [easy|]. cbn [valid_fields] in HV. destruct HV as [HV HVs].
    assert (HB : forall b, reads (let* b := BitStream_ReadBit in
        if fst b then let? es := dec_presence fs in ret (Some (snd b :: es)) else ret None)
        (Some (b :: map fst l)) (b :: presence_bits fs l)).
    { intros b. change (b :: presence_bits fs l) with ([b] ++ presence_bits fs l).
      eapply reads_bind; [apply reads_ReadBit|]. cbn [fst snd]. eapply (reads_theno _ _ (fun es => b :: es)). now apply IH. }
    cbn [dec_presence presence_bits map fst]. destruct o; cbn [presence app]; try apply HB.
    + destruct e; [|destruct v; easy]. eapply (reads_theno _ _ (fun es => true :: es)). now apply IH.
    + subst e. apply HB.
    + destruct e; [|destruct v; easy]. apply HB.
Qed.
Lemma no_presence : forall fs l, has_presence fs = false -> valid_fields fs l ->
  presence_bits fs l = [] /\ map fst l = repeat true (fields_len fs).
Proof.
  induction fs as [|o t fs IH]; intros l HP HV.
  - destruct l; [|easy]. split; reflexivity.
  - destruct l as [|[e v] l]; [easy|]. cbn [valid_fields has_presence] in *. destruct HV as [HV HVs].
    destruct o; try discriminate. destruct (IH l HP HVs) as [E1 E2].
    cbn [presence_bits presence app map fst fields_len repeat]. split; [exact E1|]. rewrite E2.
    destruct e; [reflexivity|destruct v; easy].
Qed.

(** ** CONTAINING *)
Lemma temp_at : forall req, 0 <= req -> at_ (temp_stream req) [] (zeros (Z.to_nat (8 * req)) ++ []).
Proof.
  intros req H. unfold at_, temp_stream, pos. cbn [buf curByte curBit length]. splits; try lia.
  - apply Forall_forall. intros x Hx. apply repeat_spec in Hx. subst. unfold is_byte. lia.
  - cbn [app]. rewrite app_nil_r. replace (Z.to_nat (8 * req)) with (8 * Z.to_nat req)%nat by lia.
    induction (Z.to_nat req) as [|k IH]; [reflexivity|]. cbn [repeat bits_of_bytes flat_map].
    fold (bits_of_bytes (repeat 0 k)). rewrite IH. replace (8 * S k)%nat with (8 + 8 * k)%nat by lia. rewrite zeros_app. reflexivity.
Qed.
Lemma firstn_zeros' : forall k n, (k <= n)%nat -> firstn k (zeros n) = zeros k.
Proof.
  intros k n H. replace n with (k + (n - k))%nat by lia. rewrite zeros_app.
  rewrite firstn_app, len_zeros, Nat.sub_diag. cbn [firstn]. rewrite app_nil_r. apply firstn_all2. rewrite len_zeros. lia.
Qed.
Lemma buf_pack : forall l bs m k, Forall is_byte l -> bits_of_bytes l = bs ++ zeros m ->
  Z.of_nat k = (Z.of_nat (length bs) + 7) / 8 -> firstn k l = pack bs.
Proof.
  intros l bs m k HB HE HK.
  assert (HL : (length bs + m = 8 * length l)%nat).
  { rewrite <- len_bits_of_bytes, HE, app_length, len_zeros. reflexivity. }
  destruct (bits_of_pack (length bs) bs (le_n _)) as [HP1 HP2]. pose proof (pack_len bs) as HP3.
  rewrite <- (pack_of_bits (pack bs)) by auto. rewrite <- (pack_of_bits (firstn k l)) by (apply Forall_firstn; auto).
  f_equal. rewrite HP1.
  assert (HF : bits_of_bytes (firstn k l) = firstn (8 * k) (bits_of_bytes l)).
  { clear. revert l. induction k; intros l; [reflexivity|]. destruct l as [|x l]; [cbn [firstn bits_of_bytes flat_map]; now rewrite firstn_nil|].
    cbn [firstn bits_of_bytes flat_map]. fold (bits_of_bytes (firstn k l)). fold (bits_of_bytes l). rewrite IHk.
    replace (8 * S k)%nat with (8 + 8 * k)%nat by lia. rewrite firstn_app.
    assert (L : length (bits_of_byte x) = 8%nat) by reflexivity. rewrite L.
    replace (8 + 8 * k - 8)%nat with (8 * k)%nat by lia. rewrite (firstn_all2 (bits_of_byte x)) by lia. reflexivity. }
  rewrite HF, HE, firstn_app. rewrite firstn_all2 by lia. f_equal. rewrite firstn_zeros' by lia. f_equal. lia.
Qed.

Lemma reads_cont : forall c (m : M (option value)) v (bits : bool) min max req bs,
  wf_size min max -> side c (LCont bits min max req bs) ->
  reads m (Some v) bs ->
  reads (let? p := (if bits then BitStream_DecodeBitString c (repeat 0 (Z.to_nat req)) min max
                    else BitStream_DecodeOctetString c (repeat 0 (Z.to_nat req)) min max) in
         let* q := run_on (mkbs (snd p) req 0 0) m in ret (fst q))
    (Some v) (sized min max (if bits then single_bits bs else octets (pack bs))).
Proof.
  intros c m v bits min max req bs HW HS HM. cbn [side] in HS. unfold wf_size in HW.
  destruct (bits_of_pack (length bs) bs (le_n _)) as [HP1 HP2]. pose proof (pack_len bs) as HP3.
  set (n := Z.of_nat (length bs)) in *.
  set (arr := pack bs ++ skipn (length (pack bs)) (repeat 0 (Z.to_nat req))).
  assert (HA : at_ (mkbs arr req 0 0) [] (bs ++ (zeros (8 * length (pack bs) - length bs) ++ bits_of_bytes (skipn (length (pack bs)) (repeat 0 (Z.to_nat req)))))).
  { unfold at_, pos. cbn [buf curByte curBit length]. splits; try lia.
    - apply Forall_app. split; auto. apply Forall_skipn. apply Forall_forall. intros x Hx. apply repeat_spec in Hx. subst. unfold is_byte. lia.
    - unfold arr. rewrite bits_of_bytes_app, HP1, <- app_assoc. reflexivity. }
  destruct (HM _ _ _ HA) as (s' & E & _); [cbn [length count]; lia|].
  assert (HD : forall k, reads (let* q := run_on (mkbs (snd (k : Z, arr)) req 0 0) m in ret (fst q)) (Some v) []).
  { intros k. eapply reads_pure_l with (a := (Some v, s')); [|apply reads_ret].
    intros s. unfold run_on, lift. cbn [snd]. rewrite E. reflexivity. }
  rewrite <- (app_nil_r (sized _ _ _)).
  destruct bits; (eapply reads_bindo; [|apply HD]).
  - apply reads_DecodeBitString; rewrite ?repeat_length; try lia. right. intros ->. unfold n in HS. cbn in HS. lia.
  - unfold arr. apply reads_DecodeOctetString; auto; rewrite ?repeat_length; try lia.
    right. intros HN. rewrite HN in HP3. cbn in HP3. lia.
Qed.

Lemma writes_cont : forall c (m : M bool) (bits : bool) min max req bs,
  wf_size min max -> side c (LCont bits min max req bs) ->
  writes m true bs ->
  writes (let* p := run_on (temp_stream req) m in
      if fst p then
        let s := snd p in
        if bits then
          BitStream_EncodeBitString c (buf s) (curByte s * 8 + curBit s) min max
        else
          BitStream_EncodeOctetString c (buf s)
            (if curBit s =? 0 then curByte s else curByte s + 1) min max
      else ret false) true (sized min max (if bits then single_bits bs else octets (pack bs))).
Proof.
  intros c m bits min max req bs HW HS HM. cbn [side] in HS. unfold wf_size in HW.
  set (n := Z.of_nat (length bs)) in *.
  destruct (HM _ _ _ _ (temp_at req ltac:(lia))) as (s' & E & HA & HC); [cbn [length count temp_stream]; lia|lia|].
  eapply writes_pure_l with (a := (true, s')).
  { intros s. unfold run_on, lift. rewrite E. reflexivity. }
  cbn [fst snd]. cbv zeta. destruct HA as (A1 & A2 & A3 & A4). cbn [app] in A2, A3. rewrite app_nil_r in A2.
  unfold pos in A3.
  assert (HL : (length bs + (Z.to_nat (8 * req) - length bs) = 8 * length (buf s'))%nat).
  { rewrite <- len_bits_of_bytes, A2, app_length, len_zeros. reflexivity. }
  destruct bits.
  - replace (curByte s' * 8 + curBit s') with n by lia.
    replace bs with (take_bits n (buf s')) at 1.
    + apply writes_EncodeBitString; auto; lia.
    + unfold take_bits, n. rewrite A2, Nat2Z.id. apply firstn_app_exact.
  - set (k := if curBit s' =? 0 then curByte s' else curByte s' + 1).
    assert (HK : k = (n + 7) / 8) by (unfold k; destruct (curBit s' =? 0) eqn:EB; lia).
    rewrite <- (buf_pack (buf s') bs _ (Z.to_nat k) A1 A2) by (unfold n in *; lia).
    apply writes_EncodeOctetString; auto; lia.
Qed.

(** ** Main induction *)
Lemma uper_ok : forall c,
  (forall t, wft t -> forall v, valid t v -> sides c t v ->
     writes (enc c t true v) true (ubits false t v) /\ reads (dec c t true) (Some (norm t v)) (ubits false t v)) /\
  (forall fs, wf_fields fs -> forall l, valid_fields fs l -> Forall (side c) (leaves_fields fs l) ->
     writes (enc_fields c fs l true) true (fields_bits false fs l) /\
     reads (dec_fields c fs (map fst l) true) (Some (norm_fields fs l)) (fields_bits false fs l)) /\
  (forall cs, wf_alts cs -> forall i v, valid_alt cs i v -> Forall (side c) (leaves_alt cs i v) ->
     (i < alts_len cs)%nat /\
     writes (enc_alt c cs i true v) true (alt_bits false cs i v) /\
     reads (dec_alt c cs i true) (Some (norm_alt cs i v)) (alt_bits false cs i v)).
Proof.
  intros c. apply ty_mutind.
  - (* BOOLEAN *) intros _ v HV _. destruct v; try easy. cbn [enc dec ubits norm]. split.
    + eapply writes_then, overwrites_writes, overwrites_AppendBit.
    + change [b] with ([b] ++ []). eapply reads_bind; [apply reads_ReadBit|apply reads_ret].
  - (* NULL *) intros _ v HV _. destruct v; try easy. split; [apply writes_ret|apply reads_ret].
  - (* INTEGER *) intros i p w HW v HV HS. destruct v; try easy. cbn [wft valid] in *. destruct HV as [HC HV].
    unfold sides in HS. cbn [leaves] in HS. apply Forall_inv in HS. cbn [enc dec ubits norm]. split.
    + eapply writes_then, writes_int; eauto.
    + eapply (reads_theno _ _ VInt), reads_int; eauto.
  - (* ENUMERATED *) intros items eff HW v HV _. destruct v; try easy. cbn [wft valid enc dec ubits norm] in *.
    split; [apply writes_enum|apply reads_enum]; auto.
  - (* OID *) intros rel _ v HV _. destruct v; try easy. split; [now apply writes_oid|now apply reads_oid].
  - (* REAL *) intros f _ v HV HS. destruct v; try easy. unfold sides in HS. cbn [leaves] in HS. apply Forall_inv in HS.
    cbn [valid side enc dec ubits norm] in *. unfold valid_real, widen in *. destruct f; destruct HV as [HD HK]; split.
    + eapply writes_then. pose proof (float_kept _ HD HK) as K.
      rewrite <- (sent_kept _ K) at 2. apply writes_EncodeReal_any. apply float_is_double; auto.
    + eapply (reads_theno _ _ VReal), reads_DecodeReal_fp32; auto.
    + eapply writes_then. rewrite <- (sent_kept _ HK) at 2. apply writes_EncodeReal_any; auto.
    + eapply (reads_theno _ _ VReal). rewrite <- (returned_kept _ HK) at 1. rewrite <- (sent_kept _ HK) at 2.
      apply reads_DecodeReal_any; auto. rewrite (sent_kept _ HK). auto.
  - (* strings *) intros a min max [HA HW] v HV _. destruct v; try easy. cbn [valid enc dec ubits norm] in *.
    destruct HV as (HZ & HF & HN). split; [apply writes_str|eapply (reads_theno _ _ VStr), reads_str]; auto.
  - (* OCTET STRING *) intros min max HW v HV _. destruct v; try easy. cbn [wft valid enc dec ubits norm] in *.
    destruct HV as (HZ & HF). split; [apply writes_octet|eapply (reads_theno _ _ VOct), reads_octet]; auto.
  - (* BIT STRING *) intros min max HW v HV _. destruct v; try easy. cbn [wft valid enc dec ubits norm] in *.
    split; [apply writes_bit|eapply (reads_theno _ _ VBit), reads_bit]; auto.
  - (* SEQUENCE OF *) intros t IH min max [HW Ht] v HV HS. destruct v; try easy. cbn [valid enc dec ubits norm] in *.
    destruct HV as (HZ & HF). unfold wf_size, size_in in *. unfold sides in HS. cbn [leaves] in HS.
    assert (HI : forall x, In x l -> writes (enc c t true x) true (ubits false t x) /\
                reads (dec c t true) (Some (norm t x)) (ubits false t x)).
    { intros x Hx. rewrite Forall_forall in HF. apply IH; auto. unfold sides. rewrite Forall_forall in *.
      intros y Hy. apply HS. apply in_flat_map. eauto. }
    split.
    + rewrite <- (app_nil_r l) at 1. apply writes_sized_enc; try lia. apply HI.
    + eapply (reads_theno _ _ VSeqOf). apply reads_sized_dec; try lia. apply HI.
  - (* SEQUENCE *) intros fs IH HW v HV HS. destruct v; try easy. cbn [wft valid enc dec ubits norm] in *.
    destruct (IH HW l HV HS) as [HE HD]. destruct (has_presence fs) eqn:EP.
    + split.
      * eapply writes_bind; [now apply writes_presence|exact HE].
      * eapply reads_bindo; [now apply reads_presence|]. eapply (reads_theno _ _ VSeq). exact HD.
    + destruct (no_presence fs l EP HV) as [-> EM]. cbn [app]. rewrite EM in HD. split; [exact HE|].
      eapply (reads_theno _ _ VSeq). exact HD.
  - (* CHOICE *) intros cs IH (HN & HL & HW) v HV HS. destruct v; try easy. cbn [valid enc dec ubits norm] in *.
    destruct (IH HW i v HV HS) as (HI & HE & HD).
    assert (HK : sfits c (Z.of_nat (alts_len cs) - 1 - 0)) by (left; unfold is_s64, two63; lia).
    rewrite <- (Z.sub_0_r (Z.of_nat i)).
    split.
    + replace (i <? alts_len cs)%nat with true by lia. rewrite Z.sub_0_r at 1.
      eapply writes_bind; [apply writes_EncodeConstraint; auto; unfold is_s64, two63; lia|exact HE].
    + eapply reads_bindo; [apply reads_DecodeConstraint; auto; unfold is_s64, two63; lia|].
      replace ((0 <=? Z.of_nat i) && (Z.of_nat i <? Z.of_nat (alts_len cs))) with true by lia. rewrite Nat2Z.id.
      eapply (reads_theno _ _ (VChoice i)). exact HD.
  - (* reference *) intros ok t IH HW v HV HS.
    assert (HV' : valid t v /\ ok (norm t v) = true) by (destruct v; exact HV). clear HV. destruct HV' as [HV HK].
    assert (HS' : sides c t v) by (destruct v; exact HS).
    assert (EU : ubits false (TRef ok t) v = ubits false t v) by (destruct v; reflexivity).
    assert (EN : norm (TRef ok t) v = norm t v) by (destruct v; reflexivity).
    assert (EE : enc c (TRef ok t) true v = enc c t true v) by (destruct v; reflexivity).
    destruct (IH HW v HV HS') as [HE HD]. rewrite EU, EN, EE. split; [exact HE|]. cbn [dec].
    rewrite <- (app_nil_r (ubits _ _ _)). eapply reads_bindo; [exact HD|]. rewrite HK. apply reads_ret.
  - (* CONTAINING *) intros bits min max req t IH [HW Ht] v HV HS.
    assert (HV' : valid t v) by (destruct v; exact HV).
    assert (HS' : Forall (side c) (LCont bits min max req (ubits false t v) :: leaves t v)) by (destruct v; exact HS).
    assert (EU : ubits false (TCont bits min max req t) v =
       sized min max (if bits then single_bits (ubits false t v) else octets (pack (ubits false t v)))) by (destruct v; reflexivity).
    assert (EN : norm (TCont bits min max req t) v = norm t v) by (destruct v; reflexivity).
    inversion HS' as [|x y S1 S2]; subst x y. destruct (IH Ht v HV' S2) as [HE HD]. rewrite EU, EN. split.
    + pose proof (writes_cont c _ bits min max req _ HW S1 HE) as H. destruct v; exact H.
    + exact (reads_cont c _ _ bits min max req _ HW S1 HD).
  - (* no component *) intros _ l HV _. destruct l; [|easy]. split; [apply writes_ret|apply reads_ret].
  - (* component *) intros o t IHt fs IHf (HW & HWs & HD) l HV HS. destruct l as [|[e v] l]; [easy|].
    cbn [valid_fields leaves_fields] in *. destruct HV as [HV HVs]. apply Forall_app in HS. destruct HS as [HS HSs].
    destruct (IHf HWs l HVs HSs) as [FE FD].
    cbn [enc_fields dec_fields map fst fields_bits norm_fields].
    assert (PRES : e = true -> exists w, v = Some w /\ valid t w /\ o <> AlwaysAbsent).
    { intros ->. destruct o; destruct v; try easy; eexists; splits; eauto; discriminate. }
    assert (ABS : e = false -> o <> Mandatory /\ o <> AlwaysPresent).
    { intros ->. destruct o; try easy; destruct v; easy. }
    destruct (silent t) eqn:ES.
    + assert (EB : match e, v with true, Some v => ubits false t v | _, _ => [] end = []).
      { destruct e; [|reflexivity]. destruct v; [|reflexivity]. now apply silent_ubits_t. }
      rewrite EB. cbn [app]. split; [exact FE|].
      rewrite <- (app_nil_l (fields_bits _ _ _)). destruct e.
      * destruct (PRES eq_refl) as (w & -> & HV' & _).
        destruct (IHt HW w HV' HS) as [_ HR]. rewrite silent_ubits_t in HR by auto.
        eapply reads_bindo; [exact HR|]. eapply (reads_theno _ _ (fun l => (true, Some (norm t w)) :: l)). exact FD.
      * destruct (proj1 (silent_dec c) t ES) as [w HR]. eapply reads_bindo; [exact HR|].
        destruct o; try discriminate; try easy;
          (eapply (reads_theno _ _ (fun l => (false, None) :: l)); exact FD).
    + destruct e.
      * destruct (PRES eq_refl) as (w & -> & HV' & HNA). destruct (IHt HW w HV' HS) as [HE HR]. split.
        -- destruct o; try easy; (eapply writes_bind; [exact HE|exact FE]).
        -- eapply reads_bindo; [exact HR|]. eapply (reads_theno _ _ (fun l => (true, Some (norm t w)) :: l)). exact FD.
      * destruct (ABS eq_refl) as [A1 A2].
        assert (EB : match v with Some _ => @nil bool | None => [] end = []) by (destruct v; reflexivity).
        split.
        -- destruct v; cbn [app]; destruct o; try easy; exact FE.
        -- destruct v; cbn [app]; destruct o; try easy;
           (match goal with |- reads _ (Some (?h :: _)) _ => eapply (reads_theno _ _ (fun l => h :: l)); exact FD end).
  - (* no alternative *) intros _ i v HV. destruct i; easy.
  - (* alternative *) intros t IHt cs IHc [HW HWs] i v HV HS. destruct i; cbn [valid_alt leaves_alt enc_alt dec_alt alt_bits norm_alt alts_len] in *.
    + split; [lia|]. apply IHt; auto.
    + destruct (IHc HWs i v HV HS) as (H1 & H2 & H3). splits; auto. lia.
Qed.

Theorem writes_uper : forall c t v, wft t -> valid t v -> sides c t v ->
  writes (enc c t true v) true (ubits false t v).
Proof. intros. now apply uper_ok. Qed.
Theorem reads_uper : forall c t v, wft t -> valid t v -> sides c t v ->
  reads (dec c t true) (Some (norm t v)) (ubits false t v).
Proof. intros. now apply uper_ok. Qed.
