(** BIT STRING and REAL in, bounds of all codecs, look-ahead. *)
From Coq Require Import SpecFloat.
From Verif Require Import FloatProofs Base Bits BitsProofs BitStream Ints IntsProofs Misc MiscProofs Contracts RealSpec RealC OidSpec ByteStream ByteStreamProofs BerSpec Ber
  HistoryProofs OctetsProofs OctetsProofs2 OidProofs SafeProofs BitStreamProofs3 RealProofs BerProofs BerProofs2 BerProofs3 BerProofs4.
From Coq Require Import ZifyBool ZifyNat.
Ltac Zify.zify_post_hook ::= Z.div_mod_to_equations.

(** ** Identifier octets *)
Lemma ident_same' : forall class c1 c2 n l1 l2, 0 <= class < 4 -> 0 <= n -> is_ident class c1 n l1 -> is_ident class c2 n l2 -> same_ident l1 l2.
Proof.
  intros class c1 c2 n l1 l2 C N H1 H2. eapply ident_same; eauto.
  unfold is_ident in H1, H2. cbv zeta in *. destruct (n <? 31) eqn:E; [lia|]. right.
  destruct H1 as (t1 & S1 & ->). destruct H2 as (t2 & S2 & ->). cbn [tl]. exact (subid_unique _ _ _ S1 S2).
Qed.

(** ** BIT STRING *)
Definition room8 (max : Z) : Z := if Z.rem max 8 =? 0 then Z.quot max 8 else Z.quot max 8 + 1.
Lemma room8_ok : forall max, 0 <= max -> room8 max = (max + 7) / 8.
Proof. intros max M. unfold room8. rewrite Z.rem_mod_nonneg, Z.quot_div_nonneg by lia. destruct (_ =? 0) eqn:E; lia. Qed.
Lemma ires_small : forall c n, - 2 ^ 31 <= n < 2 ^ 31 -> ires c n = Ok n.
Proof. intros c n H. unfold ires, in_s32. destruct (_ && _) eqn:E; [reflexivity|lia]. Qed.
Lemma split_dst : forall (dst : list Z) k n, (n <= length dst)%nat ->
  exists old, dst = old ++ skipn (Nat.min k n) dst /\ length old = Nat.min k n.
Proof.
  intros dst k n H. exists (firstn (Nat.min k n) dst). split; [now rewrite firstn_skipn|rewrite firstn_length; lia].
Qed.
Lemma gets_BitString : forall c t id lo u l dst max, 0 <= t < 2 ^ 32 -> Forall is_byte id -> same_ident (tag_octets t) id ->
  Forall is_byte lo -> length_of lo = Some (Def (Z.of_nat (length (u :: l)))) -> is_len (u :: l) -> Forall is_byte (u :: l) ->
  0 <= max -> (max + 7) / 8 <= Z.of_nat (length dst) ->
  gets (BerDecodeBitString c t dst max) (bits_received dst max u l) (id ++ lo ++ u :: l).
Proof.
  intros c t id lo u l dst max T Fi Si Fl Ll L F M R. unfold BerDecodeBitString. cbv zeta. fold (room8 max). rewrite room8_ok by assumption.
  eapply gets_bind; [now apply gets_Tag|]. eapply gets_bind; [apply gets_Length; [assumption|]|].
  { eapply length_result; [assumption|exact Ll|exact L]. }
  inversion_clear F. unfold is_len in L. cbn [length] in *.
  change (u :: l) with ([u] ++ l). eapply gets_bind; [apply gets_GetByte|].
  eapply gets_lift; [apply ires_small; lia|]. replace (Z.to_nat (Z.of_nat (S (length l)) - 1)) with (length l) by lia.
  destruct (split_dst dst (length l) (Z.to_nat ((max + 7) / 8))) as (old & E & Lo); [lia|].
  eapply gets_bind0.
  - rewrite E at 1. apply (gets_bits l [] old); [assumption|exact Lo|cbn; lia].
  - cbn [app]. unfold bits_received, bits_left. cbv zeta. rewrite Z.add_0_l. apply gets_ret.
Qed.
Lemma accepts_BitString : forall c t dst max, is_u64 t -> 0 <= max -> (max + 7) / 8 <= Z.of_nat (length dst) ->
  accepts (BerDecodeBitString c t dst max) (fun r bs => exists id lo n u l, bs = id ++ lo ++ u :: l /\ same_ident (tag_octets t) id /\
    len_result lo = Some n /\ (- 2 ^ 31 < n -> length l = Z.to_nat (n - 1)) /\ is_byte u /\ r = bits_received dst max u l).
Proof.
  intros c t dst max T M R. unfold BerDecodeBitString. cbv zeta. fold (room8 max). rewrite room8_ok by assumption. eapply accepts_weaken.
  - eapply accepts_bind; [now apply accepts_Tag|]. intros u0 x0 _.
    eapply accepts_bind; [apply accepts_Length|]. intros n x (Fx & Ex).
    instantiate (1 := fun n r bs => exists u l, bs = u :: l /\ (- 2 ^ 31 < n < 2 ^ 31 -> length l = Z.to_nat (n - 1)) /\ is_byte u /\ r = bits_received dst max u l).
    eapply accepts_weaken.
    + eapply accepts_bind; [apply accepts_GetByte|]. intros u y [-> Hu].
      instantiate (1 := fun u r l => (- 2 ^ 31 < n < 2 ^ 31 -> length l = Z.to_nat (n - 1)) /\ r = bits_received dst max u l).
      apply accepts_lift. intros k Hk.
      destruct (split_dst dst (Z.to_nat k) (Z.to_nat ((max + 7) / 8))) as (old & E & Lo); [lia|].
      eapply accepts_weaken.
      * eapply accepts_bind; [rewrite E at 1; apply (accepts_bits _ [] old); [exact Lo|cbn; lia]|].
        intros [[d nb] uu] z _. instantiate (1 := fun a r bs => bs = [] /\ r = (fst (fst a), snd (fst a) - snd a)). apply accepts_ret. auto.
      * intros r bs ([[d nb] uu] & z & y & -> & (Lz & Fz & [= -> -> ->]) & -> & ->). rewrite app_nil_r. cbn [fst snd]. split.
        -- intros Hn. rewrite ires_small in Hk by lia. congruence.
        -- unfold bits_received, bits_left. cbv zeta. rewrite ?Z.add_0_l. cbn [app]. now rewrite Lz.
    + intros r bs (u & y & l & -> & [-> Hu] & Ll & ->). exists u, l. auto.
  - intros r bs (u0 & x & y & -> & (Fx & Sx) & n & lo & z & -> & (Fl & El) & u & l & -> & Ll & Hu & ->).
    exists x, lo, n, u, l. split; [reflexivity|]. split; [assumption|]. split; [assumption|]. split; [|split; [assumption|reflexivity]].
    intros Hn. apply Ll. split; [assumption|].
    destruct lo as [|b t0]; [discriminate|]. inversion_clear Fl. unfold is_byte in H. cbn [len_result] in El.
    destruct (b <? 128); [destruct t0; [|discriminate]; injection El; lia|].
    destruct (b =? 128); [destruct t0; [|discriminate]; injection El; lia|].
    destruct (_ =? _); [|discriminate]. injection El as <-. unfold wrap32. lia.
Qed.
Lemma received_bits : forall dst max bs, Z.of_nat (length bs) <= max ->
  bits_received dst max ((- Z.of_nat (length bs)) mod 8) (pack bs) = (pack bs ++ skipn (length (pack bs)) dst, Z.of_nat (length bs)).
Proof.
  intros dst max bs H. unfold bits_received. cbv zeta. pose proof (pack_len bs). rewrite Nat.min_l by lia.
  destruct (_ <=? _)%nat eqn:E; [|lia]. rewrite firstn_all2 by lia. f_equal. lia.
Qed.
Lemma received_all : forall dst max l, Z.of_nat (length l) <= max -> firstn (length l) (received dst max l) = l.
Proof.
  intros dst max l H. unfold received. cbv zeta. rewrite (firstn_all2 (n := Z.to_nat max)) by lia.
  rewrite firstn_app, Nat.sub_diag. cbn [firstn]. now rewrite app_nil_r, firstn_all.
Qed.

(** ** REAL *)
Lemma sent_len : forall x, is_double x -> Z.of_nat (length (real_octets (sent x))) <= 10 /\ Forall is_byte (real_octets (sent x)).
Proof.
  intros x Hd. assert (E : (exists s m e, sent x = S754_finite s m e /\ -1075 <= e <= 971 /\ nbits (Zpos m) <= 53) \/ sent x = x /\ match x with S754_finite _ _ _ => False | _ => True end).
  { destruct x as [s|s| |s m e]; try (right; split; [reflexivity|exact I]). left. cbn [sent].
    unfold is_double, valid_binary, SpecFloat.bounded, canonical_mantissa in Hd.
    apply andb_prop in Hd. destruct Hd as [H1 H2]. apply Zeq_bool_eq in H1. apply Zle_bool_imp_le in H2.
    rewrite fx_eq, digits_nbits in H1. destruct (Z.ltb_spec (Zpos m) (2 ^ 52)).
    - exists s, (Z.to_pos (Zpos m + 2 ^ 52)), (-1075). split; [reflexivity|]. split; [lia|].
      rewrite Z2Pos.id by lia. unfold nbits. destruct (_ <=? 0) eqn:Q; [lia|].
      assert (Z.log2 (Zpos m + 2 ^ 52) < 53) by (apply Z.log2_lt_pow2; lia). lia.
    - exists s, m, e. split; [reflexivity|]. lia. }
  destruct E as [(s & m & e & -> & He & Hm)|[-> N]].
  - assert (1 <= nbytes_s e <= 2).
    { unfold nbytes_s. set (w := if e <? 0 then _ else _).
      assert (0 <= w < 2 ^ 15) by (unfold w; destruct (e <? 0) eqn:?; lia).
      assert (0 <= nbits w <= 15); [|lia]. unfold nbits. destruct (w <=? 0) eqn:Q; [lia|].
      pose proof (Z.log2_nonneg w). assert (Z.log2 w < 15) by (apply Z.log2_lt_pow2; lia). lia. }
    destruct (be_octets_ok (nbytes_s e) e ltac:(lia)) as (_ & F1 & L1).
    assert (1 <= nbytes_u (Zpos m) <= 7) by (unfold nbytes_u; pose proof (nbits_pos1 m); lia).
    destruct (be_octets_ok (nbytes_u (Zpos m)) (Zpos m) ltac:(lia)) as (_ & F2 & L2).
    cbn [real_octets length]. rewrite app_length. split; [lia|]. constructor; [|apply Forall_app; auto].
    unfold is_byte. destruct s; lia.
  - destruct x as [s|[]| |]; try easy; cbn [real_octets length]; (split; [lia|]); repeat constructor; unfold is_byte; lia.
Qed.
Lemma sent_bytes : forall x, is_double x ->
  Forall is_byte (Z.of_nat (length (real_octets (sent x))) :: real_octets (sent x)).
Proof. intros x H. destruct (sent_len x H). constructor; [unfold is_byte; lia|assumption]. Qed.
Lemma puts_Real : forall c t x, is_u64 t -> is_double x ->
  puts (BerEncodeReal c t x) tt (tlv (tag_octets t) (real_octets (sent x))).
Proof.
  intros c t x T D. destruct (sent_len x D) as [L F]. pose proof (sent_bytes x D) as FB.
  set (l := Z.of_nat (length (real_octets (sent x))) :: real_octets (sent x)) in *.
  destruct (writes_EncodeReal_any c x D (mkbs (repeat 0 100) 100 0 0) [] (8 * 100)%nat []) as (s' & E & (B1 & B2 & B3 & B4) & C).
  - unfold at_, pos. cbn [curBit curByte buf]. split; [|split; [rewrite bits_of_bytes_zeros, app_nil_r; reflexivity|cbn [length]; lia]].
    apply Forall_forall. intros y Hy. apply repeat_spec in Hy. subst. unfold is_byte. lia.
  - reflexivity.
  - unfold real_bits. fold l. rewrite len_bits_of_bytes. cbn [length]. unfold l. cbn [length]. lia.
  - unfold real_bits in *. fold l in B2, B3. cbn [app] in *.
    destruct (mem_aligned (buf s') _ _ (Z.of_nat (length l)) B1 B2) as (m1 & m2 & Em & L1 & E1 & E2 & F1 & F2).
    { rewrite len_bits_of_bytes. lia. }
    apply bits_of_bytes_inj in E1; auto. subst m1.
    rewrite len_bits_of_bytes in B3.
    unfold BerEncodeReal. eapply puts_lift; [exact E|]. cbv zeta. cbn [snd].
    rewrite GetLength_pos by assumption. rewrite <- B3. unfold tlv.
    eapply puts_bind; [now apply puts_Tag|]. rewrite short_length by lia. change ([?a] ++ ?r) with (a :: r). fold l.
    rewrite Em. apply puts_array0. unfold byte_of.
    assert (Z.of_nat (length l) <= 11) by (unfold l; cbn [length]; lia). lia.
Qed.
Lemma gets_lenreal : forall c x (l : list Z), Forall is_byte l ->
  reads (BitStream_DecodeReal c) (Some x) (bits_of_bytes l) ->
  gets (do* s := bget in
        if (cur s <? 0) || (Z.of_nat (length (mem s)) <? cur s) then blift UB
        else
          do* t := blift (BitStream_DecodeReal c (mkbs (skipn (Z.to_nat (cur s)) (mem s)) (size s - cur s) 0 0)) in
          match fst t with
          | None => bret None
          | Some x => do* _ := bseek (cur s + BitStream_GetLength (snd t)) in bret (Some x)
          end) x l.
Proof.
  intros c x l F H s pre rest FM [HM HC] HS. unfold bbind, bget.
  assert (LM : length (mem s) = (length pre + length (l ++ rest))%nat) by now rewrite HM, app_length.
  destruct (_ || _) eqn:E; [lia|]. rewrite HC, Nat2Z.id. rewrite HM. rewrite skipn_app, Nat.sub_diag, skipn_all. cbn [skipn app].
  rewrite HM in FM. apply Forall_app in FM. destruct FM as [FP FR].
  destruct (H (mkbs (l ++ rest) (size s - Z.of_nat (length pre)) 0 0) [] (bits_of_bytes rest)) as (s' & E' & A & C' & B').
  - split; [exact FR|]. split; [cbn [buf]; now rewrite bits_of_bytes_app|]. cbn [pos curByte curBit length]. unfold pos. cbn. lia.
  - cbn [count length]. rewrite len_bits_of_bytes. lia.
  - unfold blift. rewrite E'. cbn [fst snd]. unfold bseek, bret. eexists. split; [reflexivity|].
    destruct A as (A1 & A2 & A3 & A4). rewrite app_nil_l, len_bits_of_bytes in A3. rewrite GetLength_pos by assumption. rewrite <- A3.
    split; [|auto]. split; cbn [mem cur]; [rewrite HM; now rewrite app_assoc|]. rewrite app_length. lia.
Qed.
Lemma gets_Real : forall c t id x, 0 <= t < 2 ^ 32 -> Forall is_byte id -> same_ident (tag_octets t) id -> is_double x ->
  (shl_wrap c = true \/ match sent x with S754_finite _ _ e => 0 <= e | _ => True end) ->
  gets (BerDecodeReal c t) (returned x) (id ++ length_octets (Z.of_nat (length (real_octets (sent x)))) ++ real_octets (sent x)).
Proof.
  intros c t id x T Fi Si D HC. unfold BerDecodeReal. eapply gets_bind; [now apply gets_Tag|].
  destruct (sent_len x D) as [L F]. rewrite short_length by lia. change ([?a] ++ ?r) with (a :: r).
  apply gets_lenreal; [now apply sent_bytes|]. now apply reads_DecodeReal_any.
Qed.
Lemma guarded_Real : forall c t, 0 <= t < 2 ^ 32 -> ovf_wrap c = true -> shl_wrap c = true -> guarded (BerDecodeReal c t) is_double.
Proof.
  intros c t T O S. unfold BerDecodeReal. eapply guarded_bind; [now apply guarded_Tag|]. intros _ _ s W.
  pose proof W as (W1 & W2 & W3). unfold bbind, bget. destruct (_ || _) eqn:E; [lia|].
  assert (FS : Forall is_byte (skipn (Z.to_nat (cur s)) (mem s))).
  { rewrite <- (firstn_skipn (Z.to_nat (cur s))) in W1. apply Forall_app in W1. tauto. }
  destruct (Z.le_gt_cases (cur s) (size s)) as [H|H].
  - destruct (safe_DecodeReal c O S (mkbs (skipn (Z.to_nat (cur s)) (mem s)) (size s - cur s) 0 0)) as (r & s' & E' & B' & C' & P' & Q' & R').
    + unfold wfs, pos. cbn [buf curByte curBit count]. rewrite skipn_length. repeat split; auto; lia.
    + unfold blift. rewrite E'. cbn [fst snd]. destruct r as [x|]; unfold bret, bseek.
      * eexists (Some x), _. split; [reflexivity|]. cbn [mem size cur]. rewrite GetLength_pos by assumption.
        unfold pos in *. cbn [curByte curBit count] in *. destruct R' as [R1 R2]. repeat split; auto; rewrite C' in R1; lia.
      * exists None, s. repeat split; auto; lia.
  - assert (E2 : BitStream_ReadByte (mkbs (skipn (Z.to_nat (cur s)) (mem s)) (size s - cur s) 0 0) =
                 Ok (None, mkbs (skipn (Z.to_nat (cur s)) (mem s)) (size s - cur s) 0 0)).
    { unfold BitStream_ReadByte, bind, get, ret. cbn [curBit curByte count]. change (0 <? 0) with false. cbv iota.
      destruct (size s - cur s - 0 <? 1) eqn:E2; [reflexivity|lia]. }
    unfold BitStream_DecodeReal, bindo, bind, ret, blift. rewrite E2. cbn [fst]. exists None, s. unfold bret. repeat split; auto; lia.
Qed.

(** ** Decoders with a spare byte *)
Lemma guarded_Boolean : forall t, 0 <= t < 2 ^ 32 -> guarded (BerDecodeBoolean t) (fun _ => True).
Proof.
  intros t T. unfold BerDecodeBoolean. eapply guarded_bind; [now apply guarded_Tag|]. intros _ _.
  eapply guarded_bind; [apply guarded_Length|]. intros n _. destruct (negb _); [apply guarded_none|].
  eapply guarded_bind; [apply guarded_GetByte|]. intros b _. now apply guarded_ret.
Qed.
Lemma guarded_Null : forall t, 0 <= t < 2 ^ 32 -> guarded (BerDecodeNull t) (fun _ => True).
Proof.
  intros t T. unfold BerDecodeNull. eapply guarded_bind; [now apply guarded_Tag|]. intros _ _.
  eapply guarded_bind; [apply guarded_Length|]. intros n _. destruct (negb _); [apply guarded_none|]. now apply guarded_ret.
Qed.
Lemma guarded_TwoZeroes : guarded BerDecodeTwoZeroes (fun _ => True).
Proof.
  unfold BerDecodeTwoZeroes. eapply guarded_bind; [apply guarded_GetByte|]. intros a _. destruct (negb _); [apply guarded_none|].
  eapply guarded_bind; [apply guarded_GetByte|]. intros b _. destruct (negb _); [apply guarded_none|]. now apply guarded_ret.
Qed.
Lemma memset_props : forall dst max, 0 <= max <= Z.of_nat (length dst) -> Forall is_byte dst ->
  length (repeat 0 (Z.to_nat max) ++ skipn (Z.to_nat max) dst) = length dst /\
  Forall is_byte (repeat 0 (Z.to_nat max) ++ skipn (Z.to_nat max) dst).
Proof.
  intros dst max M F. split; [rewrite app_length, repeat_length, skipn_length; lia|].
  apply Forall_app. split.
  - apply Forall_forall. intros y Hy. apply repeat_spec in Hy. subst. unfold is_byte. lia.
  - rewrite <- (firstn_skipn (Z.to_nat max)) in F. apply Forall_app in F. tauto.
Qed.
Lemma guarded_IA5String : forall t dst max, 0 <= t < 2 ^ 32 -> 0 <= max <= Z.of_nat (length dst) -> Forall is_byte dst ->
  guarded (BerDecodeIA5String t dst max) (fun r => length r = length dst /\ Forall is_byte r).
Proof.
  intros t dst max T M F. unfold BerDecodeIA5String. eapply guarded_lift; [now apply memset_ok|].
  destruct (memset_props dst max M F) as [L G].
  eapply guarded_bind; [now apply guarded_Tag|]. intros _ _.
  eapply guarded_bind; [apply guarded_Length|]. intros n _. rewrite <- L. apply guarded_array; auto; lia.
Qed.
Lemma guarded_OctetString : forall t dst max, 0 <= t < 2 ^ 32 -> 0 <= max <= Z.of_nat (length dst) -> Forall is_byte dst ->
  guarded (BerDecodeOctetString t dst max) (fun r => length (fst r) = length dst /\ Forall is_byte (fst r) /\ snd r <= max).
Proof.
  intros t dst max T M F. unfold BerDecodeOctetString. eapply guarded_lift; [now apply memset_ok|].
  destruct (memset_props dst max M F) as [L G].
  eapply guarded_bind; [now apply guarded_Tag|]. intros _ _.
  eapply guarded_bind; [apply guarded_Length|]. intros n _.
  eapply guarded_bind; [apply guarded_array with (d := repeat 0 (Z.to_nat max) ++ skipn (Z.to_nat max) dst); auto; lia|].
  intros r [Lr Gr]. apply guarded_ret. cbn [fst snd]. repeat split; [lia|assumption|]. destruct (n <=? max) eqn:E; lia.
Qed.
Lemma ires_wrap : forall c n, ovf_wrap c = true -> exists k, ires c n = Ok k.
Proof. intros c n H. unfold ires. destruct (in_s32 n); [eauto|]. rewrite H. eauto. Qed.
Lemma guarded_BitString : forall c t dst max, ovf_wrap c = true -> 0 <= t < 2 ^ 32 -> 0 <= max -> (max + 7) / 8 <= Z.of_nat (length dst) -> Forall is_byte dst ->
  guarded (BerDecodeBitString c t dst max) (fun r => length (fst r) = length dst /\ Forall is_byte (fst r)).
Proof.
  intros c t dst max O T M R F. unfold BerDecodeBitString. cbv zeta. fold (room8 max). rewrite room8_ok by assumption.
  eapply guarded_bind; [now apply guarded_Tag|]. intros _ _.
  eapply guarded_bind; [apply guarded_Length|]. intros n _.
  eapply guarded_bind; [apply guarded_GetByte|]. intros u _. destruct (ires_wrap c (n - 1) O) as [k Hk].
  eapply guarded_lift; [exact Hk|]. eapply guarded_bind; [apply guarded_bits with (d := dst); auto; lia|].
  intros [[d nb] uu] H. apply guarded_ret. exact H.
Qed.
(** INTEGER: the only other outcome is the undefined shift for a length outside 1..8. *)
Lemma Integer_outcome : forall c t s, 0 <= t < 2 ^ 32 -> bwf s ->
  (exists r s', BerDecodeInteger c t s = Ok (r, s') /\ mem s' = mem s /\ size s' = size s /\ cur s <= cur s' <= size s + 1) \/
  (BerDecodeInteger c t s = UB /\ exists pre id lo rest n, bat s pre (id ++ lo ++ rest) /\ same_ident (tag_octets t) id /\
     len_result lo = Some n /\ ~ 1 <= n <= 8).
Proof.
  intros c t s T W. unfold BerDecodeInteger, bopt, bbind. pose proof W as (W1 & W2 & W3).
  destruct (guarded_Tag t T s W) as (r1 & s1 & E1 & M1 & S1 & G1 & C1 & _). rewrite E1.
  destruct r1 as [u|]; [|left; exists None, s1; unfold bret; repeat split; auto; lia].
  assert (B1 : bwf s1) by (unfold bwf; rewrite M1, S1; repeat split; auto; lia).
  destruct (guarded_Length s1 B1) as (r2 & s2 & E2 & M2 & S2 & G2 & C2 & R2). rewrite E2.
  destruct r2 as [n|]; [|left; exists None, s2; unfold bret; repeat split; auto; try congruence; lia].
  assert (B2 : bwf s2) by (unfold bwf; rewrite M2, M1, S2, S1; repeat split; auto; lia).
  destruct (guarded_num 64 ltac:(lia) (Z.to_nat n) 0 ltac:(lia) s2 B2) as (r3 & s3 & E3 & M3 & S3 & G3 & C3 & R3).
  rewrite get_uint_num, E3. destruct r3 as [v|]; [|left; exists None, s3; unfold bret; repeat split; auto; try congruence; lia].
  assert (X : exists pre id lo rest, bat s pre (id ++ lo ++ rest) /\ same_ident (tag_octets t) id /\ len_result lo = Some n).
  { destruct (accepts_Tag t (proj1 (small_tag t T)) s u s1 W1 ltac:(lia) E1) as (p1 & b1 & q1 & H1 & (F1 & I1) & -> & _).
    cbn [mem size cur] in *.
    destruct (accepts_Length (mkby (mem s) (size s) (cur s + Z.of_nat (length b1)) (ws s)) n s2 W1) as (p2 & b2 & q2 & H2 & (F2 & I2) & _ & _);
      [cbn [cur mem]; lia|exact E2|].
    exists p1, b1, b2, q2. split; [|auto].
    assert (Q : bat (mkby (mem s) (size s) (cur s + Z.of_nat (length b1)) (ws s)) (p1 ++ b1) q1).
    { destruct H1 as [Hm Hc]. split; cbn [mem cur]; [now rewrite Hm, app_assoc|rewrite app_length; lia]. }
    destruct (bat_fun _ _ _ _ _ Q H2) as [_ <-]. exact H1. }
  destruct X as (p1 & b1 & b2 & q2 & X1 & X2 & X3).
  unfold blift. destruct ((1 <=? n) && (n <=? 8)) eqn:N.
  - destruct (accepts_num 64 ltac:(lia) (Z.to_nat n) 0 ltac:(lia) s2 v s3) as (pre & bs & rest & _ & (Lb & Fb & Ev) & _); auto.
    { rewrite M2, M1. assumption. } { destruct B2 as (? & ? & ?). lia. }
    rewrite Ev, num_unsigned by (auto; lia).
    replace n with (Z.of_nat (length bs)) by lia. rewrite uint2int_signed by (auto; lia).
    left. eexists (Some _), s3. unfold bret. split; [reflexivity|]. repeat split; try congruence; lia.
  - right. split; [unfold uint2int; cbv zeta; destruct (_ || _) eqn:Q; [reflexivity|lia]|].
    exists p1, b1, b2, q2, n. repeat split; try apply X1; auto; lia.
Qed.

(** ** Encoders with a spare byte *)
Lemma bounded_Tag : forall t, bounded (BerEncodeTag t). Proof. apply bounded_EncodeUInt. Qed.
Lemma bounded_Integer : forall c t v, is_s64 v -> sfits c (- v) -> bounded (BerEncodeInteger c t v).
Proof.
  intros c t v V S. destruct (len_int_octets v V) as [L R]. unfold BerEncodeInteger. apply bounded_bind; [apply bounded_Tag|]. intros _.
  eapply bounded_lift; [now apply GetLengthSInt_ok|]. cbv zeta. unfold byte_of. rewrite Z.mod_small by lia.
  apply bounded_bind; [apply bounded_PutByte; unfold is_byte; lia|]. intros _.
  eapply bounded_lift; [now apply int2uint_ok|]. apply bounded_EncodeUInt2. lia.
Qed.
Lemma bounded_Boolean : forall t v, bounded (BerEncodeBoolean t v).
Proof.
  intros t v. unfold BerEncodeBoolean. apply bounded_bind; [apply bounded_Tag|]. intros _.
  apply bounded_bind; [apply bounded_PutByte; unfold is_byte; lia|]. intros _. apply bounded_PutByte. unfold is_byte. destruct v; lia.
Qed.
Lemma bounded_Null : forall t, bounded (BerEncodeNull t).
Proof. intros t. unfold BerEncodeNull. apply bounded_bind; [apply bounded_Tag|]. intros _. apply bounded_PutByte. unfold is_byte. lia. Qed.
Lemma bounded_LengthStart : bounded BerEncodeLengthStart. Proof. apply bounded_PutByte. unfold is_byte. lia. Qed.
Lemma bounded_LengthEnd : bounded BerEncodeLengthEnd.
Proof. apply bounded_bind; [|intros _]; apply bounded_PutByte; unfold is_byte; lia. Qed.
Lemma bounded_octets : forall t l n, Forall is_byte l -> 0 <= n <= Z.of_nat (length l) -> n < 2 ^ 31 ->
  bounded (do? _ := BerEncodeTag t in do? _ := BerEncodeLength n in put_array (Z.to_nat n) l 0).
Proof.
  intros t l n F N L. apply bounded_bind; [apply bounded_Tag|]. intros _. apply bounded_bind; [apply bounded_Length; lia|].
  intros _. apply bounded_array; auto; lia.
Qed.
Lemma bounded_BitString : forall t l n, Forall is_byte l -> 0 <= n -> (n + 7) / 8 <= Z.of_nat (length l) -> n < 2 ^ 31 - 16 ->
  bounded (BerEncodeBitString t l n).
Proof.
  intros t l n F N L M. unfold BerEncodeBitString. cbv zeta. fold (room8 n). rewrite room8_ok by assumption.
  apply bounded_bind; [apply bounded_Tag|]. intros _. apply bounded_bind; [apply bounded_Length; lia|]. intros _.
  apply bounded_bind; [apply bounded_PutByte; unfold byte_of, is_byte; lia|]. intros _. apply bounded_array; auto; lia.
Qed.
Lemma bounded_Real : forall c t x, is_double x -> bounded (BerEncodeReal c t x).
Proof.
  intros c t x D. destruct (sent_len x D) as [L F]. 
  destruct (writes_EncodeReal_any c x D (mkbs (repeat 0 100) 100 0 0) [] (8 * 100)%nat []) as (s' & E & (B1 & B2 & B3 & B4) & C).
  - unfold at_, pos. cbn [curBit curByte buf]. split; [|split; [rewrite bits_of_bytes_zeros, app_nil_r; reflexivity|cbn [length]; lia]].
    apply Forall_forall. intros y Hy. apply repeat_spec in Hy. subst. unfold is_byte. lia.
  - reflexivity.
  - unfold real_bits. rewrite len_bits_of_bytes. cbn [length]. lia.
  - unfold BerEncodeReal. eapply bounded_lift; [exact E|]. cbv zeta. cbn [snd]. apply bounded_bind; [apply bounded_Tag|]. intros _.
    apply bounded_array; [assumption|lia|]. rewrite GetLength_pos by assumption.
    pose proof (len_bits_of_bytes (buf s')) as LB. rewrite B2, app_length in LB. unfold byte_of. cbn [app] in *. lia.
Qed.

(** ** Look-ahead *)
Lemma NextTag_spec : forall t s, 0 <= t < 2 ^ 32 -> bwf s ->
  exists b, NextTagMatches t s = Ok (b, s) /\
    (b = true -> exists pre id rest, bat s pre (id ++ rest) /\ same_ident (tag_octets t) id) /\
    (forall pre id rest, bat s pre (id ++ rest) -> Forall is_byte id -> same_ident (tag_octets t) id ->
       Z.of_nat (length pre + length id) <= size s -> b = true).
Proof.
  intros t s T W. pose proof W as (W1 & W2 & W3). unfold NextTagMatches, bbind, bget.
  destruct (guarded_Tag t T s W) as (r & s1 & E1 & M1 & S1 & G1 & C1 & _). rewrite E1. unfold bseek, bret. rewrite M1, S1, G1.
  eexists. split; [destruct s; reflexivity|]. split.
  - intros Hb. destruct r as [u|]; [|discriminate].
    destruct (accepts_Tag t (proj1 (small_tag t T)) s u s1 W1 ltac:(lia) E1) as (p & b & q & H & (_ & I) & _). eauto.
  - intros pre id rest A F I L. destruct (gets_Tag t id T F I s pre rest W1 A L) as (s2 & E2 & _). rewrite E1 in E2. now inversion E2.
Qed.
Lemma gets_TwoZeroes : gets BerDecodeTwoZeroes tt [0; 0].
Proof.
  unfold BerDecodeTwoZeroes. change [0; 0] with ([0] ++ [0]). eapply gets_bind; [apply gets_GetByte|]. cbn [Z.eqb negb].
  eapply gets_bind0; [apply gets_GetByte|]. apply gets_ret.
Qed.
Lemma accepts_TwoZeroes : accepts BerDecodeTwoZeroes (fun _ bs => bs = [0; 0]).
Proof.
  unfold BerDecodeTwoZeroes. eapply accepts_weaken.
  - eapply accepts_bind; [apply accepts_GetByte|]. intros a x _.
    instantiate (1 := fun a _ bs => a = 0 /\ bs = [0]). destruct (a =? 0) eqn:E; [|apply accepts_none]. cbn [negb]. eapply accepts_weaken.
    + eapply accepts_bind; [apply accepts_GetByte|]. intros b y _.
      instantiate (1 := fun b _ bs => b = 0 /\ bs = []). destruct (b =? 0) eqn:E2; [|apply accepts_none]. apply accepts_ret. split; [lia|reflexivity].
    + intros u bs (b & y & z & -> & [-> _] & -> & ->). split; [lia|reflexivity].
  - intros u bs (b & y & z & -> & [-> _] & -> & ->). reflexivity.
Qed.
Lemma NextZeroes_spec : forall s, bwf s ->
  exists b, LA_Next_Two_Bytes_00 s = Ok (b, s) /\
    (b = true -> exists pre rest, bat s pre ([0; 0] ++ rest)) /\
    (forall pre rest, bat s pre ([0; 0] ++ rest) -> Z.of_nat (length pre + 2) <= size s -> b = true).
Proof.
  intros s W. pose proof W as (W1 & W2 & W3). unfold LA_Next_Two_Bytes_00, bbind, bget.
  destruct (guarded_TwoZeroes s W) as (r & s1 & E1 & M1 & S1 & G1 & C1 & _). rewrite E1. unfold bseek, bret. rewrite M1, S1, G1.
  eexists. split; [destruct s; reflexivity|]. split.
  - intros Hb. destruct r as [u|]; [|discriminate].
    destruct (accepts_TwoZeroes s u s1 W1 ltac:(lia) E1) as (p & b & q & H & -> & _). eauto.
  - intros pre rest A L. destruct (gets_TwoZeroes s pre rest W1 A L) as (s2 & E2 & _). rewrite E1 in E2. now inversion E2.
Qed.
Lemma puts_LengthStart : puts BerEncodeLengthStart tt [128]. Proof. apply puts_PutByte. Qed.
Lemma puts_LengthEnd : puts BerEncodeLengthEnd tt [0; 0].
Proof. change [0; 0] with ([0] ++ [0]). eapply puts_bind; apply puts_PutByte. Qed.
