(** Remaining proofs for Properties8.v. *)
From Verif Require Properties2Proofs RealProofs.
From Verif Require Import Base Bits BitsProofs BitStream Ints IntsProofs Misc MiscProofs Contracts RealSpec RealC OidSpec ByteStream ByteStreamProofs BerSpec Ber
  OctetsProofs OctetsProofs2 OidProofs BerProofs BerProofs2 BerProofs3 BerProofs4 BerProofs5.
From Coq Require Import ZifyBool ZifyNat.
Ltac Zify.zify_post_hook ::= Z.div_mod_to_equations.

Lemma round_trip : forall A (f : B (option unit)) (g : B (option A)) a bs, Forall is_byte bs -> puts f tt bs -> gets g a bs ->
  forall s pre old rest, Forall is_byte (mem s) -> bat s pre (old ++ rest) -> length old = length bs ->
    Z.of_nat (length pre + length bs) <= size s ->
    exists s1 s2, f s = Ok (Some tt, s1) /\ mem s1 = pre ++ bs ++ rest /\
      g (mkby (mem s1) (size s1) (cur s) (ws s1)) = Ok (Some a, s2) /\ mem s2 = mem s1 /\ cur s2 = cur s1.
Proof.
  intros A f g a bs FB P G s pre old rest F H L R. destruct (P s pre old rest H L R) as (s1 & E1 & [M1 C1] & S1 & W1).
  assert (M : mem s1 = pre ++ bs ++ rest) by now rewrite M1, app_assoc.
  destruct H as [HM HC]. rewrite HM in F. apply Forall_app in F. destruct F as [FP F]. apply Forall_app in F. destruct F as [_ FR].
  destruct (G (mkby (mem s1) (size s1) (cur s) (ws s1)) pre rest) as (s2 & E2 & [M2 C2] & _ & _ & E3).
  - cbn [mem]. rewrite M. rewrite !Forall_app. auto.
  - split; cbn [mem cur]; [exact M|exact HC].
  - cbn [size]. lia.
  - exists s1, s2. repeat split; auto. congruence.
Qed.

Lemma same_refl : forall t, same_ident (tag_octets t) (tag_octets t) <-> True.
Proof.
  intros t. split; [auto|]. intros _. destruct (tag_octets t) eqn:E; [|cbn; auto].
  pose proof (len_tag_octets t) as H. rewrite E in H. cbn in H. unfold nbytes_u in H. exfalso. lia.
Qed.
Lemma same_refl' : forall t, same_ident (tag_octets t) (tag_octets t).
Proof. intros t. now apply same_refl. Qed.
Lemma tlv_bytes : forall t l, Forall is_byte l -> is_len l -> Forall is_byte (tlv (tag_octets t) l).
Proof.
  intros t l F L. unfold tlv. apply Forall_app. split; [apply tag_octets_bytes|]. apply Forall_app. split; [|assumption].
  apply length_octets_ok. unfold is_len in L. lia.
Qed.
Lemma read_tlv : forall A (f : B (option A)) (a : list Z -> A) t l,
  (forall id lo, Forall is_byte id -> same_ident (tag_octets t) id -> Forall is_byte lo ->
     length_of lo = Some (Def (Z.of_nat (length l))) -> gets f (a l) (id ++ lo ++ l)) ->
  is_len l -> gets f (a l) (tlv (tag_octets t) l).
Proof.
  intros A f a t l H L. unfold is_len in L. destruct (length_octets_ok (Z.of_nat (length l))) as [F E]; [lia|].
  apply H; auto; [apply tag_octets_bytes|apply same_refl'].
Qed.
Lemma small_len : forall l : list Z, (length l <= 100)%nat -> is_len l.
Proof. intros l H. unfold is_len. lia. Qed.
Lemma back_Integer : forall c t v, 0 <= t < 2 ^ 32 -> is_s64 v -> gets (BerDecodeInteger c t) v (tlv (tag_octets t) (int_octets v)).
Proof.
  intros c t v T V. destruct (len_int_octets v V) as [L R].
  assert (E : signed_octets (int_octets v) = v).
  { unfold int_octets. apply signed_be_; [lia|]. rewrite Z2Nat.id by lia. now apply nbytes_s_fit. }
  rewrite <- E at 1. apply (read_tlv _ _ signed_octets); [|apply small_len; lia]. intros id lo F S Fl Ll. apply gets_Integer; auto; [apply be_bytes|lia].
Qed.
Lemma back_Boolean : forall t v, 0 <= t < 2 ^ 32 -> gets (BerDecodeBoolean t) v (tlv (tag_octets t) (bool_octets v)).
Proof.
  intros t v T. assert (E : negb ((if v then 255 else 0) =? 0) = v) by (destruct v; reflexivity).
  rewrite <- E at 1. unfold bool_octets.
  apply (read_tlv _ _ (fun l => negb (hd 0 l =? 0))); [|apply small_len; cbn; lia]. intros id lo F S Fl Ll. apply gets_Boolean; auto.
Qed.
Lemma back_Null : forall t, 0 <= t < 2 ^ 32 -> gets (BerDecodeNull t) tt (tlv (tag_octets t) []).
Proof.
  intros t T. apply (read_tlv _ _ (fun _ => tt)); [|apply small_len; cbn; lia]. intros id lo F S Fl Ll. rewrite app_nil_r. now apply gets_Null.
Qed.
Lemma back_OctetString : forall t l dst max, 0 <= t < 2 ^ 32 -> Forall is_byte l -> is_len l -> Z.of_nat (length l) <= max <= Z.of_nat (length dst) ->
  gets (BerDecodeOctetString t dst max) (l ++ repeat 0 (Z.to_nat max - length l) ++ skipn (Z.to_nat max) dst, Z.of_nat (length l)) (tlv (tag_octets t) l).
Proof.
  intros t l dst max T F L M.
  replace (l ++ _) with (received dst max l) by (unfold received; cbv zeta; now rewrite firstn_all2 by lia).
  replace (Z.of_nat (length l)) with (Z.min (Z.of_nat (length l)) max) by lia.
  apply (read_tlv _ _ (fun l => (received dst max l, Z.min (Z.of_nat (length l)) max))); [|assumption].
  intros id lo Fi S Fl Ll. apply gets_OctetString; auto. lia.
Qed.
Lemma back_IA5String : forall t l dst max, 0 <= t < 2 ^ 32 -> Forall is_byte l -> is_len l -> Z.of_nat (length l) <= max <= Z.of_nat (length dst) ->
  gets (BerDecodeIA5String t dst max) (l ++ repeat 0 (Z.to_nat max - length l) ++ skipn (Z.to_nat max) dst) (tlv (tag_octets t) l).
Proof.
  intros t l dst max T F L M.
  replace (l ++ _) with (received dst max l) by (unfold received; cbv zeta; now rewrite firstn_all2 by lia).
  apply (read_tlv _ _ (received dst max)); [|assumption]. intros id lo Fi S Fl Ll. apply gets_IA5String; auto. lia.
Qed.
Lemma bits_bytes : forall bs, Forall is_byte (bits_octets bs).
Proof.
  intros bs. constructor; [unfold is_byte; lia|]. destruct (Properties2Proofs.bits_of_pack (length bs) bs (le_n _)) as [_ H]. exact H.
Qed.
Lemma back_BitString : forall c t bs dst max, 0 <= t < 2 ^ 32 -> Z.of_nat (length bs) <= max < 2 ^ 31 - 16 -> (max + 7) / 8 <= Z.of_nat (length dst) ->
  gets (BerDecodeBitString c t dst max) (pack bs ++ skipn (length (pack bs)) dst, Z.of_nat (length bs)) (tlv (tag_octets t) (bits_octets bs)).
Proof.
  intros c t bs dst max T M R. rewrite <- (received_bits dst max bs) by lia. pose proof (pack_len bs) as P. pose proof (bits_bytes bs) as FB.
  assert (L : is_len (bits_octets bs)) by (unfold is_len, bits_octets; cbn [length]; lia).
  unfold bits_octets in *.
  apply (read_tlv _ _ (fun l => bits_received dst max (hd 0 l) (tl l))); [|assumption]. intros id lo Fi S Fl Ll. cbn [hd tl].
  apply gets_BitString; auto. lia.
Qed.
Lemma back_Real : forall c t x, 0 <= t < 2 ^ 32 -> is_double x ->
  (shl_wrap c = true \/ match sent x with SpecFloat.S754_finite _ _ e => 0 <= e | _ => True end) ->
  gets (BerDecodeReal c t) (returned x) (tlv (tag_octets t) (real_octets (sent x))).
Proof. intros c t x T D H. unfold tlv. apply gets_Real; auto; [apply tag_octets_bytes|apply same_refl']. Qed.

(** Tags as X.690 identifiers *)
Lemma tag_ident : forall class cons n l, 0 <= class < 4 -> 0 <= n -> is_ident class cons n l -> Z.of_nat (length l) <= 8 ->
  puts (BerEncodeTag (unsigned_octets l)) tt l.
Proof.
  intros class cons n l C N H L. destruct (ident_octets _ _ _ _ C N H) as [F E]. rewrite <- E at 2. apply puts_Tag.
  pose proof (unsigned_range l F). assert (256 ^ Z.of_nat (length l) <= 256 ^ 8) by (apply Z.pow_le_mono_r; lia). unfold is_u64, two64. lia.
Qed.
Lemma tag_ident_read : forall class c1 c2 n l l', 0 <= class < 4 -> 0 <= n -> is_ident class c1 n l -> is_ident class c2 n l' -> Z.of_nat (length l) <= 4 ->
  gets (BerDecodeTag (unsigned_octets l)) tt l'.
Proof.
  intros class c1 c2 n l l' C N H H' L. destruct (ident_octets _ _ _ _ C N H) as [F E]. destruct (ident_octets _ _ _ _ C N H') as [F' E'].
  apply gets_Tag; [|assumption|].
  - pose proof (unsigned_range l F). assert (256 ^ Z.of_nat (length l) <= 256 ^ 4) by (apply Z.pow_le_mono_r; lia). lia.
  - rewrite E. exact (ident_same' _ _ _ _ _ _ C N H H').
Qed.
Lemma lead_lor : forall class (b : bool) k, 0 <= class < 4 -> 0 <= k < 32 ->
  Z.lor (64 * class + (if b then 32 else 0) + k) 32 = 64 * class + 32 + k.
Proof.
  intros class b k C K.
  assert (H : is_byte (64 * class + (if b then 32 else 0) + k)) by (unfold is_byte; destruct b; lia).
  pose proof (RealProofs.bytes_all (fun x => Z.lor x 32 =? 64 * (x / 64) + 32 + x mod 32) _ H eq_refl) as E. cbv beta in E.
  apply Z.eqb_eq in E. rewrite E. destruct b; lia.
Qed.
(** Identifiers of another class or number are refused. *)
Lemma ident_differ : forall class c1 n l class' c2 n' l', 0 <= class < 4 -> 0 <= n -> 0 <= class' < 4 -> 0 <= n' ->
  is_ident class c1 n l -> is_ident class' c2 n' l' -> same_ident l l' -> class = class' /\ n = n'.
Proof.
  intros class c1 n l class' c2 n' l' C N C' N' H H' S. unfold is_ident in H, H'. cbv zeta in *.
  destruct (n <? 31) eqn:E, (n' <? 31) eqn:E'.
  - subst. cbn [same_ident] in S. destruct S as [_ S]. rewrite !lead_lor in S by lia. lia.
  - destruct H' as (sub & Q & ->). subst l. destruct S as [<- _].
    exfalso. destruct Q as (ds & e & Q & _). destruct ds; discriminate Q.
  - destruct H as (sub & Q & ->). subst l'. destruct S as [-> _].
    exfalso. destruct Q as (ds & e & Q & _). destruct ds; discriminate Q.
  - destruct H as (sub & Q & ->). destruct H' as (sub' & Q' & ->). destruct S as [<- S]. rewrite !lead_lor in S by lia.
    split; [lia|].
    destruct Q as (ds & e & E1 & F1 & D1 & _ & ->). destruct Q' as (ds' & e' & E2 & F2 & D2 & _ & ->). rewrite E1 in E2.
    apply app_inj_tail in E2. destruct E2 as [E2 ->]. f_equal. f_equal.
    clear -E2. revert ds' E2. induction ds as [|d ds IH]; intros [|d' ds'] E2; try discriminate E2; [reflexivity|].
    pose proof (f_equal (hd 0) E2) as E3. pose proof (f_equal (@tl Z) E2) as E4. cbn [map hd tl] in E3, E4. f_equal; [lia|now apply IH].
Qed.
