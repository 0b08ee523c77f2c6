(** Strings and REAL. *)
From Verif Require Import Base Bits BitsProofs BitStream Ints IntsProofs Misc MiscProofs Contracts RealSpec RealC OidSpec ByteStream ByteStreamProofs BerSpec Ber
  HistoryProofs OctetsProofs OctetsProofs2 OidProofs SafeProofs RealProofs BerProofs BerProofs2 BerProofs3.
From Coq Require Import ZifyBool ZifyNat.
Ltac Zify.zify_post_hook ::= Z.div_mod_to_equations.

(** ** Arrays out *)
Lemma puts_array : forall m p q, puts (put_array (length m) (p ++ m ++ q) (Z.of_nat (length p))) tt m.
Proof.
  induction m as [|b m IH]; intros p q; cbn [put_array length]; [apply puts_ret|].
  eapply puts_lift; [cbn [app]; apply nth_mid|]. change (b :: m) with ([b] ++ m). eapply puts_bind; [apply puts_PutByte|].
  replace (Z.of_nat (length p) + 1) with (Z.of_nat (length (p ++ [b]))) by (rewrite app_length; cbn; lia).
  replace (p ++ ([b] ++ m) ++ q) with ((p ++ [b]) ++ m ++ q) by now rewrite <- !app_assoc. apply IH.
Qed.
Lemma puts_array0 : forall m q k, k = length m -> puts (put_array k (m ++ q) 0) tt m.
Proof. intros m q k ->. apply (puts_array m [] q). Qed.
Lemma bounded_array : forall k l i, Forall is_byte l -> 0 <= i -> i + Z.of_nat k <= Z.of_nat (length l) -> bounded (put_array k l i).
Proof.
  induction k; intros l i F I L; cbn [put_array]; [apply bounded_ret|].
  destruct (nthZ_ok l i F) as (b & E & Hb); [lia|]. eapply bounded_lift; [exact E|].
  apply bounded_bind; [now apply bounded_PutByte|]. intros _. apply IHk; auto; lia.
Qed.

(** ** Arrays in *)
Lemma upd_at : forall p (x : Z) r i v, i = Z.of_nat (length p) -> updZ (p ++ x :: r) i v = Ok (p ++ v :: r).
Proof.
  intros p x r i v ->. rewrite updZ_ok by (rewrite app_length; cbn [length]; lia). now rewrite Nat2Z.id, upd_mid.
Qed.
(** What the receiving loops leave: [n] places free. *)
Lemma array_step : forall b (bs p : list Z) n (old q : list Z), length old = Nat.min (S (length bs)) (S n) ->
  exists x o, old = x :: o /\ length o = Nat.min (length bs) n /\ p ++ firstn (S n) (b :: bs) ++ q = (p ++ [b]) ++ firstn n bs ++ q.
Proof.
  intros b bs p n old q H. destruct old as [|x o]; [cbn [length] in H; lia|]. exists x, o. cbn [length] in H.
  repeat split; [lia|]. cbn [firstn]. now rewrite <- !app_assoc.
Qed.
Lemma gets_array : forall bs p old q max n, Forall is_byte bs -> length old = Nat.min (length bs) n -> max = Z.of_nat (length p + n) ->
  gets (get_array (length bs) (p ++ old ++ q) (Z.of_nat (length p)) max) (p ++ firstn n bs ++ q) bs.
Proof.
  assert (T : forall bs d i max, max <= i -> Forall is_byte bs -> gets (get_array (length bs) d i max) d bs).
  { induction bs as [|b bs IH]; intros d i max Hi F; cbn [get_array length]; [apply gets_ret|]. inversion_clear F.
    change (b :: bs) with ([b] ++ bs). eapply gets_bind; [apply gets_GetByte|]. destruct (i <? max) eqn:E; [lia|].
    eapply gets_lift; [reflexivity|]. apply IH; auto; lia. }
  induction bs as [|b bs IH]; intros p old q max n F L M.
  - cbn [get_array length]. destruct old; [|cbn in L; lia]. rewrite firstn_nil. apply gets_ret.
  - destruct n as [|n].
    + destruct old; [|cbn in L; lia]. cbn [firstn app]. apply T; auto. lia.
    + inversion_clear F. destruct (array_step b bs p n old q L) as (x & o & -> & Lo & ->). cbn [get_array length].
      change (b :: bs) with ([b] ++ bs). eapply gets_bind; [apply gets_GetByte|]. cbn [app].
      destruct (_ <? max) eqn:E; [|lia]. eapply gets_lift; [now apply upd_at|].
      replace (p ++ b :: o ++ q) with ((p ++ [b]) ++ o ++ q) by now rewrite <- app_assoc.
      replace (Z.of_nat (length p) + 1) with (Z.of_nat (length (p ++ [b]))) by (rewrite app_length; cbn; lia).
      apply IH; auto. rewrite app_length; cbn [length]; lia.
Qed.
Lemma accepts_array : forall k p old q max n, length old = Nat.min k n -> max = Z.of_nat (length p + n) ->
  accepts (get_array k (p ++ old ++ q) (Z.of_nat (length p)) max)
    (fun a bs => length bs = k /\ Forall is_byte bs /\ a = p ++ firstn n bs ++ q).
Proof.
  assert (T : forall k d i max, max <= i -> accepts (get_array k d i max) (fun a bs => length bs = k /\ Forall is_byte bs /\ a = d)).
  { induction k; intros d i max Hi; cbn [get_array]; [apply accepts_ret; auto|]. eapply accepts_weaken.
    - eapply accepts_bind; [apply accepts_GetByte|]. intros b x [-> Hb]. destruct (i <? max) eqn:E; [lia|].
      apply accepts_lift. intros d' [= <-]. apply IHk. lia.
    - intros a bs (b & x & y & -> & [-> Hb] & Ly & Fy & ->). cbn [length app]. auto. }
  induction k; intros p old q max n L M.
  - cbn [get_array]. destruct old; [|cbn in L; lia]. apply accepts_ret. rewrite firstn_nil. auto.
  - destruct n as [|n].
    + destruct old; [|cbn in L; lia]. cbn [firstn app]. apply (T (S k)). lia.
    + destruct old as [|x o]; [cbn in L; lia|]. cbn [get_array]. eapply accepts_weaken.
      * eapply accepts_bind; [apply accepts_GetByte|]. intros b y [-> Hb]. cbn [app].
        instantiate (1 := fun b a bs => length bs = k /\ Forall is_byte bs /\ a = (p ++ [b]) ++ firstn n bs ++ q).
        destruct (_ <? max) eqn:E; [|lia]. rewrite upd_at by reflexivity. apply accepts_lift. intros d [= <-].
        replace (p ++ b :: o ++ q) with ((p ++ [b]) ++ o ++ q) by now rewrite <- app_assoc.
        replace (Z.of_nat (length p) + 1) with (Z.of_nat (length (p ++ [b]))) by (rewrite app_length; cbn; lia).
        apply IHk; [cbn [length] in L; lia|]. rewrite app_length; cbn [length]; lia.
      * intros a bs (b & z & y & -> & [-> Hb] & Ly & Fy & ->). cbn [length app]. split; [auto|split; [auto|]].
        cbn [firstn]. now rewrite <- !app_assoc.
Qed.
Lemma guarded_array : forall k d i max, 0 <= i -> max <= Z.of_nat (length d) -> Forall is_byte d ->
  guarded (get_array k d i max) (fun r => length r = length d /\ Forall is_byte r).
Proof.
  induction k; intros d i max I M F; cbn [get_array]; [now apply guarded_ret|].
  eapply guarded_bind; [apply guarded_GetByte|]. intros b Hb. destruct (i <? max) eqn:E.
  - eapply guarded_lift; [apply updZ_ok; lia|]. eapply guarded_weaken; [apply IHk|].
    + lia. + rewrite upd_length. lia. + now apply Forall_upd.
    + intros a [L G]. rewrite upd_length in L. auto.
  - eapply guarded_lift; [reflexivity|]. apply IHk; auto; lia.
Qed.
Lemma memset_ok : forall dst max, 0 <= max <= Z.of_nat (length dst) ->
  memset0 dst max = Ok (repeat 0 (Z.to_nat max) ++ skipn (Z.to_nat max) dst).
Proof. intros dst max H. unfold memset0. destruct (_ || _) eqn:E; [lia|reflexivity]. Qed.
Lemma memset_split : forall n k (d : list Z), repeat 0 n ++ d = repeat 0 (Nat.min k n) ++ repeat 0 (n - k) ++ d.
Proof. intros. rewrite app_assoc, <- repeat_app. do 2 f_equal. lia. Qed.
Lemma gets_received : forall bs dst max, Forall is_byte bs -> 0 <= max ->
  gets (get_array (length bs) (repeat 0 (Z.to_nat max) ++ skipn (Z.to_nat max) dst) 0 max) (received dst max bs) bs.
Proof.
  intros bs dst max F M. rewrite (memset_split _ (length bs)). unfold received. cbv zeta.
  apply (gets_array bs [] (repeat 0 (Nat.min (length bs) (Z.to_nat max)))); [assumption|now rewrite repeat_length|cbn; lia].
Qed.
Lemma accepts_received : forall k dst max, 0 <= max ->
  accepts (get_array k (repeat 0 (Z.to_nat max) ++ skipn (Z.to_nat max) dst) 0 max)
    (fun a bs => length bs = k /\ Forall is_byte bs /\ a = received dst max bs).
Proof.
  intros k dst max M. rewrite (memset_split _ k).
  eapply accepts_weaken; [apply (accepts_array k [] (repeat 0 (Nat.min k (Z.to_nat max))))|].
  - now rewrite repeat_length. - cbn. reflexivity || lia.
  - intros a bs (L & F & ->). split; [assumption|]. split; [assumption|]. unfold received. cbn [app]. rewrite L. reflexivity.
Qed.

(** ** OCTET STRING, IA5String *)
Lemma puts_octets : forall t l q n, is_u64 t -> is_len l -> n = Z.of_nat (length l) ->
  puts (do? _ := BerEncodeTag t in do? _ := BerEncodeLength n in put_array (Z.to_nat n) (l ++ q) 0) tt (tlv (tag_octets t) l).
Proof.
  intros t l q n T L ->. unfold tlv. eapply puts_bind; [now apply puts_Tag|]. unfold is_len in L.
  eapply puts_bind; [apply puts_Length; lia|]. apply puts_array0. lia.
Qed.
Lemma puts_OctetString : forall t l q, is_u64 t -> is_len l ->
  puts (BerEncodeOctetString t (l ++ q) (Z.of_nat (length l))) tt (tlv (tag_octets t) l).
Proof. intros. now apply puts_octets. Qed.
Lemma puts_IA5String : forall t l q, is_u64 t -> is_len l ->
  puts (BerEncodeIA5String t (l ++ q) (Z.of_nat (length l))) tt (tlv (tag_octets t) l).
Proof. intros. now apply puts_octets. Qed.
Lemma gets_IA5String : forall t id lo l dst max, 0 <= t < 2 ^ 32 -> Forall is_byte id -> same_ident (tag_octets t) id ->
  Forall is_byte lo -> length_of lo = Some (Def (Z.of_nat (length l))) -> is_len l -> Forall is_byte l ->
  0 <= max <= Z.of_nat (length dst) ->
  gets (BerDecodeIA5String t dst max) (received dst max l) (id ++ lo ++ l).
Proof.
  intros t id lo l dst max T Fi Si Fl Ll L F M. unfold BerDecodeIA5String. eapply gets_lift; [now apply memset_ok|].
  eapply gets_bind; [now apply gets_Tag|]. eapply gets_bind; [apply gets_Length; [assumption|]|].
  { eapply length_result; [assumption|exact Ll|exact L]. }
  rewrite Nat2Z.id. apply gets_received; auto. lia.
Qed.
Lemma gets_OctetString : forall t id lo l dst max, 0 <= t < 2 ^ 32 -> Forall is_byte id -> same_ident (tag_octets t) id ->
  Forall is_byte lo -> length_of lo = Some (Def (Z.of_nat (length l))) -> is_len l -> Forall is_byte l ->
  0 <= max <= Z.of_nat (length dst) ->
  gets (BerDecodeOctetString t dst max) (received dst max l, Z.min (Z.of_nat (length l)) max) (id ++ lo ++ l).
Proof.
  intros t id lo l dst max T Fi Si Fl Ll L F M. unfold BerDecodeOctetString. eapply gets_lift; [now apply memset_ok|].
  eapply gets_bind; [now apply gets_Tag|]. eapply gets_bind; [apply gets_Length; [assumption|]|].
  { eapply length_result; [assumption|exact Ll|exact L]. }
  rewrite Nat2Z.id. eapply gets_bind0; [apply gets_received; auto; lia|].
  replace (if _ <=? max then _ else max) with (Z.min (Z.of_nat (length l)) max) by (destruct (_ <=? max) eqn:E; lia).
  apply gets_ret.
Qed.
Lemma accepts_octets : forall t dst max, is_u64 t -> 0 <= max -> 
  accepts (do? _ := BerDecodeTag t in do? n := BerDecodeLength in
           do? r := get_array (Z.to_nat n) (repeat 0 (Z.to_nat max) ++ skipn (Z.to_nat max) dst) 0 max in bret (Some (n, r)))
    (fun nr bs => exists id lo l, bs = id ++ lo ++ l /\ same_ident (tag_octets t) id /\
       len_result lo = Some (fst nr) /\ length l = Z.to_nat (fst nr) /\ snd nr = received dst max l).
Proof.
  intros t dst max T M. eapply accepts_weaken.
  - eapply accepts_bind; [now apply accepts_Tag|]. intros u0 x0 _.
    eapply accepts_bind; [apply accepts_Length|]. intros n x (Fx & Ex).
    instantiate (1 := fun n nr l => n = fst nr /\ length l = Z.to_nat n /\ snd nr = received dst max l).
    eapply accepts_weaken.
    + eapply accepts_bind; [now apply accepts_received|]. intros r y _.
      instantiate (1 := fun r nr bs => bs = [] /\ nr = (n, r)). apply accepts_ret. auto.
    + intros nr bs (r & y & z & -> & (Ly & Fy & ->) & -> & ->). rewrite app_nil_r. auto.
  - intros nr bs (u & x & y & -> & (Fx & Sx) & n & lo & z & -> & (Fl & El) & -> & L & ->). exists x, lo, z. auto.
Qed.
Lemma accepts_ext : forall A (f g : B (option A)) P, (forall s, f s = g s) -> accepts g P -> accepts f P.
Proof. intros A f g P E G s a s' F L H. rewrite E in H. now apply (G s a s'). Qed.
Lemma accepts_map : forall A C (f : B (option A)) (h : A -> C) P, accepts f P ->
  accepts (do? a := f in bret (Some (h a))) (fun c bs => exists a, c = h a /\ P a bs).
Proof.
  intros A C f h P F. eapply accepts_weaken.
  - eapply accepts_bind; [exact F|]. intros a x _. instantiate (1 := fun a c bs => bs = [] /\ c = h a). apply accepts_ret. auto.
  - intros c bs (a & x & y & -> & Px & -> & ->). rewrite app_nil_r. eauto.
Qed.
Lemma accepts_IA5String : forall t dst max, is_u64 t ->
  accepts (BerDecodeIA5String t dst max) (fun r bs => exists id lo n l, bs = id ++ lo ++ l /\ same_ident (tag_octets t) id /\
    len_result lo = Some n /\ length l = Z.to_nat n /\ r = received dst max l).
Proof.
  intros t dst max T. unfold BerDecodeIA5String. apply accepts_lift. intros d Ed.
  unfold memset0 in Ed. destruct (_ || _) eqn:M; [discriminate|]. injection Ed as <-.
  eapply accepts_weaken; [eapply accepts_ext; [|apply accepts_map; apply (accepts_octets t dst max T)]|].
  - intros s. instantiate (1 := snd). unfold bopt, bbind, bret. destruct (BerDecodeTag t s) as [[[u|] s1]| | |]; try reflexivity.
    destruct (BerDecodeLength s1) as [[[n|] s2]| | |]; try reflexivity.
    destruct (get_array _ _ _ _ s2) as [[[r|] s3]| | |]; reflexivity.
  - lia.
  - intros r bs ([n r'] & -> & id & lo & l & H). cbn [fst snd] in *. exists id, lo, n, l. exact H.
Qed.
Lemma accepts_OctetString : forall t dst max, is_u64 t ->
  accepts (BerDecodeOctetString t dst max) (fun r bs => exists id lo n l, bs = id ++ lo ++ l /\ same_ident (tag_octets t) id /\
    len_result lo = Some n /\ length l = Z.to_nat n /\ r = (received dst max l, Z.min n max)).
Proof.
  intros t dst max T. unfold BerDecodeOctetString. apply accepts_lift. intros d Ed.
  unfold memset0 in Ed. destruct (_ || _) eqn:M; [discriminate|]. injection Ed as <-.
  eapply accepts_weaken; [eapply accepts_ext; [|apply accepts_map; apply (accepts_octets t dst max T)]|].
  - intros s. instantiate (1 := fun nr => (snd nr, Z.min (fst nr) max)). unfold bopt, bbind, bret. destruct (BerDecodeTag t s) as [[[u|] s1]| | |]; try reflexivity.
    destruct (BerDecodeLength s1) as [[[n|] s2]| | |]; try reflexivity.
    destruct (get_array _ _ _ _ s2) as [[[r|] s3]| | |]; try reflexivity. cbn [fst snd].
    replace (Z.min n max) with (if n <=? max then n else max) by (destruct (n <=? max) eqn:E; lia). reflexivity.
  - lia.
  - intros r bs ([n r'] & -> & id & lo & l & H1 & H2 & H3 & H4 & H5). cbn [fst snd] in *. subst r'. exists id, lo, n, l. auto.
Qed.

(** ** BIT STRING *)
Lemma pack_nbytes : forall bs, Z.of_nat (length (pack bs)) =
  (if Z.rem (Z.of_nat (length bs)) 8 =? 0 then Z.quot (Z.of_nat (length bs)) 8 else Z.quot (Z.of_nat (length bs)) 8 + 1).
Proof.
  intros bs. rewrite pack_len. rewrite Z.rem_mod_nonneg, Z.quot_div_nonneg by lia. destruct (_ =? 0) eqn:E; lia.
Qed.
Lemma puts_BitString : forall t bs q, is_u64 t -> Z.of_nat (length bs) < 2 ^ 31 - 16 ->
  puts (BerEncodeBitString t (pack bs ++ q) (Z.of_nat (length bs))) tt (tlv (tag_octets t) (bits_octets bs)).
Proof.
  intros t bs q T L. unfold BerEncodeBitString, tlv. cbv zeta. rewrite <- pack_nbytes.
  eapply puts_bind; [now apply puts_Tag|]. unfold bits_octets at 1. cbn [length].
  replace (Z.of_nat (S (length (pack bs)))) with (Z.of_nat (length (pack bs)) + 1) by lia.
  eapply puts_bind; [apply puts_Length; rewrite pack_len; lia|].
  unfold bits_octets. change (?x :: pack bs) with ([x] ++ pack bs). eapply puts_bind.
  - replace (byte_of _) with ((- Z.of_nat (length bs)) mod 8); [apply puts_PutByte|].
    unfold byte_of. rewrite Z.rem_mod_nonneg by lia. destruct (_ =? 8) eqn:E; lia.
  - apply puts_array0. lia.
Qed.
Definition bits_left (unused : Z) (n : nat) (l : list Z) : Z := if (length l <=? n)%nat then unused else 0.
Lemma gets_bits : forall bs p old q max n nb u, Forall is_byte bs -> length old = Nat.min (length bs) n -> max = Z.of_nat (length p + n) ->
  gets (get_bits (length bs) (p ++ old ++ q) (Z.of_nat (length p)) max nb u)
    (p ++ firstn n bs ++ q, nb + 8 * Z.of_nat (Nat.min (length bs) n), bits_left u n bs) bs.
Proof.
  assert (T : forall bs d i max nb u, max <= i -> Forall is_byte bs ->
    gets (get_bits (length bs) d i max nb u) (d, nb, if (length bs <=? 0)%nat then u else 0) bs).
  { induction bs as [|b bs IH]; intros d i max nb u Hi F; cbn [get_bits length]; [apply gets_ret|]. inversion_clear F.
    change (b :: bs) with ([b] ++ bs). eapply gets_bind; [apply gets_GetByte|]. destruct (i <? max) eqn:E; [lia|].
    cbn [Nat.leb]. specialize (IH d (i + 1) max nb 0 ltac:(lia) H0). destruct (length bs <=? 0)%nat; exact IH. }
  induction bs as [|b bs IH]; intros p old q max n nb u F L M.
  - cbn [get_bits length]. destruct old; [|cbn in L; lia]. rewrite firstn_nil. unfold bits_left. cbn [length Nat.leb Nat.min]. rewrite Z.add_0_r. apply gets_ret.
  - destruct n as [|n].
    + destruct old; [|cbn in L; lia]. cbn [firstn app]. rewrite Nat.min_0_r, Z.add_0_r. apply T; auto. lia.
    + inversion_clear F. destruct (array_step b bs p n old q L) as (x & o & -> & Lo & ->). cbn [get_bits length].
      change (b :: bs) with ([b] ++ bs). eapply gets_bind; [apply gets_GetByte|]. cbn [app].
      destruct (_ <? max) eqn:E; [|lia]. eapply gets_lift; [now apply upd_at|].
      replace (p ++ b :: o ++ q) with ((p ++ [b]) ++ o ++ q) by now rewrite <- app_assoc.
      replace (Z.of_nat (length p) + 1) with (Z.of_nat (length (p ++ [b]))) by (rewrite app_length; cbn; lia).
      replace (nb + 8 * Z.of_nat (Nat.min (S (length bs)) (S n))) with ((nb + 8) + 8 * Z.of_nat (Nat.min (length bs) n)) by lia.
      change (bits_left u (S n) (b :: bs)) with (bits_left u n bs).
      apply IH; auto. rewrite app_length; cbn [length]; lia.
Qed.
Lemma accepts_bits : forall k p old q max n nb u, length old = Nat.min k n -> max = Z.of_nat (length p + n) ->
  accepts (get_bits k (p ++ old ++ q) (Z.of_nat (length p)) max nb u)
    (fun a bs => length bs = k /\ Forall is_byte bs /\ a = (p ++ firstn n bs ++ q, nb + 8 * Z.of_nat (Nat.min (length bs) n), bits_left u n bs)).
Proof.
  assert (T : forall k d i max nb u, max <= i -> accepts (get_bits k d i max nb u)
    (fun a bs => length bs = k /\ Forall is_byte bs /\ a = (d, nb, if (length bs <=? 0)%nat then u else 0))).
  { induction k; intros d i max nb u Hi; cbn [get_bits]; [apply accepts_ret; auto|]. eapply accepts_weaken.
    - eapply accepts_bind; [apply accepts_GetByte|]. intros b x [-> Hb]. destruct (i <? max) eqn:E; [lia|]. apply IHk. lia.
    - intros a bs (b & x & y & -> & [-> Hb] & Ly & Fy & ->). cbn [length app Nat.leb]. split; [auto|split; [auto|]].
      destruct (length y <=? 0)%nat; reflexivity. }
  induction k; intros p old q max n nb u L M.
  - cbn [get_bits]. destruct old; [|cbn in L; lia]. apply accepts_ret. rewrite firstn_nil. unfold bits_left. cbn [length Nat.leb Nat.min]. rewrite Z.add_0_r. auto.
  - destruct n as [|n].
    + destruct old; [|cbn in L; lia]. cbn [firstn app]. eapply accepts_weaken; [apply (T (S k)); lia|].
      intros a bs (Lb & F & ->). rewrite Nat.min_0_r, Z.add_0_r. auto.
    + destruct old as [|x o]; [cbn in L; lia|]. cbn [get_bits]. eapply accepts_weaken.
      * eapply accepts_bind; [apply accepts_GetByte|]. intros b y [-> Hb]. cbn [app].
        instantiate (1 := fun b a bs => length bs = k /\ Forall is_byte bs /\ a = ((p ++ [b]) ++ firstn n bs ++ q, nb + 8 + 8 * Z.of_nat (Nat.min (length bs) n), bits_left u n bs)).
        destruct (_ <? max) eqn:E; [|lia]. rewrite upd_at by reflexivity. apply accepts_lift. intros d [= <-].
        replace (p ++ b :: o ++ q) with ((p ++ [b]) ++ o ++ q) by now rewrite <- app_assoc.
        replace (Z.of_nat (length p) + 1) with (Z.of_nat (length (p ++ [b]))) by (rewrite app_length; cbn; lia).
        apply IHk; [cbn [length] in L; lia|]. rewrite app_length; cbn [length]; lia.
      * intros a bs (b & z & y & -> & [-> Hb] & Ly & Fy & ->). cbn [length app]. split; [auto|split; [auto|]].
        cbn [firstn]. rewrite <- !app_assoc. change (bits_left u (S n) (b :: y)) with (bits_left u n y).
        do 2 f_equal. lia.
Qed.
Lemma guarded_bits : forall k d i max nb u, 0 <= i -> max <= Z.of_nat (length d) -> Forall is_byte d ->
  guarded (get_bits k d i max nb u) (fun r => length (fst (fst r)) = length d /\ Forall is_byte (fst (fst r))).
Proof.
  induction k; intros d i max nb u I M F; cbn [get_bits]; [now apply guarded_ret|].
  eapply guarded_bind; [apply guarded_GetByte|]. intros b Hb. destruct (i <? max) eqn:E.
  - eapply guarded_lift; [apply updZ_ok; lia|]. eapply guarded_weaken; [apply IHk|].
    + lia. + rewrite upd_length. lia. + now apply Forall_upd.
    + intros a [L G]. rewrite upd_length in L. auto.
  - apply IHk; auto; lia.
Qed.
