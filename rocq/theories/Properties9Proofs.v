(** Remaining proofs for Properties9.v. *)
From Verif Require Import Base Bits BitsProofs ByteStream ByteStreamProofs XerSpec Xer XerProofs XerProofs2 XerProofs3 XerProofs4 XerProofs5 XerProofs6.
From Coq Require Import ZifyBool ZifyNat.
Ltac Zify.zify_post_hook ::= Z.div_mod_to_equations.

Lemma white_indent : forall w level, Forall white (indent w level).
Proof. intros w level. unfold indent. destruct (w && _); [|constructor]. apply Forall_forall. intros c H. apply repeat_spec in H. subst. now left. Qed.
Lemma white_byte : forall l, Forall white l -> Forall is_byte l.
Proof. intros l H. eapply Forall_impl; [|exact H]. unfold white, is_byte. intros; lia. Qed.
Lemma round_trip : forall A (f : B (option unit)) (g : B (option A)) a level core, Forall is_byte core ->
  emits f tt (line level core) -> (forall w, Forall white w -> gets g a (w ++ core)) ->
  forall s pre n rest, Forall is_byte (mem s) -> zeroed s pre n rest -> (length (line level core (ws s)) < n)%nat ->
    exists s1 s2, f s = Ok (Some tt, s1) /\
      mem s1 = pre ++ line level core (ws s) ++ repeat 0 (n - length (line level core (ws s))) ++ rest /\
      g (mkby (mem s1) (size s1) (cur s) (ws s1)) = Ok (Some a, s2) /\ mem s2 = mem s1 /\
      cur s1 = cur s2 + Z.of_nat (length (newline (ws s))).
Proof.
  intros A f g a level core FC E G s pre n rest F H R. destruct (E s pre n rest H) as [(Q & s1 & E1 & W1 & S1 & M1 & C1 & Z1)|(Q & _)]; [|lia].
  rewrite <- app_assoc in M1. exists s1.
  destruct (G _ (white_indent (ws s) level) (mkby (mem s1) (size s1) (cur s) (ws s1)) pre (newline (ws s) ++ repeat 0 (n - length (line level core (ws s))) ++ rest))
    as (s2 & E2 & [M2 C2] & _ & _ & E3).
  - cbn [mem]. rewrite M1. destruct H as (HM & _). rewrite HM in F. rewrite !Forall_app in F. destruct F as (F1 & F2 & F3).
    rewrite !Forall_app. split; [exact F1|]. split; [|split; [|exact F3]].
    + unfold line. rewrite !Forall_app. split; [apply white_byte, white_indent|]. split; [exact FC|]. destruct (ws s); cbn; repeat constructor.
      all: unfold is_byte; lia.
    + apply Forall_forall. intros x X. apply repeat_spec in X. subst. unfold is_byte. lia.
  - split; cbn [mem cur]; [|destruct H as (_ & HC & _); exact HC]. rewrite M1. unfold line. now rewrite <- !app_assoc.
  - cbn [size]. rewrite S1. destruct H as (_ & _ & ->). unfold line in R. rewrite !app_length in *. lia.
  - exists s2. split; [exact E1|]. split; [exact M1|]. split; [exact E2|]. split; [exact E3|].
    rewrite C1, C2. unfold line. rewrite !app_length. lia.
Qed.

Lemma plain_ok : forall L M, plain (any_char L) M -> Forall (fun b => char_ok L b = true) M.
Proof.
  intros L M [H|H]; [apply Forall_forall; intros; unfold char_ok; now rewrite H|]. eapply Forall_impl; [|exact H]. unfold char_ok. cbn. intros; lia.
Qed.
Lemma harmless_plain : forall A L (f : B A) P,
  (forall M N, Forall is_byte M -> Forall (fun b => char_ok L b = true) M -> N <= Z.of_nat (length M) -> calm M N f P) ->
  harmless (plain (any_char L)) f P.
Proof. intros A L f P H. apply harmless_calm with (L := L); [apply plain_ok|]. intros M N HB HC _ HN. exact (H M N HB HC HN). Qed.
Lemma harmless_na : forall A L (f : B A) P,
  (forall M N, Forall is_byte M -> Forall (fun b => char_ok L b = true) M -> N <= Z.of_nat (length M) -> ~ In 61 M -> calm M N f P) ->
  harmless (no_attributes (any_char L)) f P.
Proof. intros A L f P H. apply harmless_calm with (L := L); [intros M [O _]; now apply plain_ok|]. intros M N HB HC [_ HO] HN. exact (H M N HB HC HN HO). Qed.

(** ** Decoders *)
Lemma gets_primitive : forall L w t v max, Forall white w -> name_ok t -> Forall (fun c => c <> 60) v -> Z.of_nat (length v) < max ->
  gets (Xer_DecodePrimitiveElement L t max) v (w ++ text_element t v).
Proof. intros. apply xreads_gets. intros. now apply read_primitive. Qed.
Lemma gets_string : forall L w t v max, Forall white w -> name_ok t -> Forall (fun c => c <> 60) v -> Z.of_nat (length v) < max ->
  gets (Xer_DecodeString L t max) v (w ++ text_element t v).
Proof. intros. apply xreads_gets. intros. now apply read_string. Qed.
Lemma gets_integer : forall L w t v txt, Forall white w -> name_ok t -> is_s64 v -> numeral v txt ->
  gets (Xer_DecodeInteger L t) v (w ++ element t txt).
Proof. intros. apply xreads_gets. intros. now apply read_integer. Qed.
Lemma gets_pos_integer : forall L w t v txt, Forall white w -> name_ok t -> is_u64 v -> numeral v txt ->
  gets (Xer_DecodePosInteger L t) v (w ++ element t txt).
Proof. intros. apply xreads_gets. intros. now apply read_pos_integer. Qed.
Lemma gets_null : forall L w t, Forall white w -> name_ok t -> gets (Xer_DecodeNull L t) tt (w ++ empty_tag t).
Proof. intros. apply xreads_gets. intros. now apply read_null. Qed.
Lemma gets_boolean : forall L w t b, Forall white w -> name_ok t ->
  gets (Xer_DecodeBoolean L t) b (w ++ element t (empty_tag (bool_name b))).
Proof.
  intros L w t b W T. apply xreads_gets. intros rest. pose proof (read_boolean L w t b rest W (or_intror T)) as H.
  destruct t; [destruct T; congruence|exact H].
Qed.
Lemma gets_boolean_list : forall L w b, Forall white w -> gets (Xer_DecodeBoolean L []) b (w ++ empty_tag (bool_name b)).
Proof. intros L w b W. apply xreads_gets. intros rest. exact (read_boolean L w [] b rest W (or_introl eq_refl)). Qed.
Lemma gets_enumerated : forall L w t n, Forall white w -> name_ok t -> name_ok n ->
  gets (Xer_DecodeEnumerated L t) n (w ++ element t (empty_tag n)).
Proof.
  intros L w t n W T N. apply xreads_gets. intros rest. pose proof (read_enumerated L w t n rest W (or_intror T) N) as H.
  destruct t; [destruct T; congruence|exact H].
Qed.
Lemma gets_enumerated_list : forall L w n, Forall white w -> name_ok n -> gets (Xer_DecodeEnumerated L []) n (w ++ empty_tag n).
Proof. intros L w n W N. apply xreads_gets. intros rest. exact (read_enumerated L w [] n rest W (or_introl eq_refl) N). Qed.
Lemma gets_octets : forall L w t l value max, Forall white w -> name_ok t -> Forall is_byte l ->
  (length l <= 511)%nat -> (length l <= length value)%nat -> Z.of_nat (length l) <= max ->
  gets (Xer_DecodeOctetString L t value max) (l ++ skipn (length l) value, Z.of_nat (length l)) (w ++ element t (hex_text l)).
Proof. intros. apply xreads_gets. intros. now apply read_octets. Qed.
Lemma gets_bits : forall L w t bs value max, Forall white w -> name_ok t ->
  (length bs <= 2047)%nat -> (length (pack bs) <= length value)%nat -> Z.of_nat (length (pack bs)) <= max ->
  gets (Xer_DecodeBitString L t value max) (pack bs ++ skipn (length (pack bs)) value, Z.of_nat (length bs)) (w ++ element t (bit_text bs)).
Proof. intros. apply xreads_gets. intros. now apply read_bits. Qed.
Lemma gets_oid : forall L w tag a arcs t values, Forall white w -> name_ok tag -> 0 <= a < two63 -> Forall is_u64 arcs ->
  (length (a :: arcs) <= 20)%nat -> (length (a :: arcs) <= length values)%nat -> oid_text (a :: arcs) t ->
  gets (Xer_DecodeObjectIdentifier L tag values) (repeat a (length (a :: arcs)) ++ skipn (length (a :: arcs)) values) (w ++ element tag t).
Proof. intros. apply xreads_gets. intros. now apply read_oid. Qed.
Lemma gets_start : forall L w t a, Forall white w -> name_ok t -> gets (Xer_DecodeComplexElementStart L t a) a (w ++ open_tag t).
Proof. intros. apply xreads_gets. intros. now apply read_start. Qed.
Lemma gets_end : forall L w t, Forall white w -> name_ok t -> gets (Xer_DecodeComplexElementEnd L t) tt (w ++ close_tag t).
Proof. intros. apply xreads_gets. intros. now apply read_end. Qed.
Lemma start_emits : forall tag level, tag <> [] -> 0 <= level -> emits (Xer_EncodeComplexElementStart tag [] level) tt (line level (open_tag tag)).
Proof.
  intros tag level T L. eapply emits_ext; [|apply emits_start, T]. intros w. cbv beta. unfold line, nl_if, open_tag.
  replace (0 <=? level) with true by lia. rewrite <- ?app_assoc. reflexivity.
Qed.
Lemma end_emits : forall tag level, tag <> [] -> 0 <= level -> emits (Xer_EncodeComplexElementEnd tag level) tt (line level (close_tag tag)).
Proof.
  intros tag level T L. eapply emits_ext; [|apply emits_end, T]. intros w. cbv beta. unfold line, nl_if, close_tag.
  replace (0 <=? level) with true by lia. rewrite <- ?app_assoc. reflexivity.
Qed.
(** ** Looking ahead *)
Lemma looks_tag : forall L w t, Forall white w -> name_ok t ->
  looks (Xer_LA_NextElementTag L) (Some t) (w ++ open_tag t) /\ looks (Xer_LA_NextElementTag L) (Some t) (w ++ empty_tag t).
Proof. intros L w t W T. split; intros s pre rest; [apply (peeks_tag L w t false rest W T)|apply (peeks_tag L w t true rest W T)]. Qed.
Lemma looks_start : forall L w t t', Forall white w -> name_ok t' ->
  let b := if list_eq_dec Z.eq_dec t' t then true else false in
  looks (Xer_NextStartElementIs L t) b (w ++ open_tag t') /\ looks (Xer_NextStartElementIs L t) b (w ++ empty_tag t') /\
  looks (Xer_NextStartElementIs L t) false (w ++ close_tag t').
Proof.
  intros L w t t' W T b. unfold b. destruct (list_eq_dec Z.eq_dec t' t) as [->|D].
  - split; [|split]; intros s pre rest; [apply (peeks_start_true L w t false)|apply (peeks_start_true L w t true)|apply (peeks_start_close L w t t)]; assumption.
  - split; [|split]; intros s pre rest; [apply (peeks_start_other L w t t' false)|apply (peeks_start_other L w t t' true)|apply (peeks_start_close L w t t')]; assumption.
Qed.
Lemma looks_end : forall L w t t', Forall white w -> name_ok t' ->
  looks (Xer_NextEndElementIs L t') true (w ++ close_tag t') /\
  looks (Xer_NextEndElementIs L t) false (w ++ open_tag t') /\ looks (Xer_NextEndElementIs L t) false (w ++ empty_tag t').
Proof.
  intros L w t t' W T. split; [|split]; intros s pre rest; [apply peeks_end_true|apply (peeks_end_start L w t t' false)|apply (peeks_end_start L w t t' true)]; assumption.
Qed.
(** ** Any bytes *)
Lemma primitive_harmless : forall L tag max, 1 <= max ->
  harmless (plain (any_char L)) (Xer_DecodePrimitiveElement L tag max) (fun r => match r with Some t => Forall is_byte t /\ Z.of_nat (length t) < max | None => True end).
Proof.
  intros L tag max X. apply harmless_plain. intros M N HB HC HN. eapply calm_weak; [now apply primitive_safe|].
  intros [t|] H; [|exact I]. destruct H as [F TL]. split; [|exact TL]. eapply Forall_impl; [|exact F]. intros b Hb. rewrite Forall_forall in HB. now apply HB.
Qed.
Lemma null_harmless : forall L tag, harmless (plain (any_char L)) (Xer_DecodeNull L tag) (fun _ => True).
Proof. intros L tag. apply harmless_plain. intros M N HB HC HN. eapply calm_weak; [now apply null_safe|]. auto. Qed.
Lemma integer_harmless : forall tag, harmless (fun _ => True) (Xer_DecodeInteger glibc tag) (fun r => match r with Some v => is_s64 v | None => True end).
Proof.
  intros tag. apply harmless_calm with (L := glibc); [intros M _; apply plain_ok; left; reflexivity|]. intros M N HB HC _ HN.
  eapply calm_weak; [now apply integer_safe|]. auto.
Qed.
Lemma pos_integer_harmless : forall L tag, harmless (plain (any_char L)) (Xer_DecodePosInteger L tag) (fun r => match r with Some v => is_u64 v | None => True end).
Proof. intros L tag. apply harmless_plain. intros M N HB HC HN. eapply calm_weak; [now apply pos_integer_safe|]. auto. Qed.
Lemma boolean_harmless : forall L tag, harmless (no_attributes (any_char L)) (Xer_DecodeBoolean L tag) (fun _ => True).
Proof. intros L tag. apply harmless_na. intros M N HB HC HN HO. eapply calm_weak; [now apply boolean_safe|]. auto. Qed.
Lemma enumerated_harmless : forall L tag, harmless (no_attributes (any_char L)) (Xer_DecodeEnumerated L tag) (fun _ => True).
Proof. intros L tag. apply harmless_na. intros M N HB HC HN HO. eapply calm_weak; [now apply enumerated_safe|]. auto. Qed.
Lemma start_harmless : forall L tag a, harmless (no_attributes (any_char L)) (Xer_DecodeComplexElementStart L tag a) (fun _ => True).
Proof. intros L tag a. apply harmless_na. intros M N HB HC HN HO. eapply calm_weak; [now apply start_safe|]. auto. Qed.
Lemma end_harmless : forall L tag, harmless (plain (any_char L)) (Xer_DecodeComplexElementEnd L tag) (fun _ => True).
Proof. intros L tag. apply harmless_plain. intros M N HB HC HN. eapply calm_weak; [now apply end_safe|]. auto. Qed.
Lemma tag_harmless : forall L, harmless (plain (any_char L)) (Xer_LA_NextElementTag L) (fun _ => True).
Proof. intros L. apply harmless_plain. intros M N HB HC HN. eapply calm_weak; [now apply tag_safe|]. auto. Qed.
Lemma next_start_harmless : forall L tag, harmless (plain (any_char L)) (Xer_NextStartElementIs L tag) (fun _ => True).
Proof. intros L tag. apply harmless_plain. intros M N HB HC HN. eapply calm_weak; [now apply next_start_safe|]. auto. Qed.
Lemma next_end_harmless : forall L tag, harmless (plain (any_char L)) (Xer_NextEndElementIs L tag) (fun _ => True).
Proof. intros L tag. apply harmless_plain. intros M N HB HC HN. eapply calm_weak; [now apply next_end_safe|]. auto. Qed.
Lemma octets_harmless : forall L tag value max, max <= Z.of_nat (length value) ->
  harmless (plain (any_char L)) (Xer_DecodeOctetString L tag value max)
    (fun r => match r with Some (v, n) => length v = length value /\ 0 <= n <= 512 | None => True end).
Proof.
  intros L tag value max X. apply harmless_plain. intros M N HB HC HN. eapply calm_weak; [now apply octets_safe|]. intros [[v n]|] H; exact H || exact I.
Qed.
Lemma bits_harmless : forall L tag value max, max <= Z.of_nat (length value) -> 256 <= Z.of_nat (length value) ->
  harmless (plain (any_char L)) (Xer_DecodeBitString L tag value max)
    (fun r => match r with Some (v, n) => length v = length value /\ 0 <= n <= 2047 | None => True end).
Proof.
  intros L tag value max X Y. apply harmless_plain. intros M N HB HC HN. eapply calm_weak; [now apply bits_safe|]. intros [[v n]|] H; exact H || exact I.
Qed.
Lemma oid_harmless : forall tag values, (20 <= length values)%nat ->
  harmless (fun _ => True) (Xer_DecodeObjectIdentifier glibc tag values) (fun r => match r with Some v => length v = length values | None => True end).
Proof.
  intros tag values V. apply harmless_calm with (L := glibc); [intros M _; apply plain_ok; left; reflexivity|]. intros M N HB HC _ HN.
  eapply calm_weak; [now apply oid_safe|]. auto.
Qed.

Lemma down_infinity : forall fuel b e r, scale_down fuel (Coq.Floats.SpecFloat.S754_infinity b) e <> Ok r.
Proof.
  induction fuel as [|f IH]; intros b e r; cbn [scale_down]; [discriminate|].
  change (Coq.Floats.SpecFloat.SFleb D10 (Coq.Floats.SpecFloat.SFabs (Coq.Floats.SpecFloat.S754_infinity b))) with true. cbv iota.
  destruct (e =? 2 ^ 31 - 1); [discriminate|]. destruct b; apply IH.
Qed.
Lemma real_infinity : forall fuel b r, Double2String fuel (Coq.Floats.SpecFloat.S754_infinity b) <> Ok r.
Proof.
  intros fuel b r. unfold Double2String. change (dlt (Coq.Floats.SpecFloat.S754_infinity b) Dtiny) with false. cbv iota.
  destruct (scale_down fuel _ 0) eqn:E; cbn [obind]; try discriminate. destruct (down_infinity _ _ _ _ E).
Qed.

(** ** Attributes *)
Lemma wend_eq : word_end 61.
Proof. split; [lia|]. unfold id_char. lia. Qed.
Lemma wend_quote : word_end 34.
Proof. split; [lia|]. unfold id_char. lia. Qed.
Lemma wend_white : forall c, white c -> word_end c.
Proof. intros c H. unfold white in H. split; [lia|]. unfold id_char. lia. Qed.
(** what follows a word: white space or [c] *)
Lemma wend_after : forall w c r, Forall white w -> word_end c -> exists d r', w ++ c :: r = d :: r' /\ word_end d.
Proof.
  intros [|d w] c r W C; [eexists _, _; split; [reflexivity|exact C]|].
  inversion W; subst. eexists _, _. split; [reflexivity|]. now apply wend_white.
Qed.
Lemma LA_spec : forall L t bs rest, xreads (NT L) t bs rest -> peeks (LA L) t bs rest.
Proof.
  intros L t bs rest H s pre HB S. unfold LA. unfold bbind at 1. cbv [bget]. unfold bbind at 1. rewrite (H s pre HB S).
  unfold bbind, bseek, bret. cbn [seek mem size ws cur]. destruct s; reflexivity.
Qed.
Lemma concat_attr_len : forall l ts, Forall2 attribute l ts -> (List.length l <= List.length (concat ts))%nat.
Proof.
  intros l ts H. induction H as [|a t l ts (w1 & w2 & w3 & _ & _ & _ & _ & ->) H IH]; [cbn; lia|].
  cbn [concat List.length]. rewrite !app_length. cbn [List.length]. lia.
Qed.
Lemma xreads_ext : forall A (f g : B A) a bs rest, (forall s, f s = g s) -> xreads g a bs rest -> xreads f a bs rest.
Proof. intros A f g a bs rest E H s pre HB S. rewrite E. now apply H. Qed.
Lemma attributes_step : forall A L f a (k : option attributes -> B (option A)) s,
  bopt (attributes_loop L (S f) a) k s =
  bbind (LA L) (fun t => if fst t =? 62 then k a else
    do* t1 := NT L in
    if negb (fst t1 =? WORD_ID) then bret None else
    do? _ := expect L 61 in
    do? _ := expect L 34 in
    do* t2 := NT L in
    if negb (fst t2 =? WORD_ID) then bret None else
    do? _ := expect L 34 in
    do* a := blift (AddAttribute a (snd t1) (snd t2)) in
    bopt (attributes_loop L f a) k) s.
Proof.
  intros A L f a k s. cbn [attributes_loop]. unfold bopt, bbind.
  destruct (LA L s) as [[t s1]| | |]; try reflexivity. destruct (fst t =? 62); [reflexivity|].
  destruct (NT L s1) as [[t1 s2]| | |]; try reflexivity. destruct (negb (fst t1 =? WORD_ID)); [reflexivity|].
  destruct (expect L 61 s2) as [[[[]|] s3]| | |]; try reflexivity.
  destruct (expect L 34 s3) as [[[[]|] s4]| | |]; try reflexivity.
  destruct (NT L s4) as [[t2 s5]| | |]; try reflexivity. destruct (negb (fst t2 =? WORD_ID)); [reflexivity|].
  destruct (expect L 34 s5) as [[[[]|] s6]| | |]; try reflexivity.
  unfold blift. destruct (AddAttribute a (snd t1) (snd t2)); reflexivity.
Qed.
Lemma attributes_then : forall A L l ts w bs rest f done (k : option attributes -> B (option A)) c, Forall white w ->
  Forall (fun nv => name_ok (fst nv) /\ (List.length (fst nv) < 50)%nat /\ name_ok (snd nv)) l -> Forall2 attribute l ts ->
  (List.length l < f)%nat -> (List.length done + List.length l <= 20)%nat ->
  xreads (k (Some (done ++ l))) c ((w ++ [62]) ++ bs) rest ->
  xreads (bopt (attributes_loop L f (Some done)) k) c (concat ts ++ (w ++ [62]) ++ bs) rest.
Proof.
  intros A L l. induction l as [|[n v] l IH]; intros ts w bs rest f done k c W O T F N K.
  - inversion T; subst ts. cbn [concat app]. rewrite app_nil_r in K. destruct f as [|f]; [lia|].
    eapply xreads_ext; [intros s; apply attributes_step|].
    eapply xreads_peek.
    + apply LA_spec. apply NT_special; [exact W|reflexivity|lia|]. intros X. lia.
    + cbn [fst]. change (62 =? 62) with true. exact K.
  - inversion T as [|a t l' ts' (w1 & w2 & w3 & W1 & N1 & W2 & W3 & ->) T' E1 E2]; subst. inversion O as [|a l' (ON & OL & OV) O']; subst. cbn [fst snd] in *.
    destruct f as [|f]; [cbn in F; lia|]. eapply xreads_ext; [intros s; apply attributes_step|].
    cbn [concat]. destruct (wend_after w2 61 (w3 ++ [34] ++ v ++ [34] ++ concat ts' ++ (w ++ [62]) ++ bs ++ rest) W2 wend_eq) as (d & r & Ed & Wd).
    assert (RN : xreads (NT L) (WORD_ID, n) (w1 ++ n) (((w2 ++ [61]) ++ (w3 ++ [34]) ++ ([] ++ v) ++ ([] ++ [34]) ++ concat ts' ++ (w ++ [62]) ++ bs) ++ rest)).
    { replace (_ ++ rest) with (d :: r); [now apply NT_word|]. rewrite <- Ed. repeat first [rewrite <- app_assoc | progress cbn [app]]. reflexivity. }
    apply (xreads_eq _ _ _ ((w1 ++ n) ++ (w2 ++ [61]) ++ (w3 ++ [34]) ++ ([] ++ v) ++ ([] ++ [34]) ++ concat ts' ++ (w ++ [62]) ++ bs)).
    { repeat first [rewrite <- app_assoc | progress cbn [app]]. reflexivity. }
    eapply xreads_peek; [apply LA_spec, RN|]. cbn [fst]. change (WORD_ID =? 62) with false. cbv iota.
    eapply xreads_bind; [exact RN|]. cbn [fst]. rewrite Z.eqb_refl. cbn [negb].
    eapply xreads_opt; [apply read_mark; [exact W2|reflexivity|lia|lia]|].
    eapply xreads_opt; [apply read_mark; [exact W3|reflexivity|lia|lia]|].
    eapply xreads_bind; [apply (NT_word L [] v 34); [constructor|exact OV|exact wend_quote]|]. cbn [fst]. rewrite Z.eqb_refl. cbn [negb].
    eapply xreads_opt; [apply read_mark; [constructor|reflexivity|lia|lia]|].
    eapply xreads_lift.
    { unfold AddAttribute. cbn [List.length snd] in *. replace (20 <=? _) with false by lia.
      destruct OV as (_ & OV & _). replace (_ || _) with false by lia. reflexivity. }
    apply IH; [exact W|exact O'|exact T'|cbn in F; lia|rewrite app_length; cbn [List.length] in *; lia|].
    rewrite <- app_assoc. exact K.
Qed.
Lemma read_start_attributes : forall L w w' t l ts rest, Forall white w -> Forall white w' -> name_ok t ->
  Forall (fun nv => name_ok (fst nv) /\ (List.length (fst nv) < 50)%nat /\ name_ok (snd nv)) l -> (List.length l <= 20)%nat ->
  Forall2 attribute l ts ->
  xreads (Xer_DecodeComplexElementStart L t (Some [])) (Some (Some l)) (w ++ [60] ++ t ++ concat ts ++ w' ++ [62]) rest.
Proof.
  intros L w w' t l ts rest W W' T O N FA. unfold Xer_DecodeComplexElementStart. destruct t as [|x t0] eqn:Et; [destruct T; congruence|]. rewrite <- Et in *.
  apply (xreads_eq _ _ _ ((w ++ [60]) ++ ([] ++ t) ++ concat ts ++ (w' ++ [62]) ++ [])).
  { repeat first [rewrite <- app_assoc | rewrite app_nil_r | progress cbn [app]]. reflexivity. }
  eapply xreads_opt; [rewrite <- app_assoc; apply (read_lt_name L w _ _ W T)|].
  eapply xreads_opt.
  { assert (X : exists d r, (concat ts ++ (w' ++ [62]) ++ []) ++ rest = d :: r /\ word_end d).
    { inversion FA as [|a tx l' ts' (w1 & w2 & w3 & W1 & N1 & _ & _ & ->) _ E1 E2].
      - cbn [concat app]. rewrite <- !app_assoc. cbn [app]. apply wend_after; [exact W'|exact wend_gt].
      - destruct w1 as [|d w1]; [congruence|]. cbn [concat app]. eexists _, _. split; [reflexivity|]. apply wend_white. inversion W1; assumption. }
    destruct X as (d & r & -> & X). apply expect_name; [constructor|exact T|exact X]. }
  intros s pre HB SZ. unfold Xer_DecodeAttributes.
  assert (R : xreads (do? a := attributes_loop L (S (Z.to_nat (size s - cur s))) (Some []) in
      do* t := NT L in if fst t =? 47 then do? _ := expect L 62 in bret (Some a) else bret (if fst t =? 62 then Some a else None))
      (Some (Some l)) (concat ts ++ (w' ++ [62]) ++ []) rest).
  { apply (attributes_then _ L l ts w' [] rest _ [] _ _ W' O FA); [|cbn; lia|].
    - destruct HB as (_ & HC). rewrite HC. pose proof (concat_attr_len _ _ FA). rewrite !app_length in SZ. lia.
    - rewrite app_nil_r. cbn [app]. apply (xreads_eq _ _ _ ((w' ++ [62]) ++ [])); [apply app_nil_r|].
      eapply xreads_bind; [apply NT_special; [exact W'|reflexivity|lia|intros X; lia]|]. apply xreads_ret. }
  specialize (R s pre HB SZ). rewrite <- R. reflexivity.
Qed.
Lemma gets_start_attributes : forall L w w' t l ts, Forall white w -> Forall white w' -> name_ok t ->
  Forall (fun nv => name_ok (fst nv) /\ (List.length (fst nv) < 50)%nat /\ name_ok (snd nv)) l -> (List.length l <= 20)%nat ->
  Forall2 attribute l ts ->
  gets (Xer_DecodeComplexElementStart L t (Some [])) (Some l) (w ++ [60] ++ t ++ concat ts ++ w' ++ [62]).
Proof. intros. apply xreads_gets. intros rest. now apply read_start_attributes. Qed.
