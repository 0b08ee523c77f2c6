(** XER codecs of the leaf types: texts emitted, texts read back. *)
From Verif Require Import Base Bits BitsProofs BitStreamProofs OctetsProofs OctetsProofs2 ByteStream ByteStreamProofs XerSpec Xer XerProofs XerProofs2.
From Coq Require Import ZifyBool ZifyNat.
Ltac Zify.zify_post_hook ::= Z.div_mod_to_equations.

Ltac aps := repeat (progress (rewrite <- ?app_assoc; cbn [app])); try reflexivity.
Ltac bate HB := refine (eq_rect _ (bat _ _) HB _ _); aps.

(** ** Encoders *)
Lemma line_eq : forall level t w, 0 <= level ->
  indent w level ++ t ++ (if 0 <=? level then newline w else []) = line level t w.
Proof. intros level t w H. unfold line. replace (0 <=? level) with true by lia. reflexivity. Qed.
Lemma emits_text : forall tag v level, 0 <= level ->
  emits (Xer_EncodePrimitiveElement tag v level) tt (line level (text_element tag v)).
Proof. intros tag v level H. eapply emits_ext; [intros w; apply line_eq, H|]. apply emits_primitive. Qed.
Lemma text_element_cons : forall tag v, v <> [] -> text_element tag v = element tag v.
Proof. intros tag [|c v] H; [congruence|reflexivity]. Qed.
Lemma numeral_nonempty : forall v t, numeral v t -> t <> [].
Proof. intros v t (ds & F & N & Hn & L & ->). destruct ds; [congruence|]. destruct (v <? 0); discriminate. Qed.

Lemma emits_integer : forall tag v level, 0 <= level -> is_s64 v -> exists t, numeral v t /\
  emits (Xer_EncodeInteger tag v level) tt (line level (element tag t)).
Proof.
  intros tag v level H V. exists (Int2String v). split; [apply Int_numeral, V|].
  rewrite <- text_element_cons by (eapply numeral_nonempty, Int_numeral, V). apply emits_text, H.
Qed.
Lemma emits_pos_integer : forall tag v level, 0 <= level -> is_u64 v -> exists t, numeral v t /\
  emits (Xer_EncodePosInteger tag v level) tt (line level (element tag t)).
Proof.
  intros tag v level H V. exists (UInt2String v). split; [apply UInt_numeral, V|].
  rewrite <- text_element_cons by (eapply numeral_nonempty, UInt_numeral, V). apply emits_text, H.
Qed.
Lemma emits_boolean : forall tag v level, 0 <= level ->
  emits (Xer_EncodeBoolean tag v level) tt
    (line level (match tag with [] => empty_tag (bool_name v) | _ => element tag (empty_tag (bool_name v)) end)).
Proof.
  intros tag v level H. unfold Xer_EncodeBoolean. fold (bool_name v). destruct tag as [|c tag].
  - apply (emits_text (bool_name v) [] level H).
  - apply (emits_text (c :: tag) (empty_tag (bool_name v)) level H).
Qed.
Lemma emits_enumerated : forall tag v level, 0 <= level -> Z.of_nat (length v) < 253 ->
  emits (Xer_EncodeEnumerated tag v level) tt
    (line level (match tag with [] => empty_tag v | _ => element tag (empty_tag v) end)).
Proof.
  intros tag v level H L. unfold Xer_EncodeEnumerated. replace (256 <=? _) with false by lia. destruct tag as [|c tag].
  - apply (emits_text v [] level H).
  - apply (emits_framed (c :: tag) level (Xer_EncodePrimitiveElement v [] (-1)) (empty_tag v)); [discriminate|].
    eapply emits_ext; [|apply emits_primitive]. intros w. cbv beta. rewrite (indent_neg _ (-1)) by lia.
    cbn [text_element app Z.leb Z.compare]. now rewrite app_nil_r.
Qed.
Lemma emits_null : forall tag level, 0 <= level -> emits (Xer_EncodeNull tag level) tt (line level (empty_tag tag)).
Proof. intros tag level H. apply (emits_text tag [] level H). Qed.

Lemma nthZ_nat : forall l (i : nat), (i < length l)%nat -> nthZ l (Z.of_nat i) = Ok (nth i l 0).
Proof.
  intros l i H. unfold nthZ. replace (_ <? 0) with false by lia. rewrite Nat2Z.id. now rewrite (nth_error_nth' l 0 H).
Qed.
Lemma hexdigit_spec : forall n, 0 <= n < 16 -> hexdigit n = nth (Z.to_nat n) hex_alphabet 0.
Proof.
  intros n H. unfold hexdigit. assert (C : exists k, (k < 16)%nat /\ n = Z.of_nat k) by (exists (Z.to_nat n); lia).
  destruct C as (k & K & ->). rewrite Nat2Z.id. do 16 (destruct k as [|k]; [reflexivity|]). lia.
Qed.
Lemma emits_octets : forall tag l q level, tag <> [] -> Forall is_byte l ->
  emits (Xer_EncodeOctetString tag (l ++ q) (Z.of_nat (length l)) level) tt (line level (element tag (hex_text l))).
Proof.
  intros tag l q level T F. apply emits_framed; [exact T|]. unfold hex_text. rewrite flat_map_concat_map.
  apply emits_append_all; [rewrite map_length; lia|]. intros j J. rewrite Nat2Z.id in J. rewrite Z.add_0_l, nthZ_nat by (rewrite app_length; lia).
  cbn [obind]. rewrite app_nth1 by exact J. rewrite (nth_indep _ [] ((fun b => [nth (Z.to_nat (b / 16)) hex_alphabet 0; nth (Z.to_nat (b mod 16)) hex_alphabet 0]) 0)) by (rewrite map_length; exact J).
  rewrite (map_nth (fun b => [nth (Z.to_nat (b / 16)) hex_alphabet 0; nth (Z.to_nat (b mod 16)) hex_alphabet 0])).
  assert (B : is_byte (nth j l 0)) by (rewrite Forall_forall in F; apply F, nth_In, J). unfold is_byte in B.
  now rewrite !hexdigit_spec by lia.
Qed.

(** ** Reading decoders *)
Definition peeks {A} (f : B A) (a : A) (bs rest : list Z) : Prop :=
  forall s pre, bat s pre (bs ++ rest) -> Z.of_nat (length pre + length bs) <= size s -> f s = Ok (a, s).
Lemma xreads_peek : forall A C (f : B A) a p (k : A -> B C) c q rest,
  peeks f a p (q ++ rest) -> xreads (k a) c (p ++ q) rest -> xreads (bbind f k) c (p ++ q) rest.
Proof.
  intros A C f a p k c q rest Hf Hk s pre HB S. unfold bbind. rewrite (Hf s pre).
  - apply Hk; assumption.
  - rewrite app_assoc. exact HB.
  - rewrite app_length in S. lia.
Qed.
Lemma xreads_none : forall A C (f : B (option A)) (k : A -> B (option C)) bs rest,
  xreads f None bs rest -> xreads (bopt f k) None bs rest.
Proof. intros A C f k bs rest H s pre HB S. unfold bopt, bbind. rewrite (H s pre HB S). reflexivity. Qed.
Lemma peeks_flag : forall A (m : B (option A)) r bs rest, xreads m r bs rest ->
  peeks (flag_of m) (match r with Some _ => true | None => false end) bs rest.
Proof.
  intros A m r bs rest H s pre HB S. unfold flag_of. cbv [bbind bget]. rewrite (H s pre HB S). cbv [bseek bret seek].
  cbn [mem size ws]. destruct s; reflexivity.
Qed.

(** The start of an element: its name, and whether it is empty. *)
Definition head_tag (t : list Z) (e : bool) : list Z := if e then empty_tag t else open_tag t.
Lemma peeks_tag : forall L w t e rest, Forall white w -> name_ok t ->
  peeks (Xer_LA_NextElementTag L) (Some t) (w ++ head_tag t e) rest.
Proof.
  intros L w t e rest W T s pre HB S. unfold Xer_LA_NextElementTag. cbv [bget]. unfold bbind at 1.
  assert (R : xreads (do? _ := expect L 60 in
    do* t := NT L in
    if negb (fst t =? WORD_ID) then bret None else
    do* u := NT L in
    if fst u =? 47 then
      do? _ := expect L 62 in
      bret (Some (snd t))
    else bret (if fst u =? 62 then Some (snd t) else None)) (Some t) (w ++ head_tag t e) rest).
  { destruct e; unfold head_tag, empty_tag, open_tag.
    - apply (xreads_eq _ _ _ ((w ++ [60]) ++ ([] ++ t) ++ ([] ++ [47]) ++ ([] ++ [62]) ++ [])); [cbn [app]; now rewrite <- !app_assoc|].
      eapply xreads_opt; [rewrite <- app_assoc; apply (read_lt_name L w _ _ W T)|].
      eapply xreads_bind; [apply (NT_word L [] t 47); [constructor|exact T|exact wend_sl]|]. cbn [fst snd]. change (negb (WORD_ID =? WORD_ID)) with false. cbv iota.
      eapply xreads_bind; [apply NT_special; [constructor|reflexivity|lia|intros E; lia]|]. cbn [fst]. change (47 =? 47) with true. cbv iota.
      eapply xreads_opt; [apply read_mark; [constructor|reflexivity|lia|lia]|]. apply xreads_ret.
    - apply (xreads_eq _ _ _ ((w ++ [60]) ++ ([] ++ t) ++ ([] ++ [62]) ++ [])); [cbn [app]; now rewrite <- !app_assoc|].
      eapply xreads_opt; [rewrite <- app_assoc; apply (read_lt_name L w _ _ W T)|].
      eapply xreads_bind; [apply (NT_word L [] t 62); [constructor|exact T|exact wend_gt]|]. cbn [fst snd]. change (negb (WORD_ID =? WORD_ID)) with false. cbv iota.
      eapply xreads_bind; [apply NT_special; [constructor|reflexivity|lia|intros E; lia]|]. cbn [fst].
      change (62 =? 47) with false. change (62 =? 62) with true. cbv iota. apply xreads_ret. }
  unfold bbind at 1. rewrite (R s pre HB S). unfold bbind. cbv [bseek bret seek]. cbn [mem size ws]. destruct s; reflexivity.
Qed.
Lemma peeks_start_true : forall L w t e rest, Forall white w -> name_ok t ->
  peeks (Xer_NextStartElementIs L t) true (w ++ head_tag t e) rest.
Proof.
  intros L w t e rest W T. unfold Xer_NextStartElementIs. eapply (peeks_flag _ _ (Some tt)). destruct e; unfold head_tag, empty_tag, open_tag.
  - apply (xreads_eq _ _ _ ((w ++ [60]) ++ ([] ++ t) ++ ([] ++ [47]) ++ ([] ++ [62]))); [cbn [app]; now rewrite <- !app_assoc|].
    eapply xreads_opt; [rewrite <- app_assoc; apply (read_lt_name L w _ _ W T)|].
    eapply xreads_opt; [apply (expect_name L [] t 47); [constructor|exact T|exact wend_sl]|].
    eapply xreads_bind; [apply NT_special; [constructor|reflexivity|lia|intros E; lia]|]. cbn [fst]. change (47 =? 47) with true. cbv iota.
    apply read_mark; [constructor|reflexivity|lia|lia].
  - apply (xreads_eq _ _ _ ((w ++ [60]) ++ ([] ++ t) ++ ([] ++ [62]) ++ [])); [cbn [app]; now rewrite <- !app_assoc|].
    eapply xreads_opt; [rewrite <- app_assoc; apply (read_lt_name L w _ _ W T)|].
    eapply xreads_opt; [apply (expect_name L [] t 62); [constructor|exact T|exact wend_gt]|].
    eapply xreads_bind; [apply NT_special; [constructor|reflexivity|lia|intros E; lia]|]. cbn [fst].
    change (62 =? 47) with false. change (62 =? 62) with true. cbv iota. apply xreads_ret.
Qed.
Lemma expect_other_name : forall L w t t' c r, Forall white w -> name_ok t' -> t' <> t -> word_end c ->
  xreads (expect_word L t) None (w ++ t') (c :: r).
Proof.
  intros L w t t' c r W T N E. unfold expect_word. eapply xreads_eq; [|eapply xreads_bind].
  2: { rewrite app_nil_l. apply (NT_word L w t' c r W T E). }
  2: { unfold is_word. cbn [fst snd]. rewrite list_eqb_neq by exact N. rewrite andb_false_r. apply xreads_ret. }
  now rewrite app_nil_r.
Qed.
Lemma peeks_start_other : forall L w t t' e rest, Forall white w -> name_ok t' -> t' <> t ->
  peeks (Xer_NextStartElementIs L t) false (w ++ head_tag t' e) rest.
Proof.
  intros L w t t' e rest W T N s pre HB S. unfold Xer_NextStartElementIs.
  assert (E : exists c q, head_tag t' e = [60] ++ t' ++ c :: q /\ word_end c).
  { destruct e; [exists 47, [62]; split; [reflexivity|exact wend_sl]|exists 62, []; split; [reflexivity|exact wend_gt]]. }
  destruct E as (c & q & E & WE). rewrite E in *.
  refine (peeks_flag _ _ None ((w ++ [60]) ++ ([] ++ t')) ((c :: q) ++ rest) _ s pre _ _).
  - eapply xreads_opt; [rewrite <- app_assoc; apply (read_lt_name L w _ _ W T)|]. apply xreads_none.
    apply expect_other_name; [constructor|exact T|exact N|exact WE].
  - bate HB.
  - rewrite !app_length in *. cbn [length] in *. rewrite ?app_length in S. lia.
Qed.
Lemma expect_wrong : forall L w c d rest, Forall white w -> is_special c = true -> c <> 0 -> c <> d -> no_mark c rest ->
  xreads (expect L d) None (w ++ [c]) rest.
Proof.
  intros L w c d rest W SP C0 N M. unfold expect. eapply xreads_eq; [|eapply xreads_bind].
  2: { rewrite app_nil_l. apply (NT_special L w c rest W SP C0 M). }
  2: { cbn [fst]. replace (c =? d) with false by lia. apply xreads_ret. }
  now rewrite app_nil_r.
Qed.
Lemma expect_word_mark : forall L w c t rest, Forall white w -> is_special c = true -> c <> 0 -> no_mark c rest ->
  xreads (expect_word L t) None (w ++ [c]) rest.
Proof.
  intros L w c t rest W SP C0 M. unfold expect_word. eapply xreads_eq; [|eapply xreads_bind].
  2: { rewrite app_nil_l. apply (NT_special L w c rest W SP C0 M). }
  2: { unfold is_word. cbn [fst snd]. replace (c =? WORD_ID) with false by (unfold is_special, WORD_ID in *; lia). apply xreads_ret. }
  now rewrite app_nil_r.
Qed.
Lemma peeks_start_close : forall L w t t' rest, Forall white w ->
  peeks (Xer_NextStartElementIs L t) false (w ++ close_tag t') rest.
Proof.
  intros L w t t' rest W s pre HB S. unfold Xer_NextStartElementIs.
  refine (peeks_flag _ _ None ((w ++ [60]) ++ ([] ++ [47])) ((t' ++ [62]) ++ rest) _ s pre _ _).
  - eapply xreads_opt; [apply (read_lt_sl L w _ W)|]. apply xreads_none.
    apply expect_word_mark; [constructor|reflexivity|lia|intros X; lia].
  - unfold close_tag in HB. bate HB.
  - unfold close_tag in S. rewrite !app_length in *. cbn [length] in *. lia.
Qed.
Lemma peeks_end_true : forall L w t rest, Forall white w -> name_ok t ->
  peeks (Xer_NextEndElementIs L t) true (w ++ close_tag t) rest.
Proof.
  intros L w t rest W T. unfold Xer_NextEndElementIs. eapply (peeks_flag _ _ (Some tt)). apply read_close; assumption.
Qed.
Lemma peeks_end_start : forall L w t t' e rest, Forall white w -> name_ok t' ->
  peeks (Xer_NextEndElementIs L t) false (w ++ head_tag t' e) rest.
Proof.
  intros L w t t' e rest W T s pre HB S. unfold Xer_NextEndElementIs.
  assert (E : exists c q, head_tag t' e = [60] ++ t' ++ c :: q /\ word_end c).
  { destruct e; [exists 47, [62]; split; [reflexivity|exact wend_sl]|exists 62, []; split; [reflexivity|exact wend_gt]]. }
  destruct E as (c & q & E & WE). rewrite E in *.
  refine (peeks_flag _ _ None ((w ++ [60]) ++ ([] ++ t')) ((c :: q) ++ rest) _ s pre _ _).
  - eapply xreads_opt; [rewrite <- app_assoc; apply (read_lt_name L w _ _ W T)|]. apply xreads_none.
    unfold expect. eapply xreads_eq; [|eapply xreads_bind].
    2: { rewrite app_nil_l. apply (NT_word L [] t' c); [constructor|exact T|exact WE]. }
    2: { cbn [fst]. change (WORD_ID =? 47) with false. cbv iota. apply xreads_ret. }
    now rewrite app_nil_r.
  - bate HB.
  - rewrite !app_length in *. cbn [length] in *. rewrite ?app_length in S. lia.
Qed.
