(** XER bit strings and object identifiers. *)
From Verif Require Import Base Bits BitsProofs OctetsProofs Properties2Proofs ByteStream ByteStreamProofs XerSpec Xer XerProofs XerProofs2 XerProofs3 XerProofs4.
From Coq Require Import ZifyBool ZifyNat.
Ltac Zify.zify_post_hook ::= Z.div_mod_to_equations.

Lemma nth_bits : forall l i, nth i (bits_of_bytes l) false = Z.testbit (nth (i / 8) l 0) (7 - Z.of_nat i mod 8).
Proof.
  induction l as [|b l IH]; intros i.
  - cbn [bits_of_bytes]. destruct i; destruct (_ / 8)%nat; cbn [nth]; now rewrite Z.testbit_0_l.
  - cbn [bits_of_bytes]. destruct (le_lt_dec 8 i) as [G|G].
    + rewrite app_nth2 by (cbn [bits_of_byte length]; lia). cbn [bits_of_byte length]. rewrite IH.
      replace (i / 8)%nat with (S ((i - 8) / 8)) by lia. cbn [nth]. f_equal. lia.
    + rewrite app_nth1 by (cbn [bits_of_byte length]; lia).
      do 8 (destruct i as [|i]; [reflexivity|]). lia.
Qed.
Lemma nth_pack : forall bs i q, (i < length bs)%nat -> (i / 8 < length (pack bs))%nat /\
  Z.testbit (nth (i / 8) (pack bs ++ q) 0) (7 - Z.of_nat i mod 8) = nth i bs false.
Proof.
  intros bs i q H. pose proof (pack_len bs) as PL. assert (G : (i / 8 < length (pack bs))%nat) by lia. split; [exact G|].
  rewrite app_nth1 by exact G. rewrite <- nth_bits. destruct (bits_of_pack (length bs) bs (le_n _)) as [E _].
  rewrite E, app_nth1 by exact H. reflexivity.
Qed.
Lemma emits_bits : forall tag bs q level, tag <> [] ->
  emits (Xer_EncodeBitString tag (pack bs ++ q) (Z.of_nat (length bs)) level) tt (line level (element tag (bit_text bs))).
Proof.
  intros tag bs q level T. apply emits_framed; [exact T|].
  assert (E : bit_text bs = concat (map (fun b : bool => [if b then 49 else 48]) bs)).
  { clear. induction bs as [|b bs IH]; [reflexivity|]. cbn. now rewrite <- IH. }
  rewrite E. apply emits_append_all; [rewrite map_length; lia|]. intros j J. rewrite Nat2Z.id in J. rewrite Z.add_0_l.
  destruct (nth_pack bs j q J) as [G N]. replace (Z.of_nat j / 8) with (Z.of_nat (j / 8)) by lia.
  rewrite nthZ_nat by (rewrite app_length; lia). cbn [obind]. rewrite N.
  rewrite (nth_indep _ [] [48]) by (rewrite map_length; exact J).
  pose proof (map_nth (fun b : bool => [if b then 49 else 48]) bs false j) as MN. cbv beta iota in MN. now rewrite MN.
Qed.
(** ** Object identifiers *)
Lemma emits_oid : forall tag arcs q level, tag <> [] -> Forall is_u64 arcs -> exists t, oid_text arcs t /\
  emits (Xer_EncodeObjectIdentifier tag (arcs ++ q) (Z.of_nat (length arcs)) level) tt (line level (element tag t)).
Proof.
  intros tag arcs q level T F. exists (dotted (map UInt2String arcs)). split.
  - exists (map UInt2String arcs). split; [|reflexivity]. induction F; cbn; constructor; [now apply UInt_numeral|assumption].
  - apply emits_framed; [exact T|]. destruct arcs as [|a arcs].
    + cbn [length Z.of_nat Z.ltb Z.compare map dotted].
      eapply emits_ext; [|eapply emits_bind; [apply (emits_append_all [] 0 0 _ eq_refl); intros; lia|]; apply (emits_append_all [] 0 1 _ eq_refl); intros; lia].
      reflexivity.
    + replace (0 <? Z.of_nat (length (a :: arcs))) with true by (cbn [length]; lia).
      eapply emits_ext; [|eapply emits_bind].
      2: apply (emits_append_all [UInt2String a] 1 0 _ eq_refl); intros [|j] J; [reflexivity|lia].
      2: apply (emits_append_all (map (fun v => 46 :: UInt2String v) arcs)); [rewrite map_length; cbn [length]; lia|].
      * intros w. cbn [map dotted concat]. rewrite app_nil_r. f_equal. clear. induction arcs as [|b arcs IH]; [reflexivity|]. cbn [map flat_map concat app]. do 2 f_equal. exact IH.
      * intros j J. cbn [length] in J. replace (1 + Z.of_nat j) with (Z.of_nat (S j)) by lia.
        rewrite nthZ_nat by (cbn [app length]; rewrite app_length; lia). cbn [obind app nth].
        rewrite app_nth1 by lia.
        pose proof (map_nth (fun v => 46 :: UInt2String v) arcs 0 j) as MN. cbv beta in MN.
        rewrite (nth_indep _ [] (46 :: UInt2String 0)) by (rewrite map_length; lia). now rewrite MN.
Qed.

Lemma numeral_nodot : forall v t, 0 <= v -> numeral v t -> Forall (fun c => 48 <= c <= 57) t.
Proof.
  intros v t V (ds & F & N & Hn & L & ->). replace (v <? 0) with false by lia. cbn [app].
  apply Forall_map. eapply Forall_impl; [|exact F]. cbv beta. intros; lia.
Qed.
Lemma dotted_chars : forall arcs ts, Forall (Z.le 0) arcs -> Forall2 numeral arcs ts -> Forall (fun c => 46 <= c <= 57) (dotted ts).
Proof.
  intros arcs ts P F. assert (G : Forall (Forall (fun c => 46 <= c <= 57)) ts).
  { revert P. induction F; intros P; constructor; inversion P; subst; auto.
    eapply Forall_impl; [|eapply numeral_nodot; eassumption]. cbv beta. intros; lia. }
  destruct ts as [|t ts]; [constructor|]. inversion G as [|? ? G1 G2]; subst. cbn [dotted]. apply Forall_app. split; [exact G1|].
  clear - G2. induction G2; cbn [flat_map app]; [constructor|]. constructor; [lia|]. apply Forall_app. now split.
Qed.
Lemma dotted_len : forall arcs ts, Forall is_u64 arcs -> Forall2 numeral arcs ts -> (length (dotted ts) <= 22 * length ts)%nat.
Proof.
  intros arcs ts U F. assert (G : Forall (fun t => (length t <= 21)%nat) ts).
  { revert U. induction F; intros U; constructor; inversion U; subst; auto. eapply numeral_len; [|eassumption]. unfold is_u64, two64 in *. lia. }
  destruct ts as [|t ts]; [cbn; lia|]. inversion G as [|? ? G1 G2]; subst. cbn [dotted length]. rewrite app_length.
  assert (length (flat_map (cons 46%Z) ts) <= 22 * length ts)%nat; [|lia].
  clear - G2. induction G2; cbn [flat_map length]; [lia|]. rewrite app_length. cbn [length]. lia.
Qed.
Lemma tokens_skip : forall t r b, Forall (fun c => 48 <= c <= 57) t -> t <> [] ->
  tokens (t ++ r) b = ((if b then 0 else 1) + tokens r true)%nat.
Proof.
  induction t as [|c t IH]; intros r b F N; [congruence|]. inversion F; subst. cbn [app tokens]. replace (c =? 46) with false by lia.
  destruct t as [|c' t].
  - cbn [app]. destruct b; reflexivity.
  - rewrite !(IH r true) by (assumption || discriminate). destruct b; reflexivity.
Qed.
Lemma tokens_rest : forall ts, Forall (fun t => Forall (fun c => 48 <= c <= 57) t /\ t <> []) ts -> tokens (flat_map (cons 46) ts) true = length ts.
Proof.
  induction 1 as [|t ts [F N] H IH]; [reflexivity|]. cbn [flat_map app tokens]. replace (46 =? 46) with true by reflexivity.
  rewrite tokens_skip by assumption. cbn [Nat.add length]. now rewrite IH.
Qed.
Lemma tokens_dotted : forall arcs ts, Forall (Z.le 0) arcs -> Forall2 numeral arcs ts -> tokens (dotted ts) false = length ts.
Proof.
  intros arcs ts P F. assert (G : Forall (fun t => Forall (fun c => 48 <= c <= 57) t /\ t <> []) ts).
  { revert P. induction F; intros P; constructor; inversion P; subst; auto. split; [eapply numeral_nodot; eassumption|eapply numeral_nonempty; eassumption]. }
  destruct ts as [|t ts]; [reflexivity|]. inversion G as [|? ? [G1 G1'] G2]; subst. cbn [dotted]. rewrite tokens_skip by assumption.
  rewrite tokens_rest by assumption. reflexivity.
Qed.

Lemma Forall2_len : forall A C (R : A -> C -> Prop) l l', Forall2 R l l' -> length l = length l'.
Proof. induction 1; cbn; auto. Qed.
Lemma number_prefix : forall v t r, 0 <= v -> numeral v t -> match r with c :: _ => isdigit c = false | [] => True end ->
  number (t ++ r) = (false, v).
Proof.
  intros v t r V (ds & F & N & Hn & L & ->) R. unfold number. replace (v <? 0) with false by lia.
  destruct ds as [|d ds]; [congruence|]. cbn [app map skip_blanks]. assert (0 <= d <= 9) by (inversion F; assumption).
  unfold isspace. replace ((48 + d =? 32) || _) with false by lia.
  replace (48 + d =? 45) with false by lia. replace (48 + d =? 43) with false by lia. f_equal.
  change (48 + d :: map (Z.add 48) ds ++ r) with (map (Z.add 48) (d :: ds) ++ r).
  rewrite digits_value_spec by auto. unfold horner in Hn. lia.
Qed.
(** All the arcs read back are the first. *)
Lemma read_oid : forall L w tag a arcs t values rest, Forall white w -> name_ok tag -> 0 <= a < two63 -> Forall is_u64 arcs ->
  (length (a :: arcs) <= 20)%nat -> (length (a :: arcs) <= length values)%nat -> oid_text (a :: arcs) t ->
  xreads (Xer_DecodeObjectIdentifier L tag values)
    (Some (repeat a (length (a :: arcs)) ++ skipn (length (a :: arcs)) values)) (w ++ element tag t) rest.
Proof.
  intros L w tag a arcs t values rest W T A U N V (ts & F & ->). unfold Xer_DecodeObjectIdentifier.
  assert (U' : Forall is_u64 (a :: arcs)) by (constructor; [unfold is_u64, two63, two64 in *; lia|exact U]).
  assert (P : Forall (Z.le 0) (a :: arcs)) by (eapply Forall_impl; [|exact U']; unfold is_u64; intros; lia).
  pose proof (dotted_chars _ _ P F) as C. pose proof (dotted_len _ _ U' F) as DL. pose proof (Forall2_len _ _ _ _ _ F) as FL.
  eapply xreads_eq; [apply app_nil_r|].
  eapply xreads_opt; [apply read_primitive_element; [exact W|exact T|eapply Forall_impl; [|exact C]; cbn; lia|lia]|].
  cbv zeta. rewrite cstr_id by (eapply Forall_impl; [|exact C]; cbn; lia).
  eapply xreads_lift; [apply unspaced_id; eapply Forall_impl; [|exact C]; cbn; lia|].
  rewrite skipn_all, app_nil_r. rewrite (tokens_dotted _ _ P F), <- FL.
  replace (Nat.min (length (a :: arcs)) 20) with (length (a :: arcs)) by lia. cbn [length].
  eapply xreads_lift.
  - unfold atoll. inversion F as [|? t1 ? ts' F1 F2]; subst. cbn [dotted]. rewrite (number_prefix a t1); [|lia|exact F1|destruct ts'; [exact I|reflexivity]].
    unfold in_s64. replace (_ && _) with true by lia. reflexivity.
  - replace (u64 a) with a by (unfold u64; rewrite Z.mod_small; unfold two63, two64 in *; lia). apply xreads_ret.
Qed.
