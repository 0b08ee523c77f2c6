(** The XER encoders emit the specified texts. *)
From Verif Require Import Base Bits ByteStream ByteStreamProofs XerSpec Xer.
From Coq Require Import ZifyBool ZifyNat.
Ltac Zify.zify_post_hook ::= Z.div_mod_to_equations.

Lemma zeroed_eq : forall s s' pre pre' n n' rest, mem s' = mem s -> cur s' = cur s -> size s' = size s ->
  pre' = pre -> n' = n -> zeroed s pre n rest -> zeroed s' pre' n' rest.
Proof. intros s s' pre pre' n n' rest H1 H2 H3 -> -> (A & B & C). unfold zeroed. rewrite H1, H2, H3. auto. Qed.

Lemma emits_ret : forall A (a : A), emits (bret (Some a)) a (fun _ => []).
Proof.
  intros A a s pre n rest Z0. left. split; [cbn; lia|]. exists s. split; [reflexivity|]. split; [reflexivity|].
  split; [reflexivity|]. cbn [length]. rewrite app_nil_r, Nat.sub_0_r. exact Z0.
Qed.
Lemma emits_ext : forall A (f : B (option A)) a bs bs', (forall w, bs w = bs' w) -> emits f a bs -> emits f a bs'.
Proof. intros A f a bs bs' E H s pre n rest Z0. rewrite <- E. apply H, Z0. Qed.
Lemma emits_bind : forall A C (f : B (option A)) a bs (k : A -> B (option C)) c bs',
  emits f a bs -> emits (k a) c bs' -> emits (bopt f k) c (fun w => bs w ++ bs' w).
Proof.
  intros A C f a bs k c bs' Hf Hk s pre n rest Z0. unfold bopt, bbind.
  destruct (Hf s pre n rest Z0) as [(L & s' & E & W & S & Z1)|(L & s' & p & q & E & W & S & EQ & Z1)]; rewrite E.
  - destruct (Hk _ _ _ _ Z1) as [(L2 & s2 & E2 & W2 & S2 & Z2)|(L2 & s2 & p & q & E2 & W2 & S2 & EQ & Z2)];
      rewrite E2; rewrite W in *.
    + left. rewrite app_length. split; [lia|]. exists s2. split; [reflexivity|]. split; [congruence|]. split; [congruence|].
      eapply zeroed_eq; [reflexivity..| | |exact Z2]; [now rewrite app_assoc|lia].
    + right. rewrite app_length. split; [lia|]. exists s2, (bs (ws s) ++ p), q. split; [reflexivity|]. split; [congruence|].
      split; [congruence|]. split; [rewrite EQ; now rewrite app_assoc|].
      eapply zeroed_eq; [reflexivity..| | |exact Z2]; [now rewrite app_assoc|rewrite app_length; lia].
  - right. rewrite app_length. split; [lia|]. exists s', p, (q ++ bs' (ws s)). split; [reflexivity|]. split; [exact W|].
    split; [exact S|]. split; [rewrite EQ; now rewrite app_assoc|exact Z1].
Qed.
(** Computations that depend on nothing but known data. *)
Lemma emits_lift : forall A C (m : outcome C) x (k : C -> B (option A)) a bs,
  m = Ok x -> emits (k x) a bs -> emits (bbind (blift m) k) a bs.
Proof. intros A C m x k a bs -> H. exact H. Qed.

Lemma find0_zero : forall t, find0 (0 :: t) = Some O.
Proof. reflexivity. Qed.

Lemma emits_append : forall v, emits (ByteStream_AppendString v) tt (fun _ => v).
Proof.
  intros v s pre n rest (M & C & SZ). unfold ByteStream_AppendString. cbv [bbind bget]. cbv zeta.
  destruct (_ >=? _) eqn:E.
  - right. split; [lia|]. exists s, [], v. split; [reflexivity|]. split; [reflexivity|]. split; [reflexivity|].
    split; [reflexivity|]. cbn [length]. rewrite app_nil_r, Nat.sub_0_r. repeat split; assumption.
  - assert (length v < n)%nat by lia. unfold strcat_at. destruct (cur s <? 0) eqn:E0; [lia|].
    rewrite C, Nat2Z.id, M, skipn_app, skipn_all, Nat.sub_diag. cbn [skipn app].
    destruct n as [|n]; [lia|]. cbn [repeat app]. rewrite find0_zero. unfold strcpy_at. rewrite Nat.add_0_r, M. cbn [repeat app].
    replace (length pre + length v <? length (pre ++ 0%Z :: repeat 0%Z n ++ rest))%nat with true
      by (symmetry; apply Nat.ltb_lt; rewrite app_length; cbn [length]; rewrite app_length, repeat_length; lia).
    left. split; [lia|]. eexists. split; [reflexivity|]. cbn [ws size mem bseek]. split; [reflexivity|]. split; [reflexivity|].
    split; [|cbn [cur size]; rewrite app_length; lia]. cbn [mem].
    rewrite firstn_app, firstn_all, Nat.sub_diag. cbn [firstn]. rewrite app_nil_r, <- app_assoc. f_equal. f_equal.
    rewrite <- Nat.add_assoc, skipn_app. rewrite skipn_all2 by lia.
    replace (length pre + (length v + 1) - length pre)%nat with (S (length v)) by lia. cbn [app skipn].
    replace (S n - length v)%nat with (S (n - length v)) by lia. cbn [repeat app]. f_equal.
    rewrite skipn_app, repeat_length. replace (length v - n)%nat with O by lia. cbn [skipn]. f_equal.
    replace n with (length v + (n - length v))%nat at 1 by lia. rewrite repeat_app, skipn_app, skipn_all2 by (rewrite repeat_length; lia).
    rewrite repeat_length, Nat.sub_diag. reflexivity.
Qed.

Lemma put_byte_zeroed : forall s pre n rest b, zeroed s pre (S n) rest ->
  exists m, updZ (mem s) (cur s) b = Ok m /\ zeroed (mkby m (size s) (cur s + 1) (ws s)) (pre ++ [b]) n rest.
Proof.
  intros s pre n rest b (M & C & SZ). unfold updZ. rewrite M, C.
  replace ((Z.of_nat (length pre) <? 0) || _) with false
    by (symmetry; apply orb_false_iff; rewrite app_length; cbn [repeat app length]; lia).
  eexists. split; [reflexivity|]. unfold zeroed. cbn [mem cur size]. rewrite app_length. cbn [length].
  split; [|lia]. rewrite Nat2Z.id. clear. induction pre as [|x pre IH]; cbn; [reflexivity|]. f_equal. exact IH.
Qed.
Lemma emits_NL : emits ByteStream_PutNL tt newline.
Proof.
  intros s pre n rest Z0. unfold ByteStream_PutNL. cbv [bbind bget]. destruct (ws s) eqn:W; cbn [negb newline length].
  - destruct (_ >=? _) eqn:E.
    + destruct Z0 as (M & C & S). right. split; [lia|]. exists s, [], [10]. split; [reflexivity|]. split; [auto|]. split; [reflexivity|].
      split; [reflexivity|]. cbn [length]. rewrite app_nil_r, Nat.sub_0_r. repeat split; assumption.
    + pose proof Z0 as (M & C & SZ). destruct n as [|n]; [lia|].
      destruct (put_byte_zeroed s pre n rest 10 Z0) as (m & E1 & E2). unfold bwr. rewrite E1. left. split; [lia|].
      eexists. split; [reflexivity|]. cbn. split; [exact W|]. split; [reflexivity|]. rewrite Nat.sub_0_r. exact E2.
  - left. split; [lia|]. exists s. split; [reflexivity|]. split; [exact W|]. split; [reflexivity|].
    rewrite app_nil_r, Nat.sub_0_r. exact Z0.
Qed.
Lemma put_spaces_zeroed : forall k s pre n rest, zeroed s pre (k + n) rest ->
  exists s', put_spaces k s = Ok (Some tt, s') /\ ws s' = ws s /\ size s' = size s /\
    zeroed s' (pre ++ repeat 32 k) n rest.
Proof.
  induction k as [|k IH]; intros s pre n rest Z0.
  - exists s. cbn. rewrite app_nil_r. repeat split; try reflexivity; apply Z0.
  - destruct (put_byte_zeroed s pre (k + n) rest 32 Z0) as (m & E1 & E2).
    destruct (IH _ _ _ _ E2) as (s' & E3 & W & S & Z1). exists s'.
    split; [cbn [put_spaces]; cbv [bbind bget]; unfold bwr; rewrite E1; cbn; exact E3|].
    split; [exact W|]. split; [exact S|]. cbn [repeat]. rewrite <- app_assoc in Z1. exact Z1.
Qed.
Lemma emits_space : forall level, emits (ByteStream_PutSpace level) tt (fun w => indent w level).
Proof.
  intros level s pre n rest Z0. pose proof Z0 as (M & C & SZ). unfold ByteStream_PutSpace, indent. cbv [bbind bget].
  assert (T : (length (@nil Z) <= n)%nat /\ exists s', bret (Some tt) s = Ok (Some tt, s') /\ ws s' = ws s /\ size s' = size s /\
    zeroed s' (pre ++ []) (n - length (@nil Z)) rest).
  { clear - Z0 M C SZ. cbn [length]. split; [lia|]. exists s. rewrite app_nil_r, Nat.sub_0_r. repeat split; try reflexivity; assumption. }
  destruct (ws s) eqn:W; cbn [negb andb]; [|left; exact T].
  destruct (level <? 0) eqn:L.
  { replace (0 <=? level) with false by lia. left. exact T. }
  replace (0 <=? level) with true by lia. rewrite repeat_length. destruct (_ >=? _) eqn:E.
  - right. split; [lia|]. exists s, [], (repeat 32 (Z.to_nat (2 * level))). split; [reflexivity|]. split; [auto|]. split; [reflexivity|].
    split; [reflexivity|]. cbn [length]. rewrite app_nil_r, Nat.sub_0_r. exact Z0.
  - left. split; [lia|]. replace n with (Z.to_nat (2 * level) + (n - Z.to_nat (2 * level)))%nat in Z0 by lia.
    destruct (put_spaces_zeroed _ _ _ _ _ Z0) as (s' & E1 & W1 & S1 & Z1). exists s'. rewrite E1. rewrite W in W1. repeat split; try assumption; apply Z1.
Qed.
Lemma emits_nl_if : forall level, emits (nl_if level) tt (fun w => if 0 <=? level then newline w else []).
Proof.
  intros level. unfold nl_if. destruct (level >=? 0) eqn:E.
  - replace (0 <=? level) with true by lia. apply emits_NL.
  - replace (0 <=? level) with false by lia. apply emits_ret.
Qed.

Ltac em := repeat first
  [ eapply emits_bind; [first [apply emits_space | apply emits_append | apply emits_nl_if | apply emits_NL | eassumption]|]
  | apply emits_NL | apply emits_nl_if | apply emits_append | apply emits_ret ].

Lemma emits_primitive : forall tag v level,
  emits (Xer_EncodePrimitiveElement tag v level) tt
    (fun w => indent w level ++ text_element tag v ++ (if 0 <=? level then newline w else [])).
Proof.
  intros tag v level. unfold Xer_EncodePrimitiveElement, text_element. destruct v as [|c v].
  - eapply emits_ext; [|em]. intros w. cbv beta. unfold empty_tag. cbn [app]. rewrite <- ?app_assoc. reflexivity.
  - eapply emits_ext; [|em]. intros w. cbv beta. unfold element, open_tag, close_tag. cbn [app]. rewrite <- ?app_assoc.
    cbn [app]. rewrite <- ?app_assoc. cbn [app]. rewrite <- ?app_assoc. reflexivity.
Qed.
Lemma emits_start : forall tag level, tag <> [] ->
  emits (Xer_EncodeComplexElementStart tag [] level) tt
    (fun w => indent w level ++ open_tag tag ++ (if 0 <=? level then newline w else [])).
Proof.
  intros [|c tag] level H; [congruence|]. unfold Xer_EncodeComplexElementStart. cbn [put_attributes].
  eapply emits_ext; [|eapply emits_bind; [apply emits_space|]; eapply emits_bind; [apply emits_append|];
    eapply emits_bind; [apply emits_append|]; eapply emits_bind; [apply emits_ret|]; em].
  intros w. cbv beta. unfold open_tag. cbn [app]. rewrite <- ?app_assoc. reflexivity.
Qed.
Lemma emits_end : forall tag level, tag <> [] ->
  emits (Xer_EncodeComplexElementEnd tag level) tt
    (fun w => indent w level ++ close_tag tag ++ (if 0 <=? level then newline w else [])).
Proof.
  intros [|c tag] level H; [congruence|]. unfold Xer_EncodeComplexElementEnd.
  eapply emits_ext; [|em]. intros w. cbv beta. unfold close_tag. cbn [app]. rewrite <- ?app_assoc. reflexivity.
Qed.

Lemma indent_neg : forall w level, level < 0 -> indent w level = [].
Proof. intros w level H. unfold indent. replace (0 <=? level) with false by lia. now rewrite andb_false_r. Qed.

Lemma emits_framed : forall tag level body t, tag <> [] -> emits body tt (fun _ => t) ->
  emits (put_framed tag level body) tt (line level (element tag t)).
Proof.
  intros tag level body t T H. unfold put_framed.
  eapply emits_ext; [|eapply emits_bind; [apply emits_space|]; eapply emits_bind; [apply emits_start, T|];
    eapply emits_bind; [exact H|]; eapply emits_bind; [apply emits_end, T|]; apply emits_NL].
  intros w. cbv beta. rewrite !(indent_neg _ (-1)) by lia. cbn [Z.leb Z.compare app]. unfold line, element.
  rewrite <- !app_assoc. reflexivity.
Qed.

Lemma emits_append_all : forall l k i item,
  length l = k -> (forall j, (j < k)%nat -> item (i + Z.of_nat j) = Ok (nth j l [])) ->
  emits (append_all k i item) tt (fun _ => concat l).
Proof.
  induction l as [|x l IH]; intros k i item L H; cbn in L; subst k.
  - apply emits_ret.
  - cbn [append_all concat]. eapply emits_lift.
    + specialize (H O ltac:(lia)). rewrite Z.add_0_r in H. exact H.
    + cbn [nth]. eapply (emits_bind _ _ _ _ (fun _ => x) _ _ (fun _ => concat l)); [apply emits_append|].
      apply IH; [reflexivity|]. intros j J. specialize (H (S j) ltac:(lia)). cbn [nth] in H.
      rewrite <- H. f_equal. lia.
Qed.

(** ** Numerals *)
Lemma horner_app : forall a b, fold_left (fun a d => 10 * a + d) (a ++ [b]) 0 = 10 * horner a + b.
Proof. intros a b. now rewrite fold_left_app. Qed.

Lemma digits_spec : forall f v acc, 0 <= v -> v < 10 ^ Z.of_nat f -> (1 <= f)%nat ->
  exists ds, digits f v acc = map (Z.add 48) ds ++ acc /\ Forall (fun d => 0 <= d <= 9) ds /\ ds <> [] /\
    horner ds = v /\ (hd 0 ds = 0 -> ds = [0]).
Proof.
  induction f as [|f IH]; intros v acc V U F; [lia|]. cbn [digits]. destruct (v <? 10) eqn:E.
  - exists [v]. split; [reflexivity|]. split; [repeat constructor; lia|]. split; [discriminate|]. split; [unfold horner; cbn; lia|].
    cbn. intros ->. reflexivity.
  - assert (1 <= f)%nat. { destruct f; [cbn in U; lia|lia]. }
    destruct (IH (v / 10) (48 + v mod 10 :: acc)) as (ds & E1 & F1 & N & Hn & L); [lia| |lia|].
    { replace (Z.of_nat (S f)) with (Z.of_nat f + 1) in U by lia. rewrite Z.pow_add_r in U by lia. lia. }
    exists (ds ++ [v mod 10]). split; [rewrite E1, map_app, <- app_assoc; reflexivity|].
    split; [apply Forall_app; split; [exact F1|repeat constructor; lia]|]. split; [now destruct ds|].
    split; [unfold horner; rewrite horner_app, Hn; lia|]. destruct ds as [|d ds]; [congruence|]. cbn [hd app] in *. intros D.
    specialize (L D). rewrite L in Hn. unfold horner in Hn. cbn in Hn. lia.
Qed.
Lemma UInt_numeral : forall v, is_u64 v -> numeral v (UInt2String v).
Proof.
  intros v V. unfold is_u64, two64 in V. destruct (digits_spec 20 v []) as (ds & E & F & N & Hn & L); [lia| |lia|].
  { change (10 ^ Z.of_nat 20) with 100000000000000000000. lia. }
  exists ds. split; [exact F|]. split; [exact N|]. split; [lia|]. split; [exact L|].
  replace (v <? 0) with false by lia. unfold UInt2String. rewrite E. now rewrite app_nil_r.
Qed.
Lemma Int_numeral : forall v, is_s64 v -> numeral v (Int2String v).
Proof.
  intros v V. unfold Int2String. destruct (v <? 0) eqn:E.
  - destruct (UInt_numeral (- v)) as (ds & F & N & Hn & L & T); [unfold is_s64, is_u64, two63, two64 in *; lia|].
    exists ds. rewrite T. replace (- v <? 0) with false by lia. rewrite E. split; [exact F|]. split; [exact N|].
    split; [lia|]. split; [exact L|reflexivity].
  - apply UInt_numeral. unfold is_s64, is_u64, two63, two64 in *. lia.
Qed.

Lemma digits_value_spec : forall ds r acc, Forall (fun d => 0 <= d <= 9) ds ->
  match r with c :: _ => isdigit c = false | [] => True end ->
  digits_value (map (Z.add 48) ds ++ r) acc = fold_left (fun a d => 10 * a + d) ds acc.
Proof.
  induction ds as [|d ds IH]; intros r acc F R; cbn [map app fold_left].
  - destruct r as [|c r]; [reflexivity|]. cbn. now rewrite R.
  - inversion F; subst. cbn [digits_value]. unfold isdigit at 1. replace ((48 <=? 48 + d) && (48 + d <=? 57)) with true by lia.
    rewrite IH by assumption. f_equal. lia.
Qed.
Lemma number_numeral : forall v t, numeral v t -> number t = (v <? 0, Z.abs v).
Proof.
  intros v t (ds & F & N & Hn & L & ->). unfold number. destruct (v <? 0) eqn:E.
  - cbn [app skip_blanks]. change (isspace 45) with false. cbv iota. change (45 =? 45) with true. cbv iota. f_equal.
    rewrite <- (app_nil_r (map _ _)). rewrite digits_value_spec by auto. exact Hn.
  - destruct ds as [|d ds]; [congruence|]. cbn [app map skip_blanks]. assert (0 <= d <= 9) by (inversion F; assumption).
    unfold isspace. replace ((48 + d =? 32) || _) with false by lia.
    replace (48 + d =? 45) with false by lia. replace (48 + d =? 43) with false by lia. f_equal.
    change (48 + d :: map (Z.add 48) ds) with (map (Z.add 48) (d :: ds)).
    rewrite <- (app_nil_r (map _ _)). rewrite digits_value_spec by auto. exact Hn.
Qed.
Lemma atoll_numeral : forall L v t, is_s64 v -> numeral v t -> atoll L t = Ok v.
Proof.
  intros L v t V H. unfold atoll. rewrite (number_numeral v t H). destruct (v <? 0) eqn:E; cbv zeta iota beta.
  - replace (- Z.abs v) with v by lia. replace (in_s64 v) with true by (unfold in_s64, is_s64 in *; lia). reflexivity.
  - replace (Z.abs v) with v by lia. replace (in_s64 v) with true by (unfold in_s64, is_s64 in *; lia). reflexivity.
Qed.
Lemma strtoull_numeral : forall v t, is_u64 v -> numeral v t -> strtoull t = v.
Proof.
  intros v t V H. unfold strtoull. rewrite (number_numeral v t H). unfold is_u64, two64 in *.
  replace (v <? 0) with false by lia. replace (Z.abs v) with v by lia. unfold two64.
  replace (_ <=? v) with false by lia. unfold u64, two64. rewrite Z.mod_small; lia.
Qed.
Lemma numeral_unique : forall v t t', numeral v t -> numeral v t' -> t = t'.
Proof.
  intros v t t' (ds & F & N & Hn & L & ->) (ds' & F' & N' & Hn' & L' & ->). f_equal. f_equal. rewrite <- Hn' in Hn. clear Hn'.
  revert ds' F' N' L' Hn. induction ds as [|d ds IH] using rev_ind; intros ds' F' N' L' Hn; [congruence|].
  destruct ds' as [|d' ds'] using rev_ind; [congruence|]. clear IHds'.
  unfold horner in Hn. rewrite !horner_app in Hn. apply Forall_app in F as (F & D). apply Forall_app in F' as (F' & D').
  inversion D; inversion D'; subst. assert (d = d' /\ horner ds = horner ds') as (-> & E) by lia. f_equal.
  assert (P : forall l, Forall (fun d => 0 <= d <= 9) l -> 0 <= horner l).
  { intros l. induction l as [|x l IHl] using rev_ind; intros Fl; [unfold horner; cbn; lia|]. unfold horner. rewrite horner_app.
    apply Forall_app in Fl as (Fl & X). inversion X; subst. specialize (IHl Fl). lia. }
  assert (Q : forall l x, Forall (fun d => 0 <= d <= 9) l -> hd 0 (x :: l) <> 0 -> 0 <= x -> 0 < horner (x :: l)).
  { intros l x. induction l as [|y l IHl] using rev_ind; intros Fl X X0; [unfold horner; cbn in *; lia|].
    unfold horner. rewrite app_comm_cons, horner_app. apply Forall_app in Fl as (Fl & Y). inversion Y; subst.
    specialize (IHl Fl X X0). lia. }
  destruct ds as [|a ds], ds' as [|b ds']; [reflexivity| | |].
  - exfalso. inversion F'; subst. cbn [app hd] in L'. destruct (Z.eq_dec b 0) as [->|B].
    + specialize (L' eq_refl). destruct ds'; cbn in L'; discriminate L'.
    + specialize (Q ds' b ltac:(assumption) B ltac:(lia)). change (horner []) with 0 in E. lia.
  - exfalso. inversion F; subst. cbn [app hd] in L. destruct (Z.eq_dec a 0) as [->|A].
    + specialize (L eq_refl). destruct ds; cbn in L; discriminate L.
    + specialize (Q ds a ltac:(assumption) A ltac:(lia)). change (horner []) with 0 in E. lia.
  - apply IH; try discriminate; try assumption.
    + intros A. cbn [app hd] in *. specialize (L A). destruct ds; cbn in L; discriminate L.
    + intros A. cbn [app hd] in *. specialize (L' A). destruct ds'; cbn in L'; discriminate L'.
Qed.
