(** The tokenizer and the element decoders on well-formed text. *)
From Verif Require Import Base Bits ByteStream ByteStreamProofs XerSpec Xer XerProofs.
From Coq Require Import ZifyBool ZifyNat.
Ltac Zify.zify_post_hook ::= Z.div_mod_to_equations.

Ltac oks := unfold bret; match goal with |- Ok (_, mkby _ _ ?x _) = Ok (_, mkby _ _ ?y _) => replace x with y by lia; reflexivity end.
Definition seek (s : bytes_) (i : Z) : bytes_ := mkby (mem s) (size s) i (ws s).

(** [f] returns [a] and moves over [bs] when [rest] follows. *)
Definition xreads {A} (f : B A) (a : A) (bs rest : list Z) : Prop :=
  forall s pre, bat s pre (bs ++ rest) -> Z.of_nat (length pre + length bs) <= size s ->
    f s = Ok (a, seek s (Z.of_nat (length pre + length bs))).

Lemma seek_self : forall s i, cur s = i -> seek s i = s.
Proof. intros [m z c w] i <-. reflexivity. Qed.
Lemma bat_seek : forall s pre bs rest, bat s pre (bs ++ rest) ->
  bat (seek s (Z.of_nat (length pre + length bs))) (pre ++ bs) rest.
Proof. intros s pre bs rest (M & C). split; cbn; [now rewrite <- app_assoc|now rewrite app_length]. Qed.

Lemma xreads_ret : forall A (a : A) rest, xreads (bret a) a [] rest.
Proof. intros A a rest s pre (M & C) S. cbn [length]. rewrite Nat.add_0_r, seek_self by exact C. reflexivity. Qed.
Lemma xreads_bind : forall A C (f : B A) a bs (k : A -> B C) c bs' rest,
  xreads f a bs (bs' ++ rest) -> xreads (k a) c bs' rest -> xreads (bbind f k) c (bs ++ bs') rest.
Proof.
  intros A C f a bs k c bs' rest Hf Hk s pre HB S. unfold bbind. rewrite app_length in *. rewrite <- app_assoc in HB.
  rewrite (Hf s pre HB) by lia. rewrite (Hk _ (pre ++ bs)).
  - unfold seek. cbn. rewrite app_length. oks.
  - apply bat_seek, HB.
  - cbn. rewrite app_length. lia.
Qed.
Lemma xreads_opt : forall A C (f : B (option A)) a bs (k : A -> B (option C)) c bs' rest,
  xreads f (Some a) bs (bs' ++ rest) -> xreads (k a) c bs' rest -> xreads (bopt f k) c (bs ++ bs') rest.
Proof. intros. unfold bopt. eapply xreads_bind; eassumption. Qed.
Lemma xreads_eq : forall A (f : B A) a bs bs' rest, bs = bs' -> xreads f a bs rest -> xreads f a bs' rest.
Proof. intros; subst; assumption. Qed.
Lemma xreads_gets : forall A (f : B (option A)) a bs, (forall rest, xreads f (Some a) bs rest) -> gets f a bs.
Proof.
  intros A f a bs H s pre rest F HB S. exists (seek s (Z.of_nat (length pre + length bs))).
  split; [apply (H rest s pre HB S)|]. split; [apply bat_seek, HB|]. repeat split; reflexivity.
Qed.

Lemma nth_bat : forall s pre rest k c, bat s pre rest -> nth_error rest k = Some c ->
  nthZ (mem s) (cur s + Z.of_nat k) = Ok c.
Proof.
  intros s pre rest k c (M & C) N. unfold nthZ. rewrite C. replace (_ <? 0) with false by lia.
  replace (Z.to_nat (Z.of_nat (length pre) + Z.of_nat k)) with (length pre + k)%nat by lia.
  rewrite M, nth_error_app2 by lia. replace (length pre + k - length pre)%nat with k by lia. now rewrite N.
Qed.
Lemma brd_bat : forall s pre rest k c, bat s pre rest -> nth_error rest k = Some c ->
  brd (cur s + Z.of_nat k) s = Ok (c, s).
Proof. intros. unfold brd. now rewrite (nth_bat s pre rest k c). Qed.
Lemma brd_cur : forall s pre c r, bat s pre (c :: r) -> brd (cur s) s = Ok (c, s).
Proof. intros s pre c r H. rewrite <- (Z.add_0_r (cur s)) at 1. apply (brd_bat s pre (c :: r) 0 c H eq_refl). Qed.

(** ** White space *)
Lemma white_isspace : forall c, white c -> isspace c = true.
Proof. intros c H. unfold isspace, white in *. lia. Qed.
Lemma isspace_white : forall c, isspace c = true -> white c.
Proof. intros c H. unfold isspace, white in *. lia. Qed.

Lemma skip_loop_white : forall w fuel s pre rest, bat s pre (w ++ rest) -> Forall white w ->
  Z.of_nat (length pre + length w) <= size s -> (length w < fuel)%nat ->
  (size s <= Z.of_nat (length pre + length w) \/ exists c r, rest = c :: r /\ isspace c = false) ->
  skip_loop fuel (fun i => do* b := brd i in bret (isspace b)) s = Ok (tt, seek s (Z.of_nat (length pre + length w))).
Proof.
  induction w as [|c w IH]; intros [|fuel] s pre rest HB W S F E; cbn [length] in *; try lia.
  - rewrite Nat.add_0_r in *. cbn [skip_loop]. cbv [bbind bget]. pose proof HB as (M & C). rewrite seek_self by exact C.
    destruct (_ >=? _) eqn:E1; [reflexivity|]. destruct E as [E|(c & r & -> & E)]; [lia|].
    rewrite (brd_cur s pre c r HB). cbn [bret]. now rewrite E.
  - inversion W; subst. cbn [skip_loop]. cbv [bbind bget]. pose proof HB as (M & C). destruct (_ >=? _) eqn:E1; [lia|].
    rewrite (brd_cur s pre c (w ++ rest) HB). cbn [bret]. rewrite white_isspace by assumption. unfold bseek at 1.
    rewrite (IH fuel _ (pre ++ [c]) rest).
    + unfold seek. cbn. rewrite app_length. cbn. oks.
    + split; cbn; [rewrite M; now rewrite <- app_assoc|rewrite app_length; cbn; lia].
    + assumption.
    + rewrite app_length. cbn. lia.
    + lia.
    + rewrite app_length. cbn [length size]. destruct E as [E|E]; [left; lia|right; exact E].
Qed.
Lemma skip_space_white : forall w s pre rest, bat s pre (w ++ rest) -> Forall white w ->
  Z.of_nat (length pre + length w) <= size s ->
  (size s <= Z.of_nat (length pre + length w) \/ exists c r, rest = c :: r /\ isspace c = false) ->
  skip_space s = Ok (tt, seek s (Z.of_nat (length pre + length w))).
Proof.
  intros w s pre rest HB W S E. unfold skip_space, skip_while. cbv [bbind bget].
  apply (skip_loop_white w _ s pre rest HB W S); [|exact E]. destruct HB as (_ & C). lia.
Qed.

(** ** Tokens *)
Definition no_mark (c : Z) (r : list Z) : Prop :=
  c = 60 -> match r with d :: _ => d <> 63 /\ d <> 33 | [] => False end.
Lemma skip_header_none : forall s pre c r, bat s pre (c :: r) -> no_mark c r -> skip_header s = Ok (tt, s).
Proof.
  intros s pre c r HB N. unfold skip_header, brd_is. cbv [bbind bget]. destruct (_ <? _) eqn:E; cbn [negb]; [|reflexivity].
  rewrite (brd_cur s pre c r HB). cbn [bret]. destruct (c =? 60) eqn:E1; cbn [negb]; [|reflexivity].
  specialize (N ltac:(lia)). destruct r as [|d r]; [contradiction|].
  change (cur s + 1) with (cur s + Z.of_nat 1). rewrite (brd_bat s pre (c :: d :: r) 1 d HB eq_refl). cbn [bret].
  replace (d =? 63) with false by lia. reflexivity.
Qed.
Lemma skip_comment_none : forall s pre c r, bat s pre (c :: r) -> no_mark c r -> skip_comment s = Ok (tt, s).
Proof.
  intros s pre c r HB N. unfold skip_comment, brd_is. cbv [bbind bget]. destruct (_ <? _) eqn:E; cbn [negb]; [|reflexivity].
  rewrite (brd_cur s pre c r HB). cbn [bret]. destruct (c =? 60) eqn:E1; cbn [negb]; [|reflexivity].
  specialize (N ltac:(lia)). destruct r as [|d r]; [contradiction|].
  change (cur s + 1) with (cur s + Z.of_nat 1). rewrite (brd_bat s pre (c :: d :: r) 1 d HB eq_refl). cbn [bret].
  replace (d =? 33) with false by lia. reflexivity.
Qed.

(** Up to the test of the first character of the token. *)
Lemma NT_start : forall L w s pre c r, bat s pre (w ++ c :: r) -> Forall white w -> isspace c = false -> no_mark c r ->
  Z.of_nat (length pre + length w) < size s ->
  let s' := seek s (Z.of_nat (length pre + length w)) in
  bat s' (pre ++ w) (c :: r) /\
  NT L s = (if is_special c then
              do* _ := bseek (cur s' + 1) in bret (c, if c =? 0 then [] else [c])
            else
              do* w := read_word L 99 in bret (match w with [] => 0 | _ => WORD_ID end, w)) s'.
Proof.
  intros L w s pre c r HB W SP N S s'.
  assert (HB' : bat s' (pre ++ w) (c :: r)) by (apply bat_seek, HB). split; [exact HB'|].
  assert (C : (cur s' >=? size s') = false) by (cbn; lia).
  unfold NT. unfold bbind at 1. rewrite (skip_space_white w s pre (c :: r) HB W ltac:(lia) (or_intror (ex_intro _ c (ex_intro _ r (conj eq_refl SP))))).
  fold s'. cbv [bget]. unfold bbind at 1. rewrite C. unfold bbind at 1. rewrite (skip_header_none s' _ c r HB' N).
  unfold bbind at 1. rewrite C. unfold bbind at 1. rewrite (skip_comment_none s' _ c r HB' N).
  unfold bbind at 1. rewrite C. unfold bbind at 1. rewrite (brd_cur s' _ c r HB').
  destruct (is_special c); reflexivity.
Qed.
Lemma special_nospace : forall c, is_special c = true -> isspace c = false.
Proof. intros c H. unfold is_special, isspace in *. lia. Qed.
Lemma NT_special : forall L w c rest, Forall white w -> is_special c = true -> c <> 0 -> no_mark c rest ->
  xreads (NT L) (c, [c]) (w ++ [c]) rest.
Proof.
  intros L w c rest W SP C0 N s pre HB S. rewrite app_length in S. rewrite <- app_assoc in HB. cbn [app length] in *.
  destruct (NT_start L w s pre c rest HB W (special_nospace c SP) N ltac:(lia)) as (HB' & ->). rewrite SP.
  cbv [bbind bseek]. cbn. replace (c =? 0) with false by lia. rewrite app_length. cbn [length]. unfold seek.
  oks.
Qed.

Lemma id_part : forall L c, id_char c -> isPartOfID L c = Ok true.
Proof.
  intros L c H. unfold isPartOfID, char_ok, isalpha, isdigit, id_char in *. replace (any_char L || (c <? 128) || _) with true by lia.
  f_equal. lia.
Qed.
(** What ends a word. *)
Definition word_end (c : Z) : Prop := c < 128 /\ ~ id_char c.
Lemma end_part : forall L c, word_end c -> isPartOfID L c = Ok false.
Proof.
  intros L c (H & N). unfold isPartOfID, char_ok, isalpha, isdigit, id_char in *. replace (any_char L || (c <? 128) || _) with true by lia.
  f_equal. lia.
Qed.
Lemma read_word_spec : forall L t n c r, Forall id_char t -> (length t <= n)%nat -> word_end c ->
  xreads (read_word L n) t t (c :: r).
Proof.
  intros L t. induction t as [|x t IH]; intros n c r F N E s pre HB S; cbn [length app] in *.
  - rewrite Nat.add_0_r. assert (D : forall k : nat, read_word L k = fun s => read_word L k s) by reflexivity. clear D.
    pose proof HB as (M & C). rewrite seek_self by exact C. destruct n as [|n]; cbn [read_word]; cbv [bbind bget];
      (destruct (_ >=? _); [reflexivity|]); rewrite (brd_cur s pre c r HB); unfold blift; rewrite end_part by exact E; reflexivity.
  - inversion F; subst. destruct n as [|n]; [lia|]. cbn [read_word]. cbv [bbind bget]. pose proof HB as (M & C).
    destruct (_ >=? _) eqn:E1; [lia|]. rewrite (brd_cur s pre x (t ++ c :: r) HB). unfold blift. rewrite id_part by assumption.
    unfold bseek at 1. rewrite (IH n c r ltac:(assumption) ltac:(lia) E _ (pre ++ [x])).
    + unfold seek. cbn. rewrite app_length. cbn [length]. oks.
    + split; cbn; [rewrite M; now rewrite <- app_assoc|rewrite app_length; cbn; lia].
    + rewrite app_length. cbn [length size]. lia.
Qed.
Lemma NT_word : forall L w t c r, Forall white w -> name_ok t -> word_end c ->
  xreads (NT L) (WORD_ID, t) (w ++ t) (c :: r).
Proof.
  intros L w t c r W (T & TL & F) E s pre HB S. rewrite app_length in S. rewrite <- app_assoc in HB.
  destruct t as [|x t]; [congruence|]. cbn [app length] in *. assert (X : id_char x) by (inversion F; assumption).
  destruct (NT_start L w s pre x (t ++ c :: r) HB W) as (HB' & ->).
  - unfold isspace. destruct X as [X|[X|[X|[X|[X|[X|X]]]]]]; lia.
  - intros ->. destruct X as [X|[X|[X|[X|[X|[X|X]]]]]]; lia.
  - lia.
  - replace (is_special x) with false by (unfold is_special; destruct X as [X|[X|[X|[X|[X|[X|X]]]]]]; lia).
    unfold bbind. rewrite (read_word_spec L (x :: t) 99 c r F ltac:(cbn; lia) E _ _ HB').
    + unfold seek. cbn. rewrite !app_length. cbn [length]. unfold bret. oks.
    + cbn. rewrite app_length. cbn [length]. lia.
Qed.

Lemma list_eqb_refl : forall l, list_eqb l l = true.
Proof. intros l. unfold list_eqb. destruct (list_eq_dec Z.eq_dec l l); congruence. Qed.
Lemma list_eqb_neq : forall l l', l <> l' -> list_eqb l l' = false.
Proof. intros l l' H. unfold list_eqb. destruct (list_eq_dec Z.eq_dec l l'); congruence. Qed.
Lemma list_eqb_eq : forall l l', list_eqb l l' = true -> l = l'.
Proof. intros l l' H. unfold list_eqb in H. destruct (list_eq_dec Z.eq_dec l l'); congruence. Qed.

Lemma expect_special : forall L w c rest, Forall white w -> is_special c = true -> c <> 0 -> no_mark c rest ->
  xreads (expect L c) (Some tt) (w ++ [c]) rest.
Proof.
  intros L w c rest W SP C0 N. unfold expect. eapply xreads_eq; [|eapply xreads_bind].
  2: { rewrite app_nil_l. apply (NT_special L w c rest W SP C0 N). }
  2: { cbn [fst]. rewrite Z.eqb_refl. apply xreads_ret. }
  now rewrite app_nil_r.
Qed.
Lemma expect_name : forall L w t c r, Forall white w -> name_ok t -> word_end c ->
  xreads (expect_word L t) (Some tt) (w ++ t) (c :: r).
Proof.
  intros L w t c r W T E. unfold expect_word. eapply xreads_eq; [|eapply xreads_bind].
  2: { rewrite app_nil_l. apply (NT_word L w t c r W T E). }
  2: { unfold is_word. cbn [fst snd]. rewrite Z.eqb_refl, list_eqb_refl. apply xreads_ret. }
  now rewrite app_nil_r.
Qed.

(** ** Elements *)
Lemma read_text_spec : forall v fuel room rest, Forall (fun c => c <> 60) v -> (length v < fuel)%nat -> Z.of_nat (length v) <= room ->
  xreads (read_text fuel room) (Some v) (v ++ [60]) rest.
Proof.
  induction v as [|c v IH]; intros [|fuel] room rest F L R s pre HB S; cbn [length app] in *; try lia.
  - cbn [read_text]. unfold bopt, GetNextChar. cbv [bbind bget]. pose proof HB as (M & C). destruct (_ >=? _) eqn:E; [lia|].
    rewrite (brd_cur s pre 60 rest HB). cbn. unfold seek. oks.
  - inversion F; subst. cbn [read_text]. unfold bopt, GetNextChar. cbv [bbind bget]. pose proof HB as (M & C).
    destruct (_ >=? _) eqn:E; [rewrite app_length in S; cbn in S; lia|]. rewrite (brd_cur s pre c _ HB). cbn [bret].
    unfold bseek at 1. cbn [bret]. replace (room <=? 0) with false by lia. replace (c =? 60) with false by lia.
    rewrite (IH fuel (room - 1) rest ltac:(assumption) ltac:(lia) ltac:(lia) _ (pre ++ [c])).
    + unfold seek, bret. cbn. rewrite !app_length. cbn [length]. oks.
    + split; cbn; [rewrite M; now rewrite <- !app_assoc|rewrite app_length; cbn; lia].
    + rewrite !app_length in *. cbn [length size] in *. lia.
Qed.

Lemma name_hd : forall t r, name_ok t -> match t ++ r with d :: _ => d <> 63 /\ d <> 33 | [] => False end.
Proof.
  intros [|x t] r (T & _ & F); [congruence|]. cbn. inversion F as [|? ? X]; subst.
  destruct X as [X|[X|[X|[X|[X|[X|X]]]]]]; lia.
Qed.
Lemma wend_gt : word_end 62.
Proof. split; [lia|]. intros X. unfold id_char in X. lia. Qed.
Lemma wend_sl : word_end 47.
Proof. split; [lia|]. intros X. unfold id_char in X. lia. Qed.

(** xreads on the pieces of an element. *)
Lemma read_lt_name : forall L w t r, Forall white w -> name_ok t -> xreads (expect L 60) (Some tt) (w ++ [60]) (t ++ r).
Proof. intros L w t r W T. apply expect_special; [assumption|reflexivity|lia|]. intros _. apply name_hd, T. Qed.
Lemma read_lt_sl : forall L w r, Forall white w -> xreads (expect L 60) (Some tt) (w ++ [60]) (47 :: r).
Proof. intros L w r W. apply expect_special; [assumption|reflexivity|lia|]. intros _. cbn. lia. Qed.
Lemma read_mark : forall L w c r, Forall white w -> is_special c = true -> c <> 0 -> c <> 60 ->
  xreads (expect L c) (Some tt) (w ++ [c]) r.
Proof. intros L w c r W SP C0 C. apply expect_special; [assumption..|]. intros ->. congruence. Qed.

(** </t> *)
Lemma read_close : forall L w t rest, Forall white w -> name_ok t ->
  xreads (do? _ := expect L 60 in do? _ := expect L 47 in do? _ := expect_word L t in expect L 62) (Some tt)
    (w ++ close_tag t) rest.
Proof.
  intros L w t rest W T. apply (xreads_eq _ _ _ ((w ++ [60]) ++ ([] ++ [47]) ++ ([] ++ t) ++ ([] ++ [62]))).
  { unfold close_tag. cbn [app]. now rewrite <- !app_assoc. }
  eapply xreads_opt; [apply (read_lt_sl L w _ W)|]. eapply xreads_opt; [apply read_mark; [constructor|reflexivity|lia|lia]|].
  eapply xreads_opt; [apply (expect_name L [] t 62); [constructor|exact T|exact wend_gt]|].
  apply read_mark; [constructor|reflexivity|lia|lia].
Qed.

(** Values between tags. *)
Lemma PushBack_spec : forall s, 0 < cur s -> PushBackChar s = Ok (tt, seek s (cur s - 1)).
Proof. intros s C. unfold PushBackChar. cbv [bbind bget bseek]. replace (cur s - 1 >=? 0) with true by lia. reflexivity. Qed.

Lemma read_primitive_empty : forall L w t max rest, Forall white w -> name_ok t -> 1 <= max ->
  xreads (Xer_DecodePrimitiveElement L t max) (Some []) (w ++ empty_tag t) rest.
Proof.
  intros L w t max rest W T M. unfold Xer_DecodePrimitiveElement. replace (max <? 1) with false by lia.
  apply (xreads_eq _ _ _ ((w ++ [60]) ++ ([] ++ t) ++ ([] ++ [47]) ++ ([] ++ [62]) ++ [])).
  { unfold empty_tag. cbn [app]. now rewrite <- !app_assoc. }
  eapply xreads_opt; [rewrite <- app_assoc; apply (read_lt_name L w _ _ W T)|].
  eapply xreads_opt; [apply (expect_name L [] t 47); [constructor|exact T|exact wend_sl]|].
  eapply xreads_bind; [apply NT_special; [constructor|reflexivity|lia|intros E; lia]|]. cbn [fst]. change (47 =? 47) with true. cbv iota.
  eapply xreads_opt; [apply read_mark; [constructor|reflexivity|lia|lia]|]. apply xreads_ret.
Qed.
Lemma read_primitive_element : forall L w t v max rest, Forall white w -> name_ok t ->
  Forall (fun c => c <> 60) v -> Z.of_nat (length v) < max ->
  xreads (Xer_DecodePrimitiveElement L t max) (Some v) (w ++ element t v) rest.
Proof.
  intros L w t v max rest W T V M. unfold Xer_DecodePrimitiveElement. replace (max <? 1) with false by lia.
  apply (xreads_eq _ _ _ ((w ++ [60]) ++ ([] ++ t) ++ ([] ++ [62]) ++ v ++ ([] ++ close_tag t))).
  { unfold element, open_tag. cbn [app]. now rewrite <- !app_assoc. }
  eapply xreads_opt; [rewrite <- app_assoc; apply (read_lt_name L w _ _ W T)|].
  eapply xreads_opt; [apply (expect_name L [] t 62); [constructor|exact T|exact wend_gt]|].
  eapply xreads_bind; [apply NT_special; [constructor|reflexivity|lia|intros E; lia]|]. cbn [fst].
  change (62 =? 47) with false. change (62 =? 62) with true. cbv iota. cbn [negb].
  intros s pre HB S. cbv [bget]. unfold bbind at 1. unfold bopt at 1. unfold bbind at 1. rewrite app_length in S.
  assert (HB' : bat s pre ((v ++ [60]) ++ 47 :: t ++ [62] ++ rest)).
  { rewrite <- !app_assoc in HB |- *. unfold close_tag in HB. cbn [app] in HB |- *. rewrite <- app_assoc in HB. exact HB. }
  assert (S' : Z.of_nat (length pre + length (v ++ [60])) <= size s).
  { rewrite app_length. unfold close_tag in S. cbn [app length] in *. lia. }
  assert (LV : (length v < Datatypes.S (Z.to_nat (size s - cur s)))%nat).
  { destruct HB as (_ & C). rewrite app_length in S'. cbn [length] in S'. lia. }
  rewrite (read_text_spec v _ (max - 1) _ V LV ltac:(lia) s pre HB' S'). unfold bbind at 1.
  rewrite PushBack_spec by (cbn; rewrite app_length; cbn [length]; lia).
  set (s1 := seek _ _). assert (E1 : s1 = seek s (Z.of_nat (length pre + length v))).
  { unfold s1, seek. cbn. rewrite app_length. cbn [length]. f_equal. lia. }
  rewrite E1. pose proof (read_close L [] t rest (Forall_nil _) T (seek s (Z.of_nat (length pre + length v))) (pre ++ v)) as R.
  assert (K : (do? _ := expect L 60 in do? _ := expect L 47 in do? _ := expect_word L t in expect L 62)
    (seek s (Z.of_nat (length pre + length v))) = Ok (Some tt, seek s (Z.of_nat (length pre + length (v ++ [] ++ close_tag t))))).
  { rewrite R.
    - unfold seek. cbn. rewrite !app_length. cbn [length]. rewrite !app_length. cbn [length]. oks.
    - apply bat_seek. rewrite app_assoc. exact HB.
    - cbn [size seek]. rewrite !app_length. cbn [length app] in *. lia. }
  clear R E1 s1. unfold bopt, bbind in K |- *.
  destruct (expect L 60 _) as [[[u1|] s1]| | |]; try discriminate K.
  destruct (expect L 47 s1) as [[[u2|] s2]| | |]; try discriminate K.
  destruct (expect_word L t s2) as [[[u3|] s3]| | |]; try discriminate K.
  rewrite K. reflexivity.
Qed.
Lemma read_primitive : forall L w t v max rest, Forall white w -> name_ok t ->
  Forall (fun c => c <> 60) v -> Z.of_nat (length v) < max ->
  xreads (Xer_DecodePrimitiveElement L t max) (Some v) (w ++ text_element t v) rest.
Proof.
  intros L w t v max rest W T V M. destruct v as [|c v]; [apply read_primitive_empty; [assumption..|cbn in M; lia]|].
  apply read_primitive_element; assumption.
Qed.

(** Start and end tags of structured elements. *)
Lemma read_start : forall L w t a rest, Forall white w -> name_ok t ->
  xreads (Xer_DecodeComplexElementStart L t a) (Some a) (w ++ open_tag t) rest.
Proof.
  intros L w t a rest W T. unfold Xer_DecodeComplexElementStart. destruct t as [|x t0] eqn:Et; [destruct T; congruence|]. rewrite <- Et in *.
  apply (xreads_eq _ _ _ ((w ++ [60]) ++ ([] ++ t) ++ ([] ++ [62]))).
  { unfold open_tag. cbn [app]. now rewrite <- !app_assoc. }
  eapply xreads_opt; [rewrite <- app_assoc; apply (read_lt_name L w _ _ W T)|].
  eapply xreads_opt; [apply (expect_name L [] t 62); [constructor|exact T|exact wend_gt]|].
  intros s pre HB S. unfold bopt at 1, bbind at 1. unfold Xer_DecodeAttributes. unfold bbind at 1. cbv [bget]. cbn [attributes_loop].
  unfold bbind at 1. unfold LA. cbv [bget]. unfold bbind at 1. unfold bbind at 1.
  rewrite (NT_special L [] 62 rest (Forall_nil _) eq_refl ltac:(lia) ltac:(intros E; lia) s pre HB S). unfold bbind at 1.
  cbn [bseek bret fst]. change (62 =? 62) with true. cbv iota. cbn [bret]. unfold bbind at 1. change (mkby _ _ (cur s) _) with (seek s (cur s)).
  cbn [seek mem size ws]. change (mkby (mem s) (size s) (cur s) (ws s)) with (seek s (cur s)). rewrite (seek_self s _ eq_refl).
  rewrite (NT_special L [] 62 rest (Forall_nil _) eq_refl ltac:(lia) ltac:(intros E; lia) s pre HB S). reflexivity.
Qed.
Lemma read_end : forall L w t rest, Forall white w -> name_ok t ->
  xreads (Xer_DecodeComplexElementEnd L t) (Some tt) (w ++ close_tag t) rest.
Proof.
  intros L w t rest W T. unfold Xer_DecodeComplexElementEnd. destruct t as [|x t0] eqn:Et; [destruct T; congruence|]. rewrite <- Et in *.
  apply read_close; assumption.
Qed.
