(** Names of types: a name is found, and it is an identifier. *)
From Coq Require Import String Ascii List Bool Arith ZArith Lia.
From Coq Require Decimal DecimalString DecimalZ DecimalFacts DecimalPos DecimalNat.
From Verif Require Import Names AcnExpr TypeNames TypeNamesSpec TypeNamesProofs.
Import ListNotations.
Local Open Scope list_scope.
Local Open Scope Z_scope.

Definition chars (s : string) := list_ascii_of_string s.
Definition no_us (s : string) : Prop := ~ In "_"%char (chars s).
Lemma chars_app : forall a b, chars (a ++ b) = chars a ++ chars b.
Proof. induction a as [|c a IH]; intros b; cbn; [reflexivity|]. now rewrite <- IH. Qed.
Lemma app_assoc_s : forall a b c, ((a ++ b) ++ c = a ++ b ++ c)%string.
Proof. induction a as [|x a IH]; intros b c; cbn; [reflexivity|]. now rewrite IH. Qed.
Lemma length_app_s : forall a b, String.length (a ++ b) = (String.length a + String.length b)%nat.
Proof. induction a as [|x a IH]; intros b; cbn; [reflexivity|]. now rewrite IH. Qed.
Lemma app_nil_s : forall a, (a ++ "")%string = a.
Proof. induction a as [|x a IH]; cbn; [reflexivity|]. now rewrite IH. Qed.
Lemma word_app : forall a b, word (a ++ b) <-> word a /\ word b.
Proof.
  intros a b. unfold word. change (list_ascii_of_string (a ++ b)) with (chars (a ++ b)). rewrite chars_app. split.
  - intros H. split; intros c Hc; apply H, in_or_app; auto.
  - intros [A B] c Hc. apply in_app_or in Hc. destruct Hc; auto.
Qed.
Lemma no_us_app : forall a b, no_us (a ++ b) <-> no_us a /\ no_us b.
Proof.
  intros a b. unfold no_us. rewrite chars_app. split.
  - intros H. split; intros Hc; apply H, in_or_app; auto.
  - intros [A B] Hc. apply in_app_or in Hc. destruct Hc; auto.
Qed.

Lemma split_last_some : forall s b l, split_last s = Some (b, l) -> s = (b ++ "_" ++ l)%string /\ no_us l.
Proof.
  induction s as [|c s IH]; intros b l H; [discriminate|]. cbn -[append] in H.
  assert (NN : split_last s = None -> no_us s).
  { clear. induction s as [|c s IH]; [intros _ []|]. cbn. destruct (split_last s) as [[? ?]|]; [discriminate|].
    destruct (c =? "_")%char eqn:E; [discriminate|]. intros _ [->|H]; [discriminate|]. now apply IH. }
  destruct (split_last s) as [[b' l']|] eqn:E.
  - injection H as <- <-. destruct (IH _ _ eq_refl) as [-> N]. split; [reflexivity|assumption].
  - destruct (c =? "_")%char eqn:EC; [|discriminate]. injection H as <- <-. apply Ascii.eqb_eq in EC. subst.
    split; [reflexivity|auto].
Qed.
Lemma split_last_none : forall s, split_last s = None <-> no_us s.
Proof.
  intros s. split.
  - induction s as [|c s IH]; [intros _ []|]. cbn. destruct (split_last s) as [[? ?]|]; [discriminate|].
    destruct (c =? "_")%char eqn:E; [discriminate|]. intros _ [->|H]; [discriminate|]. now apply IH.
  - intros H. destruct (split_last s) as [[b l]|] eqn:E; [|reflexivity]. exfalso.
    apply split_last_some in E. destruct E as [-> _]. apply no_us_app in H. destruct H as [_ H]. apply H. now left.
Qed.
Lemma split_last_app : forall b l, no_us l -> split_last (b ++ "_" ++ l)%string = Some (b, l).
Proof.
  intros b l N. induction b as [|c b IH].
  - cbn. apply split_last_none in N. now rewrite N.
  - change (String c b ++ "_" ++ l)%string with (String c (b ++ "_" ++ l)). cbn -[append]. now rewrite IH.
Qed.

Lemma digits_chars : forall d c, In c (chars (digits d)) -> digit c.
Proof.
  unfold digits. induction d; cbn; intros c H; [tauto|..];
    (destruct H as [<-|H]; [unfold digit, between; vm_compute; lia|now apply IHd]).
Qed.
Lemma digit_not_us : forall c, digit c -> c <> "_"%char.
Proof. intros c [_ H] ->. vm_compute in H. lia. Qed.
Lemma digits_no_us : forall d, no_us (digits d).
Proof. intros d H. apply digits_chars in H. now apply digit_not_us in H. Qed.
Lemma digits_word : forall d, word (digits d).
Proof. intros d c H. left. now apply (digits_chars d). Qed.

Lemma dec_digits : forall z, 0 <= z -> exists d, dec_text z = digits d /\ d <> Decimal.Nil /\ Z.of_uint d = z.
Proof.
  intros z H. unfold dec_text. destruct (Z.to_int z) as [u|u] eqn:E.
  - exists u. assert (Z.of_int (Decimal.Pos u) = z) by (rewrite <- E; apply DecimalZ.of_to).
    assert (NU : u <> Decimal.Nil).
    { destruct z as [|p|p]; cbn in E; [injection E as <-; discriminate| |discriminate]. injection E as <-. apply DecimalPos.Unsigned.to_uint_nonnil. }
    split; [|split; [assumption|assumption]]. cbn. unfold DecimalString.NilZero.string_of_uint. destruct u; [congruence|..]; reflexivity.
  - destruct z; cbn in E; try discriminate. lia.
Qed.
Lemma try_parse_word : forall s z, try_parse s = Some z -> word s ->
  exists d, s = digits d /\ d <> Decimal.Nil /\ z = Z.of_uint d /\ 0 <= z < 2 ^ 31.
Proof.
  intros s z H W. unfold try_parse in H.
  destruct (DecimalString.NilZero.int_of_string s) as [d|] eqn:E; [|discriminate].
  destruct (int32 (Z.of_int d)) eqn:I; [|discriminate]. injection H as <-.
  destruct s as [|a s]; [discriminate|]. cbn -[DecimalString.NilEmpty.uint_of_string] in E. destruct (Ascii.eqb_spec a "-") as [->|N].
  - exfalso. destruct (W "-"%char (or_introl eq_refl)) as [[A B]|[[A B]|[[A B]|A]]]; try discriminate A;
      vm_compute in A; vm_compute in B; lia.
  - destruct (DecimalString.NilEmpty.uint_of_string (String a s)) as [u|] eqn:U; [|discriminate].
    injection E as <-. exists u. apply DecimalString.NilEmpty.sus in U. split; [now symmetry|].
    split; [|split; [reflexivity|]].
    + intros ->. discriminate.
    + unfold int32 in I. split; [|lia]. cbn. unfold Z.of_uint. lia.
Qed.
Lemma try_parse_digits : forall d, d <> Decimal.Nil -> Z.of_uint d < 2 ^ 31 -> try_parse (digits d) = Some (Z.of_uint d).
Proof.
  intros d N B. unfold try_parse, digits.
  assert (E : DecimalString.NilZero.int_of_string (DecimalString.NilEmpty.string_of_uint d) = Some (Decimal.Pos d)).
  { pose proof (DecimalString.NilEmpty.usu d) as U. destruct d; [congruence|..]; cbn in U |- *; now rewrite U. }
  rewrite E. cbn [Z.of_int].
  replace (int32 (Z.of_uint d)) with true; [reflexivity|]. symmetry. unfold int32. unfold Z.of_uint in *. lia.
Qed.

(** What counting and prefixing do: the length of a name without its number, and the number. *)
Definition info (s : string) : nat * Z :=
  match split_last s with
  | Some (b, cur) => match try_parse cur with Some z => (String.length b, z) | None => (String.length s, 0) end
  | None => (String.length s, 0)
  end.
Definition below (a b : nat * Z) : Prop := (fst a < fst b)%nat \/ fst a = fst b /\ snd a < snd b.
Lemma below_trans : forall a b c, below a b -> below b c -> below a c.
Proof. intros a b c. unfold below. lia. Qed.

Lemma dec_parse : forall z, 0 <= z < 2 ^ 31 -> try_parse (dec_text z) = Some z /\ no_us (dec_text z) /\ word (dec_text z).
Proof.
  intros z H. destruct (dec_digits z) as [d [E [N ZD]]]; [lia|]. rewrite E.
  split; [rewrite (try_parse_digits d N) by lia; now rewrite ZD|]. split; [apply digits_no_us|apply digits_word].
Qed.
Lemma one_parse : try_parse "1" = Some 1 /\ no_us "1".
Proof. split; [reflexivity|]. intros [H|[]]. discriminate. Qed.

Lemma next_info : forall s, word s -> snd (info s) < 2 ^ 31 - 1 ->
  info (next_count s) = (fst (info s), snd (info s) + 1) /\ word (next_count s) /\ 0 <= snd (info s) /\
  split_last (next_count s) <> None.
Proof.
  intros s W B.
  assert (ONE : info s = (String.length s, 0) -> next_count s = (s ++ "_1")%string ->
    info (next_count s) = (fst (info s), snd (info s) + 1) /\ word (next_count s) /\ 0 <= snd (info s) /\
    split_last (next_count s) <> None).
  { intros I N. rewrite N, I. destruct one_parse as [P1 P2].
    change (s ++ "_1")%string with (s ++ "_" ++ "1")%string. unfold info. rewrite (split_last_app _ _ P2), P1.
    split; [reflexivity|]. split; [|split; [cbn; lia|discriminate]].
    apply word_app. split; [assumption|]. intros c [<-|[<-|[]]]; [right; right; now right|left].
    unfold digit, between. vm_compute. lia. }
  destruct (split_last s) as [[b cur]|] eqn:S; [destruct (try_parse cur) as [z|] eqn:P|].
  - clear ONE. destruct (split_last_some _ _ _ S) as [ES NC].
    assert (IS : info s = (String.length b, z)) by (unfold info; now rewrite S, P).
    assert (NS : next_count s = (b ++ "_" ++ dec_text (wrap32 (z + 1)))%string) by (unfold next_count; now rewrite S, P).
    assert (WW : word b /\ word cur).
    { rewrite ES in W. apply word_app in W. destruct W as [W1 W]. apply word_app in W. tauto. }
    destruct (try_parse_word _ _ P (proj2 WW)) as [d [_ [_ [_ R]]]]. rewrite IS in *. cbn [fst snd] in *.
    assert (EW : wrap32 (z + 1) = z + 1) by (unfold wrap32; rewrite Z.mod_small; lia). rewrite EW in NS.
    destruct (dec_parse (z + 1)) as [P1 [P2 P3]]; [lia|]. rewrite NS.
    unfold info. rewrite (split_last_app _ _ P2), P1.
    split; [reflexivity|]. split; [|split; [lia|discriminate]].
    apply word_app. split; [apply WW|]. apply word_app. split; [|assumption].
    intros c [<-|[]]. right. right. now right.
  - apply ONE; [unfold info|unfold next_count]; rewrite S, P; reflexivity.
  - apply ONE; [unfold info|unfold next_count]; rewrite S; reflexivity.
Qed.

Lemma prefix_info : forall tp unit rest, no_us tp -> word (tp ++ rest) -> word unit ->
  (split_last (tp ++ rest) = None -> try_parse rest = None) ->
  let s := (tp ++ rest)%string in let s' := (tp ++ unit ++ "_" ++ rest)%string in
  below (info s) (info s') /\ snd (info s') = snd (info s) /\ word s' /\ split_last s' <> None.
Proof.
  intros tp unit rest NT W WU NP s s'. apply word_app in W. destruct W as [WT WR].
  assert (WS : word s').
  { unfold s'. apply word_app. split; [assumption|]. apply word_app. split; [assumption|].
    apply word_app. split; [|assumption]. intros c [<-|[]]. right. right. now right. }
  destruct (split_last rest) as [[b cur]|] eqn:S.
  - destruct (split_last_some _ _ _ S) as [ER NC].
    assert (S1 : split_last s = Some ((tp ++ b)%string, cur)).
    { unfold s. rewrite ER, <- app_assoc_s. now apply split_last_app. }
    assert (S2 : split_last s' = Some ((tp ++ unit ++ "_" ++ b)%string, cur)).
    { unfold s'. rewrite ER. replace (tp ++ unit ++ "_" ++ b ++ "_" ++ cur)%string with ((tp ++ unit ++ "_" ++ b) ++ "_" ++ cur)%string
        by (now rewrite !app_assoc_s). now apply split_last_app. }
    split; [|split; [|split; [assumption|congruence]]]; unfold info; rewrite S1, S2; destruct (try_parse cur).
    + left. cbn [fst]. rewrite !length_app_s. cbn. lia.
    + left. cbn [fst]. unfold s, s'. rewrite !length_app_s. cbn. lia.
    + reflexivity.
    + reflexivity.
  - assert (NR : no_us rest) by now apply split_last_none.
    assert (S1 : split_last s = None) by (apply split_last_none, no_us_app; auto).
    assert (S2 : split_last s' = Some ((tp ++ unit)%string, rest)).
    { unfold s'. rewrite <- app_assoc_s. now apply split_last_app. }
    pose proof (NP S1) as P.
    split; [|split; [|split; [assumption|congruence]]]; unfold info; rewrite S1, S2, P.
    + left. cbn [fst]. unfold s, s'. rewrite !length_app_s. cbn. lia.
    + reflexivity.
Qed.

Lemma prefix_drop : forall tp s, prefix tp s = true -> s = (tp ++ drop (String.length tp) s)%string.
Proof.
  induction tp as [|c tp IH]; intros s H; [destruct s; reflexivity|].
  destruct s as [|d s]; [discriminate|]. cbn -[append] in *. destruct (ascii_dec c d) as [->|]; [|discriminate].
  cbn. now rewrite <- IH.
Qed.
Lemma keyword_info : forall s, keyword s = true -> snd (info s) = 0.
Proof.
  intros s H. apply keyword_spec in H. unfold c90 in H. cbn in H.
  repeat (destruct H as [H|H]; [subst s; vm_compute; reflexivity|]). destruct H.
Qed.

Definition starts (s : string) : Prop := exists c r, s = String c r /\ nondigit c.
Lemma starts_app : forall a b, starts a -> starts (a ++ b).
Proof. intros a b [c [r [-> N]]]. now exists c, (r ++ b)%string. Qed.
Lemma starts_next : forall s, starts s -> starts (next_count s).
Proof.
  intros s H. unfold next_count. destruct (split_last s) as [[b cur]|] eqn:S; [|now apply starts_app].
  destruct (try_parse cur); [|now apply starts_app].
  destruct (split_last_some _ _ _ S) as [-> _]. destruct b as [|c b].
  - eexists _, _. split; [reflexivity|]. right. now right.
  - destruct H as [c' [r [E N]]]. injection E as <- _. now exists c, (b ++ "_" ++ dec_text (wrap32 (z + 1)))%string.
Qed.

(** A name is found after at most as many steps as there are names. *)
Section Find.
  Variable tp : string.
  Hypothesis tp_plain : no_us tp.
  Variable m : names.
  Variable unit : string.
  Hypothesis unit_ok : identifier unit.

  Definition fit (s : string) : Prop :=
    word s /\ starts s /\ (split_last s = None -> try_parse s = None /\ forall rest, s = (tp ++ rest)%string -> try_parse rest = None).

  Lemma found : forall fuel s V, fit s -> NoDup V ->
    (forall v, In v V -> In v (taken m) /\ below (info v) (info s)) ->
    (length m < fuel + length V)%nat -> Z.max 1 (snd (info s)) + Z.of_nat fuel < 2 ^ 31 ->
    exists r, valid_name fuel tp m unit s = Some r /\ word r /\ starts r.
  Proof.
    induction fuel as [|f IH]; intros s V F ND HV L B.
    - exfalso. assert (incl V (taken m)) by (intros v Hv; now apply HV).
      apply NoDup_incl_length in H; [|assumption]. unfold taken in H. rewrite map_length in H. lia.
    - cbn -[keyword next_count prefix append drop String.length].
      set (x := if keyword s then next_count s else s).
      destruct F as [W [ST P]].
      assert (X : fit x /\ (x = s \/ below (info s) (info x)) /\ snd (info x) <= Z.max 1 (snd (info s)) /\ 0 <= snd (info x)).
      { unfold x. assert (SB : snd (info s) < 2 ^ 31 - 1) by lia.
        destruct (next_info s W SB) as [I [W2 [PS S2]]].
        destruct (keyword s) eqn:K.
        - pose proof (keyword_info s K) as K0. split; [|split; [|split; rewrite I; cbn [snd]; lia]].
          + split; [assumption|]. split; [now apply starts_next|]. congruence.
          + right. rewrite I. right. cbn. lia.
        - split; [split; [assumption|split; assumption]|]. split; [now left|lia]. }
      destruct X as [[Wx [STx Px]] [Bx [Nx Nx0]]]. clearbody x.
      destruct (lookup x m) as [us|] eqn:LK.
      + assert (IN : In x (taken m)) by (destruct (in_dec string_dec x (taken m)) as [i|n]; [assumption|apply lookup_none in n; congruence]).
        assert (VX : forall v, In v V -> below (info v) (info x)).
        { intros v Hv. destruct Bx as [->|Bx]; [now apply HV|]. eapply below_trans; [apply HV, Hv|assumption]. }
        assert (ND2 : NoDup (x :: V)).
        { constructor; [|assumption]. intros Hx. specialize (VX _ Hx). unfold below in VX. lia. }
        assert (STEP : forall y, fit y -> below (info x) (info y) -> snd (info y) <= snd (info x) + 1 ->
          exists r, valid_name f tp m unit y = Some r /\ word r /\ starts r).
        { intros y Fy By Ny. apply (IH y (x :: V)); auto.
          - intros v [<-|Hv]; [auto|]. split; [now apply HV|]. eapply below_trans; [apply VX, Hv|assumption].
          - cbn [length]. lia.
          - lia. }
        destruct (existsb (String.eqb unit) us).
        * assert (SB : snd (info x) < 2 ^ 31 - 1) by lia.
          destruct (next_info x Wx SB) as [I [W2 [_ S2]]]. apply STEP.
          -- split; [assumption|]. split; [now apply starts_next|]. congruence.
          -- rewrite I. right. cbn. lia.
          -- rewrite I. cbn. lia.
        * destruct (prefix tp x) eqn:PX.
          -- pose proof (prefix_drop _ _ PX) as EX. set (rest := drop (String.length tp) x) in *.
             destruct (prefix_info tp unit rest tp_plain) as [A1 [A2 [A3 A4]]].
             ++ now rewrite <- EX.
             ++ apply unit_ok.
             ++ rewrite <- EX. intros S. now apply (proj2 (Px S)).
             ++ rewrite <- EX in A1, A2. apply STEP; [|assumption|lia].
                split; [assumption|]. split; [|congruence].
                destruct tp as [|c t] eqn:ET; [exact (starts_app unit _ (proj2 unit_ok))|].
                rewrite EX in STx. destruct STx as [c' [r [E N]]]. injection E as <- _.
                eexists c, _. split; [reflexivity|assumption].
          -- destruct (prefix_info "" unit x) as [A1 [A2 [A3 A4]]].
             ++ intros [].
             ++ exact Wx.
             ++ apply unit_ok.
             ++ intros S. now apply (proj1 (Px S)).
             ++ assert (A5 : snd (info (unit ++ "_" ++ x)%string) = snd (info x)) by exact A2.
                apply STEP; [|exact A1|lia].
                split; [exact A3|]. split; [now apply starts_app, unit_ok|]. intros S. exfalso. exact (A4 S).
      + exists x. auto.
  Qed.
End Find.

Lemma valid_more : forall fuel tp m u s r, valid_name fuel tp m u s = Some r -> forall k, valid_name (fuel + k) tp m u s = Some r.
Proof.
  induction fuel as [|f IH]; intros tp m u s r H k; [discriminate|].
  cbn -[keyword next_count prefix append drop String.length] in *.
  destruct (lookup (if keyword s then next_count s else s) m) as [us|]; [|assumption].
  destruct (existsb (String.eqb u) us); [now apply IH|]. destruct (prefix tp _); now apply IH.
Qed.

Lemma digit_nondigit : forall c, digit c -> ~ nondigit c.
Proof.
  unfold digit, nondigit, between. intros c [A B] [[C D]|[[C D]|C]].
  1-2: cbn in A, B, C, D; lia.
  subst c. cbn in A, B. lia.
Qed.

Lemma reserve_returns : forall tp m unit name fuel,
  ~ In "_"%char (list_ascii_of_string tp) -> identifier unit -> countable tp m name ->
  Z.of_nat (length m) < 2 ^ 31 - 3 -> (length m < fuel)%nat ->
  exists r m', reserve fuel tp m unit name = Ok (r, m') /\ identifier r.
Proof.
  intros tp m unit name fuel NT U [[W ST] [C1 C2]] B L.
  assert (F : fit tp name).
  { split; [assumption|]. split; [assumption|]. intros S. split.
    - destruct (try_parse name) as [z|] eqn:P; [|reflexivity]. exfalso.
      destruct (try_parse_word _ _ P W) as [d [E _]]. destruct ST as [c [r [Ec N]]].
      apply (digit_nondigit c); [|assumption]. apply (digits_chars d). rewrite <- E, Ec. now left.
    - intros rest E. destruct (try_parse rest) as [z|] eqn:P; [|reflexivity]. exfalso.
      assert (WR : word rest) by (rewrite E in W; apply word_app in W; tauto).
      destruct (try_parse_word _ _ P WR) as [d [Ed _]]. apply (C2 d). now rewrite <- Ed. }
  assert (I : snd (info name) + Z.of_nat (length m) < 2 ^ 31 - 2).
  { unfold info. destruct (split_last name) as [[b cur]|] eqn:S; [|cbn; lia].
    destruct (try_parse cur) as [z|] eqn:P; [|cbn; lia]. cbn [snd].
    destruct (split_last_some _ _ _ S) as [E _].
    assert (WC : word cur) by (rewrite E in W; apply word_app in W; destruct W as [_ W]; apply word_app in W; tauto).
    destruct (try_parse_word _ _ P WC) as [d [Ed [_ [-> _]]]]. apply (C1 b d). now rewrite <- Ed. }
  destruct (found tp NT m unit U (S (length m)) name []) as [r [V [Wr Sr]]]; auto.
  - constructor.
  - intros v [].
  - cbn. lia.
  - lia.
  - exists r. replace fuel with (S (length m) + (fuel - S (length m)))%nat by lia.
    unfold reserve. rewrite (valid_more _ _ _ _ _ _ V). eexists. split; [reflexivity|]. split; assumption.
Qed.
