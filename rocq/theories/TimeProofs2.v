(** Proofs about the texts of TIME values: what is printed. *)
From Coq Require Import List Ascii Bool Arith ZArith Lia ZifyBool ZifyNat String.
From Coq Require DecimalString DecimalZ DecimalFacts.
From Verif Require Import AcnExpr AcnExprProofs ConstsProofs2 Time TimeSpec TimeProofs.
Import ListNotations.
Local Open Scope list_scope.
Local Open Scope Z_scope.

(** * Decimal texts *)
Lemma chars_pos : forall u p,
  number (Zpos p) (list_ascii_of_string (DecimalString.NilEmpty.string_of_uint u)) = Some (Zpos (Pos.of_uint_acc u p)).
Proof.
  assert (ST : forall c d p s q, digit c = Some d -> 10 * Zpos p + d = Zpos q -> number (Zpos p) (c :: s) = number (Zpos q) s).
  { intros c d p s q D E. cbn [number]. rewrite D. now rewrite E. }
  induction u as [|u IH|u IH|u IH|u IH|u IH|u IH|u IH|u IH|u IH|u IH]; intros p;
    cbn [DecimalString.NilEmpty.string_of_uint list_ascii_of_string Pos.of_uint_acc]; [reflexivity|..];
    (etransitivity; [|apply IH]; eapply ST; [lazy; reflexivity|lia]).
Qed.
Lemma chars_zero : forall u, number 0 (list_ascii_of_string (DecimalString.NilEmpty.string_of_uint u)) = Some (Z.of_N (Pos.of_uint u)).
Proof.
  induction u as [|u IH|u IH|u IH|u IH|u IH|u IH|u IH|u IH|u IH|u IH];
    cbn [DecimalString.NilEmpty.string_of_uint list_ascii_of_string Pos.of_uint Z.of_N]; [reflexivity|..].
  - exact IH.
  - rewrite <- chars_pos. reflexivity. - rewrite <- chars_pos. reflexivity. - rewrite <- chars_pos. reflexivity.
  - rewrite <- chars_pos. reflexivity. - rewrite <- chars_pos. reflexivity. - rewrite <- chars_pos. reflexivity.
  - rewrite <- chars_pos. reflexivity. - rewrite <- chars_pos. reflexivity. - rewrite <- chars_pos. reflexivity.
Qed.
Lemma dec_numeral : forall n, 0 <= n -> numeral (dec n) n.
Proof.
  intros n H. apply number_spec. unfold dec, dec_text.
  assert (exists d, Z.to_int n = Decimal.Pos d) as (d & E) by (destruct n; [eexists; reflexivity|eexists; reflexivity|lia]).
  pose proof (DecimalZ.of_to n) as X. rewrite E in *. cbn [DecimalString.NilZero.string_of_int]. unfold DecimalString.NilZero.string_of_uint.
  change (Z.of_N (Pos.of_uint d) = n) in X.
  destruct d; [cbn in X; subst n; reflexivity|..]; rewrite chars_zero, X; reflexivity.
Qed.
Lemma number_lower : forall s acc n, 0 <= acc -> number acc s = Some n -> acc * 10 ^ Z.of_nat (List.length s) <= n.
Proof.
  induction s as [|c s IH]; intros acc n A H; cbn [number] in H.
  - injection H as <-. cbn. lia.
  - destruct (digit c) as [d|] eqn:D; [|discriminate H]. apply digit_spec in D as [_ D].
    apply IH in H; [|lia]. cbn [List.length]. rewrite Nat2Z.inj_succ, Z.pow_succ_r by lia.
    assert (0 < 10 ^ Z.of_nat (List.length s)) by (apply Z.pow_pos_nonneg; lia). nia.
Qed.
Lemma dec_zero_text : dec 0 = ["0"%char].
Proof. reflexivity. Qed.
Lemma dec_lower : forall n, 0 < n -> exists k, List.length (dec n) = S k /\ 10 ^ Z.of_nat k <= n.
Proof.
  intros n H. pose proof (dec_numeral n ltac:(lia)) as N. apply number_spec in N.
  destruct (dec_shape n H) as (c & s & E & D & NZ & A). unfold dec in *. rewrite E in *. cbn [list_ascii_of_string] in *.
  exists (List.length (list_ascii_of_string s)). split; [reflexivity|].
  cbn [number] in N. destruct (digit c) as [d|] eqn:DC; [|discriminate N]. apply digit_spec in DC.
  assert (d <> 0) by (intros ->; apply digit_zero in DC; contradiction). destruct DC as [_ R].
  apply number_lower in N; [|lia].
  assert (0 < 10 ^ Z.of_nat (List.length (list_ascii_of_string s))) by (apply Z.pow_pos_nonneg; lia). nia.
Qed.
Lemma dec_nonempty : forall n, 0 <= n -> dec n <> [].
Proof.
  intros n H. assert (n = 0 \/ 0 < n) as [->|P] by lia; [rewrite dec_zero_text; discriminate|].
  destruct (dec_lower n P) as (k & L & _). intros E. rewrite E in L. discriminate L.
Qed.
Lemma dec_length : forall n k, 0 <= n -> List.length (dec n) = S k -> (10 ^ Z.of_nat k <= n \/ k = O) /\ n < 10 ^ (Z.of_nat k + 1).
Proof.
  intros n k H L. pose proof (numeral_bound _ _ (dec_numeral n H)) as B. rewrite L in B.
  replace (Z.of_nat (S k)) with (Z.of_nat k + 1) in B by lia. split; [|lia].
  assert (n = 0 \/ 0 < n) as [->|P] by lia.
  - rewrite dec_zero_text in L. injection L as <-. now right.
  - destruct (dec_lower n P) as (k' & L' & B'). left. assert (k = k') by lia. now subst.
Qed.
Lemma dec_length_iff : forall n k, 0 <= n -> 0 < k ->
  (Z.of_nat (List.length (dec n)) = k <-> (10 ^ (k - 1) <= n \/ k = 1) /\ n < 10 ^ k).
Proof.
  intros n k H K. destruct (List.length (dec n)) as [|j] eqn:L.
  { apply length_zero_iff_nil in L. exfalso. now apply (dec_nonempty n H). }
  destruct (dec_length n j H L) as (A & B). split.
  - intros <-. replace (Z.of_nat (S j) - 1) with (Z.of_nat j) by lia. replace (Z.of_nat (S j)) with (Z.of_nat j + 1) by lia.
    split; [|exact B]. destruct A as [A|A]; [now left|right]. lia.
  - intros (C & D). assert (Z.of_nat j < k).
    { destruct (Z.ltb_spec (Z.of_nat j) k); [assumption|]. exfalso.
      destruct A as [A|A]; [|lia]. assert (10 ^ k <= 10 ^ Z.of_nat j) by (apply Z.pow_le_mono_r; lia). lia. }
    assert (k <= Z.of_nat j + 1).
    { destruct (Z.leb_spec k (Z.of_nat j + 1)); [assumption|]. exfalso.
      destruct C as [C|C]; [|lia]. assert (10 ^ (Z.of_nat j + 1) <= 10 ^ (k - 1)) by (apply Z.pow_le_mono_r; lia). lia. }
    lia.
Qed.
Lemma dec_two : forall n hi, 0 <= n <= hi -> hi < 100 -> (List.length (dec n) = 2%nat <-> 10 <= n).
Proof.
  intros n hi H HI. pose proof (dec_length_iff n 2 ltac:(lia) ltac:(lia)) as X.
  change (10 ^ (2 - 1)) with 10 in X. change (10 ^ 2) with 100 in X. split; intros Y.
  - assert (Z.of_nat (List.length (dec n)) = 2) as Z by lia. apply X in Z. lia.
  - assert ((10 <= n \/ 2 = 1) /\ n < 100) as Z by lia. apply X in Z. lia.
Qed.
Lemma dec_written : forall n lo hi, 0 <= lo <= n -> n <= hi < 100 -> 10 <= n -> two (dec n) lo hi n.
Proof.
  intros n lo hi A B C. split; [apply dec_numeral; lia|]. split; [apply (dec_two n hi); lia|lia].
Qed.
Lemma dec_fraction : forall f mx k, 0 <= f <= mx -> 0 < k -> mx + 1 = 10 ^ k ->
  (mx + 1 = 10 ^ Z.of_nat (List.length (dec f)) <-> (mx = 9 \/ mx < 10 * f)).
Proof.
  intros f mx k F K M. pose proof (dec_length_iff f k ltac:(lia) K) as X.
  assert (P : 10 ^ k = 10 * 10 ^ (k - 1)) by (rewrite <- Z.pow_succ_r by lia; f_equal; lia).
  split.
  - intros E. rewrite M in E. apply Z.pow_inj_r in E; try lia. symmetry in E. apply X in E. destruct E as ([E|E] & _).
    + right. lia.
    + subst k. change (10 ^ 1) with 10 in M. left. lia.
  - intros E. rewrite M. f_equal. symmetry. apply X. split; [|lia]. destruct E as [->|E].
    + right. change (9 + 1) with (10 ^ 1) in M. apply Z.pow_inj_r in M; lia.
    + left. lia.
Qed.
Lemma dec_no : forall n x, 0 <= n -> digit x = None -> ~ In x (dec n).
Proof. intros n x H D. eapply numeral_no; [apply dec_numeral; exact H|exact D]. Qed.

(** * Cutting a text at a character *)
Lemma cut_unique : forall (c : ascii) a b x y, ~ In c a -> ~ In c b -> a ++ [c] ++ x = b ++ [c] ++ y -> a = b /\ x = y.
Proof.
  induction a as [|u a IH]; intros [|v b] x y A B E; cbn [app] in E.
  - injection E as E. now split.
  - injection E as E1 E2. exfalso. apply B. now left.
  - injection E as E1 E2. exfalso. apply A. now left.
  - injection E as -> E2. destruct (IH b x y) as (-> & ->); [intros X; apply A; now right|intros X; apply B; now right|exact E2|now split].
Qed.

(** * Fields that need no zero are printed as they are written *)
Lemma print_time_written : forall t, time_ok t -> full_time t -> wtime (print_time t) t.
Proof.
  intros [h m s f] (A & B & C & D) (E & F & G & I). cbn [hours mins secs fraction] in *. unfold print_time. cbn [hours mins secs fraction].
  pose proof (dec_written h 0 23 ltac:(lia) ltac:(lia) E) as TH. pose proof (dec_written m 0 59 ltac:(lia) ltac:(lia) F) as TM.
  pose proof (dec_written s 0 59 ltac:(lia) ltac:(lia) G) as TS. destruct f as [[f mx]|].
  - destruct D as (D & n & N & P). 
    pose proof (wt_fraction (dec h) (dec m) (dec s) (dec f) h m s f mx TH TM TS (dec_numeral f ltac:(lia)) (dec_nonempty f ltac:(lia))
      (proj2 (dec_fraction f mx n D N P) I)) as W. exact W.
  - rewrite app_nil_r. exact (wt_whole _ _ _ _ _ _ TH TM TS).
Qed.
Lemma print_zone_written : forall z, zone_ok z -> 10 <= zhours z -> 10 <= zmins z -> wzone (print_zone z) z.
Proof.
  intros [s h m] (A & B & C) D E. cbn [zsign zhours zmins] in *. unfold print_zone. cbn [zsign zhours zmins].
  apply (wz (if s =? 1 then "+"%char else "-"%char) s (dec h) (dec m)).
  - destruct A as [->| ->]; [now left|now right].
  - now apply dec_written.
  - now apply dec_written.
Qed.
Lemma print_date_written : forall d, date_ok d -> 10 <= months d -> 10 <= days d -> wdate (print_date d) d.
Proof.
  intros [y m d] (A & B & C) D E. cbn [years months days] in *. unfold print_date. cbn [years months days].
  apply (wd (dec y) (dec m) (dec d)); [apply dec_numeral; lia|apply dec_nonempty; lia|lia|apply dec_written; lia|apply dec_written; lia].
Qed.

(** * And only those *)
Lemma time_printed : forall t, time_ok t -> ltime (print_time t) t -> full_time t.
Proof.
  intros t (A & B & C & D) L. apply ltime_iff in L as (h & m & r & E & TH & TM & LS).
  unfold print_time in E.
  apply (cut_unique ":" _ _ _ _ (dec_no (hours t) ":"%char ltac:(lia) eq_refl) (two_no _ _ _ _ ":"%char TH eq_refl)) in E as (<- & E).
  apply (cut_unique ":" _ _ _ _ (dec_no (mins t) ":"%char ltac:(lia) eq_refl) (two_no _ _ _ _ ":"%char TM eq_refl)) in E as (<- & <-).
  destruct TH as (_ & TH & _), TM as (_ & TM & _). apply (dec_two _ 23) in TH; [|lia..]. apply (dec_two _ 59) in TM; [|lia..].
  unfold full_time. split; [exact TH|]. split; [exact TM|].
  assert (NP : ~ In "."%char (dec (secs t))) by (apply dec_no; [lia|reflexivity]).
  destruct (fraction t) as [[f mx]|] eqn:FR.
  - destruct D as (D & n & N & P).
    inversion LS as [| | |a S b F mx' T NU NE M E1 E2 E3|a S b F mx' r T NU NE M R E1 E2 E3]; subst; symmetry in E1.
    + apply (cut_unique "." _ _ _ _ NP (two_no _ _ _ _ "."%char T eq_refl)) in E1 as (<- & <-).
      destruct T as (_ & T & _). apply (dec_two _ 59) in T; [|lia..]. split; [exact T|]. now apply (dec_fraction f mx n).
    + apply (cut_unique "." _ _ _ _ NP (two_no _ _ _ _ "."%char T eq_refl)) in E1 as (<- & E1).
      exfalso. apply (dec_no f "."%char); [lia|reflexivity|]. rewrite E1. apply in_or_app. right. now left.
  - rewrite app_nil_r in LS. split; [|exact I].
    inversion LS as [a S T E1 E2 E3|a S T E1 E2 E3|a S r T R E1 E2 E3| |]; subst.
    + destruct T as (_ & T & _). now apply (dec_two _ 59) in T; [|lia..].
    + exfalso. apply NP. rewrite <- E1. apply in_or_app. right. now left.
    + exfalso. apply NP. rewrite <- E1. apply in_or_app. right. now left.
Qed.
Lemma time_char_no : forall c, time_char c = false -> forall s t, ltime s t -> ~ In c s.
Proof. intros c N s t L I. apply (ltime_chars _ _ L) in I. congruence. Qed.
Lemma print_time_chars : forall t, time_ok t -> forall c, In c (print_time t) -> time_char c = true.
Proof.
  intros t (A & B & C & D) c I. apply time_char_spec. unfold print_time in I.
  rewrite in_app_iff in I. cbn [In] in I. rewrite in_app_iff in I. cbn [In] in I. rewrite in_app_iff in I.
  assert (G : forall n, 0 <= n -> In c (dec n) -> exists d, digit_char c d).
  { intros n N J. eapply numeral_digits; [apply dec_numeral; exact N|exact J]. }
  destruct I as [I|[<-|[I|[<-|[I|I]]]]]; auto.
  - right. right. apply (G (hours t)); [lia|exact I].
  - right. right. apply (G (mins t)); [lia|exact I].
  - right. right. apply (G (secs t)); [lia|exact I].
  - destruct (fraction t) as [[f mx]|]; [|contradiction]. destruct I as [<-|I]; [auto|]. right. right. apply (G f); [lia|exact I].
Qed.
Lemma loose_two : forall h n hi, loose h n -> 0 <= n <= hi -> hi < 100 -> h = dec n -> 10 <= n.
Proof. intros h n hi L B H ->. apply loose_length in L. now apply (dec_two n hi) in L. Qed.
Lemma date_printed : forall d, date_ok d -> ldate (print_date d) d -> 10 <= months d /\ 10 <= days d.
Proof.
  intros d (A & B & C) L. apply ldate_iff in L as (y & m & x & NY & _ & _ & TM & TX & E).
  assert (E' : exists r, print_date d = y ++ ["-"%char] ++ m ++ ["-"%char] ++ r /\ (r = x \/ exists q, r = x ++ ["-"%char] ++ q)).
  { destruct E as [->|(r & -> & _)]; [exists x; auto|]. exists (x ++ ["-"%char] ++ r). split; [reflexivity|right; eauto]. }
  destruct E' as (r & E' & R). clear E. unfold print_date in E'.
  apply (cut_unique "-" _ _ _ _ (dec_no (years d) "-"%char ltac:(lia) eq_refl) (numeral_no _ _ "-"%char NY eq_refl)) in E' as (<- & E).
  apply (cut_unique "-" _ _ _ _ (dec_no (months d) "-"%char ltac:(lia) eq_refl) (two_no _ _ _ _ "-"%char TM eq_refl)) in E as (<- & <-).
  destruct TM as (_ & TM & _). apply (dec_two _ 12) in TM; [|lia..]. split; [exact TM|].
  destruct R as [<-|(q & R)].
  - destruct TX as (_ & TX & _). now apply (dec_two _ 31) in TX; [|lia..].
  - exfalso. apply (dec_no (days d) "-"%char); [lia|reflexivity|]. rewrite R. apply in_or_app. right. now left.
Qed.
Lemma print_date_no_T : forall d, date_ok d -> ~ In "T"%char (print_date d).
Proof.
  intros d (A & B & C). unfold print_date. rewrite in_app_iff. cbn [In]. rewrite in_app_iff. cbn [In].
  intros [I|[I|[I|[I|I]]]]; try discriminate I; revert I; apply dec_no; (lia || reflexivity).
Qed.
Lemma print_zone_no_T : forall z, zone_ok z -> ~ In "T"%char (print_zone z).
Proof.
  intros z (A & B & C). unfold print_zone. cbn [In]. rewrite in_app_iff. cbn [In].
  intros [I|[I|[I|I]]]; try discriminate I; [destruct (_ =? 1); discriminate I|..]; revert I; apply dec_no; (lia || reflexivity).
Qed.
Lemma print_time_no_T : forall t, time_ok t -> ~ In "T"%char (print_time t).
Proof. intros t T I. apply (print_time_chars t T) in I. discriminate I. Qed.
Theorem print_iff : forall c v, value_ok v -> class_of v c -> (read c (print v) = TOk v <-> full v).
Proof.
  intros c v OK CL. split.
  - intros R. apply read_iff in R. unfold accepted in R.
    destruct v as [t|t|t z|d|d t|d t|d t z]; destruct c; try contradiction; cbn [print value_ok full] in *.
    + inversion R; subst. now apply time_printed.
    + inversion R as [|n' s t' T E1 E2 E3| | | | |]; subst. apply app_inj_tail in E2 as (-> & _). now apply time_printed.
    + destruct OK as (OT & OZ). inversion R as [| |n' s t' r z' T Z E1 E2 E3| | | |]; subst. clear R.
      destruct Z as [c g h m H M SG LH BH LM BM].
      assert (NC : time_char c = false) by (destruct SG as [(-> & _)|(-> & _)]; reflexivity).
      assert (SC : print_zone (mkzone g H M) = c :: dec H ++ ":"%char :: dec M).
      { unfold print_zone. cbn [zsign zhours zmins]. destruct SG as [(-> & ->)|(-> & ->)]; reflexivity. }
      rewrite SC in E2. destruct OZ as (_ & OH & OM). cbn [zhours zmins] in *.
      apply (cut_unique c) in E2 as (-> & E2).
      2:{ eapply time_char_no; eauto. }
      2:{ intros I. apply (print_time_chars t OT) in I. congruence. }
      apply (cut_unique ":") in E2 as (E2 & E4).
      2:{ eapply loose_no_colon; eauto. }
      2:{ apply dec_no; [lia|reflexivity]. }
      split; [now apply time_printed|]. split; [now apply (loose_two h H 23)|now apply (loose_two m M 59)].
    + inversion R; subst. now apply date_printed.
    + destruct OK as (OD & OT). inversion R as [| | | |n' a d' s t' A B E1 E2 E3| |]; subst.
      assert (I : In "T"%char (print_date d ++ print_time t)) by (rewrite <- E2; apply in_or_app; right; now left).
      apply in_app_or in I as [I|I]; [now apply print_date_no_T in I|now apply print_time_no_T in I].
    + destruct OK as (OD & OT). inversion R as [| | | | |n' a d' s t' A B E1 E2 E3|]; subst.
      assert (I : In "T"%char (print_date d ++ print_time t ++ ["Z"%char])) by (rewrite <- E2; apply in_or_app; right; now left).
      apply in_app_or in I as [I|I]; [now apply print_date_no_T in I|]. apply in_app_or in I as [I|[I|[]]]; [now apply print_time_no_T in I|discriminate I].
    + destruct OK as (OD & OT & OZ). inversion R as [| | | | | |n' a d' s t' r z' A B C E1 E2 E3]; subst.
      assert (I : In "T"%char (print_date d ++ print_time t ++ print_zone z)) by (rewrite <- E2; apply in_or_app; right; now left).
      apply in_app_or in I as [I|I]; [now apply print_date_no_T in I|]. apply in_app_or in I as [I|I]; [now apply print_time_no_T in I|].
      now apply print_zone_no_T in I.
  - intros F. apply read_written. unfold written.
    destruct v as [t|t|t z|d|d t|d t|d t z]; destruct c; try contradiction; cbn [print value_ok full] in *.
    + constructor. now apply print_time_written.
    + constructor. now apply print_time_written.
    + destruct OK as (OT & OZ), F as (FT & FH & FM). constructor; [now apply print_time_written|now apply print_zone_written].
    + destruct F. constructor. now apply print_date_written.
Qed.

(** * What is read is in range *)
Lemma wtime_ok : forall s t, wtime s t -> time_ok t.
Proof.
  intros s t [h m s' H M S (_ & _ & A) (_ & _ & B) (_ & _ & C)|h m s' f H M S F mx (_ & _ & A) (_ & _ & B) (_ & _ & C) N NE E];
    unfold time_ok; cbn [hours mins secs fraction]; repeat (split; [lia|]); [exact I|].
  pose proof (numeral_bound _ _ N). split; [lia|]. exists (Z.of_nat (List.length f)). split; [|exact E].
  destruct f; [congruence|]. cbn [List.length]. lia.
Qed.
Theorem read_ok : forall c s v, read c s = TOk v -> value_ok v /\ class_of v c.
Proof.
  intros c s v R. apply read_iff in R. unfold accepted in R.
  assert (LT : forall s t, ltime s t -> time_ok t) by (intros ? ? L; destruct L; eapply wtime_ok; eauto).
  assert (LD : forall s d, ldate s d -> date_ok d).
  { intros s' d L. apply ldate_iff in L as (y & m & x & A & _ & B & (_ & _ & C) & (_ & _ & D) & _).
    apply numeral_bound in A. unfold date_ok. lia. }
  assert (LO : forall s n, loose s n -> 0 <= n).
  { intros s' n L. apply (try_parse_two s' n (loose_length _ _ L)) in L. tauto. }
  assert (LZ : forall s z, lzone s z -> zone_ok z).
  { intros s' z [c' g h m H M SG LH BH LM BM]. unfold zone_ok. cbn [zsign zhours zmins]. apply LO in LH, LM.
    split; [destruct SG as [(_ & ->)|(_ & ->)]; auto|lia]. }
  destruct R; (split; [cbn [value_ok]; repeat match goal with |- _ /\ _ => split end; solve [eapply LT; eassumption | eapply LD; eassumption | eapply LZ; eassumption]|exact I]).
Qed.
