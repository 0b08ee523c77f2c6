(** C71: the texts of TIME values. *)
From Coq Require Import List Ascii Bool Arith ZArith Lia String.
From Verif Require Import Time TimeSpec TimeProofs TimeProofs2.
Import ListNotations.
Local Open Scope list_scope.
Local Open Scope Z_scope.

Definition tx (s : string) : text := list_ascii_of_string s.
Arguments tx s%string.

(** * C71: every text the standard has is read as what it means *)
Theorem C71_read_written : forall c s v, written c s v -> read c s = TOk v.
Proof. exact read_written. Qed.
Lemma num_of : forall s n, number 0 s = Some n -> numeral s n.
Proof. intros s n H. now apply number_spec. Qed.
Ltac two_digits := split; [apply num_of; reflexivity|split; [reflexivity|lia]].
Example C71_ex_zone : written (ZoneTime 3) (tx "16:53:49.0123-02:30") (VZone (mktime 16 53 49 (Some (123, 9999))) (mkzone (-1) 2 30)).
Proof.
  apply (w_zone wtime wdate wzone 3 (tx "16:53:49.0123") (mktime 16 53 49 (Some (123, 9999))) (tx "-02:30") (mkzone (-1) 2 30)).
  - apply (wt_fraction (tx "16") (tx "53") (tx "49") (tx "0123")); try two_digits; [apply num_of; reflexivity|discriminate|reflexivity].
  - apply (wz "-" (-1) (tx "02") (tx "30")); try two_digits. now right.
Qed.
Example C71_ex_date : written (DateUtc 0) (tx "2020-05-16T16:53:49Z") (VDateUtc (mkdate 2020 5 16) (mktime 16 53 49 None)).
Proof.
  apply (w_dutc wtime wdate wzone 0 (tx "2020-05-16") (mkdate 2020 5 16) (tx "16:53:49") (mktime 16 53 49 None)).
  - apply (wd (tx "2020") (tx "05") (tx "16")); try two_digits; [apply num_of; reflexivity|discriminate|lia].
  - apply (wt_whole (tx "16") (tx "53") (tx "49")); two_digits.
Qed.
Example C71_ex_read : read (ZoneTime 3) (tx "16:53:49.0123-02:30") = TOk (VZone (mktime 16 53 49 (Some (123, 9999))) (mkzone (-1) 2 30)).
Proof. reflexivity. Qed.
Example C71_ex_bad : read (LocalTime 0) (tx "24:00:00") = Invalid /\ read (DateOnly) (tx "2020-13-01") = Invalid
  /\ read (UtcTime 0) (tx "12:00:00") = Invalid /\ read (LocalTime 0) (tx "12:00") = Invalid
  /\ read (DateLocal 0) (tx "2020-05-16 16:53:49") = Invalid /\ read (ZoneTime 0) (tx "12:00:00Z02:00") = Invalid.
Proof. repeat split; reflexivity. Qed.

(** * What is read, exactly *)
Theorem C71_read_exact : forall c s v, read c s = TOk v <-> accepted c s v.
Proof. exact read_iff. Qed.
Theorem C71_read_in_range : forall c s v, read c s = TOk v -> value_ok v /\ class_of v c.
Proof. exact read_ok. Qed.
(** Texts the standard does not have are read too. *)
Theorem C71_not_written_refuted : exists c s v, read c s = TOk v /\ ~ exists v', written c s v'.
Proof.
  exists (ZoneTime 0), (tx "12:00:00++2: 0"), (VZone (mktime 12 0 0 None) (mkzone 1 2 0)). split; [reflexivity|].
  intros (v' & W). inversion W as [| |n s t r z T Z E1 E2 E3| | | |]; subst.
  destruct Z as [c g h m H M SG (NH & _) (NM & LM & _)].
  assert (I : In " "%char m).
  { destruct m as [|m1 [|m2 [|m3 m]]]; try discriminate LM.
    pose proof (f_equal (fun l => nth_error (rev l) 1) E2) as X. cbv beta in X. rewrite !rev_app_distr in X. cbn in X.
    injection X as ->. now left. }
  revert I. exact (numeral_no _ _ " "%char NM eq_refl).
Qed.
Theorem C71_extra_parts_refuted : exists d t,
  read DateOnly (tx "2020-05-16-99") = TOk (VDate d) /\ read DateOnly (tx "2020-05-16") = TOk (VDate d) /\
  read (LocalTime 0) (tx "12:00:00.5.7") = TOk (VLocal t) /\ read (LocalTime 0) (tx "12:00:00.5") = TOk (VLocal t) /\
  ~ (exists v, written DateOnly (tx "2020-05-16-99") v).
Proof.
  exists (mkdate 2020 5 16), (mktime 12 0 0 (Some (5, 9))). repeat (split; [reflexivity|]).
  intros (v & W). inversion W as [| | |s d W2 G1 G2 G3| | |]; subst. inversion W2 as [y m x Y M D A B C T1 T2 E1 E2].
  assert (E3 : y ++ ["-"%char] ++ m ++ ["-"%char] ++ x = tx "2020-05-16-99") by exact E1.
  pose proof (f_equal (split "-") E3) as X. rewrite split_app in X by exact (numeral_no _ _ "-"%char A eq_refl).
  rewrite split_app in X by exact (two_no _ _ _ _ "-"%char T1 eq_refl). rewrite split_none in X by exact (two_no _ _ _ _ "-"%char T2 eq_refl).
  discriminate X.
Qed.
(** Days the month does not have are read. *)
Theorem C71_calendar_refuted : exists d, read DateOnly (tx "2021-02-31") = TOk (VDate d) /\ months d = 2 /\ days d = 31.
Proof. exists (mkdate 2021 2 31). repeat split. Qed.
(** The number of digits of the fraction that the type fixes is not asked for. *)
Theorem C71_precision_refuted : exists t, read (LocalTime 0) (tx "12:00:00.123456") = TOk (VLocal t) /\ read (LocalTime 9) (tx "12:00:00.123456") = TOk (VLocal t) /\ fraction t = Some (123456, 999999).
Proof. exists (mktime 12 0 0 (Some (123456, 999999))). repeat split. Qed.

(** * Unexpected exceptions: exactly for dates that stop after the year or the month *)
Theorem C71_crash_exact : forall c s, read c s = Crash <-> cut c s.
Proof. exact read_crash. Qed.
Theorem C71_cut_date_refuted : read DateOnly (tx "2020-05") = Crash /\ read (DateUtc 0) (tx "2020T12:00:00Z") = Crash.
Proof. split; reflexivity. Qed.

(** * Printing: what is printed reads back exactly if no field needs a leading zero *)
Theorem C71_print_exact : forall c v, value_ok v -> class_of v c -> (read c (print v) = TOk v <-> full v).
Proof. exact print_iff. Qed.
Example C71_ex_print : let v := VZone (mktime 16 53 49 (Some (123, 999))) (mkzone (-1) 11 30) in
  value_ok v /\ class_of v (ZoneTime 3) /\ full v /\ print v = tx "16:53:49.123-11:30".
Proof.
  cbv zeta. split; [|split; [exact I|split; [|reflexivity]]].
  - cbn [value_ok]. unfold time_ok, zone_ok. cbn. repeat split; try lia. exists 3. split; [lia|reflexivity].
  - cbn [full]. unfold full_time. cbn. lia.
Qed.
Theorem C71_print_zeros_refuted : exists v, read (LocalTime 0) (tx "09:05:03") = TOk v /\ print v = tx "9:5:3" /\
  read (LocalTime 0) (print v) = Invalid.
Proof. exists (VLocal (mktime 9 5 3 None)). repeat split. Qed.
(** A fraction loses its zeros and becomes another fraction. *)
Theorem C71_print_fraction_refuted : exists v v', read (LocalTime 2) (tx "12:30:30.05") = TOk v /\
  read (LocalTime 2) (print v) = TOk v' /\ v = VLocal (mktime 12 30 30 (Some (5, 99))) /\ v' = VLocal (mktime 12 30 30 (Some (5, 9))).
Proof. eexists. eexists. repeat split; reflexivity. Qed.
(** A date with a time is printed without the T and is never read back. *)
Theorem C71_print_date_time_refuted : exists v, read (DateLocal 0) (tx "2020-12-16T16:53:49") = TOk v /\
  print v = tx "2020-12-1616:53:49" /\ read (DateLocal 0) (print v) = Invalid.
Proof. exists (VDateLocal (mkdate 2020 12 16) (mktime 16 53 49 None)). repeat split. Qed.

(** * Assumptions of all theorems above *)
Definition theorems30 := (
  @C71_read_written, @C71_read_exact, @C71_read_in_range, @C71_not_written_refuted,
  @C71_extra_parts_refuted, @C71_calendar_refuted, @C71_precision_refuted, @C71_crash_exact,
  @C71_cut_date_refuted, @C71_print_exact, @C71_print_zeros_refuted, @C71_print_fraction_refuted,
  @C71_print_date_time_refuted).
Print Assumptions theorems30.
