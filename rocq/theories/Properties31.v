(** C72: the SETTINGS of TIME types. *)
From Coq Require Import List Ascii Bool Arith ZArith Lia String Permutation.
From Verif Require Import Time TimeSpec TimeClass TimeClassSpec TimeClassProofs TimeClassProofs2.
Import ListNotations.
Local Open Scope list_scope.

(** * C72: the settings of a class, in any order and with any number of blanks, are read as the class *)
Theorem C72_words : forall c p n, precision c = 0%Z -> Permutation (words c) p -> settings (spaced n 0 p) = TOk c.
Proof. exact settings_words. Qed.
Example C72_words_ex : settings (tx "Year=Basic Basic=Date   Date=YMD") = TOk DateOnly
  /\ Permutation (words DateOnly) ["Year=Basic"; "Basic=Date"; "Date=YMD"]%string
  /\ spaced (fun i => nth i [1; 3; 0] 0) 0 ["Year=Basic"; "Basic=Date"; "Date=YMD"]%string = tx "Year=Basic Basic=Date   Date=YMD".
Proof.
  split; [vm_compute; reflexivity|]. split; [|reflexivity]. cbn [words].
  apply Permutation_sym. apply (Permutation_cons_app ["Basic=Date"; "Date=YMD"]%string []). apply Permutation_refl.
Qed.
(** combinations, which makes the orders, makes all of them for every array. *)
Theorem C72_combinations : forall A (l p : list A), l <> [] -> (In p (combinations l) <-> Permutation l p).
Proof. exact combinations_spec. Qed.
Example C72_combinations_ex : combinations [1; 2; 3] = [[1; 2; 3]; [1; 3; 2]; [2; 1; 3]; [2; 3; 1]; [3; 1; 2]; [3; 2; 1]].
Proof. reflexivity. Qed.

(** * What is read, exactly *)
Theorem C72_exact : forall s c, settings s = TOk c <-> laid s /\ says s c.
Proof. exact settings_iff. Qed.
Example C72_exact_ex : settings (tx "Basic =" ++ [ascii_of_nat 13; ascii_of_nat 10] ++ tx " Time Time= HMS Local-or-UTC=LD") = TOk (ZoneTime 0).
Proof. vm_compute. reflexivity. Qed.
Example C72_bad_ex : settings (tx "Basic=Time Time=HMS") = Invalid /\ settings (tx "Basic=Time Time=HMS Local-or-UTC=L Time=HMS") = Invalid
  /\ settings (tx "Basic=Date Date=YMD Year=Basic Time=HMS Local-or-UTC=Z") = Invalid.
Proof. repeat split; vm_compute; reflexivity. Qed.
(** Blanks within words, and words without blanks between them. *)
Theorem C72_blanks_refuted : settings (tx "Ba sic=Time TimeTime=HM SLocal-or-UTC=L") = Invalid
  /\ settings (tx "Ba sic=TimeTime=HM SLocal-or-UTC=L") = TOk (LocalTime 0).
Proof. split; vm_compute; reflexivity. Qed.
(** A line end between two words is refused. *)
Theorem C72_line_end_refuted : exists s t, s = t ++ [ascii_of_nat 10] ++ tx "Time=HMS Local-or-UTC=L" /\
  settings s = Invalid /\ settings (t ++ [" "%char] ++ tx "Time=HMS Local-or-UTC=L") = TOk (LocalTime 0).
Proof. exists (tx "Basic=Time" ++ [ascii_of_nat 10] ++ tx "Time=HMS Local-or-UTC=L"), (tx "Basic=Time"). repeat split; vm_compute; reflexivity. Qed.

(** * Fractions: no TIME type has one *)
Theorem C72_precision : forall s c, settings s = TOk c -> precision c = 0%Z.
Proof. exact settings_precision. Qed.
(** With any number of digits, the compiler ends with an exception. *)
Theorem C72_fraction_refuted : forall d, (forall x, In x d -> exists z, digit_char x z) ->
  settings (tx "Basic=Time Time=HMSF" ++ d ++ tx " Local-or-UTC=L") = Crash.
Proof. exact settings_fraction. Qed.
Example C72_fraction_ex : settings (tx "Basic=Time Time=HMSF3 Local-or-UTC=L") = Crash.
Proof. vm_compute. reflexivity. Qed.
(** The setting of the time first: refused. *)
Theorem C72_fraction_first_refuted : settings (tx "Time=HMSF3 Basic=Time Local-or-UTC=L") = Invalid.
Proof. vm_compute. reflexivity. Qed.

(** * Assumptions of all theorems above *)
Definition theorems31 := (
  @C72_words, @C72_combinations, @C72_exact, @C72_blanks_refuted, @C72_line_end_refuted, @C72_precision,
  @C72_fraction_refuted, @C72_fraction_first_refuted).
Print Assumptions theorems31.
