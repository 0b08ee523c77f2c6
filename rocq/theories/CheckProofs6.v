(** The comparisons of values that only other notations reach: strings, INTEGER with REAL, BIT STRING
    with OCTET STRING, and names without a value. *)
From Verif Require Import Check CheckSpec.
From Coq Require Import List String Ascii Bool Arith ZArith QArith Lia.
Import ListNotations.
Local Open Scope list_scope.

Lemma before_cons : forall c a b, string_before (String c a) (String c b) <-> string_before a b.
Proof.
  intros c a b. split.
  - intros [p [[E [d [r F]]]|[d [e [r [s [E [F L]]]]]]]].
    + subst p. cbn in F. injection F as F. exists a. left. split; [reflexivity|]. now exists d, r.
    + destruct p as [|x p]; cbn in E, F.
      * injection E as -> ->. injection F as -> ->. lia.
      * injection E as -> ->. injection F as F. exists p. right. now exists d, e, r, s.
  - intros [p [[E [d [r F]]]|[d [e [r [s [E [F L]]]]]]]]; exists (String c p).
    + left. subst p. split; [reflexivity|]. exists d, r. now rewrite F.
    + right. exists d, e, r, s. rewrite E, F. auto.
Qed.
Lemma str_cmp_order : forall a b, (str_cmp a b = Eq <-> a = b) /\ (str_cmp a b = Lt <-> string_before a b) /\ (str_cmp a b = Gt <-> string_before b a).
Proof.
  assert (NE : forall s, ~ string_before s EmptyString).
  { intros s [p [[_ [c [r E]]]|[c [d [r [t [_ [E _]]]]]]]]; destruct p; discriminate. }
  induction a as [|c a IH]; intros [|d b]; cbn [str_cmp].
  - split; [tauto|]. split; (split; [discriminate|intros H; exfalso; eapply NE; exact H]).
  - split; [split; discriminate|]. split.
    + split; [|reflexivity]. intros _. exists EmptyString. left. split; [reflexivity|]. now exists d, b.
    + split; [discriminate|]. intros H. exfalso. eapply NE. exact H.
  - split; [split; discriminate|]. split.
    + split; [discriminate|]. intros H. exfalso. eapply NE. exact H.
    + split; [|reflexivity]. intros _. exists EmptyString. left. split; [reflexivity|]. now exists c, a.
  - assert (H2 : forall c d a b, (nat_of_ascii d < nat_of_ascii c)%nat -> ~ string_before (String c a) (String d b)).
    { clear. intros c d a b L [p [[E [x [r F]]]|[x [y [r [s [E [F L2]]]]]]]].
      - subst p. cbn in F. injection F as -> _. lia.
      - destruct p as [|z p]; cbn in E, F; injection E as -> _; injection F as -> _; lia. }
    assert (H1 : forall c d a b, (nat_of_ascii c < nat_of_ascii d)%nat -> string_before (String c a) (String d b)).
    { clear. intros c d a b L. exists EmptyString. right. now exists c, d, a, b. }
    destruct (Nat.compare_spec (nat_of_ascii c) (nat_of_ascii d)) as [E|L|L].
    + assert (c = d) by (rewrite <- (ascii_nat_embedding c), <- (ascii_nat_embedding d); now rewrite E). subst d.
      rewrite !before_cons. destruct (IH b) as [A [B C]]. split; [|tauto]. rewrite A. split; congruence.
    + split; [split; [discriminate|]; intros H; injection H as -> _; lia|]. split.
      * split; [|reflexivity]. intros _. now apply H1.
      * split; [discriminate|]. intros H. exfalso. revert H. now apply H2.
    + split; [split; [discriminate|]; intros H; injection H as -> _; lia|]. split.
      * split; [discriminate|]. intros H. exfalso. revert H. now apply H2.
      * split; [|reflexivity]. intros _. now apply H1.
Qed.

Lemma truncQ_whole : forall q z, truncQ q = z <-> whole_part q z.
Proof.
  intros [n d] z. unfold truncQ, whole_part, Qle, Qlt, inject_Z. cbn [Qnum Qden]. rewrite !Z.mul_1_r, Z.mul_0_l.
  pose proof (Z.quot_rem' n (Z.pos d)) as E. split.
  - intros <-. destruct (Z_le_gt_dec 0 n) as [P|N].
    + pose proof (Z.rem_bound_pos n (Z.pos d) P eq_refl) as R. split; intros; [|assert (n = 0)%Z by lia; subst n; rewrite Z.quot_0_l by discriminate]; nia.
    + pose proof (Z.rem_bound_pos_neg n (Z.pos d) eq_refl ltac:(lia)) as R. split; intros; [lia|]. nia.
  - intros [A B]. destruct (Z_le_gt_dec 0 n) as [P|N].
    + pose proof (Z.rem_bound_pos n (Z.pos d) P eq_refl) as R. specialize (A P). nia.
    + pose proof (Z.rem_bound_pos_neg n (Z.pos d) eq_refl ltac:(lia)) as R. assert (n <= 0)%Z by lia. specialize (B H). nia.
Qed.

Definition value8 (l : list bool) : Z := fold_left (fun a (b : bool) => (2 * a + if b then 1 else 0)%Z) l 0%Z.
Lemma value8_bits : forall a b c d e f g h, let l := [a; b; c; d; e; f; g; h] in octet_bits 8 (value8 l) = l /\ (0 <= value8 l < 256)%Z.
Proof. intros [] [] [] [] [] [] [] []; vm_compute; intuition congruence. Qed.
Lemma byte_fills : forall fuel l, (List.length l <= fuel)%nat -> fills l (bits_bytes fuel l).
Proof.
  induction fuel as [|f IH]; intros l L.
  - destruct l; [|cbn in L; lia]. split; [constructor|]. exists 0%nat. split; [lia|reflexivity].
  - destruct l as [|x l]; [split; [constructor|]; exists 0%nat; split; [lia|reflexivity]|].
    assert (G : exists a b c d e g h i pad, (pad < 8)%nat /\ firstn 8 ((x :: l) ++ repeat false 7) = [a; b; c; d; e; g; h; i] /\
      [a; b; c; d; e; g; h; i] ++ skipn 8 (x :: l) = (x :: l) ++ repeat false pad /\ (pad = 0%nat \/ skipn 8 (x :: l) = [])).
    { do 7 (destruct l as [|? l]; [match goal with |- context [firstn 8 (?L ++ _)] => eexists _, _, _, _, _, _, _, _, (8 - List.length L)%nat end;
        split; [cbn; lia|split; [reflexivity|split; [reflexivity|right; reflexivity]]]|]).
      eexists _, _, _, _, _, _, _, _, 0%nat. split; [lia|]. split; [reflexivity|]. split; [cbn; now rewrite app_nil_r|now left]. }
    destruct G as [a [b [c [d [e [g [h [i [pad [P [F [SK ZP]]]]]]]]]]]].
    destruct (value8_bits a b c d e g h i) as [V1 V2].
    assert (L2 : (List.length (skipn 8 (x :: l)) <= f)%nat) by (rewrite skipn_length; cbn in *; lia).
    destruct (IH _ L2) as [I1 [pad2 [I2 I3]]].
    assert (E : bits_bytes (S f) (x :: l) = value8 [a; b; c; d; e; g; h; i] :: bits_bytes f (skipn 8 (x :: l)))
      by (cbn [bits_bytes]; rewrite F; reflexivity).
    rewrite E. split; [constructor; assumption|].
    cbn [flat_map]. rewrite V1, I3. destruct ZP as [->|ZP].
    + exists pad2. split; [assumption|]. rewrite app_assoc, SK. cbn [repeat]. now rewrite app_nil_r.
    + rewrite ZP in *. exists pad. split; [assumption|]. rewrite app_nil_r in SK. rewrite <- SK.
      assert (pad2 = 0%nat).
      { assert (X : bits_bytes f [] = []) by (destruct f; reflexivity). rewrite X in I3. cbn in I3. destruct pad2; [reflexivity|discriminate]. }
      subst pad2. reflexivity.
Qed.
Lemma octet_bits_inj : forall y z, (0 <= y < 256)%Z -> (0 <= z < 256)%Z -> octet_bits 8 y = octet_bits 8 z -> y = z.
Proof.
  assert (V : forall y, (0 <= y < 256)%Z -> value8 (octet_bits 8 y) = y).
  { intros y H. assert (A : forallb (fun n => Z.eqb (value8 (octet_bits 8 (Z.of_nat n))) (Z.of_nat n)) (seq 0 256) = true) by (vm_compute; reflexivity).
    rewrite forallb_forall in A. specialize (A (Z.to_nat y)). rewrite Z2Nat.id in A by lia. apply Z.eqb_eq, A. apply in_seq. lia. }
  intros y z Hy Hz E. rewrite <- (V y Hy), <- (V z Hz), E. reflexivity.
Qed.
Lemma flat_inj : forall o o', Forall (fun z => 0 <= z < 256)%Z o -> Forall (fun z => 0 <= z < 256)%Z o' ->
  flat_map (octet_bits 8) o = flat_map (octet_bits 8) o' -> o = o'.
Proof.
  induction o as [|x o IH]; intros [|y o'] A B E; try reflexivity; try discriminate.
  inversion A; inversion B; subst. change (octet_bits 8 x ++ flat_map (octet_bits 8) o = octet_bits 8 y ++ flat_map (octet_bits 8) o') in E.
  assert (E1 : octet_bits 8 x = octet_bits 8 y) by exact (f_equal (firstn 8) E).
  assert (E2 : flat_map (octet_bits 8) o = flat_map (octet_bits 8) o') by (rewrite E1 in E; now apply app_inv_head in E).
  f_equal; [now apply octet_bits_inj|now apply IH].
Qed.
Lemma flat_length : forall o, List.length (flat_map (octet_bits 8) o) = (8 * List.length o)%nat.
Proof. induction o as [|x o IH]; [reflexivity|]. cbn [flat_map]. rewrite app_length, IH. cbn [List.length octet_bits]. lia. Qed.
Lemma byte_array_fills : forall a o, byte_array a = o <-> fills a o.
Proof.
  intros a o. pose proof (byte_fills (List.length a) a (le_n _)) as [F [p [P E]]]. unfold byte_array. split.
  - intros <-. split; [assumption|]. now exists p.
  - intros [F' [q [Q E']]]. apply flat_inj; try assumption. rewrite E, E'. f_equal. f_equal.
    apply (f_equal (@List.length bool)) in E. apply (f_equal (@List.length bool)) in E'.
    rewrite flat_length, app_length, repeat_length in E, E'. lia.
Qed.

Lemma other_equal : forall valof f en z q a o,
  (values_equal valof (S f) en (XInt z) (XReal q) = Done true <-> whole_part q z) /\
  (values_equal valof (S f) en (XReal q) (XInt z) = Done true <-> whole_part q z) /\
  (values_equal valof (S f) en (XBits a) (XOcts o) = Done true <-> fills a o) /\
  (values_equal valof (S f) en (XOcts o) (XBits a) = Done true <-> fills a o).
Proof.
  intros valof f en z q a o. cbn [values_equal]. rewrite <- truncQ_whole, <- byte_array_fills.
  split; [|split; [|split]].
  - destruct (Z.eqb_spec z (truncQ q)); split; congruence.
  - destruct (Z.eqb_spec (truncQ q) z); split; congruence.
  - destruct (list_eq_dec Z.eq_dec (byte_array a) o); split; congruence.
  - destruct (list_eq_dec Z.eq_dec o (byte_array a)); split; congruence.
Qed.
Lemma string_order : forall valof f a b,
  (compare_values valof (S f) (XStr a) (XStr b) = Done Eq <-> a = b) /\
  (compare_values valof (S f) (XStr a) (XStr b) = Done Lt <-> string_before a b) /\
  (compare_values valof (S f) (XStr a) (XStr b) = Done Gt <-> string_before b a).
Proof.
  intros valof f a b. cbn [compare_values]. destruct (str_cmp_order a b) as [A [B C]].
  split; [|split]; (split; [intros H; injection H as H; tauto|intros H; f_equal; tauto]).
Qed.
Lemma unknown_value : forall valof f m n w, valof m n = None -> (forall m' n', w <> XRef m' n') ->
  values_equal valof (S f) false (XRef m n) w = Raise /\ values_equal valof (S f) false w (XRef m n) = Raise /\
  compare_values valof (S f) (XRef m n) w = Raise /\ compare_values valof (S f) w (XRef m n) = Raise.
Proof.
  intros valof f m n w V N. cbn [values_equal compare_values]. unfold base_value. rewrite V.
  destruct w; try (exfalso; eapply N; reflexivity); auto.
Qed.
