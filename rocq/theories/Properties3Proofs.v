(** Remaining proofs for Properties3.v. *)
From Verif Require Import Base Bits StrSpec BitStream Ints Octets OidSpec Oid Misc Contracts Parse.
From Verif Require Import BitsProofs IntsProofs HistoryProofs OctetsProofs MiscProofs OidProofs.
From Coq Require Import ZifyBool ZifyNat.
Ltac Zify.zify_post_hook ::= Z.div_mod_to_equations.

(** Decoding after any encoder/decoder pair with the same bits. *)
Lemma e2e : forall {A B} (enc : M A) (dec : M B) a v bs mem N, writes enc a bs -> reads dec v bs ->
  Forall is_byte mem -> 0 <= N <= Z.of_nat (length mem) -> Z.of_nat (length bs) <= 8 * N ->
  exists s0 s1, BitStream_Init mem N = Ok s0 /\ enc s0 = Ok (a, s1) /\
    forall tail, Forall is_byte tail -> exists s2,
      dec (BitStream_AttachBuffer (firstn (Z.to_nat (BitStream_GetLength s1)) (buf s1) ++ tail) (BitStream_GetLength s1))
      = Ok (v, s2) /\ pos s2 = pos s1.
Proof.
  intros A B enc dec a v bs mem N HW HR HM HN HL.
  destruct (end_to_end enc dec a v bs mem N HW HR HM HN HL) as (s0 & s1 & E0 & E1 & H). cbv zeta in H.
  exists s0, s1. splits; auto. apply H.
Qed.

Lemma subids_exist : forall vs, Forall is_u64 vs -> exists ls, Forall2 is_subid vs ls.
Proof.
  induction 1; [exists []; auto|]. destruct IHForall as (ls & HL). destruct (subid_exists x H) as (l0 & Hl & _).
  exists (l0 :: ls). auto.
Qed.

(** The value of an object identifier as held in the struct. *)
Lemma oid_split : forall n (values : list Z), 2 <= n <= 20 -> length values = 20%nat ->
  exists a b vs rest, values = a :: b :: vs ++ rest /\ n = Z.of_nat (2 + length vs) /\
    firstn (Z.to_nat n) values = a :: b :: vs.
Proof.
  intros n values Hn HL. destruct values as [|a [|b t]]; cbn in HL; try lia.
  exists a, b, (firstn (Z.to_nat (n - 2)) t), (skipn (Z.to_nat (n - 2)) t). rewrite firstn_skipn. splits; auto.
  - rewrite firstn_length. lia.
  - replace (Z.to_nat n) with (S (S (Z.to_nat (n - 2)))) by lia. reflexivity.
Qed.

Lemma C14_oid : forall c n values mem N, length values = 20%nat -> Forall is_u64 values -> n <= 20 ->
  ObjectIdentifier_isValid n values = Ok true ->
  exists ls, Forall2 is_subid (40 * nth 0 values 0 + nth 1 values 0 :: skipn 2 (firstn (Z.to_nat n) values)) ls /\
    let bs := frag (octets (concat ls)) in
    (Forall is_byte mem -> 0 <= N <= Z.of_nat (length mem) -> Z.of_nat (length bs) <= 8 * N ->
     exists s0 s1, BitStream_Init mem N = Ok s0 /\ ObjectIdentifier_uper_encode c n values s0 = Ok (tt, s1) /\
       pos s1 = Z.of_nat (length bs) /\ take_bits (Z.of_nat (length bs)) (buf s1) = bs /\
       forall tail, Forall is_byte tail -> exists s2,
         ObjectIdentifier_uper_decode c
           (BitStream_AttachBuffer (firstn (Z.to_nat (BitStream_GetLength s1)) (buf s1) ++ tail) (BitStream_GetLength s1))
         = Ok (Some (n, firstn (Z.to_nat n) values ++ repeat 0 (Z.to_nat (20 - n))), s2) /\ pos s2 = pos s1).
Proof.
  intros c n values mem N HL HU Hn HV. unfold ObjectIdentifier_isValid in HV.
  destruct (2 <=? n) eqn:E2; [|discriminate].
  destruct (oid_split n values ltac:(lia) HL) as (a & b & vs & rest & -> & EN & EF).
  rewrite EF. cbn [nth skipn]. unfold nthZ in HV. cbn [Z.ltb Z.compare Z.to_nat nth_error obind] in HV.
  destruct (a <=? 2) eqn:Ea; [|discriminate]. change (Pos.to_nat 1) with 1%nat in HV. cbn [nth_error obind] in HV.
  injection HV as Eb. inversion HU as [|? ? Ha HU1]; subst. inversion HU1 as [|? ? Hb HU2]; subst.
  apply Forall_app in HU2. destruct HU2 as [HU2 _].
  assert (Hab : is_u64 (40 * a + b)) by (unfold is_u64, two64 in *; lia).
  destruct (subids_exist (40 * a + b :: vs)) as (ls & HF); [constructor; auto|].
  exists ls. split; auto. cbv zeta. intros HM HN HB.
  pose proof (writes_ObjectIdentifier c a b vs ls rest Ha Hb Hab HU2 HF ltac:(lia)) as HW.
  assert (Ha0 : 0 <= a) by apply Ha. assert (Hb0 : 0 <= b < 40) by (unfold is_u64 in Hb; lia).
  pose proof (reads_ObjectIdentifier c a b vs ls Ha0 Hb0 Hab HU2 HF ltac:(lia)) as HR.
  destruct (e2e _ _ _ _ _ mem N HW HR HM HN HB) as (s0 & s1 & E0 & E1 & H).
  destruct (run_writes _ _ _ mem N HW HM HN HB) as (s0' & s1' & F0 & F1 & _ & F3 & F4 & F5 & _ & F6 & _).
  rewrite E0 in F0. injection F0 as <-. rewrite E1 in F1. injection F1 as <-.
  exists s0, s1. splits; auto.
  - unfold take_bits. rewrite Nat2Z.id. rewrite bits_of_bytes_firstn in F6.
    replace (firstn (length (frag (octets (concat ls)))) (bits_of_bytes (buf s1)))
      with (firstn (length (frag (octets (concat ls)))) (firstn (8 * Z.to_nat N) (bits_of_bytes (buf s1)))).
    + rewrite F6. apply firstn_app_exact.
    + rewrite firstn_firstn. f_equal. lia.
  - intros tail HT. destruct (H tail HT) as (s2 & D & P). exists s2. split; auto. rewrite D.
    replace (Z.to_nat (20 - Z.of_nat (2 + length vs))) with (18 - length vs)%nat by lia. reflexivity.
Qed.

Lemma C14_relative : forall c n values mem N, length values = 20%nat -> Forall is_u64 values -> n <= 20 ->
  RelativeOID_isValid n = true ->
  exists ls, Forall2 is_subid (firstn (Z.to_nat n) values) ls /\
    let bs := frag (octets (concat ls)) in
    (Forall is_byte mem -> 0 <= N <= Z.of_nat (length mem) -> Z.of_nat (length bs) <= 8 * N ->
     exists s0 s1, BitStream_Init mem N = Ok s0 /\ RelativeOID_uper_encode c n values s0 = Ok (tt, s1) /\
       pos s1 = Z.of_nat (length bs) /\ take_bits (Z.of_nat (length bs)) (buf s1) = bs /\
       forall tail, Forall is_byte tail -> exists s2,
         RelativeOID_uper_decode c
           (BitStream_AttachBuffer (firstn (Z.to_nat (BitStream_GetLength s1)) (buf s1) ++ tail) (BitStream_GetLength s1))
         = Ok (Some (n, firstn (Z.to_nat n) values ++ repeat 0 (Z.to_nat (20 - n))), s2) /\ pos s2 = pos s1).
Proof.
  intros c n values mem N HL HU Hn HV. unfold RelativeOID_isValid in HV.
  set (vs := firstn (Z.to_nat n) values) in *.
  assert (LV : length vs = Z.to_nat n) by (unfold vs; rewrite firstn_length; lia).
  assert (HU2 : Forall is_u64 vs) by (apply Forall_first; auto).
  assert (EV : values = vs ++ skipn (Z.to_nat n) values) by (unfold vs; now rewrite firstn_skipn).
  destruct (subids_exist vs HU2) as (ls & HF). exists ls. split; auto. cbv zeta. intros HM HN HB.
  pose proof (writes_RelativeOID c vs ls (skipn (Z.to_nat n) values) HU2 HF ltac:(lia)) as HW.
  rewrite <- EV in HW. replace (Z.of_nat (length vs)) with n in HW by lia.
  pose proof (reads_RelativeOID c vs ls HU2 HF ltac:(lia)) as HR.
  destruct (e2e _ _ _ _ _ mem N HW HR HM HN HB) as (s0 & s1 & E0 & E1 & H).
  destruct (run_writes _ _ _ mem N HW HM HN HB) as (s0' & s1' & F0 & F1 & _ & F3 & F4 & F5 & _ & F6 & _).
  rewrite E0 in F0. injection F0 as <-. rewrite E1 in F1. injection F1 as <-.
  exists s0, s1. splits; auto.
  - unfold take_bits. rewrite Nat2Z.id. rewrite bits_of_bytes_firstn in F6.
    replace (firstn (length (frag (octets (concat ls)))) (bits_of_bytes (buf s1)))
      with (firstn (length (frag (octets (concat ls)))) (firstn (8 * Z.to_nat N) (bits_of_bytes (buf s1)))).
    + rewrite F6. apply firstn_app_exact.
    + rewrite firstn_firstn. f_equal. lia.
  - intros tail HT. destruct (H tail HT) as (s2 & D & P). exists s2. split; auto. rewrite D.
    repeat f_equal; lia.
Qed.
