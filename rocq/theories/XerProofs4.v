(** XER leaf decoders on the texts of the encoders. *)
From Verif Require Import Base Bits BitsProofs BitStreamProofs IntsProofs OctetsProofs OctetsProofs2 ByteStream ByteStreamProofs XerSpec Xer XerProofs XerProofs2 XerProofs3.
From Coq Require Import ZifyBool ZifyNat.
Ltac Zify.zify_post_hook ::= Z.div_mod_to_equations.

Lemma xreads_lift : forall A C (m : outcome C) x (k : C -> B A) a bs rest,
  m = Ok x -> xreads (k x) a bs rest -> xreads (bbind (blift m) k) a bs rest.
Proof. intros A C m x k a bs rest -> H. exact H. Qed.

Lemma cstr_id : forall l, Forall (fun c => c <> 0) l -> cstr l = l.
Proof.
  induction l as [|c l IH]; intros F; [reflexivity|]. inversion F; subst. cbn [cstr]. replace (c =? 0) with false by lia. now rewrite IH.
Qed.

(** ** Integers *)
Lemma numeral_chars : forall v t, numeral v t -> Forall (fun c => 45 <= c <= 57) t.
Proof.
  intros v t (ds & F & N & Hn & L & ->). apply Forall_app. split; [destruct (v <? 0); [constructor; [lia|constructor]|constructor]|].
  apply Forall_map. eapply Forall_impl; [|exact F]. cbv beta. intros; lia.
Qed.
Lemma horner_len : forall ds, Forall (fun d => 0 <= d <= 9) ds -> (hd 0 ds = 0 -> ds = [0]) -> ds <> [] ->
  horner ds < two64 -> (length ds <= 20)%nat.
Proof.
  intros ds F H0 N U.
  assert (P : forall l a, Forall (fun d => 0 <= d <= 9) l -> 0 <= a -> a * 10 ^ Z.of_nat (length l) <= fold_left (fun a d => 10 * a + d) l a).
  { clear. induction l as [|d l IH]; intros a F A; cbn [length fold_left]; [cbn; lia|]. inversion F; subst.
    specialize (IH (10 * a + d) ltac:(assumption) ltac:(lia)). replace (Z.of_nat (S (length l))) with (Z.of_nat (length l) + 1) by lia.
    rewrite Z.pow_add_r by lia. change (10 ^ 1) with 10. pose proof (Z.pow_pos_nonneg 10 (Z.of_nat (length l))).
    rewrite Z.mul_add_distr_r in IH. nia. }
  destruct ds as [|d ds]; [congruence|]. inversion F; subst. destruct (Z.eq_dec d 0) as [->|D].
  - cbn in H0. rewrite (H0 eq_refl). cbn. lia.
  - specialize (P ds d ltac:(assumption) ltac:(lia)). unfold horner in U. cbn [fold_left] in U. rewrite Z.mul_0_r, Z.add_0_l in U.
    destruct (Z_le_gt_dec 20 (Z.of_nat (length ds))); [|cbn; lia].
    assert (10 ^ 20 <= 10 ^ Z.of_nat (length ds)) by (apply Z.pow_le_mono_r; lia). unfold two64 in U.
    change (10 ^ 20) with 100000000000000000000 in *. nia.
Qed.
Lemma numeral_len : forall v t, - two64 < v < two64 -> numeral v t -> (length t <= 21)%nat.
Proof.
  intros v t V (ds & F & N & Hn & L & ->). rewrite app_length, map_length. pose proof (horner_len ds F L N ltac:(lia)).
  destruct (v <? 0); cbn; lia.
Qed.
Lemma read_integer : forall L w t v txt rest, Forall white w -> name_ok t -> is_s64 v -> numeral v txt ->
  xreads (Xer_DecodeInteger L t) (Some v) (w ++ element t txt) rest.
Proof.
  intros L w t v txt rest W T V N. unfold Xer_DecodeInteger. pose proof (numeral_chars v txt N) as C. eapply xreads_eq; [apply app_nil_r|].
  eapply xreads_opt; [apply read_primitive_element; [exact W|exact T|eapply Forall_impl; [|exact C]; cbn; lia|]|].
  - pose proof (numeral_len v txt ltac:(unfold is_s64, two63, two64 in *; lia) N). lia.
  - eapply xreads_lift; [|apply xreads_ret]. rewrite cstr_id by (eapply Forall_impl; [|exact C]; cbn; lia).
    apply atoll_numeral; assumption.
Qed.
Lemma read_pos_integer : forall L w t v txt rest, Forall white w -> name_ok t -> is_u64 v -> numeral v txt ->
  xreads (Xer_DecodePosInteger L t) (Some v) (w ++ element t txt) rest.
Proof.
  intros L w t v txt rest W T V N. unfold Xer_DecodePosInteger. pose proof (numeral_chars v txt N) as C. eapply xreads_eq; [apply app_nil_r|].
  eapply xreads_opt; [apply read_primitive_element; [exact W|exact T|eapply Forall_impl; [|exact C]; cbn; lia|]|].
  - pose proof (numeral_len v txt ltac:(unfold is_u64, two64 in *; lia) N). lia.
  - rewrite cstr_id by (eapply Forall_impl; [|exact C]; cbn; lia). rewrite (strtoull_numeral v txt V N). apply xreads_ret.
Qed.
Lemma read_null : forall L w t rest, Forall white w -> name_ok t ->
  xreads (Xer_DecodeNull L t) (Some tt) (w ++ empty_tag t) rest.
Proof.
  intros L w t rest W T. unfold Xer_DecodeNull. eapply xreads_eq; [apply app_nil_r|].
  eapply xreads_opt; [apply read_primitive_empty; [assumption..|lia]|]. apply xreads_ret.
Qed.
Lemma read_string : forall L w t v max rest, Forall white w -> name_ok t -> Forall (fun c => c <> 60) v -> Z.of_nat (length v) < max ->
  xreads (Xer_DecodeString L t max) (Some v) (w ++ text_element t v) rest.
Proof. intros. apply read_primitive; assumption. Qed.

(** ** Booleans and enumerated values: [outer] is the element they stand in, or
    nothing. *)
Lemma t_true_ok : name_ok t_true.
Proof. split; [discriminate|]. split; [cbn; lia|]. unfold id_char. repeat constructor; lia. Qed.
Lemma t_false_ok : name_ok t_false.
Proof. split; [discriminate|]. split; [cbn; lia|]. unfold id_char. repeat constructor; lia. Qed.
Definition outer_ok (t : list Z) : Prop := t = [] \/ name_ok t.
Definition inside (t body : list Z) : list Z := match t with [] => body | _ => element t body end.

Lemma xreads_peek_opt : forall A C (f : B (option A)) a p (k : A -> B (option C)) c q rest,
  peeks f (Some a) p (q ++ rest) -> xreads (k a) c (p ++ q) rest -> xreads (bopt f k) c (p ++ q) rest.
Proof. intros. unfold bopt. eapply xreads_peek; eassumption. Qed.

Lemma read_boolean : forall L w t b rest, Forall white w -> outer_ok t ->
  xreads (Xer_DecodeBoolean L t) (Some b) (w ++ inside t (empty_tag (bool_name b))) rest.
Proof.
  intros L w t b rest W T. unfold Xer_DecodeBoolean.
  assert (N : name_ok (bool_name b)) by (destruct b; [apply t_true_ok|apply t_false_ok]).
  assert (E : list_eqb (bool_name b) t_true = b) by (destruct b; reflexivity).
  assert (I : forall (w : list Z) (k : B (option bool)) c q, Forall white w -> xreads k c q rest ->
    xreads (do? t0 := Xer_LA_NextElementTag L in
            let v := list_eqb t0 t_true in
            do? _ := Xer_DecodePrimitiveElement L (if v then t_true else t_false) 256 in (if Bool.eqb v b then k else bret None))
      c (w ++ empty_tag (bool_name b) ++ q) rest).
  { intros w' k c q W' K. rewrite app_assoc. eapply xreads_peek_opt.
    - apply (peeks_tag L w' (bool_name b) true _ W' N).
    - cbv zeta. rewrite E. rewrite Bool.eqb_reflx. change (if b then t_true else t_false) with (bool_name b).
      eapply xreads_opt; [apply read_primitive_empty; [assumption..|lia]|]. exact K. }
  assert (I' : forall w q, Forall white w -> xreads (Xer_DecodeComplexElementEnd L t) (Some tt) q rest ->
    xreads (do? t0 := Xer_LA_NextElementTag L in
            let v := list_eqb t0 t_true in
            do? _ := Xer_DecodePrimitiveElement L (if v then t_true else t_false) 256 in
            do? _ := Xer_DecodeComplexElementEnd L t in bret (Some v)) (Some b) (w ++ empty_tag (bool_name b) ++ q) rest).
  { intros w' q W' K. rewrite app_assoc. eapply xreads_peek_opt.
    - apply (peeks_tag L w' (bool_name b) true _ W' N).
    - cbv zeta. rewrite E. change (if b then t_true else t_false) with (bool_name b).
      eapply xreads_opt; [apply read_primitive_empty; [assumption..|lia]|].
      eapply xreads_eq; [apply app_nil_r|]. eapply xreads_opt; [exact K|]. apply xreads_ret. }
  clear I. destruct T as [->|T].
  - cbn [inside]. rewrite <- (app_nil_r (empty_tag _)). change (w ++ empty_tag (bool_name b) ++ []) with ([] ++ (w ++ empty_tag (bool_name b) ++ [])).
    eapply xreads_opt; [apply xreads_ret|]. apply (I' w [] W). apply xreads_ret.
  - replace (inside t (empty_tag (bool_name b))) with (element t (empty_tag (bool_name b))) by (destruct t; [destruct T; congruence|reflexivity]).
    unfold element. rewrite app_assoc. eapply xreads_opt; [apply (read_start L w t None _ W T)|].
    apply (I' [] (close_tag t) (Forall_nil _)). apply (read_end L [] t rest (Forall_nil _) T).
Qed.
Lemma read_enumerated : forall L w t n rest, Forall white w -> outer_ok t -> name_ok n ->
  xreads (Xer_DecodeEnumerated L t) (Some n) (w ++ inside t (empty_tag n)) rest.
Proof.
  intros L w t n rest W T N. unfold Xer_DecodeEnumerated.
  assert (I' : forall w q, Forall white w -> xreads (Xer_DecodeComplexElementEnd L t) (Some tt) q rest ->
    xreads (do? t0 := Xer_LA_NextElementTag L in
            do? _ := Xer_DecodePrimitiveElement L t0 256 in
            do? _ := Xer_DecodeComplexElementEnd L t in bret (Some t0)) (Some n) (w ++ empty_tag n ++ q) rest).
  { intros w' q W' K. rewrite app_assoc. eapply xreads_peek_opt.
    - apply (peeks_tag L w' n true _ W' N).
    - eapply xreads_opt; [apply read_primitive_empty; [assumption..|lia]|].
      eapply xreads_eq; [apply app_nil_r|]. eapply xreads_opt; [exact K|]. apply xreads_ret. }
  destruct T as [->|T].
  - cbn [inside]. rewrite <- (app_nil_r (empty_tag _)). change (w ++ empty_tag n ++ []) with ([] ++ (w ++ empty_tag n ++ [])).
    eapply xreads_opt; [apply xreads_ret|]. apply (I' w [] W). apply xreads_ret.
  - replace (inside t (empty_tag n)) with (element t (empty_tag n)) by (destruct t; [destruct T; congruence|reflexivity]).
    unfold element. rewrite app_assoc. eapply xreads_opt; [apply (read_start L w t None _ W T)|].
    apply (I' [] (close_tag t) (Forall_nil _)). apply (read_end L [] t rest (Forall_nil _) T).
Qed.

(** ** Octet strings *)
Lemma unspaced_id : forall L l, Forall (fun c => 33 <= c < 127) l -> unspaced L l = Ok l.
Proof.
  induction l as [|c l IH]; intros F; [reflexivity|]. inversion F; subst. cbn [unspaced]. unfold isspace_c, char_ok.
  replace (any_char L || (c <? 128) || _) with true by lia. unfold isspace. replace ((c =? 32) || _) with false by lia.
  cbn [obind]. rewrite IH by assumption. reflexivity.
Qed.
Lemma nth_hex : forall n, 0 <= n < 16 ->
  let c := nth (Z.to_nat n) hex_alphabet 0 in 48 <= c <= 70 /\ c <> 60 /\ CharToNibble c = Some n.
Proof.
  intros n H. assert (C : exists k, (k < 16)%nat /\ n = Z.of_nat k) by (exists (Z.to_nat n); lia).
  destruct C as (k & K & ->). rewrite Nat2Z.id. cbv zeta.
  do 16 (destruct k as [|k]; [split; [cbn; lia|split; [cbn; lia|reflexivity]]|]). lia.
Qed.
Lemma hex_chars : forall l, Forall is_byte l -> Forall (fun c => 48 <= c <= 70 /\ c <> 60) (hex_text l).
Proof.
  induction l as [|b l IH]; intros F; [constructor|]. inversion F; subst. unfold is_byte in *. unfold hex_text. cbn [flat_map app].
  constructor; [|constructor; [|apply IH; assumption]].
  - destruct (nth_hex (b / 16) ltac:(lia)) as (A & C & _). auto.
  - destruct (nth_hex (b mod 16) ltac:(lia)) as (A & C & _). auto.
Qed.
Lemma hex_len : forall l, length (hex_text l) = (2 * length l)%nat.
Proof. induction l as [|b l IH]; [reflexivity|]. unfold hex_text in *. cbn [flat_map app length]. rewrite IH. lia. Qed.
Lemma lor_low : forall a n, 0 <= a < 16 -> 0 <= n < 16 -> Z.lor (byte_of (Z.shiftl a 4)) n = 16 * a + n.
Proof.
  intros a n A N. unfold byte_of. rewrite Z.shiftl_mul_pow2 by lia. rewrite Z.mod_small by (change (2 ^ 4) with 16; lia).
  rewrite lor_add by (change (2 ^ 4) with 16; lia). change (2 ^ 4) with 16. lia.
Qed.
Lemma octet_loop_spec : forall l m old max q, Forall is_byte l -> length old = length l -> Z.of_nat (length m + length l) <= max ->
  octet_loop (hex_text l) (2 * Z.of_nat (length m)) max (m ++ old ++ q) = Ok (Some (m ++ l ++ q)).
Proof.
  induction l as [|b l IH]; intros m old max q F O M; [destruct old; [reflexivity|discriminate]|].
  destruct old as [|o old]; [discriminate|]. inversion F as [|? ? Fb Fl]; subst. unfold is_byte in Fb. unfold hex_text. cbn [flat_map app].
  destruct (nth_hex (b / 16) ltac:(lia)) as (_ & _ & C1). destruct (nth_hex (b mod 16) ltac:(lia)) as (_ & _ & C2).
  cbn [length] in *. cbn [octet_loop].
  replace (2 * Z.of_nat (length m) / 2) with (Z.of_nat (length m)) by lia.
  replace (Z.of_nat (length m) <? max) with true by lia. rewrite C1.
  replace (2 * Z.of_nat (length m) mod 2 =? 0) with true by lia. rewrite (updZ_app m o) by reflexivity. cbn [obind].
  replace ((2 * Z.of_nat (length m) + 1) / 2) with (Z.of_nat (length m)) by lia.
  replace (Z.of_nat (length m) <? max) with true by lia. rewrite C2.
  replace ((2 * Z.of_nat (length m) + 1) mod 2 =? 0) with false by lia.
  rewrite nthZ_nat by (rewrite app_length; cbn; lia). rewrite app_nth2 by lia. rewrite Nat.sub_diag. cbn [obind nth].
  rewrite (updZ_app m) by reflexivity. cbn [obind]. rewrite lor_low by lia. replace (16 * (b / 16) + b mod 16) with b by lia.
  assert (NX : 2 * Z.of_nat (length m) + 1 + 1 = 2 * Z.of_nat (length (m ++ [b]))) by (rewrite app_length; cbn [length]; lia).
  rewrite NX. change (m ++ b :: old ++ q) with (m ++ [b] ++ old ++ q). rewrite (app_assoc m [b]).
  etransitivity; [apply (IH (m ++ [b]) old max q); [assumption|lia|rewrite app_length; cbn [length]; lia]|]. now rewrite <- app_assoc.
Qed.
Lemma read_octets : forall L w t l value max rest, Forall white w -> name_ok t -> Forall is_byte l ->
  (length l <= 511)%nat -> (length l <= length value)%nat -> Z.of_nat (length l) <= max ->
  xreads (Xer_DecodeOctetString L t value max) (Some (l ++ skipn (length l) value, Z.of_nat (length l))) (w ++ element t (hex_text l)) rest.
Proof.
  intros L w t l value max rest W T F N V M. unfold Xer_DecodeOctetString. pose proof (hex_chars l F) as C.
  eapply xreads_eq; [apply app_nil_r|].
  eapply xreads_opt; [apply read_primitive_element; [exact W|exact T|eapply Forall_impl; [|exact C]; cbn; lia|rewrite hex_len; lia]|].
  rewrite cstr_id by (eapply Forall_impl; [|exact C]; cbn; lia).
  eapply xreads_lift; [apply unspaced_id; eapply Forall_impl; [|exact C]; cbn; lia|].
  unfold bopt. eapply xreads_lift.
  - rewrite <- (firstn_skipn (length l) value) at 1.
    apply (octet_loop_spec l [] (firstn (length l) value) max (skipn (length l) value) F); [rewrite firstn_length; lia|cbn [length]; lia].
  - cbv zeta. rewrite hex_len. replace (Z.of_nat (2 * length l) / 2 + Z.of_nat (2 * length l) mod 2) with (Z.of_nat (length l)) by lia.
    apply xreads_ret.
Qed.

(** ** Bit strings *)
Lemma bit_chunk : forall bs k m b q max l2, (k + length bs <= 8)%nat -> 0 <= b < 256 -> b mod 2 ^ (8 - Z.of_nat k) = 0 ->
  Z.of_nat (length m) < max ->
  bit_loop (bit_text bs ++ l2) (8 * Z.of_nat (length m) + Z.of_nat k) max (m ++ b :: q) =
  bit_loop l2 (8 * Z.of_nat (length m) + Z.of_nat (k + length bs)) max (m ++ (b + bval bs * 2 ^ (8 - Z.of_nat (k + length bs))) :: q).
Proof.
  induction bs as [|x bs IH]; intros k m b q max l2 K B D M.
  - cbn [bit_text map app length]. rewrite Nat.add_0_r. cbn [bval]. rewrite Z.mul_0_l, Z.add_0_r. reflexivity.
  - cbn [length] in K. change (bit_text (x :: bs) ++ l2) with ((if x then 49 else 48) :: bit_text bs ++ l2). cbn [bit_loop].
    replace ((8 * Z.of_nat (length m) + Z.of_nat k) / 8) with (Z.of_nat (length m)) by lia.
    replace ((8 * Z.of_nat (length m) + Z.of_nat k) mod 8) with (Z.of_nat k) by lia.
    replace (Z.of_nat (length m) <? max) with true by lia.
    rewrite nthZ_nat by (rewrite app_length; cbn; lia). rewrite app_nth2 by lia. rewrite Nat.sub_diag. cbn [obind nth].
    rewrite (updZ_app m) by reflexivity. cbn [obind].
    set (P := 2 ^ (7 - Z.of_nat k)).
    assert (P0 : 0 < P <= 128) by (unfold P; split; [apply Z.pow_pos_nonneg; lia|change 128 with (2 ^ 7); apply Z.pow_le_mono_r; lia]).
    assert (PP : 2 ^ (8 - Z.of_nat k) = 2 * P) by (unfold P; replace (8 - Z.of_nat k) with (1 + (7 - Z.of_nat k)) by lia; rewrite Z.pow_add_r by lia; reflexivity).
    assert (E : Z.lor b (byte_of (Z.shiftl (byte_of ((if x then 49 else 48) - 48)) (7 - Z.of_nat k))) = b + Z.b2z x * P).
    { replace (byte_of ((if x then 49 else 48) - 48)) with (Z.b2z x) by (destruct x; reflexivity).
      rewrite Z.shiftl_mul_pow2 by lia. fold P. unfold byte_of. rewrite Z.mod_small by (destruct x; cbn [Z.b2z]; lia).
      rewrite PP in D. replace b with ((b / (2 * P)) * 2 ^ (8 - Z.of_nat k)) by (rewrite PP; pose proof (Z.div_mod b (2 * P)); lia).
      apply lor_add; [lia|]. rewrite PP. destruct x; cbn [Z.b2z]; lia. }
    rewrite E.
    assert (Q : (8 * Z.of_nat (length m) + Z.of_nat k + 1) = 8 * Z.of_nat (length m) + Z.of_nat (S k)) by lia. rewrite Q.
    assert (EX : b = 2 * P * (b / (2 * P))) by (rewrite PP in D; pose proof (Z.div_mod b (2 * P)); lia).
    assert (PD : 256 = 2 * P * 2 ^ Z.of_nat k) by (rewrite <- PP, <- Z.pow_add_r by lia; replace (8 - Z.of_nat k + Z.of_nat k) with 8 by lia; reflexivity).
    assert (LE : b <= 256 - 2 * P).
    { clear - EX PD B P0. set (x := b / (2 * P)) in *. clearbody x. set (y := 2 ^ Z.of_nat k) in *. clearbody y.
      assert (x < y) by nia. nia. }
    rewrite (IH (S k)); [| lia | destruct x; cbn [Z.b2z]; lia | | exact M].
    + replace (S k + length bs)%nat with (k + length (x :: bs))%nat by (cbn [length]; lia).
      cbn [bval]. f_equal. f_equal. f_equal. rewrite Z.mul_add_distr_r.
      replace (if x then 2 ^ Z.of_nat (length bs) else 0) with (Z.b2z x * 2 ^ Z.of_nat (length bs)) by (destruct x; cbn [Z.b2z]; lia).
      rewrite <- Z.mul_assoc. rewrite <- Z.pow_add_r by (cbn [length]; lia).
      replace (Z.of_nat (length bs) + (8 - Z.of_nat (k + length (x :: bs)))) with (7 - Z.of_nat k) by (cbn [length]; lia). fold P. lia.
    + replace (8 - Z.of_nat (S k)) with (7 - Z.of_nat k) by lia. fold P. rewrite EX.
      replace (2 * P * (b / (2 * P)) + Z.b2z x * P) with ((2 * (b / (2 * P)) + Z.b2z x) * P) by ring. apply Z.mod_mul. lia.
Qed.
Lemma bit_loop_spec : forall n bs m max q, (length bs <= n)%nat -> Z.of_nat (length m + length (pack bs)) <= max ->
  bit_loop (bit_text bs) (8 * Z.of_nat (length m)) max (m ++ repeat 0 (length (pack bs)) ++ q) = Ok (m ++ pack bs ++ q).
Proof.
  induction n as [|n IH]; intros bs m max q N M.
  - destruct bs; [reflexivity|cbn in N; lia].
  - destruct (le_lt_dec 8 (length bs)) as [G|G].
    + assert (L1 : length (firstn 8 bs) = 8%nat) by (rewrite firstn_length; lia).
      rewrite <- (firstn_skipn 8 bs) in N, M |- *. set (b1 := firstn 8 bs) in *. set (b2 := skipn 8 bs) in *.
      rewrite pack_cons8 in M |- * by exact L1. cbn [length repeat app] in *. rewrite app_length in N.
      unfold bit_text. rewrite map_app. fold (bit_text b1) (bit_text b2).
      pose proof (bit_chunk b1 0 m 0 (repeat 0 (length (pack b2)) ++ q) max (bit_text b2) ltac:(lia) ltac:(lia) ltac:(reflexivity) ltac:(lia)) as C.
      rewrite L1 in C. cbn [Nat.add] in C. change (Z.of_nat 0) with 0 in C. change (2 ^ (8 - Z.of_nat 8)) with 1 in C.
      rewrite Z.add_0_r, Z.add_0_l, Z.mul_1_r in C. rewrite C.
      assert (NX : 8 * Z.of_nat (length m) + Z.of_nat 8 = 8 * Z.of_nat (length (m ++ [bval b1]))) by (rewrite app_length; cbn [length]; lia).
      rewrite NX. specialize (IH b2 (m ++ [bval b1]) max q ltac:(lia) ltac:(rewrite app_length; cbn [length]; lia)).
      rewrite <- !app_assoc in IH. exact IH.
    + destruct bs as [|x bs]; [reflexivity|]. set (b1 := x :: bs) in *.
      assert (L1 : (0 < length b1 < 8)%nat) by (cbn [b1 length] in *; lia).
      rewrite pack_short in M |- * by exact L1. cbn [length repeat app] in *.
      pose proof (bit_chunk b1 0 m 0 q max [] ltac:(lia) ltac:(lia) ltac:(reflexivity) ltac:(lia)) as C.
      rewrite app_nil_r in C. cbn [Nat.add] in C. change (Z.of_nat 0) with 0 in C.
      rewrite Z.add_0_r, Z.add_0_l in C. rewrite C. reflexivity.
Qed.
Lemma bit_chars : forall bs, Forall (fun c => 48 <= c <= 49) (bit_text bs).
Proof. intros. unfold bit_text. apply Forall_map. apply Forall_forall. intros [] _; lia. Qed.
Lemma read_bits : forall L w t bs value max rest, Forall white w -> name_ok t ->
  (length bs <= 2047)%nat -> (length (pack bs) <= length value)%nat -> Z.of_nat (length (pack bs)) <= max ->
  xreads (Xer_DecodeBitString L t value max) (Some (pack bs ++ skipn (length (pack bs)) value, Z.of_nat (length bs))) (w ++ element t (bit_text bs)) rest.
Proof.
  intros L w t bs value max rest W T N V M. unfold Xer_DecodeBitString. pose proof (bit_chars bs) as C.
  assert (BL : length (bit_text bs) = length bs) by (unfold bit_text; apply map_length).
  eapply xreads_eq; [apply app_nil_r|].
  eapply xreads_opt; [apply read_primitive_element; [exact W|exact T|eapply Forall_impl; [|exact C]; cbn; lia|lia]|].
  rewrite cstr_id by (eapply Forall_impl; [|exact C]; cbn; lia).
  eapply xreads_lift; [apply unspaced_id; eapply Forall_impl; [|exact C]; cbn; lia|].
  cbv zeta. rewrite BL.
  assert (PL : Z.to_nat (Z.of_nat (length bs) / 8 + (if Z.of_nat (length bs) mod 8 =? 0 then 0 else 1)) = length (pack bs)).
  { pose proof (pack_len bs) as PLN. destruct (Z.of_nat (length bs) mod 8 =? 0) eqn:E; lia. }
  rewrite PL. eapply xreads_lift.
  - unfold memset0. replace (length (pack bs) <=? length value)%nat with true by lia. reflexivity.
  - eapply xreads_lift; [exact (bit_loop_spec (length bs) bs [] max _ (le_n _) M)|]. apply xreads_ret.
Qed.
