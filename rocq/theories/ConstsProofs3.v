(** Proofs about the printed constants: INTEGER, BOOLEAN, ENUMERATED, NULL, bytes and strings. *)
From Verif Require Import Base Bits CExpr AcnExpr AcnExprSpec AcnExprProofs AcnExprProofs2 AcnExprProofs3 CInit Consts ConstsSpec ConstsProofs ConstsProofs2.
From Coq Require Import String Ascii.
Local Open Scope Z_scope.

(** * Numbers *)
(** A text that is one expression of value [z]. *)
Definition expr_text (env : cenv) (gnu : bool) (s : string) (z : Z) : Prop :=
  exists ts e, lexes s ts /\ (forall c rest, reads gnu (ts ++ KP c :: rest) (IExp e) (KP c :: rest)) /\
    (forall l, e <> XStr l) /\ exp_val env e = Some z.
Lemma in_tyb_in : forall t z, in_tyb t z = true <-> in_ty t z.
Proof. intros t z. unfold in_tyb, in_ty. rewrite andb_true_iff, !Z.leb_le. reflexivity. Qed.
Lemma first_in : forall t l n, in_ty t n -> first_type (t :: l) n = Some (t, n).
Proof. intros t l n H. cbn [first_type]. now rewrite (proj2 (in_tyb_in t n) H). Qed.
Lemma int32_range : forall n, in_ty int32 n <-> - 2 ^ 31 <= n <= 2 ^ 31 - 1.
Proof. intros n. reflexivity. Qed.
Lemma int64_range : forall n, in_ty int64 n <-> - 2 ^ 63 <= n <= 2 ^ 63 - 1.
Proof. intros n. reflexivity. Qed.
Lemma uint64_range : forall n, in_ty uint64 n <-> 0 <= n <= 2 ^ 64 - 1.
Proof. intros n. reflexivity. Qed.
Lemma first_signed : forall n, 0 <= n < 2 ^ 63 -> exists t, (t = int32 \/ t = int64) /\ in_ty t n /\ first_type [int32; int64] n = Some (t, n).
Proof.
  intros n H. destruct (in_tyb int32 n) eqn:E.
  - exists int32. split; [now left|]. apply in_tyb_in in E. split; [assumption|]. now apply first_in.
  - exists int64. split; [now right|]. assert (in_ty int64 n) by (apply (proj2 (int64_range _)); lia). split; [assumption|].
    cbn [first_type]. rewrite E. now rewrite (proj2 (in_tyb_in int64 n) H0).
Qed.
Lemma neg_val : forall env t n s, (t = int32 \/ t = int64) -> 0 <= n -> in_ty t n -> num_val s = Some (t, n) -> exp_val env (XNeg s) = Some (- n).
Proof.
  intros env t n s H N I E. cbn [exp_val]. rewrite E. assert (promote t = t) as -> by (destruct H as [->| ->]; reflexivity).
  rewrite conv_in; [|unfold width; destruct H as [->| ->]; cbn; auto|assumption].
  rewrite arith_in; [reflexivity|]. destruct H as [->| ->]; [pose proof (proj1 (int32_range _) I); apply (proj2 (int32_range _))|pose proof (proj1 (int64_range _) I); apply (proj2 (int64_range _))]; lia.
Qed.
Lemma reads_numtok : forall gnu s c rest, reads gnu ([KNum s] ++ KP c :: rest) (IExp (XNum s)) (KP c :: rest).
Proof. intros. constructor. Qed.
Lemma reads_negtok : forall gnu s c rest, reads gnu ([KP "-"; KNum s] ++ KP c :: rest) (IExp (XNeg s)) (KP c :: rest).
Proof. intros. constructor. Qed.
Lemma expr_plain : forall env gnu z, - 2 ^ 63 < z < 2 ^ 63 -> expr_text env gnu (dec_text z) z.
Proof.
  intros env gnu z H. destruct (Z_lt_le_dec z 0) as [N|P].
  - destruct (first_signed (- z)) as (t & T & I & F); [lia|].
    exists [KP "-"; KNum (dec_text (- z))], (XNeg (dec_text (- z))). split; [|split; [|split]].
    + pose proof (lexes_neg (- z) "" ltac:(lia) eq_refl) as L. rewrite !append_nil_r in L. now rewrite Z.opp_involutive in L.
    + intros. apply reads_negtok.
    + discriminate.
    + rewrite (neg_val env t (- z)); auto; [f_equal; lia|lia|]. rewrite num_plain by lia. exact F.
  - destruct (first_signed z) as (t & T & I & F); [lia|].
    exists [KNum (dec_text z)], (XNum (dec_text z)). split; [|split; [|split]].
    + pose proof (lexes_nat z "" ltac:(lia) eq_refl) as L. now rewrite !append_nil_r in L.
    + intros. apply reads_numtok.
    + discriminate.
    + cbn [exp_val]. rewrite num_plain, F by lia. reflexivity.
Qed.
Lemma expr_ll : forall env gnu z, - 2 ^ 63 < z < 2 ^ 63 -> expr_text env gnu (dec_text z ++ "LL") z.
Proof.
  intros env gnu z H. destruct (Z_lt_le_dec z 0) as [N|P].
  - assert (I : in_ty int64 (- z)) by (apply (proj2 (int64_range _)); lia).
    exists [KP "-"; KNum (dec_text (- z) ++ "LL")], (XNeg (dec_text (- z) ++ "LL")). split; [|split; [|split]].
    + pose proof (lexes_neg (- z) "LL" ltac:(lia) eq_refl) as L. now rewrite Z.opp_involutive in L.
    + intros. apply reads_negtok.
    + discriminate.
    + rewrite (neg_val env int64 (- z)); auto; [f_equal; lia|lia|]. rewrite num_ll by lia. now apply first_in.
  - assert (I : in_ty int64 z) by (apply (proj2 (int64_range _)); lia).
    exists [KNum (dec_text z ++ "LL")], (XNum (dec_text z ++ "LL")). split; [|split; [|split]].
    + exact (lexes_nat z "LL" ltac:(lia) eq_refl).
    + intros. apply reads_numtok.
    + discriminate.
    + cbn [exp_val]. rewrite num_ll, first_in by (lia || assumption). reflexivity.
Qed.
Lemma expr_ul : forall env gnu z, 0 <= z < 2 ^ 64 -> expr_text env gnu (dec_text z ++ "UL") z.
Proof.
  intros env gnu z H. assert (I : in_ty uint64 z) by (apply (proj2 (uint64_range _)); lia).
  exists [KNum (dec_text z ++ "UL")], (XNum (dec_text z ++ "UL")). split; [|split; [|split]].
  - exact (lexes_nat z "UL" ltac:(lia) eq_refl).
  - intros. apply reads_numtok.
  - discriminate.
  - cbn [exp_val]. rewrite num_ul, first_in by (lia || assumption). reflexivity.
Qed.
Lemma expr_name : forall env gnu s t z, c_name s -> env s = Some (t, z) -> expr_text env gnu s z.
Proof.
  intros env gnu s t z [I K] E. exists [KId s], (XName s). split; [|split; [|split]].
  - now apply lexes_ident.
  - intros. now constructor.
  - discriminate.
  - cbn [exp_val]. now rewrite E.
Qed.
Lemma expr_int : forall env gnu ws c z, ws = 4 \/ ws = 8 -> std_env env -> in_ty (class_type ws c) z -> expr_text env gnu (int_text c z) z.
Proof.
  intros env gnu ws c z W (_ & _ & E1 & E2) H.
  assert (B : (match c with CU8 | CU16 | CU32 | CU64 | CUW => 0 <= z < 2 ^ 64
                          | CI8 | CI16 => - 2 ^ 31 < z < 2 ^ 31 | CI32 => - 2 ^ 31 <= z < 2 ^ 31 | _ => - 2 ^ 63 <= z < 2 ^ 63 end)).
  { unfold in_ty, tmin, tmax in H. destruct W as [-> | ->]; destruct c; cbn [class_type fst snd] in H;
      repeat match goal with X : context [2 ^ ?e] |- _ => let v := eval vm_compute in (2 ^ e) in change (2 ^ e) with v in X end; lia. }
  destruct c; cbn [int_text]; try (apply expr_ul; lia); try (apply expr_plain; lia).
  - destruct (z =? min32) eqn:Q.
    + apply Z.eqb_eq in Q. subst z. eapply expr_name; [split; [split; reflexivity|reflexivity]|exact E1].
    + apply Z.eqb_neq in Q. unfold min32 in Q. apply expr_plain. lia.
  - destruct (z =? min64) eqn:Q.
    + apply Z.eqb_eq in Q. subst z. eapply expr_name; [split; [split; reflexivity|reflexivity]|exact E2].
    + apply Z.eqb_neq in Q. unfold min64 in Q. apply expr_ll. lia.
  - destruct (z =? min64) eqn:Q.
    + apply Z.eqb_eq in Q. subst z. eapply expr_name; [split; [split; reflexivity|reflexivity]|exact E2].
    + apply Z.eqb_neq in Q. unfold min64 in Q. apply expr_ll. lia.
Qed.
Lemma init_expr : forall env t e z, (forall l, e <> XStr l) -> exp_val env e = Some z -> initialise env t (IExp e) = store t z.
Proof. intros env t e z N E. destruct e; cbn [initialise]; try (now rewrite E). exfalso. now apply (N l). Qed.

(** * Bytes *)
Lemma hex_char : forall n, 0 <= n < 16 -> is_alnum (hex_digit n) = true /\ digit_val (hex_digit n) = Some n.
Proof.
  intros n H. assert (n = 0 \/ n = 1 \/ n = 2 \/ n = 3 \/ n = 4 \/ n = 5 \/ n = 6 \/ n = 7 \/ n = 8 \/ n = 9 \/ n = 10 \/ n = 11 \/ n = 12 \/ n = 13 \/ n = 14 \/ n = 15) as X by lia.
  repeat (destruct X as [->|X]; [split; reflexivity|]). subst. split; reflexivity.
Qed.
Lemma byte_parts : forall b, 0 <= b < 256 -> 0 <= b / 16 < 16 /\ 0 <= b mod 16 < 16 /\ 16 * (b / 16) + b mod 16 = b.
Proof.
  intros b H. pose proof (Z.div_mod b 16 ltac:(lia)). pose proof (Z.mod_pos_bound b 16 ltac:(lia)). lia.
Qed.
Lemma expr_byte : forall env gnu b, 0 <= b < 256 -> expr_text env gnu (byte_text b) b.
Proof.
  intros env gnu b H. destruct (byte_parts b H) as (H1 & H2 & H3).
  destruct (hex_char _ H1) as (A1 & V1). destruct (hex_char _ H2) as (A2 & V2).
  exists [KNum (byte_text b)], (XNum (byte_text b)). split; [|split; [|split]].
  - unfold byte_text. apply lexes_num; [reflexivity|]. cbn [all_chars]. rewrite A1, A2. reflexivity.
  - intros. apply reads_numtok.
  - discriminate.
  - unfold byte_text. cbn [exp_val]. unfold num_val. cbn [base_val]. rewrite V1, V2.
    assert (b / 16 <? 16 = true) as -> by lia. assert (b mod 16 <? 16 = true) as -> by lia.
    replace (16 * (16 * 0 + b / 16) + b mod 16) with b by lia.
    rewrite first_in; [reflexivity|]. apply (proj2 (int32_range _)). lia.
Qed.

(** * Strings *)
Lemma klex_plain : forall s acc rest, all_chars plain_char s = true ->
  klex (LStr acc) (s ++ rest) = klex (LStr (rev (codes s) ++ acc)) rest.
Proof.
  induction s as [|c s IH]; intros acc rest H; [reflexivity|].
  cbn [all_chars] in H. apply andb_true_iff in H as [H1 H2].
  change ((String c s ++ rest)%string) with (String c (s ++ rest)). cbn [klex kstep]. unfold kchar.
  unfold plain_char in H1. apply andb_true_iff in H1 as [H1 Q2]. apply andb_true_iff in H1 as [H1 Q1].
  apply negb_true_iff in Q1. apply negb_true_iff in Q2. rewrite Q1, Q2.
  assert ((c =? "010")%char || (c =? "013")%char = false) as ->.
  { destruct (Ascii.eqb_spec c "010") as [->|]; [discriminate H1|]. destruct (Ascii.eqb_spec c "013") as [->|]; [discriminate H1|reflexivity]. }
  cbn [app]. rewrite IH by assumption. cbn [codes rev]. rewrite <- app_assoc. cbn [app].
  destruct (klex _ rest); reflexivity.
Qed.
Lemma plain_double : forall s, all_chars plain_char s = true -> double_quotes s = s.
Proof.
  induction s as [|c s IH]; intros H; [reflexivity|]. cbn [all_chars] in H. apply andb_true_iff in H as [H1 H2].
  cbn [double_quotes]. unfold plain_char in H1. apply andb_true_iff in H1 as [H1 Q2]. apply andb_true_iff in H1 as [H1 Q1].
  apply negb_true_iff in Q1. rewrite Q1. now rewrite IH.
Qed.
Lemma klex_step : forall st c s t st', kstep st c = Some (t, st') ->
  klex st (String c s) = match klex st' s with Some ts => Some (t ++ ts) | None => None end.
Proof. intros st c s t st' H. cbn [klex]. rewrite H. destruct (klex st' s); reflexivity. Qed.
Lemma opens_part : forall p, plain_part p -> opens (part_text p) [KStr (part_codes p)].
Proof.
  intros p H rest ts' E. destruct p as [s| | | |]; cbn [plain_part] in H.
  - cbn [part_text part_codes]. rewrite (plain_double s H).
    change ((String """" s ++ """") ++ rest)%string with (String """" ((s ++ """") ++ rest)). rewrite string_assoc.
    cbn [klex]. change (kstep LIdle """") with (Some (@nil ktok, LStr [])). cbv iota beta.
    rewrite klex_plain by assumption. change ("""" ++ rest)%string with (String """" rest). cbn [klex kstep].
    unfold kchar. cbv iota beta. rewrite Ascii.eqb_refl. rewrite E. rewrite app_nil_r, rev_involutive. reflexivity.
  - change (part_text PCr ++ rest)%string with (String """" (String "\" (String "r" (String """" rest)))).
    rewrite (klex_step LIdle """" _ [] (LStr []) eq_refl), (klex_step (LStr []) "\" _ [] (LEsc []) eq_refl),
      (klex_step (LEsc []) "r" _ [] (LStr [13]) eq_refl), (klex_step (LStr [13]) """" _ [KStr [13]] LIdle eq_refl), E. reflexivity.
  - change (part_text PLf ++ rest)%string with (String """" (String "\" (String "n" (String """" rest)))).
    rewrite (klex_step LIdle """" _ [] (LStr []) eq_refl), (klex_step (LStr []) "\" _ [] (LEsc []) eq_refl),
      (klex_step (LEsc []) "n" _ [] (LStr [10]) eq_refl), (klex_step (LStr [10]) """" _ [KStr [10]] LIdle eq_refl), E. reflexivity.
  - change (part_text PHt ++ rest)%string with (String """" (String "\" (String "t" (String """" rest)))).
    rewrite (klex_step LIdle """" _ [] (LStr []) eq_refl), (klex_step (LStr []) "\" _ [] (LEsc []) eq_refl),
      (klex_step (LEsc []) "t" _ [] (LStr [9]) eq_refl), (klex_step (LStr [9]) """" _ [KStr [9]] LIdle eq_refl), E. reflexivity.
  - change (part_text PNul ++ rest)%string with (String """" (String "\" (String "0" (String """" rest)))).
    rewrite (klex_step LIdle """" _ [] (LStr []) eq_refl), (klex_step (LStr []) "\" _ [] (LEsc []) eq_refl),
      (klex_step (LEsc []) "0" _ [] (LOct [] 2 0) eq_refl), (klex_step (LOct [] 2 0) """" _ [KStr [0]] LIdle eq_refl), E. reflexivity.
Qed.
Lemma opens_string : forall l, Forall plain_part l -> opens (string_text l) (map (fun p => KStr (part_codes p)) l).
Proof.
  intros l H. induction H as [|p l P H IH]; [apply opens_nil|]. destruct l as [|q l].
  - exact (opens_part p P).
  - change (string_text (p :: q :: l)) with (part_text p ++ (String " " "" ++ string_text (q :: l)))%string.
    change (map (fun p => KStr (part_codes p)) (p :: q :: l)) with
      ([KStr (part_codes p)] ++ ([] ++ map (fun p => KStr (part_codes p)) (q :: l))).
    apply opens_app; [exact (opens_part p P)|]. apply opens_app; [now apply opens_blank|exact IH].
Qed.
Lemma adjacent_parts : forall l c rest, adjacent (map (fun p => KStr (part_codes p)) l ++ KP c :: rest) = (chars l, KP c :: rest).
Proof.
  induction l as [|p l IH]; intros c rest; [reflexivity|]. cbn [map app adjacent]. rewrite IH. reflexivity.
Qed.
Lemma reads_string : forall gnu l c rest, l <> [] ->
  reads gnu (map (fun p => KStr (part_codes p)) l ++ KP c :: rest) (IExp (XStr (chars l))) (KP c :: rest).
Proof.
  intros gnu [|p l] c rest H; [congruence|]. cbn [map app]. unfold chars. cbn [flat_map].
  constructor. apply adjacent_parts.
Qed.
