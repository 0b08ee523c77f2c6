(** Proofs about the printed constants: the values that come out wrong. *)
From Verif Require Import Base Bits CExpr AcnExpr AcnExprSpec AcnExprProofs AcnExprProofs2 AcnExprProofs3 CInit Consts ConstsSpec ConstsProofs ConstsProofs2 ConstsProofs3 ConstsProofs4 ConstsProofs5 ConstsProofs6 ConstsProofs7.
From Coq Require Import String Ascii.
Local Open Scope Z_scope.

(** What is printed and initialised, whether right or not. *)
Lemma assignment_text : forall gnu T x t v s i, c_name T -> c_name x -> print_value t v = Some s -> init_text gnu s i ->
  exists text, print_assignment T x t v = Some text /\ declares gnu text T x i.
Proof.
  intros gnu T x t v s i [IT KT] [IX KX] P (ts & L & R).
  exists ("const " ++ T ++ " " ++ x ++ " = " ++ s ++ ";")%string. unfold print_assignment. rewrite P. split; [reflexivity|].
  split; [assumption|]. split; [assumption|]. exists (ts ++ [KP ";"]). split; [|apply R].
  rewrite (opens_const "const "%string [KId "const"] eq_refl (T ++ " " ++ x ++ " = " ++ s ++ ";")%string ([KId T; KId x; KP "="] ++ ts ++ [KP ";"])); [reflexivity|].
  change ([KId T; KId x; KP "="] ++ ts ++ [KP ";"]) with ([KId T] ++ [KId x; KP "="] ++ ts ++ [KP ";"]).
  apply (lexes_ident T IT " "%char (x ++ " = " ++ s ++ ";")%string); [reflexivity|].
  apply (opens_const " "%string [] eq_refl (x ++ " = " ++ s ++ ";")%string).
  change ([KId x; KP "="] ++ ts ++ [KP ";"]) with ([KId x] ++ [KP "="] ++ ts ++ [KP ";"]).
  apply (lexes_ident x IX " "%char ("= " ++ s ++ ";")%string); [reflexivity|].
  apply (opens_const " "%string [] eq_refl ("= " ++ s ++ ";")%string).
  apply (opens_const "= "%string [KP "="] eq_refl (s ++ ";")%string).
  apply (L ";"%char ""%string); reflexivity.
Qed.
(** The object of a right constant is the one that the printed text initialises. *)
Lemma right_only : forall ws env gnu T x t v s i, c_name T -> c_name x -> print_value t v = Some s -> init_text gnu s i ->
  right_constant ws env gnu T x t v -> exists d, initialise env (declared ws t) i = Some d /\ repr t v d.
Proof.
  intros ws env gnu T x t v s i CT CX P I (text & i' & d & PA & DE & _ & INI & R).
  destruct (assignment_text gnu T x t v s i CT CX P I) as (text' & PA' & DE'). rewrite PA in PA'. injection PA' as <-.
  rewrite (declares_det _ _ _ _ _ _ DE' DE) in INI. eauto.
Qed.

(** * BIT STRING *)
Lemma bits_exact : forall ws env gnu T x z l, ws = 4 \/ ws = 8 -> std_env env -> c_name T -> c_name x -> fits gnu z (len l) -> dfix z = false ->
  (right_constant ws env gnu T x (TBits z) (PBits l) <-> len l <= 1).
Proof.
  intros ws env gnu T x z l WS ENV CT CX F FX. split.
  2: { intros L. apply constants; auto. apply m_bits; auto. }
  intros R. destruct F as (F1 & F2 & F3 & F4 & F5). destruct (bytes_bits l) as (T1 & T2 & T3).
  destruct (byte_items env gnu _ T3) as (xs & I1 & I2). pose proof (len_pos _ l) as LP. set (bytes := bits_to_bytes l) in *.
  assert (LB : 0 <= len bytes <= len l). { rewrite T2. split; [apply Z.div_pos; lia|]. apply Z.lt_succ_r. apply Z.div_lt_upper_bound; lia. }
  destruct (count_expr env gnu (len bytes)) as (e & TT & N & V & RR); [lia|].
  destruct (sized_init env (dfix z) ((dlen z + 7) / 8) octet None None e (len bytes) xs (map DInt bytes)) as (pad & d & D & C);
    auto; [rewrite len_map, T2; apply Z.div_le_mono; lia|rewrite len_map, T2; intros X; now rewrite (F4 X)|].
  assert (IT : init_text gnu (bytes_text (is_fixed z) (Z.of_nat (List.length bytes)) bytes) (IList ((if is_fixed z then [] else [(None, IExp e)]) ++ [(None, IList xs)]))).
  { apply bytes_init; [exact TT|exact I1|]. intros E. apply F5. apply len_nil in E. rewrite T2 in E.
    destruct (Z.eq_dec (len l) 0); [assumption|]. assert (1 <= (len l + 7) / 8) by (apply Z.div_le_lower_bound; lia). lia. }
  destruct (right_only ws env gnu T x (TBits z) (PBits l) _ _ CT CX eq_refl IT R) as (d' & D' & RP).
  cbn [declared] in D'. unfold is_fixed in D'. rewrite <- F1 in D'. rewrite D in D'. injection D' as <-.
  rewrite FX in C. inversion RP as [| | | |z0 l0 bytes' pad' d0 B1 B2 C'| | | | | | |]; subst. rewrite FX in C'. cbn [counted] in C, C'.
  rewrite C in C'. injection C' as EQ _. rewrite T2 in EQ.
  destruct (Z_le_gt_dec (len l) 1); [assumption|]. exfalso. assert ((len l + 7) / 8 < len l) by (apply Z.div_lt_upper_bound; lia). lia.
Qed.

(** * Quotes in strings *)
Definition quoted_char (c : ascii) : bool := plain_char c || (c =? """")%char.
Definition unquoted (l : list Z) : list Z := filter (fun z => negb (z =? 34)) l.
Lemma not_quote : forall c, c <> """"%char -> (kcode c =? 34) = false.
Proof.
  intros c NQ. apply Z.eqb_neq. intros E. apply NQ. unfold kcode in E.
  assert (N : nat_of_ascii c = nat_of_ascii """") by (change (nat_of_ascii """") with 34%nat; lia).
  rewrite <- (ascii_nat_embedding c), N. apply ascii_nat_embedding.
Qed.
Lemma plain_step : forall c acc, plain_char c = true -> kstep (LStr acc) c = Some ([], LStr (kcode c :: acc)).
Proof.
  intros c acc H1. cbn [kstep]. unfold kchar. unfold plain_char in H1. apply andb_true_iff in H1 as [H1 Q2]. apply andb_true_iff in H1 as [H1 Q1].
  apply negb_true_iff in Q1. apply negb_true_iff in Q2. rewrite Q1, Q2.
  assert ((c =? "010")%char || (c =? "013")%char = false) as ->; [|reflexivity].
  destruct (Ascii.eqb_spec c "010") as [->|]; [discriminate H1|]. destruct (Ascii.eqb_spec c "013") as [->|]; [discriminate H1|reflexivity].
Qed.
Lemma klex_quotes : forall s, all_chars quoted_char s = true ->
  exists a ls, List.concat (a :: ls) = unquoted (codes s) /\ forall acc rest ts', klex LIdle rest = Some ts' ->
    klex (LStr acc) (double_quotes s ++ String """" rest) = Some (map KStr ((rev acc ++ a) :: ls) ++ ts').
Proof.
  induction s as [|c s IH]; intros H.
  - exists [], []. split; [reflexivity|]. intros acc rest ts' E. cbn [double_quotes append].
    rewrite (klex_step (LStr acc) """" rest [KStr (rev acc)] LIdle eq_refl), E. rewrite app_nil_r. reflexivity.
  - cbn [all_chars] in H. apply andb_true_iff in H as [H1 H2]. destruct (IH H2) as (a & ls & C & K).
    destruct (Ascii.eqb_spec c """") as [->|NQ].
    + exists [], (a :: ls). split; [exact C|]. intros acc rest ts' E. specialize (K [] rest ts' E). cbn [double_quotes]. rewrite Ascii.eqb_refl.
      change (String """" (String """" (double_quotes s)) ++ String """" rest)%string with (String """" (String """" (double_quotes s ++ String """" rest))).
      rewrite (klex_step (LStr acc) """" _ [KStr (rev acc)] LIdle eq_refl), (klex_step LIdle """" _ [] (LStr []) eq_refl), K.
      rewrite app_nil_r. reflexivity.
    + assert ((c =? """")%char = false) as Q0 by now apply Ascii.eqb_neq. exists (kcode c :: a), ls. split.
      * cbn [List.concat app codes] in *. rewrite C. unfold unquoted. cbn [filter]. now rewrite (not_quote c NQ).
      * intros acc rest ts' E. specialize (K (kcode c :: acc) rest ts' E). cbn [double_quotes]. rewrite Q0.
        change (String c (double_quotes s) ++ String """" rest)%string with (String c (double_quotes s ++ String """" rest)).
        unfold quoted_char in H1. rewrite Q0, orb_false_r in H1.
        rewrite (klex_step _ _ _ _ _ (plain_step c acc H1)), K. cbn [rev app]. rewrite <- app_assoc. reflexivity.
Qed.
Lemma adjacent_strs : forall ls c rest, adjacent (map KStr ls ++ KP c :: rest) = (List.concat ls, KP c :: rest).
Proof. induction ls as [|l ls IH]; intros c rest; [reflexivity|]. cbn [map app adjacent List.concat]. now rewrite IH. Qed.
Lemma quotes_text : forall gnu s, all_chars quoted_char s = true -> init_text gnu (string_text [PText s]) (IExp (XStr (unquoted (codes s)))).
Proof.
  intros gnu s H. destruct (klex_quotes s H) as (a & ls & C & K). exists (map KStr (a :: ls)). split.
  - intros b rest ts' B E. cbn [string_text map join part_text].
    change ((String """" (double_quotes s) ++ """") ++ String b rest)%string with (String """" ((double_quotes s ++ """") ++ String b rest)).
    rewrite string_assoc. rewrite (klex_step LIdle """" _ [] (LStr []) eq_refl).
    change ("""" ++ String b rest)%string with (String """" (String b rest)). rewrite (K [] _ _ E). reflexivity.
  - intros c rest. rewrite <- C. cbn [map app List.concat]. constructor. apply adjacent_strs.
Qed.
(** The quotes are gone. *)
Lemma quotes_dropped : forall env gnu T x n s, c_name T -> c_name x -> all_chars quoted_char s = true -> len (codes s) < n ->
  exists text i k, print_assignment T x (TStr n) (PStr [PText s]) = Some text /\ declares gnu text T x i /\
    initialise env (declared 8 (TStr n)) i = Some (DArr (map DInt (unquoted (codes s) ++ repeat 0 (S k)))).
Proof.
  intros env gnu T x n s CT CX H L.
  destruct (assignment_text gnu T x (TStr n) (PStr [PText s]) _ _ CT CX eq_refl (quotes_text gnu s H)) as (text & P & D).
  exists text, (IExp (XStr (unquoted (codes s)))).
  assert (U : len (unquoted (codes s)) <= len (codes s)).
  { unfold len, unquoted. generalize (codes s). clear. intros l. apply inj_le. induction l as [|a l IH]; cbn [filter]; [auto|].
    destruct (negb _); cbn [List.length]; lia. }
  unfold len in *. destruct (Z.to_nat n - List.length (unquoted (codes s)))%nat as [|k] eqn:K; [lia|]. exists k.
  split; [exact P|]. split; [exact D|]. cbn [declared initialise]. set (u := unquoted (codes s)) in *.
  assert (Z.of_nat (List.length u) <=? n = true) as -> by lia. rewrite K, map_app. do 3 f_equal.
  generalize (S k). clear. intros m. induction m as [|m IH]; [reflexivity|]. cbn [repeat map]. now rewrite IH.
Qed.
Lemma data_inj : forall a b, map DInt a = map DInt b -> a = b.
Proof.
  induction a as [|x a IH]; intros [|y b] H; try discriminate; [reflexivity|]. cbn [map] in H.
  assert (E : x = y) by congruence. assert (R : map DInt a = map DInt b) by congruence. subst. f_equal. now apply IH.
Qed.
Lemma last_nonzero : forall a b j k, Forall (fun z => z <> 0) a -> Forall (fun z => z <> 0) b -> a ++ repeat 0 (S j) = b ++ repeat 0 (S k) -> a = b.
Proof.
  induction a as [|x a IH]; intros b j k A B E; inversion A; subst.
  - destruct b as [|y b]; [reflexivity|]. cbn [app repeat] in E. injection E as E _. inversion B. congruence.
  - destruct b as [|y b]; cbn [app repeat] in E; [injection E as E _; congruence|]. inversion B; subst. injection E as -> E.
    f_equal. now apply (IH b j k).
Qed.
Lemma codes_nonzero : forall s, all_chars quoted_char s = true -> Forall (fun z => z <> 0) (codes s).
Proof.
  induction s as [|c s IH]; intros H; [constructor|]. cbn [all_chars codes] in *. apply andb_true_iff in H as [H1 H2]. constructor; [|auto].
  intros E. unfold quoted_char in H1. apply orb_true_iff in H1 as [H1|H1].
  - unfold plain_char in H1. rewrite E in H1. discriminate.
  - apply Ascii.eqb_eq in H1. subst c. discriminate E.
Qed.
Lemma quotes_exact : forall ws env gnu T x n s, ws = 4 \/ ws = 8 -> std_env env -> c_name T -> c_name x -> all_chars quoted_char s = true -> len (codes s) < n ->
  (right_constant ws env gnu T x (TStr n) (PStr [PText s]) <-> ~ In 34 (codes s)).
Proof.
  intros ws env gnu T x n s WS ENV CT CX H L. split.
  - intros R IN. destruct (right_only ws env gnu T x (TStr n) (PStr [PText s]) _ _ CT CX eq_refl (quotes_text gnu s H) R) as (d & D & RP).
    inversion RP as [| | |n0 l k E0 E1 E2| | | | | | | |]; subst. clear RP. cbn [declared initialise] in D. set (u := unquoted (codes s)) in *.
    destruct (Z.of_nat (List.length u) <=? n); [|discriminate]. injection D as D.
    unfold chars in D. cbn [flat_map part_codes] in D. rewrite app_nil_r in D.
    assert (LU : (List.length u <= List.length (codes s))%nat).
    { unfold u, unquoted. generalize (codes s). clear. intros l. induction l as [|a l IH]; cbn [filter]; [auto|]. destruct (negb _); cbn [List.length]; lia. }
    unfold len in L. destruct (Z.to_nat n - List.length u)%nat as [|j] eqn:J; [lia|].
    assert (D' : map DInt (u ++ repeat 0 (S j)) = map DInt (codes s ++ repeat 0 (S k))).
    { etransitivity; [|exact D]. rewrite map_app. f_equal. generalize (S j). clear. intros m. induction m as [|m IH]; [reflexivity|]. cbn [repeat map]. now rewrite IH. }
    apply data_inj in D'. apply last_nonzero in D'; [| |now apply codes_nonzero].
    + rewrite <- D' in IN. unfold u, unquoted in IN. apply filter_In in IN as [_ IN]. discriminate.
    + unfold u, unquoted. pose proof (codes_nonzero s H) as F. rewrite Forall_forall in *. intros z Z0. apply filter_In in Z0 as [Z0 _]. now apply F.
  - intros NI. apply constants; auto. apply m_str; [discriminate| |].
    + constructor; [|constructor]. cbn [plain_part]. clear - H NI. induction s as [|c s IH]; [reflexivity|]. cbn [all_chars codes] in *.
      apply andb_true_iff in H as [H1 H2]. rewrite IH; [|assumption|intros X; apply NI; now right]. rewrite andb_true_r.
      unfold quoted_char in H1. apply orb_true_iff in H1 as [H1|H1]; [assumption|]. exfalso. apply NI. left. apply Ascii.eqb_eq in H1. now subst c.
    + unfold chars. cbn [flat_map part_codes]. now rewrite app_nil_r.
Qed.

(** * No C at all *)
Lemma seq_go_none : forall vals l, (forall c t, In (c, t) l -> chosen vals c = None) -> seq_go vals l = Some [].
Proof.
  intros vals. induction l as [|[c t] l IH]; intros H; [reflexivity|]. rewrite go_cons, (H c t (or_introl eq_refl)). apply IH. intros c' t' I.
  apply (H c' t'). now right.
Qed.
Lemma no_component : forall gnu l vals, has_opt l = true -> (forall c t, In (c, t) l -> chosen vals c = None) ->
  exists text, print_assignment "T" "v" (TSeq l) (PSeq vals) = Some text /\ forall i, ~ declares gnu text "T" "v" i.
Proof.
  intros gnu l vals H N. unfold print_assignment. rewrite print_seq, (seq_go_none _ _ N).
  assert (ON : opts l <> []) by (intros X; apply opts_nil in X; congruence). destruct (opts l) as [|o r]; [congruence|].
  assert (S : exists J, seq_text [] (map (flag_text vals) (o :: r)) =
    ("{" ++ nl ++ "    ," ++ nl ++ "    .exist = {" ++ nl ++ "        " ++ J ++ nl ++ "    }" ++ nl ++ "    " ++ nl ++ "}")%string).
  { exists (join sep (map (flag_text vals) (o :: r))). unfold seq_text, sep. set (J := join ("," ++ nl) (map (flag_text vals) (o :: r))). clearbody J.
    cbn [map]. rewrite ?string_assoc. reflexivity. }
  destruct S as (J & ->). eexists. split; [reflexivity|]. intros i (_ & _ & ts & E & R).
  change (klex LIdle (("const T v = {" ++ nl ++ "    ,") ++ ((nl ++ "    .exist = {" ++ nl ++ "        " ++ J ++ nl ++ "    }" ++ nl ++ "    " ++ nl ++ "}") ++ ";"))%string
    = Some ([KId "const"; KId "T"; KId "v"; KP "="] ++ ts)) in E.
  rewrite (klex_run ("const T v = {" ++ nl ++ "    ,")%string LIdle [KId "const"; KId "T"; KId "v"; KP "="; KP "{"] (LOp ",") _ eq_refl) in E. rewrite klex_solo in E by reflexivity.
  match type of E with match (match ?k with _ => _ end) with _ => _ end = _ => destruct k as [ts0|]; [|discriminate] end.
  cbn [app] in E. assert (X : ts = KP "{" :: KP "," :: ts0) by congruence. subst ts. clear E.
  inversion R; subst. match goal with Y : items _ _ _ _ |- _ => inversion Y; subst end;
    (match goal with Y : item _ _ _ _ |- _ => inversion Y; subst end; match goal with Y : reads _ (KP "," :: _) _ _ |- _ => inversion Y end).
Qed.
(** Empty braces. *)
Lemma empty_octets : exists text, print_assignment "T" "v" (TOcts (mksz 0 5 false 5)) (POcts []) = Some text /\ forall i, ~ declares false text "T" "v" i.
Proof.
  eexists. split; [reflexivity|]. intros i (_ & _ & ts & E & R). vm_compute in E. injection E as <-.
  inversion R; subst; try discriminate.
  match goal with Y : items _ _ _ _ |- _ => inversion Y; subst end;
    match goal with Y : item _ (KNum _ :: _) _ _ |- _ => inversion Y; subst end;
    match goal with Y : reads _ (KNum _ :: _) _ _ |- _ => inversion Y; subst end.
  match goal with Y : items _ (KP "{" :: _) _ _ |- _ => inversion Y; subst end;
    match goal with Y : item _ (KP "{" :: _) _ _ |- _ => inversion Y; subst end;
    match goal with Y : reads _ (KP "{" :: _) _ _ |- _ => inversion Y; subst end; try discriminate;
    match goal with Y : items _ (KP "}" :: _) _ _ |- _ => exact (proj1 (proj2 (no_close false)) _ _ _ Y _ eq_refl) end.
Qed.
Lemma empty_seq_of : exists text, print_assignment "T" "v" (TOf (mksz 0 5 false 5) TBool) (PList []) = Some text /\ forall i, ~ declares false text "T" "v" i.
Proof.
  eexists. split; [reflexivity|]. intros i (_ & _ & ts & E & R). vm_compute in E. injection E as <-.
  inversion R; subst; try discriminate.
  match goal with Y : items _ _ _ _ |- _ => inversion Y; subst end;
    match goal with Y : item _ (KP "." :: _) _ _ |- _ => inversion Y; subst end;
    try (match goal with Y : reads _ (KP "." :: _) _ _ |- _ => inversion Y end);
    match goal with Y : reads _ (KNum _ :: _) _ _ |- _ => inversion Y; subst end.
  match goal with Y : items _ (KP "." :: _) _ _ |- _ => inversion Y; subst end;
    match goal with Y : item _ (KP "." :: _) _ _ |- _ => inversion Y; subst end;
    try (match goal with Y : reads _ (KP "." :: _) _ _ |- _ => inversion Y end);
    match goal with Y : reads _ (KP "{" :: _) _ _ |- _ => inversion Y; subst end; try discriminate;
    match goal with Y : items _ (KP "}" :: _) _ _ |- _ => exact (proj1 (proj2 (no_close false)) _ _ _ Y _ eq_refl) end.
Qed.
(** A backslash. *)
Lemma backslash_last : exists text, print_assignment "T" "v" (TStr 2) (PStr [PText "\"]) = Some text /\ forall gnu i, ~ declares gnu text "T" "v" i.
Proof. eexists. split; [reflexivity|]. intros gnu i (_ & _ & ts & E & R). vm_compute in E. discriminate. Qed.
Ltac here := split; [reflexivity|]; split; [reflexivity|]; eexists; split; [reflexivity|].
Lemma backslash_escape : forall env gnu, exists text i,
  print_assignment "T" "v" (TStr 4) (PStr [PText "a\n"]) = Some text /\ declares gnu text "T" "v" i /\
  initialise env (declared 8 (TStr 4)) i = Some (DArr [DInt 97; DInt 10; DInt 0; DInt 0]) /\
  ~ right_constant 8 env gnu "T" "v" (TStr 4) (PStr [PText "a\n"]).
Proof.
  intros env gnu. set (text := "const T v = ""a\n"";"%string).
  assert (DE : declares gnu text "T" "v" (IExp (XStr [97; 10]))).
  { here. apply (r_str gnu [97; 10] [KP ";"] [] [KP ";"]). reflexivity. }
  exists text, (IExp (XStr [97; 10])). split; [reflexivity|]. split; [exact DE|]. split; [reflexivity|].
  intros (text' & i & d & P & DE' & _ & INI & R). injection P as <-. rewrite (declares_det _ _ _ _ _ _ DE DE') in INI. injection INI as <-.
  inversion R.
Qed.

(** * Fixed size subtypes of types of variable size *)
Definition sub_sizes : sizes := mksz 1 1 false 5.
Lemma sub_octets : forall env gnu, exists text i,
  print_assignment "T" "v" (TOcts sub_sizes) (POcts [5]) = Some text /\ declares gnu text "T" "v" i /\
  initialise env (declared 8 (TOcts sub_sizes)) i =
    Some (DStruct [("nCount"%string, DInt 5); ("arr"%string, DArr [DInt 0; DInt 0; DInt 0; DInt 0; DInt 0])]) /\
  ~ right_constant 8 env gnu "T" "v" (TOcts sub_sizes) (POcts [5]).
Proof.
  intros env gnu. eexists. exists (IList [(None, IList [(None, IExp (XNum "0x05"))])]). split; [reflexivity|].
  match goal with |- declares _ ?s _ _ _ /\ _ => set (text := s) end.
  assert (DE : declares gnu text "T" "v" (IList [(None, IList [(None, IExp (XNum "0x05"))])])).
  { here. apply r_list. apply i_last. constructor. apply r_list. apply i_last. constructor. constructor. }
  split; [exact DE|]. split; [reflexivity|]. intros (text' & i & d & P & DE' & _ & INI & R). injection P as <-.
  rewrite (declares_det _ _ _ _ _ _ DE DE') in INI. injection INI as <-. inversion R; subst.
  match goal with X : counted _ _ _ _ _ |- _ => discriminate X end.
Qed.
Lemma sub_octets_more : forall env gnu, exists text i,
  print_assignment "T" "v" (TOcts (mksz 2 2 false 5)) (POcts [5; 6]) = Some text /\ declares gnu text "T" "v" i /\
  initialise env (declared 8 (TOcts (mksz 2 2 false 5))) i = None.
Proof.
  intros env gnu. eexists. exists (IList [(None, IList [(None, IExp (XNum "0x05")); (None, IExp (XNum "0x06"))])]). split; [reflexivity|].
  split; [|reflexivity]. here. apply r_list. apply i_last. constructor. apply r_list. eapply i_more; [constructor; constructor|].
  apply i_last. constructor. constructor.
Qed.
Lemma sub_seq_of : forall env gnu, std_env env -> exists text i,
  print_assignment "T" "v" (TOf sub_sizes TBool) (PList [PBool true]) = Some text /\ declares gnu text "T" "v" i /\
  initialise env (declared 8 (TOf sub_sizes TBool)) i =
    Some (DStruct [("nCount"%string, DInt 0); ("arr"%string, DArr [DInt 1; DInt 0; DInt 0; DInt 0; DInt 0])]) /\
  ~ right_constant 8 env gnu "T" "v" (TOf sub_sizes TBool) (PList [PBool true]).
Proof.
  intros env gnu (ET & _). eexists. exists (IList [(Some "arr"%string, IList [(None, IExp (XName "TRUE"))])]). split; [reflexivity|].
  match goal with |- declares _ ?s _ _ _ /\ _ => set (text := s) end.
  assert (DE : declares gnu text "T" "v" (IList [(Some "arr"%string, IList [(None, IExp (XName "TRUE"))])])).
  { here. apply r_list. apply i_last. constructor; [reflexivity|]. apply r_list. apply i_last. constructor. constructor. reflexivity. }
  assert (IN : initialise env (declared 8 (TOf sub_sizes TBool)) (IList [(Some "arr"%string, IList [(None, IExp (XName "TRUE"))])]) =
    Some (DStruct [("nCount"%string, DInt 0); ("arr"%string, DArr [DInt 1; DInt 0; DInt 0; DInt 0; DInt 0])])).
  { cbn [initialise declared sized dfix sub_sizes dlen app from String.eqb exp_val]. cbn. rewrite ET. reflexivity. }
  split; [exact DE|]. split; [exact IN|]. intros (text' & i & d & P & DE' & _ & INI & R). injection P as <-.
  rewrite (declares_det _ _ _ _ _ _ DE DE') in INI. rewrite IN in INI. injection INI as <-. inversion R; subst.
  match goal with X : counted _ _ _ _ _ |- _ => discriminate X end.
Qed.

(** * OBJECT IDENTIFIER *)
Lemma big_arc : forall env gnu, exists text i,
  print_assignment "T" "v" TOid (POid [2 ^ 63]) = Some text /\ declares gnu text "T" "v" i /\ initialise env (declared 8 TOid) i = None.
Proof.
  intros env gnu. eexists. exists (IList [(None, IExp (XNum "1")); (None, IList [(None, IExp (XNum "9223372036854775808"))])]). split; [reflexivity|].
  split; [|reflexivity]. here. apply r_list. eapply i_more; [constructor; constructor|]. apply i_last. constructor. apply r_list. apply i_last. constructor. constructor.
Qed.

(** * A component named exist *)
Lemma exist_twice : exists l vals ms, NoDup (map (fun ct => k_c (fst ct)) l) /\ Forall (fun ct => c_name (k_c (fst ct))) l /\
  (forall c t v, In (c, t) l -> In (k_name c, v) vals -> forall env, std_env env -> tame 8 env false t v) /\ (forall c t, In (c, t) l -> given (k_name c) vals) /\
  declared 8 (TSeq l) = YStruct ms /\ ~ NoDup (map fst ms).
Proof.
  exists [(mkcomp "exist" "exist" (Some None), TBool)], [("exist"%string, PBool true)], [("exist"%string, YBool); ("exist"%string, YStruct [("exist"%string, YInt (false, 1))])].
  split; [repeat constructor; auto|]. split; [repeat constructor|]. split.
  { intros c t v [E|[]] [F|[]] env _. injection E as <- <-. injection F as <-. constructor. }
  split. { intros c t [E|[]]. injection E as <- <-. now left. }
  split; [reflexivity|]. intros N. inversion N. apply H1. now left.
Qed.
Lemma absent_all : forall gnu l vals, (exists c t, In (c, t) l) ->
  (forall c t, In (c, t) l -> k_opt c = Some None /\ ~ given (k_name c) vals) ->
  exists text, print_assignment "T" "v" (TSeq l) (PSeq vals) = Some text /\ forall i, ~ declares gnu text "T" "v" i.
Proof.
  intros gnu l vals (c & t & I) H. apply no_component.
  - unfold has_opt. apply existsb_exists. exists (c, t). split; [assumption|]. cbn [fst]. unfold is_opt. destruct (H c t I) as [-> _]. reflexivity.
  - intros c' t' I'. destruct (H c' t' I') as [O G]. unfold chosen. destruct (named (k_name c') vals) as [v|] eqn:E; [|now rewrite O].
    exfalso. apply G. apply named_some in E. unfold given. apply in_map_iff. now exists (k_name c', v).
Qed.
Lemma bits_wrong : exists z l, smin z <= len l <= smax z /\ smax z = dlen z /\ forall ws env gnu T x, ws = 4 \/ ws = 8 -> std_env env ->
  c_name T -> c_name x -> ~ right_constant ws env gnu T x (TBits z) (PBits l).
Proof.
  exists (mksz 1 8 false 8), [true; false; true]. split; [cbn; lia|]. split; [reflexivity|]. intros ws env gnu T x W E CT CX R.
  apply (bits_exact ws env gnu T x _ _ W E CT CX) in R; [cbn in R; lia| |reflexivity]. repeat split; cbn; (lia || discriminate).
Qed.
Lemma quotes_wrong : exists n s, len (codes s) < n /\ forall ws env gnu T x, ws = 4 \/ ws = 8 -> std_env env ->
  c_name T -> c_name x -> ~ right_constant ws env gnu T x (TStr n) (PStr [PText s]).
Proof.
  exists 10, "say ""no"""%string. split; [cbn; lia|]. intros ws env gnu T x W E CT CX R.
  apply (quotes_exact ws env gnu T x 10 _ W E CT CX) in R; [|reflexivity|cbn; lia]. apply R. cbn. tauto.
Qed.
Lemma word_range : forall ws z, 0 < ws ->
  (in_tyb (class_type ws CUW) z = true <-> 0 <= z < 2 ^ (8 * ws)) /\
  (in_tyb (class_type ws CIW) z = true <-> - 2 ^ (8 * ws - 1) <= z < 2 ^ (8 * ws - 1)).
Proof. intros ws z H. unfold in_tyb, class_type, tmin, tmax. cbn [fst snd]. rewrite !andb_true_iff, !Z.leb_le. split; lia. Qed.
