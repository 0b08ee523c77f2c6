(** Proofs about the printed constants: SEQUENCE, and the theorem. *)
From Verif Require Import Base Bits CExpr AcnExpr AcnExprSpec AcnExprProofs AcnExprProofs2 AcnExprProofs3 CInit Consts ConstsSpec ConstsProofs ConstsProofs2 ConstsProofs3 ConstsProofs4 ConstsProofs5 ConstsProofs6.
From Coq Require Import String Ascii.
Local Open Scope Z_scope.

Definition chosen (vals : list (string * pval)) (c : comp) : option pval :=
  match named (k_name c) vals with
  | Some v => Some v
  | None => match k_opt c with Some (Some dv) => Some dv | _ => None end
  end.
Definition seq_go (vals : list (string * pval)) :=
  fix go (l : list (comp * pty)) : option (list string) :=
    match l with
    | [] => Some []
    | (c, t') :: l =>
        match (match named (k_name c) vals with
               | Some v' => Some (print_value t' v')
               | None => match k_opt c with
                         | Some (Some dv) => Some (print_value t' dv)
                         | _ => None
                         end
               end) with
        | None => go l
        | Some None => None
        | Some (Some x) => match go l with Some r => Some (member_text (k_c c) x :: r) | None => None end
        end
    end.
Definition opts (l : list (comp * pty)) : list (comp * pty) := filter (fun ct => is_opt (fst ct)) l.
Definition flag_text (vals : list (string * pval)) (ct : comp * pty) : string :=
  member_text (k_c (fst ct)) (match named (k_name (fst ct)) vals with Some _ => "1" | None => "0" end).
Lemma print_seq : forall l vals, print_value (TSeq l) (PSeq vals) =
  match seq_go vals l with Some r => Some (seq_text r (map (flag_text vals) (opts l))) | None => None end.
Proof. reflexivity. Qed.
Lemma go_cons : forall vals c t l, seq_go vals ((c, t) :: l) =
  match chosen vals c with
  | None => seq_go vals l
  | Some v => match print_value t v with
              | None => None
              | Some x => match seq_go vals l with Some r => Some (member_text (k_c c) x :: r) | None => None end
              end
  end.
Proof.
  intros vals c t l. unfold chosen. cbn [seq_go]. destruct (named (k_name c) vals) as [v|]; [reflexivity|].
  destruct (k_opt c) as [[dv|]|]; reflexivity.
Qed.
Definition members (ws : Z) (l : list (comp * pty)) : list (string * cty_obj) := map (fun ct => (k_c (fst ct), declared ws (snd ct))) l.
Definition bits_of (l : list (comp * pty)) : list (string * cty_obj) := map (fun ct => (k_c (fst ct), YInt (false, 1))) (opts l).
Definition has_opt (l : list (comp * pty)) : bool := existsb (fun ct => is_opt (fst ct)) l.
Lemma opts_nil : forall l, opts l = [] <-> has_opt l = false.
Proof.
  induction l as [|[c t] l IH]; [split; reflexivity|]. unfold opts, has_opt in *. cbn [filter existsb fst]. destruct (is_opt c); cbn [orb].
  - split; discriminate.
  - exact IH.
Qed.
Lemma declared_seq : forall ws l, declared ws (TSeq l) = YStruct (members ws l ++ if has_opt l then [("exist"%string, YStruct (bits_of l))] else []).
Proof.
  intros ws l. cbn [declared]. fold (opts l). fold (bits_of l). f_equal. f_equal.
  - unfold members. clear. induction l as [|[c t] l IH]; [reflexivity|]. cbn [map fst snd]. now rewrite IH.
  - pose proof (opts_nil l) as O. unfold bits_of. destruct (opts l) as [|o r].
    + rewrite (proj1 O eq_refl). reflexivity.
    + destruct (has_opt l); [reflexivity|]. destruct O as [_ O]. specialize (O eq_refl). discriminate.
Qed.
Lemma nodup_filter : forall (l : list (comp * pty)), NoDup (map (fun ct => k_c (fst ct)) l) -> NoDup (map (fun ct => k_c (fst ct)) (opts l)).
Proof.
  induction l as [|[c t] l IH]; intros N; [constructor|]. inversion N; subst. unfold opts in *. cbn [filter fst]. destruct (is_opt c); [|auto].
  cbn [map fst]. constructor; [|auto]. intros X. apply H1. apply in_map_iff in X as (y & E & Y). apply filter_In in Y as [Y _].
  apply in_map_iff. now exists y.
Qed.
Lemma nodup_app_l : forall A (a b : list A), NoDup (a ++ b) -> NoDup a.
Proof.
  intros A a b. induction a as [|x a IH]; intros H; [constructor|]. inversion H; subst. constructor; [|auto].
  intros X. apply H2. apply in_or_app. now left.
Qed.
Lemma nodup_app_one : forall A (a : list A) x, NoDup (a ++ [x]) -> ~ In x a.
Proof.
  intros A a x. induction a as [|y a IH]; intros H; [auto|]. inversion H; subst. intros [->|X]; [|exact (IH H3 X)].
  apply H2. apply in_or_app. right. now left.
Qed.
Lemma nodup_snoc : forall A (a : list A) x, NoDup a -> ~ In x a -> NoDup (a ++ [x]).
Proof.
  intros A a x H. induction H as [|y a N H IH]; intros X; cbn [app]; [constructor; [auto|constructor]|].
  constructor; [|apply IH; intros Y; apply X; now right]. intros Y. apply in_app_or in Y as [Y|[->|[]]]; [contradiction|]. apply X. now left.
Qed.

Section All.
  Variables (ws : Z) (env : cenv) (gnu : bool).
  Hypothesis WS : ws = 4 \/ ws = 8.
  Hypothesis ENV : std_env env.
  Notation tame := (tame ws env gnu).
  Notation good := (good ws env gnu).
  Lemma comps_good : forall vals ms l, Forall (fun ct => c_name (k_c (fst ct))) l -> incl (members ws l) ms ->
    (forall c t v, In (c, t) l -> chosen vals c = Some v -> good t v) ->
    exists rs xs upd, seq_go vals l = Some rs /\ Forall2 (item_text gnu) rs xs /\ Forall2 (desig env ms) xs upd /\
      (forall c t v, In (c, t) l -> chosen vals c = Some v -> exists d, In (k_c c, d) upd /\ repr t v d) /\
      incl (map fst upd) (map (fun ct => k_c (fst ct)) l) /\
      (NoDup (map (fun ct => k_c (fst ct)) l) -> NoDup (map fst upd)) /\
      (rs = [] -> forall c t, In (c, t) l -> chosen vals c = None).
  Proof.
    intros vals ms. induction l as [|[c t] l IH]; intros CN INC G.
    - exists [], [], []. split; [reflexivity|]. split; [constructor|]. split; [constructor|]. split; [intros c t v []|].
      split; [intros x []|]. split; [constructor|]. intros _ c t [].
    - inversion CN; subst. destruct IH as (rs & xs & upd & E & I & D & R & K & N & Z0); [assumption| | |].
      { intros x X. apply INC. unfold members in *. cbn [map]. now right. }
      { intros c' t' v I C. apply (G c' t' v); [now right|assumption]. }
      rewrite go_cons. destruct (chosen vals c) as [v|] eqn:C.
      + destruct (G c t v (or_introl eq_refl) C) as (s & i & d & P & IT & DD & RR). rewrite P, E.
        exists (member_text (k_c c) s :: rs), ((Some (k_c c), i) :: xs), ((k_c c, d) :: upd). split; [reflexivity|].
        split; [constructor; [now apply member_item|assumption]|].
        split. { constructor; [|assumption]. split; [reflexivity|]. exists (declared ws t). split; [|assumption]. apply INC. unfold members. cbn [map]. now left. }
        split. { intros c' t' v' [X|X] C'; [injection X as <- <-; rewrite C in C'; injection C' as <-; exists d; split; [now left|assumption]|].
                 destruct (R c' t' v' X C') as (d' & J & RJ). exists d'. split; [now right|assumption]. }
        split. { cbn [map fst]. intros x [<-|X]; [now left|right; now apply K]. }
        split. { cbn [map fst]. intros ND. inversion ND; subst. constructor; [|auto]. intros X. apply K in X. contradiction. }
        discriminate.
      + exists rs, xs, upd. split; [assumption|]. split; [assumption|]. split; [assumption|].
        split. { intros c' t' v' [X|X] C'; [injection X as <- <-; congruence|]. now apply R. }
        split. { cbn [map fst]. intros x X. right. now apply K. }
        split. { cbn [map fst]. intros ND. inversion ND; subst. auto. }
        intros X c' t' [Y|Y]; [injection Y as <- <-; assumption|]. exact (Z0 X c' t' Y).
  Qed.
  Definition flag_of (vals : list (string * pval)) (ct : comp * pty) : Z := match named (k_name (fst ct)) vals with Some _ => 1 | None => 0 end.
  Lemma flags_good : forall vals ms l, Forall (fun ct => c_name (k_c (fst ct))) l ->
    incl (map (fun ct => (k_c (fst ct), YInt (false, 1))) l) ms ->
    exists xs, Forall2 (item_text gnu) (map (flag_text vals) l) xs /\
      Forall2 (desig env ms) xs (map (fun ct => (k_c (fst ct), DInt (flag_of vals ct))) l).
  Proof.
    intros vals ms. induction l as [|ct l IH]; intros CN INC; [exists []; split; constructor|]. inversion CN; subst.
    destruct IH as (xs & I & D); [assumption|intros x X; apply INC; now right|].
    set (n := flag_of vals ct). assert (NB : n = 0 \/ n = 1) by (unfold n, flag_of; destruct (named _ vals); auto).
    destruct (expr_init _ _ _ _ (expr_plain env gnu n ltac:(lia))) as (e & T & NS & V).
    exists ((Some (k_c (fst ct)), IExp e) :: xs). split.
    - cbn [map]. constructor; [|assumption]. unfold flag_text.
      replace (match named (k_name (fst ct)) vals with Some _ => "1" | None => "0" end)%string with (dec_text n);
        [now apply member_item|unfold n, flag_of; destruct (named _ vals); reflexivity].
    - cbn [map]. constructor; [|assumption]. split; [reflexivity|]. exists (YInt (false, 1)). split; [apply INC; now left|].
      cbn [snd]. rewrite (init_expr env _ e n NS V). cbn [store]. fold n. destruct NB as [-> | ->]; reflexivity.
  Qed.
  Lemma good_seq : forall l vals, Forall (fun ct : comp * pty => forall v, tame (snd ct) v -> good (snd ct) v) l ->
    tame (TSeq l) (PSeq vals) -> good (TSeq l) (PSeq vals).
  Proof.
    intros l vals IH T. inversion T as [| | | | | | | | | |l0 vals0 ND CN NV TV TD MG PR EL EV|]; subst. fold (has_opt l) in ND.
    assert (CH : forall c t v, In (c, t) l -> chosen vals c = Some v -> good t v).
    { intros c t v I C. rewrite Forall_forall in IH. apply (IH (c, t) I). cbn [snd]. unfold chosen in C.
      destruct (named (k_name c) vals) as [v'|] eqn:E.
      - injection C as <-. apply (TV c t v' I). now apply named_some.
      - destruct (k_opt c) as [[dv|]|] eqn:O; try discriminate. injection C as <-. apply (TD c t dv I O). now apply named_none. }
    set (ms := members ws l ++ if has_opt l then [("exist"%string, YStruct (bits_of l))] else []).
    destruct (comps_good vals ms l CN) as (rs & xs & upd & E & I & D & R & K & N & Z0); [intros x X; apply in_or_app; now left|exact CH|].
    assert (NC : NoDup (map (fun ct : comp * pty => k_c (fst ct)) l)) by (now apply nodup_app_l in ND). specialize (N NC).
    assert (NM : NoDup (map fst ms)).
    { unfold ms. rewrite map_app. unfold members. rewrite map_map. destruct (has_opt l); exact ND. }
    assert (CV : forall c v, In (k_name c, v) vals -> chosen vals c = Some v).
    { intros c v X. unfold chosen. now rewrite (named_in _ _ _ NV X). }
    assert (CD : forall c dv, k_opt c = Some (Some dv) -> ~ given (k_name c) vals -> chosen vals c = Some dv).
    { intros c dv X G. unfold chosen. destruct (named (k_name c) vals) eqn:EN; [|now rewrite X]. exfalso. apply G.
      apply named_some in EN. unfold given. apply in_map_iff. now exists (k_name c, p). }
    assert (NR : rs = [] -> l = [] /\ gnu = true).
    { intros X. destruct PR as [PR|(c & t & IN & G)]; [assumption|]. exfalso. specialize (Z0 X c t IN). unfold chosen in Z0.
      destruct (named (k_name c) vals) eqn:EN; [discriminate|]. destruct G as [G|(dv & G)]; [exact (named_none _ _ EN G)|].
      rewrite G in Z0. discriminate. }
    destruct (has_opt l) eqn:HO.
    - assert (ON : opts l <> []) by (intros X; apply opts_nil in X; congruence).
      assert (CNO : Forall (fun ct : comp * pty => c_name (k_c (fst ct))) (opts l)).
      { rewrite Forall_forall in *. intros x X. apply CN. unfold opts in X. now apply filter_In in X. }
      destruct (flags_good vals (bits_of l) (opts l) CNO) as (exs & EI & ED); [intros x X; exact X|].
      set (eu := map (fun ct : comp * pty => (k_c (fst ct), DInt (flag_of vals ct))) (opts l)) in *.
      assert (EN : NoDup (map fst eu)) by (unfold eu; rewrite map_map; now apply nodup_filter).
      assert (BN : NoDup (map fst (bits_of l))) by (unfold bits_of; rewrite map_map; now apply nodup_filter).
      destruct (init_desig env (bits_of l) exs eu BN EN ED) as (ecur & EINI & EM).
      assert (D' : Forall2 (desig env ms) (xs ++ [(Some "exist"%string, IList exs)]) (upd ++ [("exist"%string, DStruct ecur)])).
      { apply Forall2_app; [assumption|]. constructor; [|constructor]. split; [reflexivity|]. exists (YStruct (bits_of l)).
        split; [unfold ms; apply in_or_app; right; now left|assumption]. }
      assert (N' : NoDup (map fst (upd ++ [("exist"%string, DStruct ecur)]))).
      { rewrite map_app. cbn [map fst]. apply nodup_snoc; [assumption|]. intros X. apply K in X. apply nodup_app_one in ND. contradiction. }
      destruct (init_desig env ms _ _ NM N' D') as (cur & INI & MEM).
      exists (seq_text rs (map (flag_text vals) (opts l))). eexists. exists (DStruct cur). split; [now rewrite print_seq, E|]. split; [|split].
      + apply seq_init_exist; [exact I| |exact EI|].
        * intros X. destruct (NR X) as [-> _]. now apply ON.
        * intros X. apply map_eq_nil in X. contradiction.
      + rewrite declared_seq, HO. exact INI.
      + apply rp_seq.
        * intros c t v IN IV. destruct (R c t v IN (CV c v IV)) as (d & J & RJ). exists d. split; [apply MEM; apply in_or_app; now left|assumption].
        * intros c t dv IN O G. destruct (R c t dv IN (CD c dv O G)) as (d & J & RJ). exists d. split; [apply MEM; apply in_or_app; now left|assumption].
        * exact MG.
        * intros c t IN O. exists ecur, (flag_of vals (c, t)). split; [apply MEM; apply in_or_app; right; now left|]. split.
          { apply EM. unfold eu. apply in_map_iff. exists (c, t). split; [reflexivity|]. unfold opts. apply filter_In. split; [assumption|].
            cbn [fst]. unfold is_opt. destruct (k_opt c); [reflexivity|congruence]. }
          { unfold flag_of. cbn [fst]. destruct (named (k_name c) vals) eqn:EE.
            - left. split; [reflexivity|]. apply named_some in EE. unfold given. apply in_map_iff. now exists (k_name c, p).
            - right. split; [reflexivity|]. now apply named_none. }
    - assert (ON : opts l = []) by (now apply opts_nil).
      destruct (init_desig env ms _ _ NM N D) as (cur & INI & MEM).
      exists (seq_text rs []). eexists. exists (DStruct cur). split; [now rewrite print_seq, E, ON|]. split; [|split].
      + apply seq_init_plain; [exact I|]. intros X. now apply NR.
      + rewrite declared_seq, HO. exact INI.
      + apply rp_seq.
        * intros c t v IN IV. destruct (R c t v IN (CV c v IV)) as (d & J & RJ). exists d. split; [now apply MEM|assumption].
        * intros c t dv IN O G. destruct (R c t dv IN (CD c dv O G)) as (d & J & RJ). exists d. split; [now apply MEM|assumption].
        * exact MG.
        * intros c t IN O. exfalso. assert (X : In (c, t) (opts l)).
          { unfold opts. apply filter_In. split; [assumption|]. cbn [fst]. unfold is_opt. destruct (k_opt c); [reflexivity|congruence]. }
          rewrite ON in X. destruct X.
  Qed.
  Lemma good_enum : forall l e t, In e l -> NoDup (map e_name l) -> c_name (e_c e) -> env (e_c e) = Some (t, e_num e) ->
      in_tyb int32 (e_num e) = true -> good (TEnum l) (PEnum (e_name e)).
  Proof.
    intros l e t I N C E B. destruct (expr_init _ _ _ _ (expr_name env gnu _ _ _ C E)) as (x & T & NS & V).
    exists (e_c e), (IExp x), (DInt (e_num e)). split; [cbn [print_value deref]; now rewrite (enum_found _ _ N I)|]. split; [assumption|].
    split; [|now constructor]. rewrite (init_expr env _ x _ NS V). cbn [declared store]. rewrite conv_in; [reflexivity|unfold width; cbn; auto|].
    now apply in_tyb_in.
  Qed.
  Lemma good_null : good TNull PNull.
  Proof.
    exists "0"%string, (IExp (XNum "0")), (DInt 0). split; [reflexivity|]. split; [|split; [reflexivity|constructor]].
    exists [KNum "0"]. split; [apply (lexes_num "0" ""); reflexivity|]. intros c rest. constructor.
  Qed.
  Lemma tame_good : forall t v, tame t v -> good t v.
  Proof.
    induction t using pty_all; intros v T; apply good_deref; apply tame_deref in T; pose proof (deref_not_ref v) as NR;
      destruct (deref v) as [z0|b|ps|bl|os|en| |ol|pl|ss|cn cv|rv]; try (exfalso; apply (NR rv); reflexivity); clear NR; inversion T; subst.
    - apply good_int; assumption.
    - apply good_bool; assumption.
    - apply good_str; assumption.
    - apply good_bits; assumption.
    - apply good_octs; assumption.
    - eapply good_enum; eassumption.
    - apply good_null.
    - apply good_oid; assumption.
    - apply good_of; assumption.
    - apply good_seq; assumption.
    - eapply good_choice; try eassumption. rewrite Forall_forall in H.
      match goal with X : nth_error l _ = Some (a, t) |- _ => apply nth_error_In in X; apply (H (a, t) X) end. assumption.
  Qed.
  Theorem constants : forall T x t v, c_name T -> c_name x -> tame t v -> right_constant ws env gnu T x t v.
  Proof.
    intros T x t v [IT KT] [IX KX] H. destruct (tame_good t v H) as (s & i & d & P & (ts & L & R) & D & RR).
    exists ("const " ++ T ++ " " ++ x ++ " = " ++ s ++ ";")%string, i, d. unfold print_assignment. rewrite P. split; [reflexivity|].
    assert (DE : declares gnu ("const " ++ T ++ " " ++ x ++ " = " ++ s ++ ";") T x i).
    { split; [assumption|]. split; [assumption|]. exists (ts ++ [KP ";"]). split; [|apply R].
      rewrite (opens_const "const "%string [KId "const"] eq_refl (T ++ " " ++ x ++ " = " ++ s ++ ";")%string ([KId T; KId x; KP "="] ++ ts ++ [KP ";"])); [reflexivity|].
      change ([KId T; KId x; KP "="] ++ ts ++ [KP ";"]) with ([KId T] ++ [KId x; KP "="] ++ ts ++ [KP ";"]).
      apply (lexes_ident T IT " "%char (x ++ " = " ++ s ++ ";")%string); [reflexivity|].
      apply (opens_const " "%string [] eq_refl (x ++ " = " ++ s ++ ";")%string).
      change ([KId x; KP "="] ++ ts ++ [KP ";"]) with ([KId x] ++ [KP "="] ++ ts ++ [KP ";"]).
      apply (lexes_ident x IX " "%char ("= " ++ s ++ ";")%string); [reflexivity|].
      apply (opens_const " "%string [] eq_refl ("= " ++ s ++ ";")%string).
      apply (opens_const "= "%string [KP "="] eq_refl (s ++ ";")%string).
      apply (L ";"%char ""%string); reflexivity. }
    split; [exact DE|]. split; [intros i' X; now apply (declares_det _ _ _ _ _ _ DE)|]. split; assumption.
  Qed.
End All.
