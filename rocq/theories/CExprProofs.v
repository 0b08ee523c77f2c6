(** The C grammar is unambiguous; facts about the tokens. *)
From Verif Require Import Base CExpr.
From Coq Require Import String Ascii.
Local Open Scope Z_scope.

Lemma derives_up : forall l l' ts e, (l <= l')%nat -> derives l ts e -> derives l' ts e.
Proof. induction 1; auto using d_up. Qed.
Lemma op_level_ge : forall op l, op_level op = Some l -> (2 <= l <= 7)%nat.
Proof.
  unfold op_level. intros op l H.
  repeat match type of H with (if ?b then _ else _) = _ => destruct b end; try congruence;
  match type of H with Some ?n = _ => assert (n = l) by congruence; lia end.
Qed.
Definition is_un (ts : list tok) : bool := match ts with TP op :: _ => existsb (String.eqb op) ["-"; "!"]%string | _ => false end.
Definition stops (l : nat) (ts : list tok) : Prop :=
  match ts with
  | TP op :: _ =>
      match l with
      | O => op <> "->"%string /\ op <> "."%string
      | _ => op_level op <> Some l
      end
  | _ => True
  end.

(** A deterministic parser, as a relation. *)
Inductive Pr : nat -> list tok -> cexp -> list tok -> Prop :=
| p_id : forall s ts e r, Lo 0 (CId s) ts e r -> Pr 0 (TId s :: ts) e r
| p_num : forall s ts e r, Lo 0 (CNum s) ts e r -> Pr 0 (TNum s :: ts) e r
| p_paren : forall ts e1 ts' e r, Pr 7 ts e1 (TP ")" :: ts') -> Lo 0 e1 ts' e r -> Pr 0 (TP "(" :: ts) e r
| p_un0 : forall ts e r, is_un ts = false -> Pr 0 ts e r -> Pr 1 ts e r
| p_un : forall op ts e r, is_un (TP op :: ts) = true -> Pr 1 ts e r -> Pr 1 (TP op :: ts) (CUn op e) r
| p_bin : forall l ts e1 r1 e r, (1 <= l)%nat -> Pr l ts e1 r1 -> Lo (S l) e1 r1 e r -> Pr (S l) ts e r
with Lo : nat -> cexp -> list tok -> cexp -> list tok -> Prop :=
| l_arrow : forall a s ts e r, Lo 0 (CMem true a s) ts e r -> Lo 0 a (TP "->" :: TId s :: ts) e r
| l_dot : forall a s ts e r, Lo 0 (CMem false a s) ts e r -> Lo 0 a (TP "." :: TId s :: ts) e r
| l_op : forall l a op ts e2 r1 e r, op_level op = Some (S l) -> Pr l ts e2 r1 -> Lo (S l) (CBin op a e2) r1 e r ->
    Lo (S l) a (TP op :: ts) e r
| l_end : forall l a ts, stops l ts -> Lo l a ts a ts.
Scheme Pr_mut := Induction for Pr Sort Prop with Lo_mut := Induction for Lo Sort Prop.

Lemma det : forall l ts e r, Pr l ts e r -> forall e' r', Pr l ts e' r' -> e = e' /\ r = r'.
Proof.
  apply (Pr_mut (fun l ts e r _ => forall e' r', Pr l ts e' r' -> e = e' /\ r = r')
                (fun l a ts e r _ => forall e' r', Lo l a ts e' r' -> e = e' /\ r = r')).
  - intros s ts e r _ IH e' r' H. inversion H; subst. auto.
  - intros s ts e r _ IH e' r' H. inversion H; subst. auto.
  - intros ts e1 ts' e r _ IH1 _ IH2 e' r' H. inversion H; subst.
    match goal with X : Pr 7 _ _ _ |- _ => destruct (IH1 _ _ X) as [E1 E2] end.
    assert (ts' = ts'0) by congruence. subst. auto.
  - intros ts e r U _ IH e' r' H. inversion H; subst; [auto|congruence|lia].
  - intros op ts e r U _ IH e' r' H. inversion H; subst; [congruence| |lia].
    match goal with X : Pr 1 _ _ _ |- _ => destruct (IH _ _ X) end. subst. auto.
  - intros l ts e1 r1 e r L _ IH1 _ IH2 e' r' H. inversion H; subst; try lia.
    match goal with X : Pr l _ _ _ |- _ => destruct (IH1 _ _ X) end. subst. auto.
  - intros a s ts e r _ IH e' r' H. inversion H; subst; [auto|]. cbn in *. intuition congruence.
  - intros a s ts e r _ IH e' r' H. inversion H; subst; [auto|]. cbn in *. intuition congruence.
  - intros l a op ts e2 r1 e r O _ IH1 _ IH2 e' r' H. inversion H; subst.
    + match goal with X : Pr l _ _ _ |- _ => destruct (IH1 _ _ X) end. subst. auto.
    + cbn in *. congruence.
  - intros l a ts S e' r' H. inversion H; subst; cbn in *; intuition congruence.
Qed.

Definition low (n : nat) (ts : list tok) : Prop := forall k, (k < n)%nat -> stops k ts.
Lemma derives_head : forall l ts e rest, derives l ts e -> l = O -> is_un (ts ++ rest) = false.
Proof.
  intros l ts e rest H. revert rest. induction H; intros rest E; try discriminate; try reflexivity.
  - rewrite <- app_assoc. auto.
  - rewrite <- app_assoc. auto.
Qed.
Lemma complete : forall l ts e, derives l ts e -> forall rest, low l rest -> forall e' r', Lo l e rest e' r' -> Pr l (ts ++ rest) e' r'.
Proof.
  induction 1; intros rest L e' r' H'.
  - apply p_id. exact H'.
  - apply p_num. exact H'.
  - cbn [app]. rewrite <- app_assoc. cbn [app]. eapply p_paren; [|exact H'].
    apply IHderives.
    + intros k K. cbn. destruct k as [|k]; [split; discriminate|]. vm_compute. congruence.
    + apply l_end. vm_compute. congruence.
  - rewrite <- app_assoc. cbn [app]. apply IHderives; [intros k K; lia|]. apply l_arrow. exact H'.
  - rewrite <- app_assoc. cbn [app]. apply IHderives; [intros k K; lia|]. apply l_dot. exact H'.
  - assert (e' = CUn op e /\ r' = rest) as [-> ->].
    { inversion H'; subst; [|auto]. match goal with X : op_level _ = _ |- _ => apply op_level_ge in X; lia end. }
    cbn [app]. apply p_un.
    + cbn [is_un]. apply existsb_exists. exists op. split; [assumption|apply String.eqb_refl].
    + apply IHderives; [assumption|]. apply l_end. destruct rest as [|[s|s|s] rest]; try exact I.
      intros F. cbn in F. apply op_level_ge in F. lia.
  - pose proof (op_level_ge _ _ H) as G. rewrite <- app_assoc. cbn [app]. apply IHderives1.
    + intros k K. cbn. destruct k as [|k]; [|rewrite H; intros F; assert (S l = S k) by congruence; lia].
      split; intros F; subst; vm_compute in H; discriminate.
    + eapply l_op; [exact H| |exact H'].
      apply IHderives2; [intros k K; apply L; lia|]. apply l_end. apply L. lia.
  - destruct l as [|l].
    + assert (e' = e /\ r' = rest) as [-> ->].
      { inversion H'; subst; [|auto]. match goal with X : op_level _ = _ |- _ => apply op_level_ge in X; lia end. }
      apply p_un0; [eapply derives_head; eauto|]. apply IHderives; [intros k K; lia|]. apply l_end. apply L. lia.
    + eapply p_bin; [lia| |exact H']. apply IHderives; [intros k K; apply L; lia|]. apply l_end. apply L. lia.
Qed.
Lemma unambiguous : forall ts e e', derives 7 ts e -> derives 7 ts e' -> e = e'.
Proof.
  intros ts e e' H H'.
  assert (X : forall x, derives 7 ts x -> Pr 7 (ts ++ []) x []).
  { intros x D. apply (complete _ _ _ D); [intros k K; exact I|]. apply l_end. exact I. }
  destruct (det _ _ _ _ (X _ H) _ _ (X _ H')) as [E _]. exact E.
Qed.

(** * Tokens *)
Lemma run_app : forall a st b, run st (a ++ b)%string =
  match run st a with Some (t, st') => match run st' b with Some (t', st'') => Some (t ++ t', st'') | None => None end | None => None end.
Proof.
  induction a as [|c a IH]; intros st b; cbn [String.append run].
  - destruct (run st b) as [[t s]|]; reflexivity.
  - destruct (step st c) as [[t st']|]; [|reflexivity]. rewrite IH.
    destruct (run st' a) as [[t' st'']|]; [|reflexivity].
    destruct (run st'' b) as [[t2 s2]|]; [|reflexivity]. now rewrite app_assoc.
Qed.
Definition lexes (s : string) (ts : list tok) : Prop := exists ts0 st, run Idle s = Some (ts0, st) /\ ts = ts0 ++ flush st.
Lemma lexes_tokens : forall s ts, lexes s ts -> tokens s = Some ts.
Proof. intros s ts (t0 & st & E & ->). unfold tokens. now rewrite E. Qed.
Lemma step_space : forall st, step st " " = Some (flush st, Idle).
Proof.
  intros [|a|a l|o]; cbn; try reflexivity.
  - now rewrite !andb_false_r.
  - unfold pair_punct. cbn. now rewrite !andb_false_r.
Qed.
Lemma step_close : forall st, step st ")" = Some (flush st, InOp ")").
Proof.
  intros [|a|a l|o]; cbn; try reflexivity.
  - now rewrite !andb_false_r.
  - unfold pair_punct. cbn. now rewrite !andb_false_r.
Qed.
(** No expression ends with an operator or starts with a binary one. *)
Definition ends_ok (t : tok) : Prop := match t with TP s => s = ")"%string | _ => True end.
Lemma derives_last : forall l ts e, derives l ts e -> exists ts' t, ts = ts' ++ [t] /\ ends_ok t.
Proof.
  induction 1.
  - exists [], (TId s). split; [reflexivity|exact I].
  - exists [], (TNum s). split; [reflexivity|exact I].
  - exists (TP "(" :: ts), (TP ")"). split; reflexivity.
  - exists (ts ++ [TP "->"]), (TId s). split; [now rewrite <- app_assoc|exact I].
  - exists (ts ++ [TP "."]), (TId s). split; [now rewrite <- app_assoc|exact I].
  - destruct IHderives as (ts' & t & -> & E). exists (TP op :: ts'), t. split; [reflexivity|exact E].
  - destruct IHderives2 as (ts' & t & -> & E). exists (ts1 ++ TP op :: ts'), t. split; [now rewrite <- app_assoc|exact E].
  - exact IHderives.
Qed.
Lemma no_trailing : forall l ts s e, s <> ")"%string -> ~ derives l (ts ++ [TP s]) e.
Proof.
  intros l ts s e N D. destruct (derives_last _ _ _ D) as (ts' & t & E & O). apply app_inj_tail in E as [_ <-]. exact (N O).
Qed.
