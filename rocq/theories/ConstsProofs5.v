(** Proofs about the printed constants: initialisation of arrays and structures. *)
From Verif Require Import Base Bits CExpr AcnExpr AcnExprSpec AcnExprProofs AcnExprProofs2 AcnExprProofs3 CInit Consts ConstsSpec ConstsProofs ConstsProofs2 ConstsProofs3 ConstsProofs4.
From Coq Require Import String Ascii.
Local Open Scope Z_scope.

(** * Initialisation *)
Definition arr_go (env : cenv) (t' : cty_obj) :=
  fix go (l : list (option string * init)) : option (list data) :=
    match l with
    | [] => Some []
    | (None, i) :: l =>
        match initialise env t' i with
        | Some d => match go l with Some ds => Some (d :: ds) | None => None end
        | None => None
        end
    | (Some _, _) :: _ => None
    end.
Lemma init_arr : forall env n t l, initialise env (YArr n t) (IList l) =
  match arr_go env t l with
  | Some ds => if Z.of_nat (List.length ds) <=? n
               then Some (DArr (ds ++ repeat (zeroed t) (Z.to_nat n - List.length ds))) else None
  | None => None
  end.
Proof. reflexivity. Qed.
Definition struct_go (env : cenv) (ms : list (string * cty_obj)) :=
  fix go (next : list (string * cty_obj)) (cur : list (string * data)) (l : list (option string * init)) : option data :=
    match l with
    | [] => Some (DStruct cur)
    | (m, i) :: l =>
        match (match m with Some m => from m ms | None => next end) with
        | [] => None
        | (m', t') :: next' =>
            match initialise env t' i with Some d => go next' (put m' d cur) l | None => None end
        end
    end.
Lemma init_struct : forall env ms l, initialise env (YStruct ms) (IList l) = struct_go env ms ms (zero_members ms) l.
Proof. reflexivity. Qed.
Lemma init_union : forall env ms m i, initialise env (YUnion ms) (IList [(Some m, i)]) =
  match from m ms with
  | (m', t') :: _ => match initialise env t' i with Some d => Some (DUnion m' d) | None => None end
  | [] => None
  end.
Proof. reflexivity. Qed.
Definition elem (env : cenv) (t : cty_obj) (x : option string * init) (d : data) : Prop := fst x = None /\ initialise env t (snd x) = Some d.
Lemma arr_elems : forall env t l ds, Forall2 (elem env t) l ds -> arr_go env t l = Some ds.
Proof.
  intros env t l ds H. induction H as [|[m i] d l ds [H1 H2] H IH]; [reflexivity|]. cbn [fst snd] in *. subst m.
  cbn [arr_go]. rewrite H2. change (match arr_go env t l with Some ds0 => Some (d :: ds0) | None => None end = Some (d :: ds)).
  now rewrite IH.
Qed.
Lemma init_elems : forall env n t l ds, Forall2 (elem env t) l ds -> len ds <= n ->
  initialise env (YArr n t) (IList l) = Some (DArr (ds ++ repeat (zeroed t) (Z.to_nat n - List.length ds))).
Proof.
  intros env n t l ds H L. rewrite init_arr, (arr_elems _ _ _ _ H). unfold len in L.
  assert (Z.of_nat (List.length ds) <=? n = true) as -> by lia. reflexivity.
Qed.
(** A sizeable type, positional or with designators. *)
Lemma sized_init : forall env (fixed : bool) n t m1 m2 e k xs ds,
  (m1 = None \/ m1 = Some "nCount"%string) -> (m2 = None \/ m2 = Some "arr"%string) ->
  (forall l, e <> XStr l) -> exp_val env e = Some k -> in_ty int32 k ->
  Forall2 (elem env t) xs ds -> len ds <= n -> (fixed = true -> len ds = n) ->
  exists pad d, initialise env (sized fixed n t) (IList ((if fixed then [] else [(m1, IExp e)]) ++ [(m2, IList xs)])) = Some d /\
    counted fixed k ds pad d.
Proof.
  intros env fixed n t m1 m2 e k xs ds M1 M2 NS EV IK F L FX. pose proof (init_elems env n t xs ds F L) as A.
  set (pad := repeat (zeroed t) (Z.to_nat n - List.length ds)) in *.
  exists pad. unfold sized, counted. destruct fixed.
  - assert (P : pad = []). { unfold pad. replace (Z.to_nat n - List.length ds)%nat with 0%nat; [reflexivity|]. specialize (FX eq_refl). unfold len in FX. lia. }
    eexists. split; [|split; [exact P|reflexivity]]. cbn [app]. rewrite init_struct. unfold struct_go.
    assert (match m2 with Some m => from m [("arr"%string, YArr n t)] | None => [("arr"%string, YArr n t)] end = [("arr"%string, YArr n t)]) as ->
      by (destruct M2 as [->| ->]; reflexivity).
    rewrite A, P, app_nil_r. reflexivity.
  - eexists. split; [|reflexivity]. cbn [app]. rewrite init_struct. unfold struct_go.
    set (ms := [("nCount"%string, YInt int32); ("arr"%string, YArr n t)]).
    assert (match m1 with Some m => from m ms | None => ms end = ms) as -> by (destruct M1 as [->| ->]; reflexivity).
    unfold ms at 1. rewrite (init_expr env (YInt int32) e k NS EV). cbn [store].
    assert (match m2 with Some m => from m ms | None => [("arr"%string, YArr n t)] end = [("arr"%string, YArr n t)]) as ->
      by (destruct M2 as [->| ->]; reflexivity).
    rewrite A. rewrite conv_in by (assumption || (unfold width; cbn; auto)). reflexivity.
Qed.
(** Designated members. *)
Definition desig (env : cenv) (ms : list (string * cty_obj)) (x : option string * init) (md : string * data) : Prop :=
  fst x = Some (fst md) /\ exists t, In (fst md, t) ms /\ initialise env t (snd x) = Some (snd md).
Definition puts (upd : list (string * data)) (cur : list (string * data)) : list (string * data) :=
  fold_left (fun c md => put (fst md) (snd md) c) upd cur.
Lemma from_in : forall m t ms, NoDup (map fst ms) -> In (m, t) ms -> exists rest, from m ms = (m, t) :: rest.
Proof.
  intros m t ms. induction ms as [|[m' t'] ms IH]; intros N I; [destruct I|]. cbn [from]. inversion N; subst. destruct I as [E|I].
  - injection E as -> ->. rewrite String.eqb_refl. eauto.
  - destruct (String.eqb_spec m m') as [->|]; [|auto]. exfalso. apply H1. apply in_map_iff. exists (m', t). auto.
Qed.
Lemma struct_desig : forall env ms, NoDup (map fst ms) -> forall l upd, Forall2 (desig env ms) l upd -> forall next cur,
  struct_go env ms next cur l = Some (DStruct (puts upd cur)).
Proof.
  intros env ms N l upd H. induction H as [|[m i] [m' d] l upd [H1 (t & I & E)] H IH]; intros next cur; [reflexivity|].
  cbn [fst snd] in *. subst m. destruct (from_in _ _ _ N I) as (rest & F).
  change (struct_go env ms next cur ((Some m', i) :: l)) with
    (match from m' ms with [] => None | (m1, t1) :: next' => match initialise env t1 i with Some d => struct_go env ms next' (put m1 d cur) l | None => None end end).
  rewrite F, E, IH. reflexivity.
Qed.
Lemma put_names : forall m d cur, map fst (put m d cur) = map fst cur.
Proof.
  intros m d cur. induction cur as [|[m' d'] cur IH]; [reflexivity|]. cbn [put]. destruct (String.eqb_spec m m') as [->|]; cbn; [reflexivity|now rewrite IH].
Qed.
Lemma member_put : forall m d cur, In m (map fst cur) -> member m (put m d cur) = Some d.
Proof.
  intros m d cur. induction cur as [|[m' d'] cur IH]; intros I; [destruct I|]. cbn [put]. destruct (String.eqb_spec m m') as [->|].
  - cbn [member]. now rewrite String.eqb_refl.
  - cbn [member]. destruct (String.eqb_spec m' m); [congruence|]. apply IH. destruct I as [I|I]; [cbn in I; congruence|assumption].
Qed.
Lemma member_other : forall m m' d cur, m <> m' -> member m (put m' d cur) = member m cur.
Proof.
  intros m m' d cur D. induction cur as [|[n e] cur IH]; [reflexivity|]. cbn [put]. destruct (String.eqb_spec m' n) as [<-|].
  - cbn [member]. destruct (String.eqb_spec m' m); [congruence|reflexivity].
  - cbn [member]. now rewrite IH.
Qed.
Lemma puts_other : forall upd cur m, ~ In m (map fst upd) -> member m (puts upd cur) = member m cur.
Proof.
  induction upd as [|[m' d'] upd IH]; intros cur m H; [reflexivity|]. cbn [puts fold_left fst snd].
  change (member m (puts upd (put m' d' cur)) = member m cur). rewrite IH by (intros X; apply H; now right).
  apply member_other. intros ->. apply H. now left.
Qed.
Lemma member_puts : forall upd cur m d, NoDup (map fst upd) -> In (m, d) upd -> In m (map fst cur) -> member m (puts upd cur) = Some d.
Proof.
  induction upd as [|[m' d'] upd IH]; intros cur m d N I C; [destruct I|]. inversion N; subst.
  change (member m (puts upd (put m' d' cur)) = Some d). destruct I as [E|I].
  - injection E as -> ->. rewrite puts_other by assumption. now apply member_put.
  - apply IH; [assumption|assumption|]. now rewrite put_names.
Qed.
Lemma zero_names : forall ms, map fst (zero_members ms) = map fst ms.
Proof. intros ms. unfold zero_members. rewrite map_map. reflexivity. Qed.
Lemma init_desig : forall env ms l upd, NoDup (map fst ms) -> NoDup (map fst upd) -> Forall2 (desig env ms) l upd ->
  exists cur, initialise env (YStruct ms) (IList l) = Some (DStruct cur) /\ forall m d, In (m, d) upd -> member m cur = Some d.
Proof.
  intros env ms l upd N U H. exists (puts upd (zero_members ms)). split.
  - rewrite init_struct. now apply struct_desig.
  - intros m d I. apply member_puts; [assumption|assumption|]. rewrite zero_names.
    assert (X : forall l upd, Forall2 (desig env ms) l upd -> In (m, d) upd -> In m (map fst ms)).
    { clear. intros l upd H. induction H as [|x md l upd [_ (t & I & _)] H IH]; intros J; [destruct J|]. destruct J as [->|J]; [|auto].
      cbn in I. apply in_map_iff. now exists (m, t). }
    exact (X _ _ H I).
Qed.

(** * Bit strings *)
Lemma nibbles_len : forall l, bits_to_bytes l = match l with
  | a :: b :: c :: d :: e :: f :: g :: h :: l' =>
     (bit a * 8 + bit b * 4 + bit c * 2 + bit d) * 16 + (bit e * 8 + bit f * 4 + bit g * 2 + bit h) :: bits_to_bytes l'
  | _ => bits_to_bytes l end.
Proof. intros [|a [|b [|c [|d [|e [|f [|g [|h l]]]]]]]]; reflexivity. Qed.
Lemma bytes_bits : forall l, take_bits (len l) (bits_to_bytes l) = l /\ len (bits_to_bytes l) = (len l + 7) / 8 /\
  Forall (fun b => 0 <= b < 256) (bits_to_bytes l).
Proof.
  assert (X : forall n l, (List.length l <= n)%nat -> take_bits (len l) (bits_to_bytes l) = l /\ len (bits_to_bytes l) = (len l + 7) / 8 /\
    Forall (fun b => 0 <= b < 256) (bits_to_bytes l)).
  2: { intros l. apply (X (List.length l) l). lia. }
  induction n as [|n IH]; intros l H.
  - destruct l; [|cbn in H; lia]. cbn. auto.
  - destruct l as [|a [|b [|c [|d [|e [|f [|g [|h l]]]]]]]];
      try (clear; repeat match goal with x : bool |- _ => destruct x end; (split; [reflexivity|split; [reflexivity|cbn; repeat constructor; lia]])).
    rewrite (nibbles_len (a :: b :: c :: d :: e :: f :: g :: h :: l)). destruct (IH l) as (I1 & I2 & I3); [cbn in H; lia|].
    set (r := bits_to_bytes l) in *. clearbody r. split; [|split].
    + unfold take_bits, len in *. rewrite Nat2Z.id in *. cbn [List.length bits_of_bytes flat_map].
      rewrite <- I1 at 2. clear. revert r. generalize (List.length l). intros k r.
      destruct a, b, c, d, e, f, g, h; reflexivity.
    + unfold len in *. cbn [List.length]. rewrite !Nat2Z.inj_succ. rewrite I2.
      replace (Z.succ (Z.succ (Z.succ (Z.succ (Z.succ (Z.succ (Z.succ (Z.succ (Z.of_nat (List.length l))))))))) + 7)
        with (Z.of_nat (List.length l) + 7 + 1 * 8) by lia. rewrite Z.div_add by lia. lia.
    + constructor; [|assumption]. clear. destruct a, b, c, d, e, f, g, h; cbn; lia.
Qed.
