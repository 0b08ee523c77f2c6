(** Proofs for C65. *)
From Verif Require Import Names NamesSpec.
From Coq Require Import String Ascii List Bool Arith Lia Permutation.
Import ListNotations.
Local Open Scope string_scope.
Local Open Scope list_scope.

Lemma nty_rect' : forall P : nty -> Prop,
  (forall items, P (NEnum items)) ->
  (forall l, Forall (fun c => P (snd c)) l -> P (NSeq l)) ->
  (forall l, Forall (fun c => P (snd c)) l -> P (NChoice l)) ->
  (forall t, P t -> P (NOf t)) -> P NOther -> forall t, P t.
Proof.
  intros P HE HS HC HO HN. fix IH 1. intros [items|l|l|t|].
  - apply HE.
  - apply HS. induction l as [|[n t] l IHl]; constructor; [apply IH|exact IHl].
  - apply HC. induction l as [|[n t] l IHl]; constructor; [apply IH|exact IHl].
  - apply HO, IH.
  - exact HN.
Qed.

(** * Strings *)
Lemma sapp_assoc : forall a b c, ((a ++ b) ++ c = a ++ b ++ c)%string.
Proof. induction a as [|x a IH]; intros; cbn; [reflexivity|now rewrite IH]. Qed.
Lemma sapp_nil : forall a, (a ++ "")%string = a.
Proof. induction a as [|x a IH]; cbn; [reflexivity|now rewrite IH]. Qed.
Lemma prefix_spec : forall x s, prefix x s = true <-> exists v, s = (x ++ v)%string.
Proof.
  induction x as [|c x IH]; intros s.
  - split; [intros _; exists s; reflexivity|destruct s; reflexivity].
  - destruct s as [|d s]; [split; [discriminate|intros [v H]; discriminate]|].
    assert (E : prefix (String c x) (String d s) = if ascii_dec c d then prefix x s else false) by reflexivity. rewrite E.
    destruct (ascii_dec c d) as [->|N].
    + rewrite IH. split; intros [v H]; exists v; [now rewrite H|cbn in H; congruence].
    + split; [discriminate|]. intros [v H]. cbn in H. congruence.
Qed.
Lemma contains_spec : forall x s, contains x s = true <-> exists u v, s = (u ++ x ++ v)%string.
Proof.
  intros x s. induction s as [|c s IH]; cbn [contains]; rewrite orb_true_iff, prefix_spec.
  - split; [intros [[v H]|H]; [exists "", v; exact H|discriminate]|].
    intros (u & v & H). left. destruct u; [exists v; exact H|discriminate].
  - rewrite IH. split.
    + intros [[v H]|(u & v & H)]; [exists "", v; exact H|exists (String c u), v; cbn; now rewrite H].
    + intros (u & v & H). destruct u as [|d u]; [left; exists v; exact H|right; exists u, v; cbn in H; congruence].
Qed.
Lemma ToC_app : forall a b, ToC (a ++ b)%string = (ToC a ++ ToC b)%string.
Proof. induction a as [|c a IH]; intros b; cbn; [reflexivity|]. now rewrite IH, sapp_assoc. Qed.
(** Names that ToC leaves alone. *)
Definition special (c : ascii) : bool := existsb (fun d => (c =? d)%char) ["-"; "."; "("; ")"; "#"]%char.
Fixpoint clean (s : string) : bool := match s with "" => true | String c s => negb (special c) && clean s end.
Lemma clean_app : forall a b, clean (a ++ b)%string = clean a && clean b.
Proof. induction a as [|c a IH]; intros b; cbn; [reflexivity|]. now rewrite IH, andb_assoc. Qed.
Lemma toc_char_clean : forall c, special c = false -> toc_char c = String c "".
Proof.
  intros c H. unfold special, toc_char in *. cbn [existsb] in *. rewrite !orb_false_iff in H. destruct H as (A & B & C & D & E & _).
  rewrite A, B, C, D, E. reflexivity.
Qed.
Lemma ToC_id : forall s, clean s = true -> ToC s = s.
Proof.
  induction s as [|c s IH]; cbn [clean ToC]; intros H; [reflexivity|]. apply andb_true_iff in H as [A B].
  rewrite toc_char_clean by (now apply negb_true_iff). cbn. now rewrite IH.
Qed.
Lemma ToC_clean : forall s, clean (ToC s) = true.
Proof.
  induction s as [|c s IH]; cbn [ToC]; [reflexivity|]. rewrite clean_app, IH, andb_true_r.
  destruct (special c) eqn:S; [|rewrite toc_char_clean by exact S; cbn [clean]; now rewrite S].
  unfold special in S. unfold toc_char. cbn [existsb] in *.
  destruct (c =? "-")%char; [reflexivity|]. destruct (c =? ".")%char; [reflexivity|]. destruct (c =? "(")%char; [reflexivity|].
  destruct (c =? ")")%char; [reflexivity|]. destruct (c =? "#")%char; [reflexivity|discriminate].
Qed.
Lemma contains_more : forall x s p, contains x s = true -> contains x (p ++ s)%string = true.
Proof.
  intros x s p H. apply contains_spec in H as (u & v & ->). apply contains_spec. exists (p ++ u)%string, v. now rewrite sapp_assoc.
Qed.
Lemma contains_head : forall p s, contains p (p ++ s)%string = true.
Proof. intros. apply contains_spec. exists "", s. reflexivity. Qed.
Lemma contains_ToC : forall x s, contains (ToC x) s = true -> contains (ToC x) (ToC s) = true.
Proof.
  intros x s H. apply contains_spec in H as (u & v & ->). apply contains_spec. exists (ToC u), (ToC v).
  rewrite !ToC_app. now rewrite (ToC_id (ToC x)) by apply ToC_clean.
Qed.
Lemma delete_clean : forall x s k, clean s = true -> clean (delete x k s) = true.
Proof.
  intros x s. induction s as [|c s IH]; intros k H; [reflexivity|]. cbn [clean] in H. apply andb_true_iff in H as [A B].
  cbn [delete]. destruct k; [|auto]. destruct (prefix x (String c s)); [auto|]. cbn [clean]. now rewrite A, IH.
Qed.
Lemma icompare_refl : forall x, icompare x x = true.
Proof. intros. apply String.eqb_refl. Qed.

(** * keepDuplicates *)
Lemma filter_length_le : forall (A : Type) f (l : list A), List.length (filter f l) <= List.length l.
Proof. induction l as [|x l IH]; cbn; [lia|]. destruct (f x); cbn; lia. Qed.
Lemma keepDup_nil : forall f n l, List.length l <= n -> keepDup f n l = [] <-> ForallOrdPairs (fun a b => f a b = false) l.
Proof.
  intros f n. induction n as [|n IH]; intros l L.
  - destruct l; [|cbn in L; lia]. split; [constructor|reflexivity].
  - destruct l as [|x xs]; [split; [constructor|reflexivity]|]. cbn [List.length] in L. cbn [keepDup].
    destruct (filter (f x) xs) as [|y ys] eqn:E.
    + rewrite IH by lia. split.
      * intros H. constructor; [|exact H]. apply Forall_forall. intros z I. destruct (f x z) eqn:F; [|reflexivity].
        assert (In z (filter (f x) xs)) by (apply filter_In; auto). rewrite E in *. contradiction.
      * intros H. now inversion H.
    + split; [discriminate|]. intros H. inversion H as [|? ? A _]; subst. rewrite Forall_forall in A.
      assert (In y (filter (f x) xs)) as I by (rewrite E; now left). apply filter_In in I as [I F]. rewrite (A _ I) in F. discriminate.
Qed.
Lemma dup_nil : forall f l, keepDuplicates f l = [] <-> ForallOrdPairs (fun a b => f a b = false) l.
Proof. intros. now apply keepDup_nil. Qed.
Lemma eqb_pairs : forall l, ForallOrdPairs (fun a b => String.eqb a b = false) l <-> NoDup l.
Proof.
  induction l as [|x l IH]; [split; constructor|]. split; intros H; inversion H as [|? ? A B]; subst; constructor; try (now apply IH).
  - intros I. rewrite Forall_forall in A. specialize (A x I). now rewrite String.eqb_refl in A.
  - apply Forall_forall. intros y I. apply String.eqb_neq. intros ->. contradiction.
Qed.
Lemma dup_in : forall f n l x, In x (keepDup f n l) -> In x l.
Proof.
  intros f n. induction n as [|n IH]; intros l x H; [destruct H|]. destruct l as [|y ys]; [destruct H|]. cbn [keepDup] in H.
  destruct (filter (f y) ys).
  - right. auto.
  - destruct H as [->|H]; [now left|]. right. apply IH in H. now apply filter_In in H.
Qed.
Definition cnt := count_occ string_dec.
Lemma cnt_filter : forall f l x, cnt (filter f l) x <= cnt l x.
Proof. unfold cnt. induction l as [|y l IH]; intros x; cbn; [lia|]. destruct (f y); cbn; destruct (string_dec y x); specialize (IH x); lia. Qed.
Lemma dup_twice : forall n l x, In x (keepDup String.eqb n l) -> 2 <= cnt l x.
Proof.
  intros n. induction n as [|n IH]; intros l x H; [destruct H|]. destruct l as [|y ys]; [destruct H|]. cbn [keepDup] in H.
  unfold cnt. cbn [count_occ]. fold cnt. destruct (filter (String.eqb y) ys) as [|z zs] eqn:E.
  - apply IH in H. fold cnt. destruct (string_dec y x); unfold cnt in *; lia.
  - destruct H as [->|H].
    + destruct (string_dec x x); [|congruence]. assert (I : In z (filter (String.eqb x) ys)) by (rewrite E; now left).
      apply filter_In in I as [I F]. apply String.eqb_eq in F. subst z. apply (count_occ_In string_dec) in I. unfold cnt. lia.
    + apply IH in H. pose proof (cnt_filter (fun y0 => negb (String.eqb y0 y)) ys x). destruct (string_dec y x); unfold cnt in *; lia.
Qed.
Lemma twice_dup : forall n l x, List.length l <= n -> 2 <= cnt l x -> In x (keepDup String.eqb n l).
Proof.
  intros n. induction n as [|n IH]; intros l x L H.
  - destruct l; [unfold cnt in H; cbn in H; lia|cbn in L; lia].
  - destruct l as [|y ys]; [unfold cnt in H; cbn in H; lia|]. cbn [List.length] in L. cbn [keepDup]. unfold cnt in H. cbn [count_occ] in H.
    destruct (filter (String.eqb y) ys) as [|z zs] eqn:E.
    + destruct (string_dec y x) as [->|N].
      * assert (In x ys) as I by (apply (count_occ_In string_dec); lia).
        assert (In x (filter (String.eqb x) ys)) as F by (apply filter_In; split; [exact I|apply String.eqb_refl]). rewrite E in F. destruct F.
      * apply IH; [lia|exact H].
    + destruct (string_dec y x) as [->|N]; [now left|]. right. apply IH.
      * pose proof (filter_length_le _ (fun y0 => negb (String.eqb y0 y)) ys). lia.
      * unfold cnt. clear E IH L. revert H. induction ys as [|w ws IHw]; cbn [count_occ filter]; [auto|].
        destruct (String.eqb_spec w y) as [->|M]; cbn [negb]; [destruct (string_dec y x); [congruence|auto]|].
        cbn [count_occ]. intros H. destruct (string_dec w x).
        -- assert (C : forall ws, count_occ string_dec ws x <= count_occ string_dec (filter (fun y0 => negb (String.eqb y0 y)) ws) x).
           { clear -N. induction ws as [|v vs IHv]; cbn [count_occ filter]; [lia|]. destruct (String.eqb_spec v y) as [->|M]; cbn [negb].
             - destruct (string_dec y x); [congruence|lia].
             - cbn [count_occ]. destruct (string_dec v x); lia. }
           specialize (C ws). lia.
        -- auto.
Qed.

(** * omap *)
Lemma omap_some : forall (A B : Type) (f : A -> option B) l l', omap f l = Some l' <-> Forall2 (fun x y => f x = Some y) l l'.
Proof.
  intros A B f. induction l as [|x l IH]; intros l'.
  - cbn. split; [intros H; assert (l' = []) by congruence; subst; constructor|intros H; inversion H; reflexivity].
  - assert (EQ : omap f (x :: l) = match f x, omap f l with Some y, Some l' => Some (y :: l') | _, _ => None end) by reflexivity.
    rewrite EQ. clear EQ. split.
    + destruct (f x) as [y|] eqn:E; [|discriminate]. destruct (omap f l) as [l2|] eqn:F; [|discriminate].
      intros H. assert (l' = y :: l2) by congruence. subst. constructor; [exact E|]. now apply IH.
    + intros H. inversion H as [|? y ? l2 E F]; subst. rewrite E. apply IH in F. now rewrite F.
Qed.
Lemma Forall2_flat_map : forall (A B C D : Type) (R : C -> D -> Prop) (f : A -> list C) (g : B -> list D) (Q : A -> B -> Prop) l l',
  Forall2 Q l l' -> (forall a b, In a l -> Q a b -> Forall2 R (f a) (g b)) -> Forall2 R (flat_map f l) (flat_map g l').
Proof.
  intros A B C D R f g Q l l' H. induction H as [|a b l l' q H IH]; intros K; cbn; [constructor|].
  apply Forall2_app; [apply K; [now left|exact q]|]. apply IH. intros. apply K; [now right|assumption].
Qed.
Lemma Forall2_map_l : forall (A B C D : Type) (R : C -> D -> Prop) (f : A -> C) (g : B -> D) (Q : A -> B -> Prop) l l',
  Forall2 Q l l' -> (forall a b, In a l -> Q a b -> R (f a) (g b)) -> Forall2 R (map f l) (map g l').
Proof.
  intros A B C D R f g Q l l' H. induction H as [|a b l l' q H IH]; intros K; cbn; constructor; [apply K; [now left|exact q]|].
  apply IH. intros. apply K; [now right|assumption].
Qed.
Lemma Forall2_eq_map : forall (A B C : Type) (f : A -> C) (g : B -> C) (Q : A -> B -> Prop) l l',
  Forall2 Q l l' -> (forall a b, In a l -> Q a b -> f a = g b) -> map f l = map g l'.
Proof.
  intros A B C f g Q l l' H. induction H as [|a b l l' q H IH]; intros K; cbn; [reflexivity|]. f_equal; [apply K; [now left|exact q]|].
  apply IH. intros. apply K; [now right|assumption].
Qed.
Lemma option_map_some : forall (A B : Type) (f : A -> B) o y, option_map f o = Some y <-> exists x, o = Some x /\ y = f x.
Proof.
  intros A B f [x|] y; cbn; split.
  - intros H. exists x. split; congruence.
  - intros (z & E & ->). congruence.
  - discriminate.
  - intros (z & E & _). discriminate.
Qed.
