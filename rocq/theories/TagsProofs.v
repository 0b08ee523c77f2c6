From Verif Require Import Base Bits Contracts BitStream UperTypes UperSpec UperWf UperClasses Uper Tags TagsSpec.
From Verif Require Properties4Proofs.
From Coq Require Import ZifyBool ZifyNat.

Lemma tag_lt_irrefl : forall a, tag_lt a a = false.
Proof. intros [a b]. unfold tag_lt. cbn [fst snd]. lia. Qed.
Lemma tag_lt_asym : forall a b, tag_lt a b = true -> tag_lt b a = false.
Proof. intros [a b] [c d]. unfold tag_lt. cbn [fst snd]. lia. Qed.
Lemma tag_lt_trans : forall a b c, tag_lt a b = true -> tag_lt b c = true -> tag_lt a c = true.
Proof. intros [a b] [c d] [e f]. unfold tag_lt. cbn [fst snd]. lia. Qed.
Lemma tag_total : forall a b, a <> b -> tag_lt a b = true \/ tag_lt b a = true.
Proof.
  intros [a b] [c d] H. unfold tag_lt. cbn [fst snd]. destruct (Z.eq_dec a c) as [->|]; [|lia].
  assert (b <> d) by congruence. lia.
Qed.
Lemma filter_false : forall {A} (f : A -> bool) l, Forall (fun x => f x = false) l -> filter f l = [].
Proof. intros A f l H. induction H; cbn [filter]; [reflexivity|]. rewrite H. exact IHForall. Qed.
Lemma rank_ascending : forall ks i, ascending ks -> (i < length ks)%nat -> tag_rank (nth i ks (0, 0)) ks = Z.of_nat i.
Proof.
  unfold tag_rank. induction ks as [|k ks IH]; intros i A L; [cbn in L; lia|]. destruct A as [F A]. destruct i as [|i]; cbn [nth filter].
  - rewrite tag_lt_irrefl, filter_false; [reflexivity|]. eapply Forall_impl; [|exact F]. intros x Hx. apply tag_lt_asym. exact Hx.
  - cbn [length] in L. assert (I : In (nth i ks (0, 0)) ks) by (apply nth_In; lia).
    rewrite Forall_forall in F. rewrite (F _ I). cbn [length]. specialize (IH i A ltac:(lia)). lia.
Qed.
Lemma alts_len_of : forall l, alts_len (alts_of l) = length l.
Proof. induction l as [|x l IH]; cbn [alts_of alts_len length]; congruence. Qed.
Lemma keys_len : forall auto l, length (keys auto l) = length l.
Proof. intros. unfold keys. destruct (automatic auto l); rewrite map_length; [apply seq_length|reflexivity]. Qed.
Fixpoint alt_in (l : list gty) (i : nat) (P : gty -> Prop) : Prop :=
  match l, i with [], _ => False | g :: _, O => P g | _ :: l, S i => alt_in l i P end.

Fixpoint gsize (g : gty) : nat :=
  match g with
  | GBase _ _ => 1
  | GTag _ _ g => S (gsize g)
  | GChoice _ l => S ((fix all (l : list gty) : nat := match l with [] => 0%nat | g :: l => (gsize g + all l)%nat end) l)
  end.
Lemma valid_len : forall l i v, valid_alt (alts_of l) i v -> (i < length l)%nat.
Proof.
  induction l as [|t l IH]; intros i v H; cbn [alts_of valid_alt] in H; [destruct i; contradiction|].
  destruct i as [|i]; cbn [length]; [lia|]. specialize (IH i v H). lia.
Qed.
Lemma xbits_ubits : forall n g v, (gsize g <= n)%nat -> ordered g -> valid (compile g) v -> xbits g v = ubits true (compile g) v.
Proof.
  induction n as [|n IH]; intros g v S O V; destruct g as [u t|cl nm g|auto l]; cbn [gsize] in S; try lia.
  - reflexivity.
  - apply (IH g v ltac:(lia) O V).
  - destruct v; cbn [compile valid] in V; try contradiction. cbn [xbits compile ubits]. destruct O as [A O].
    rewrite alts_len_of, map_length. pose proof (valid_len _ _ _ V) as L. rewrite map_length in L.
    rewrite rank_ascending by (rewrite ?keys_len; assumption). f_equal.
    clear A L. assert (S' : (((fix all (l : list gty) : nat := match l with [] => 0%nat | g :: l => (gsize g + all l)%nat end) l) <= n)%nat) by lia.
    clear S. revert i V O S'. induction l as [|g l IHl]; intros i V O S.
    + reflexivity.
    + destruct O as [O1 O2]. destruct i as [|i]; cbn [map alts_of alt_bits].
      * cbn [map alts_of valid_alt] in V. apply IH; [lia|exact O1|exact V].
      * cbn [map alts_of valid_alt] in V. apply IHl; [exact V|exact O2|lia].
Qed.
Lemma choice_bits : forall g v, ordered g -> valid (compile g) v -> xbits g v = ubits true (compile g) v.
Proof. intros. eapply xbits_ubits; eauto. Qed.
Lemma choice : forall c g v, ordered g -> wft (compile g) -> conform (compile g) -> valid (compile g) v -> sides c (compile g) v ->
  writes (enc c (compile g) true v) true (xbits g v) /\ reads (dec c (compile g) true) (Some (norm (compile g) v)) (xbits g v).
Proof.
  intros c g v O W C V S. rewrite choice_bits by assumption.
  split; [apply Properties4Proofs.std_bits|apply Properties4Proofs.std_reads]; assumption.
Qed.
Lemma asc_seq : forall n k, ascending (map (fun i => (2, Z.of_nat i)) (seq k n)).
Proof.
  induction n as [|n IH]; intros k; cbn [seq map ascending]; [exact I|]. split; [|apply IH].
  rewrite Forall_forall. intros x Hx. apply in_map_iff in Hx. destruct Hx as (j & <- & Hj). apply in_seq in Hj. unfold tag_lt. cbn [fst snd]. lia.
Qed.
Lemma auto_ordered' : forall n g, (gsize g <= n)%nat -> untagged g -> ordered g.
Proof.
  induction n as [|n IH]; intros g S U; destruct g as [u t|cl nm g|auto l]; cbn [gsize] in S; try lia.
  - exact I.
  - destruct U.
  - cbn [untagged ordered] in *. destruct U as [-> U].
    assert (S' : (((fix all (l : list gty) : nat := match l with [] => 0%nat | g :: l => (gsize g + all l)%nat end) l) <= n)%nat) by lia.
    split.
    + unfold keys, automatic. assert (E : existsb is_tagged l = false).
      { clear - U. induction l as [|g l IH]; [reflexivity|]. destruct U as [U1 U2]. cbn [existsb]. rewrite IH by assumption.
        destruct g; [reflexivity|destruct U1|reflexivity]. }
      rewrite E. cbn [andb negb]. apply asc_seq.
    + clear S. induction l as [|g l IHl]; [exact I|]. destruct U as [U1 U2]. split; [apply IH; [lia|exact U1]|apply IHl; [exact U2|lia]].
Qed.
Lemma auto_ordered : forall g, untagged g -> ordered g.
Proof. intros g. apply (auto_ordered' (gsize g) g (le_n _)). Qed.
(** The converse: for distinct tags in another order some alternative has the wrong index. *)
Lemma wrong_index : forall ks, NoDup ks -> (forall i, (i < length ks)%nat -> tag_rank (nth i ks (0, 0)) ks = Z.of_nat i) -> ascending ks.
Proof.
  induction ks as [|k ks IH]; intros ND H; [exact I|]. inversion ND as [|? ? NI ND']; subst.
  assert (F : Forall (fun x => tag_lt k x = true) ks).
  { rewrite Forall_forall. intros x Hx. destruct (tag_lt k x) eqn:E; [reflexivity|exfalso].
    destruct (tag_total k x) as [C|C]; [intros ->; contradiction|congruence|].
    specialize (H O ltac:(cbn; lia)). unfold tag_rank in H. cbn [nth filter] in H. rewrite tag_lt_irrefl in H.
    assert (J : In x (filter (fun y => tag_lt y k) ks)) by (apply filter_In; auto). destruct (filter (fun y => tag_lt y k) ks); [destruct J|cbn [length] in H; lia]. }
  split; [exact F|]. apply IH; [exact ND'|]. intros i Hi. specialize (H (S i) ltac:(cbn [length]; lia)). unfold tag_rank in *. cbn [nth filter] in H.
  rewrite Forall_forall in F. rewrite (F (nth i ks (0, 0)) (nth_In _ _ Hi)) in H. cbn [length] in H. lia.
Qed.
(** ** SET *)
Lemma flat_nil : forall {A B} (f : A -> list B) l, (forall x, In x l -> f x = []) -> flat_map f l = [].
Proof. intros A B f l. induction l as [|x l IH]; intros H; [reflexivity|]. cbn [flat_map]. rewrite (H x (or_introl eq_refl)), IH; [reflexivity|]. intros; apply H; right; assumption. Qed.
Lemma flat_ext : forall {A B} (f g : A -> list B) l, (forall x, In x l -> f x = g x) -> flat_map f l = flat_map g l.
Proof. intros A B f g l. induction l as [|x l IH]; intros H; [reflexivity|]. cbn [flat_map]. rewrite (H x (or_introl eq_refl)), IH; [reflexivity|]. intros; apply H; right; assumption. Qed.
Lemma pick : forall {A B} (rk : A -> Z) (b : A -> list B) l k,
  (forall i x, nth_error l i = Some x -> rk x = Z.of_nat (k + i)) ->
  flat_map (fun r => flat_map (fun p => if rk p =? Z.of_nat r then b p else []) l) (seq k (length l)) = flat_map b l.
Proof.
  intros A B rk b. induction l as [|x l IH]; intros k H; [reflexivity|]. cbn [length seq].
  assert (T : forall i y, nth_error l i = Some y -> rk y = Z.of_nat (S k + i)).
  { intros i y Hy. rewrite (H (S i) y Hy). f_equal. lia. }
  pose proof (H 0%nat x eq_refl) as HX.
  cbn [flat_map]. rewrite HX. replace (Z.of_nat (k + 0) =? Z.of_nat k) with true by lia. rewrite (flat_nil _ l), app_nil_r.
  2:{ intros y Hy. apply In_nth_error in Hy. destruct Hy as [i Hi]. rewrite (T i y Hi). replace (Z.of_nat (S k + i) =? Z.of_nat k) with false by lia. reflexivity. }
  f_equal. rewrite <- (IH (S k) T). apply flat_ext. intros r Hr. apply in_seq in Hr. cbv beta.
  replace (Z.of_nat (k + 0) =? Z.of_nat r) with false by lia. reflexivity.
Qed.
Lemma set_order : forall l, ascending (map (fun p : gty * value => key (fst p)) l) ->
  set_bits l = flat_map (fun p => xbits (fst p) (snd p)) l.
Proof.
  intros l A. unfold set_bits. cbv zeta. apply (pick (fun p => tag_rank (key (fst p)) (map (fun p => key (fst p)) l))).
  intros i x Hx. pose proof (rank_ascending _ i A) as R. rewrite map_length in R.
  assert (L : (i < length l)%nat) by (apply nth_error_Some; congruence). specialize (R L).
  assert (E : nth i (map (fun p : gty * value => key (fst p)) l) (0, 0) = key (fst x)).
  { apply nth_error_nth. rewrite nth_error_map, Hx. reflexivity. }
  rewrite E in R. exact R.
Qed.
Lemma set : forall c l, let t := TSeq (set_of (map fst l)) in let v := set_value (map snd l) in
  ascending (map (fun p : gty * value => key (fst p)) l) -> Forall (fun p => ordered (fst p)) l ->
  wft t -> conform t -> valid t v -> sides c t v ->
  writes (enc c t true v) true (set_bits l) /\ reads (dec c t true) (Some (norm t v)) (set_bits l).
Proof.
  intros c l t v A O W C V S. rewrite set_order by exact A.
  assert (E : ubits true t v = flat_map (fun p => xbits (fst p) (snd p)) l).
  { unfold t, v, set_value. cbn [ubits]. clear A W C S.
    assert (P : presence_bits (set_of (map fst l)) (map (fun v => (true, Some v)) (map snd l)) = []).
    { clear. induction l as [|p l IH]; [reflexivity|]. cbn [map set_of presence_bits presence app]. exact IH. }
    rewrite P. cbn [app]. unfold t, v, set_value in V. cbn [valid] in V. clear P t v. revert O V. induction l as [|[g x] l IH]; intros O V; [reflexivity|].
    inversion O as [|? ? O1 O2]; subst. cbn [map set_of fst snd fields_bits flat_map valid_fields] in *.
    rewrite (choice_bits g x O1) by apply V. f_equal. apply IH; [exact O2|apply V]. }
  rewrite <- E. split; [apply Properties4Proofs.std_bits|apply Properties4Proofs.std_reads]; assumption.
Qed.
