(** Proofs about the printed constants: every value, by induction on its type. *)
From Verif Require Import Base Bits CExpr AcnExpr AcnExprSpec AcnExprProofs AcnExprProofs2 AcnExprProofs3 CInit Consts ConstsSpec ConstsProofs ConstsProofs2 ConstsProofs3 ConstsProofs4 ConstsProofs5.
From Coq Require Import String Ascii.
Local Open Scope Z_scope.

Lemma pty_all : forall P : pty -> Prop,
  (forall c, P (TInt c)) -> P TBool -> (forall n, P (TStr n)) -> (forall z, P (TBits z)) -> (forall z, P (TOcts z)) ->
  (forall l, P (TEnum l)) -> P TNull -> P TOid -> (forall z t, P t -> P (TOf z t)) ->
  (forall l, Forall (fun ct => P (snd ct)) l -> P (TSeq l)) -> (forall l, Forall (fun ct => P (snd ct)) l -> P (TChoice l)) ->
  forall t, P t.
Proof.
  intros P H1 H2 H3 H4 H5 H6 H7 H8 H9 H10 H11. fix IH 1. intros [c| |n|z|z|l| | |z t|l|l].
  - apply H1. - exact H2. - apply H3. - apply H4. - apply H5. - apply H6. - exact H7. - exact H8. - apply H9. apply IH.
  - apply H10. induction l as [|[c t] l IHl]; constructor; [apply IH|exact IHl].
  - apply H11. induction l as [|[c t] l IHl]; constructor; [apply IH|exact IHl].
Qed.
Lemma forall2_len : forall {A B} {R : A -> B -> Prop} {l l'}, Forall2 R l l' -> List.length l = List.length l'.
Proof. intros A B R l l' H. induction H; cbn; congruence. Qed.
Lemma deref_deref : forall v, deref (deref v) = deref v.
Proof. induction v; auto. Qed.
Lemma print_deref : forall t v, print_value t v = print_value t (deref v).
Proof. intros t v. destruct t; cbn [print_value]; rewrite deref_deref; reflexivity. Qed.
Lemma repr_deref : forall t v d, repr t (deref v) d -> repr t v d.
Proof. intros t v. induction v; intros d H; try exact H. apply rp_ref. now apply IHv. Qed.
Lemma named_in : forall n vals v, NoDup (map fst vals) -> In (n, v) vals -> named n vals = Some v.
Proof.
  intros n vals v. induction vals as [|[m w] vals IH]; intros N I; [destruct I|]. inversion N; subst. cbn [named]. destruct I as [E|I].
  - injection E as -> ->. now rewrite String.eqb_refl.
  - destruct (String.eqb_spec m n) as [->|]; [|auto]. exfalso. apply H1. apply in_map_iff. now exists (n, v).
Qed.
Lemma named_some : forall n vals v, named n vals = Some v -> In (n, v) vals.
Proof.
  intros n vals v. induction vals as [|[m w] vals IH]; intros H; [discriminate|]. cbn [named] in H.
  destruct (String.eqb_spec m n) as [->|]; [injection H as ->; now left|right; auto].
Qed.
Lemma named_none : forall n vals, named n vals = None -> ~ given n vals.
Proof.
  intros n vals. unfold given. induction vals as [|[m w] vals IH]; intros H; [auto|]. cbn [named] in H.
  destruct (String.eqb_spec m n) as [->|D]; [discriminate|]. intros [E|E]; [exact (D E)|]. exact (IH H E).
Qed.
Lemma given_named : forall n vals, given n vals -> exists v, named n vals = Some v.
Proof. intros n vals H. destruct (named n vals) eqn:E; [eauto|]. now apply named_none in E. Qed.
Lemma enum_found : forall l e, NoDup (map e_name l) -> In e l -> enum_item (e_name e) l = Some e.
Proof.
  intros l e. induction l as [|x l IH]; intros N I; [destruct I|]. inversion N; subst. cbn [enum_item]. destruct I as [->|I].
  - now rewrite String.eqb_refl.
  - destruct (String.eqb_spec (e_name x) (e_name e)) as [E|]; [|auto]. exfalso. apply H1. rewrite E. now apply in_map.
Qed.

Section All.
  Variables (ws : Z) (env : cenv) (gnu : bool).
  Hypothesis WS : ws = 4 \/ ws = 8.
  Hypothesis ENV : std_env env.
  Notation tame := (tame ws env gnu).
  Definition good (t : pty) (v : pval) : Prop :=
    exists s i d, print_value t v = Some s /\ init_text gnu s i /\ initialise env (declared ws t) i = Some d /\ repr t v d.
  Lemma tame_deref : forall t v, tame t v -> tame t (deref v).
  Proof. intros t v. induction v; intros H; try exact H. inversion H; subst. now apply IHv. Qed.
  Lemma good_deref : forall t v, good t (deref v) -> good t v.
  Proof.
    intros t v (s & i & d & P & I & D & R). exists s, i, d. split; [now rewrite print_deref|]. split; [assumption|].
    split; [assumption|]. now apply repr_deref.
  Qed.
  Lemma deref_not_ref : forall v w, deref v <> PRef w.
  Proof. induction v; intros w; try discriminate. apply IHv. Qed.
  Lemma class_width : forall c, width (class_type ws c).
  Proof. intros c. unfold width. destruct WS as [-> | ->]; destruct c; cbn; auto. Qed.
  Lemma good_int : forall c z, in_tyb (class_type ws c) z = true -> good (TInt c) (PInt z).
  Proof.
    intros c z H. apply in_tyb_in in H. destruct (expr_init _ _ _ _ (expr_int env gnu ws c z WS ENV H)) as (e & T & N & V).
    exists (int_text c z), (IExp e), (DInt z). split; [reflexivity|]. split; [assumption|]. split; [|constructor].
    rewrite (init_expr env _ e z N V). cbn [declared store]. rewrite conv_in; [reflexivity|apply class_width|assumption].
  Qed.
  Lemma good_bool : forall b, good TBool (PBool b).
  Proof.
    intros b. destruct ENV as (E1 & E2 & _). exists (if b then "TRUE" else "FALSE")%string.
    assert (X : expr_text env gnu (if b then "TRUE" else "FALSE")%string (if b then 1 else 0)).
    { destruct b; [eapply expr_name; [|exact E1]|eapply expr_name; [|exact E2]]; (split; [split; reflexivity|reflexivity]). }
    destruct (expr_init _ _ _ _ X) as (e & T & N & V). exists (IExp e), (DInt (if b then 1 else 0)).
    split; [destruct b; reflexivity|]. split; [assumption|]. split; [|constructor]. rewrite (init_expr env _ e _ N V). destruct b; reflexivity.
  Qed.
  Lemma good_str : forall n l, l <> [] -> Forall plain_part l -> len (chars l) < n -> good (TStr n) (PStr l).
  Proof.
    intros n l H1 H2 H3. exists (string_text l), (IExp (XStr (chars l))). eexists. split; [reflexivity|]. split.
    - exists (map (fun p => KStr (part_codes p)) l). split; [apply opens_lexes0; now apply opens_string|]. intros c rest. now apply reads_string.
    - cbn [declared initialise]. unfold len in H3. assert (Z.of_nat (List.length (chars l)) <=? n = true) as -> by lia.
      split; [reflexivity|]. destruct (Z.to_nat n - List.length (chars l))%nat as [|k] eqn:K; [lia|].
      replace (map DInt (chars l) ++ repeat (DInt 0) (S k)) with (map DInt (chars l ++ repeat 0 (S k))); [constructor|].
      rewrite map_app. f_equal. generalize (S k). clear. intros m. induction m as [|m IH]; [reflexivity|]. cbn [repeat map]. now rewrite IH.
  Qed.
  Lemma byte_items : forall l, Forall (fun b => 0 <= b < 256) l ->
    exists xs, Forall2 (item_text gnu) (map byte_text l) xs /\ Forall2 (elem env octet) xs (map DInt l).
  Proof.
    intros l H. induction H as [|b l B H (xs & I1 & I2)]; [exists []; split; constructor|].
    destruct (expr_init _ _ _ _ (expr_byte env gnu b B)) as (e & T & N & V). exists ((None, IExp e) :: xs). split.
    - cbn [map]. constructor; [now apply plain_item|assumption].
    - cbn [map]. constructor; [|assumption]. split; [reflexivity|]. cbn [snd]. rewrite (init_expr env _ e b N V). unfold octet. cbn [store].
      rewrite conv_in; [reflexivity|unfold width; cbn; auto|]. unfold in_ty, tmin, tmax. cbn. lia.
  Qed.
  Lemma oid_items : forall l, Forall (fun a => 0 <= a < 2 ^ Z.min 63 (8 * ws)) l ->
    exists xs, Forall2 (item_text gnu) (map dec_text l) xs /\ Forall2 (elem env (YInt (false, 8 * ws))) xs (map DInt l).
  Proof.
    intros l H. induction H as [|b l B H (xs & I1 & I2)]; [exists []; split; constructor|].
    assert (R : - 2 ^ 63 < b < 2 ^ 63) by (destruct WS as [-> | ->]; [change (Z.min 63 (8 * 4)) with 32 in B|change (Z.min 63 (8 * 8)) with 63 in B]; lia).
    destruct (expr_init _ _ _ _ (expr_plain env gnu b R)) as (e & T & N & V). exists ((None, IExp e) :: xs). split.
    - cbn [map]. constructor; [now apply plain_item|assumption].
    - cbn [map]. constructor; [|assumption]. split; [reflexivity|]. cbn [snd]. rewrite (init_expr env _ e b N V). cbn [store].
      rewrite conv_in; [reflexivity|unfold width; destruct WS as [-> | ->]; cbn; auto|]. unfold in_ty, tmin, tmax. cbn [fst snd].
      destruct WS as [-> | ->]; [change (Z.min 63 (8 * 4)) with 32 in B; change (8 * 4) with 32|change (Z.min 63 (8 * 8)) with 63 in B; change (8 * 8) with 64]; lia.
  Qed.
  Lemma count_expr : forall n, 0 <= n < 2 ^ 31 -> exists e, init_text gnu (dec_text n) (IExp e) /\ (forall l, e <> XStr l) /\ exp_val env e = Some n /\ in_ty int32 n.
  Proof.
    intros n H. destruct (expr_init _ _ _ _ (expr_plain env gnu n ltac:(lia))) as (e & T & N & V). exists e. repeat split; auto;
      cbn; lia.
  Qed.
  Lemma len_pos : forall A (l : list A), 0 <= len l.
  Proof. intros. unfold len. lia. Qed.
  Lemma len_map : forall A B (f : A -> B) l, len (map f l) = len l.
  Proof. intros. unfold len. now rewrite map_length. Qed.
  Lemma len_nil : forall A (l : list A), l = [] -> len l = 0.
  Proof. intros A l ->. reflexivity. Qed.
  Lemma good_octs : forall z l, fits gnu z (len l) -> Forall (fun b => 0 <= b < 256) l -> good (TOcts z) (POcts l).
  Proof.
    intros z l (F1 & F2 & F3 & F4 & F5) B. destruct (byte_items l B) as (xs & I1 & I2).
    destruct (count_expr (len l)) as (e & T & N & V & R); [pose proof (len_pos _ l); lia|].
    destruct (sized_init env (dfix z) (dlen z) octet None None e (len l) xs (map DInt l)) as (pad & d & D & C);
      auto; [rewrite len_map; lia|rewrite len_map; auto|].
    exists (bytes_text (is_fixed z) (Z.of_nat (List.length l)) l). eexists. exists d. split; [reflexivity|]. split; [|split].
    - apply bytes_init; [exact T|exact I1|]. intros E. apply F5. now apply len_nil.
    - cbn [declared]. unfold is_fixed. rewrite <- F1. exact D.
    - apply rp_octs with (pad := pad). exact C.
  Qed.
  Lemma good_bits : forall z l, fits gnu z (len l) -> (dfix z = true \/ len l <= 1) -> good (TBits z) (PBits l).
  Proof.
    intros z l (F1 & F2 & F3 & F4 & F5) B. destruct (bytes_bits l) as (T1 & T2 & T3). destruct (byte_items _ T3) as (xs & I1 & I2).
    pose proof (len_pos _ l) as LP. set (bytes := bits_to_bytes l) in *.
    assert (LB : 0 <= len bytes <= len l). { rewrite T2. split; [apply Z.div_pos; lia|]. apply Z.lt_succ_r. apply Z.div_lt_upper_bound; lia. }
    destruct (count_expr (len bytes)) as (e & T & N & V & R); [lia|].
    destruct (sized_init env (dfix z) ((dlen z + 7) / 8) octet None None e (len bytes) xs (map DInt bytes)) as (pad & d & D & C);
      auto; [rewrite len_map, T2; apply Z.div_le_mono; lia|rewrite len_map, T2; intros X; now rewrite (F4 X)|].
    exists (bytes_text (is_fixed z) (Z.of_nat (List.length bytes)) bytes). eexists. exists d. split; [reflexivity|]. split; [|split].
    - apply bytes_init; [exact T|exact I1|]. intros E. apply F5. apply len_nil in E. rewrite T2 in E.
      destruct (Z.eq_dec (len l) 0); [assumption|]. assert (1 <= (len l + 7) / 8) by (apply Z.div_le_lower_bound; lia). lia.
    - cbn [declared]. unfold is_fixed. rewrite <- F1. exact D.
    - apply rp_bits with (bytes := bytes) (pad := pad); [assumption|assumption|].
      assert (dfix z = true \/ len bytes = len l) as [X|X].
      { destruct B as [B|B]; [now left|right]. assert (len l = 0 \/ len l = 1) as [Y|Y] by lia; rewrite T2, Y; reflexivity. }
      + rewrite X in *. exact C.
      + rewrite <- X. exact C.
  Qed.
  Lemma good_oid : forall l, len l <= 20 -> (l = [] -> gnu = true) -> Forall (fun a => 0 <= a < 2 ^ Z.min 63 (8 * ws)) l -> good TOid (POid l).
  Proof.
    intros l H1 H2 H3. destruct (oid_items l H3) as (xs & I1 & I2).
    destruct (count_expr (len l)) as (e & T & N & V & R); [pose proof (len_pos _ l); lia|].
    exists (oid_text l). eexists. eexists. split; [reflexivity|]. split; [|split].
    - apply oid_init; [exact T|exact I1|assumption].
    - cbn [declared]. rewrite init_struct. unfold struct_go. rewrite (init_expr env (YInt int32) e (len l) N V). cbn [store].
      rewrite (init_elems env 20 _ xs (map DInt l) I2) by (now rewrite len_map).
      rewrite conv_in by (assumption || (unfold width; cbn; auto)). reflexivity.
    - constructor.
  Qed.
  Lemma good_of : forall z t l, (forall v, tame t v -> good t v) -> fits gnu z (len l) -> Forall (tame t) l -> good (TOf z t) (PList l).
  Proof.
    intros z t l IH (F1 & F2 & F3 & F4 & F5) B.
    assert (exists ss xs ds, sequence (map (print_value t) l) = Some ss /\ Forall2 (item_text gnu) ss xs /\ Forall2 (elem env (declared ws t)) xs ds /\ Forall2 (repr t) l ds) as (ss & xs & ds & S & I1 & I2 & RR).
    { clear - B IH. induction B as [|v l T B (ss & xs & ds & S & I1 & I2 & RR)]; [exists [], [], []; repeat split; constructor|].
      destruct (IH v T) as (s & i & d & P & I & D & R). exists (s :: ss), ((None, i) :: xs), (d :: ds).
      split; [cbn [map sequence]; now rewrite P, S|]. split; [constructor; [now apply plain_item|assumption]|].
      split; [constructor; [split; [reflexivity|assumption]|assumption]|]. now constructor. }
    assert (L1 : len ds = len l) by (unfold len; f_equal; symmetry; now apply (forall2_len RR)).
    assert (L2 : List.length ss = List.length l).
    { rewrite (forall2_len I1), (forall2_len I2). symmetry. exact (forall2_len RR). }
    destruct (count_expr (len l)) as (e & T & N & V & R); [pose proof (len_pos _ l); lia|].
    destruct (sized_init env (dfix z) (dlen z) (declared ws t) (Some "nCount"%string) (Some "arr"%string) e (len l) xs ds) as (pad & d & D & C);
      auto; [lia|rewrite L1; auto|].
    exists (of_text (is_fixed z) ss). eexists. exists d. split; [cbn [print_value deref]; now rewrite S|]. split; [|split].
    - apply of_init; [unfold len in T; rewrite L2; exact T|exact I1|]. intros ->. apply F5. apply len_nil. destruct l; [reflexivity|discriminate L2].
    - cbn [declared]. unfold is_fixed. rewrite <- F1. exact D.
    - apply rp_of with (ds := ds) (pad := pad); assumption.
  Qed.
  Lemma good_choice : forall l i a t v k, nth_error l i = Some (a, t) -> NoDup (map (fun at' : alt * pty => a_name (fst at')) l) ->
      NoDup (map (fun at' : alt * pty => a_c (fst at')) l) -> c_name (a_c a) -> c_name (a_present a) ->
      env (a_present a) = Some (k, Z.of_nat i + 1) -> Z.of_nat i + 1 < 2 ^ 31 -> good t v ->
      good (TChoice l) (PChoice (a_name a) v).
  Proof.
    intros l i a t v k NE N1 N2 C1 C2 E B (s & ii & d & P & I & D & R).
    assert (PV : print_value (TChoice l) (PChoice (a_name a) v) = Some (choice_text (a_c a) s (a_present a))).
    { cbn [print_value deref]. clear - NE N1 P. revert i NE. induction l as [|[a' t'] l IH]; intros i NE; [destruct i; discriminate|].
      destruct i as [|i]; cbn [nth_error] in NE.
      - injection NE as -> ->. rewrite String.eqb_refl, P. reflexivity.
      - inversion N1; subst. destruct (String.eqb_spec (a_name a') (a_name a)) as [X|].
        + exfalso. apply H1. cbn [fst]. rewrite X. apply nth_error_In in NE. apply in_map_iff. now exists (a, t).
        + now apply (IH H2 i). }
    assert (DE : declared ws (TChoice l) = YStruct [("kind"%string, YInt int32); ("u"%string, YUnion (map (fun at' => (a_c (fst at'), declared ws (snd at'))) l))]).
    { cbn [declared]. do 4 f_equal. f_equal. f_equal. clear. induction l as [|[a t] l IH]; [reflexivity|]. cbn [map fst snd]. now rewrite IH. }
    destruct (expr_init _ _ _ _ (expr_name env gnu _ _ _ C2 E)) as (e & T & N & V).
    exists (choice_text (a_c a) s (a_present a)). eexists. eexists. split; [exact PV|]. split; [|split].
    - apply choice_init; eassumption.
    - rewrite DE, init_struct. set (us := map _ l). unfold struct_go. cbn [from]. rewrite String.eqb_refl.
      rewrite (init_expr env (YInt int32) e _ N V). cbn [store]. change (String.eqb "u" "kind") with false. rewrite String.eqb_refl.
      cbv iota beta. rewrite init_union.
      assert (NU : NoDup (map fst us)) by (unfold us; now rewrite map_map).
      assert (IU : In (a_c a, declared ws t) us) by (unfold us; apply in_map_iff; exists (a, t); split; [reflexivity|now apply nth_error_In in NE]).
      destruct (from_in _ _ _ NU IU) as (rest & ->). rewrite D. reflexivity.
    - rewrite conv_in; [|unfold width; cbn; auto|apply (proj2 (int32_range _)); lia]. now apply rp_choice with (t := t).
  Qed.
End All.
