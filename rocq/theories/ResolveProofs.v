(** Resolved values mean what was written. *)
From Verif Require Import Base Bits UperTypes ConSpec Constraints Resolve ResolveSpec.
From Coq Require Import List String Ascii Bool Arith ZArith QArith Lia.
Import ListNotations.
Local Open Scope string_scope.
Local Open Scope list_scope.

Scheme den_mut := Induction for den Sort Prop
  with den_all_mut := Induction for den_all Sort Prop
  with den_fields_mut := Induction for den_fields Sort Prop.
Combined Scheme den_all_ind3 from den_mut, den_all_mut, den_fields_mut.

Lemma bind_done : forall A B (x : res A) (f : A -> res B) b, bind x f = Done b -> exists a, x = Done a /\ f a = Done b.
Proof. intros A B [a | |] f b H; cbn in H; try discriminate. eauto. Qed.
Ltac unbind :=
  repeat match goal with
  | H : bind ?x _ = Done _ |- _ => apply bind_done in H; destruct H as (? & ? & H)
  | H : Done _ = Done _ |- _ => injection H; clear H; intros; subst
  | H : Raise = Done _ |- _ => discriminate H
  | H : Endless = Done _ |- _ => discriminate H
  end.
Lemma mapR_forall2 : forall A B (f : A -> res B) l r, mapR f l = Done r -> Forall2 (fun x y => f x = Done y) l r.
Proof.
  intros A B f l. induction l as [| x l IH]; cbn; intros r H; unbind; constructor; auto.
Qed.
Lemma Forall2_imp : forall A B (P Q : A -> B -> Prop) l r, (forall x y, P x y -> Q x y) -> Forall2 P l r -> Forall2 Q l r.
Proof. induction 2; constructor; auto. Qed.
Lemma special_part : forall m n s, special n = Some s -> part_of (GRef m n) s.
Proof.
  intros m n s H. unfold special in H.
  repeat match type of H with
  | (if String.eqb n ?x then _ else _) = _ => destruct (String.eqb_spec n x); [subst; injection H as <-; constructor |]
  end. discriminate.
Qed.
Lemma concat_cons : forall a b, String.concat "" (a :: b) = (a ++ String.concat "" b)%string.
Proof. intros a [| c b]; [| reflexivity]. change (a = (a ++ "")%string). induction a; cbn; [reflexivity | f_equal; auto]. Qed.
Lemma concat_text : forall l r, mapR text_part l = Done r -> text_of l (String.concat "" r).
Proof.
  intros l. induction l as [| e l IH]; cbn [mapR]; intros r H; unbind.
  - constructor.
  - match goal with H : text_part e = Done ?x, K : mapR text_part l = Done ?y |- _ =>
      specialize (IH _ K); assert (P : part_of e x) end.
    { destruct e; cbn in *; try discriminate; unbind; try constructor.
      destruct (special n) eqn:S; unbind. eapply special_part; eauto. }
    rewrite concat_cons. constructor; auto.
Qed.

Section resolve.
Variable tyof : string -> string -> option gtype.
Variable valof : string -> string -> option (gtype * gval).
Notation behind := (behind tyof). Notation components := (components tyof).
Notation seq_children := (seq_children tyof). Notation actual_kind := (actual_kind tyof).
Notation map_value := (map_value tyof valof). Notation map_type := (map_type tyof valof).
Notation gden := (gden tyof valof). Notation gden_all := (gden_all tyof valof). Notation gden_fields := (gden_fields tyof valof).
Notation orderly := (orderly tyof valof). Notation names_bit := (names_bit valof).

Definition plain (t : gtype) : Prop := forall m T cs, t <> URef m T cs.
Lemma behind_plain : forall t k, behind t k -> plain k.
Proof. induction 1; auto. Qed.
Lemma behind_self : forall t k, behind t k -> plain t -> k = t.
Proof. intros t k H P. inversion H; subst; auto. destruct (P _ _ _ eq_refl). Qed.
Lemma behind_det : forall t k k', behind t k -> behind t k' -> k = k'.
Proof.
  intros t k k' H. revert k'. induction H; intros k' K; inversion K; subst; try congruence.
  all: try (match goal with H : forall m T cs, URef _ _ _ <> _ |- _ => destruct (H _ _ _ eq_refl) end).
  - apply IHbehind. match goal with A : tyof m T = Some _, B : tyof m T = Some _ |- _ => rewrite A in B; injection B as -> end. auto.
Qed.
Lemma components_det : forall l r r', components l r -> components l r' -> r = r'.
Proof.
  intros l r r' H. revert r'. induction H; intros r2 K; inversion K; subst; auto.
  - f_equal. auto.
  - match goal with A : tyof m T = Some _, B : tyof m T = Some _ |- _ => rewrite A in B; injection B as -> end.
    match goal with A : behind ?t (USeq _), B : behind ?t (USeq _) |- _ => pose proof (behind_det _ _ _ A B) as E end.
    injection E as ->. f_equal; auto.
Qed.
Lemma actual_behind : forall f t md k md', actual_kind f t md = Done (k, md') ->
  behind t k /\ (t = k /\ md' = md \/ exists m, last_module tyof t m /\ md' = Some m).
Proof.
  induction f; cbn; intros t md k md' H; try discriminate.
  destruct t as [ | | | | | | | | | | | m T cs]; try (injection H as <- <-; split; [constructor; intros; discriminate | left; auto]).
  destruct (tyof m T) as [t' |] eqn:E; try discriminate. apply IHf in H as (B & H). split.
  - econstructor; eauto.
  - right. destruct H as [(-> & ->) | (m' & L & ->)]; eexists; split; eauto.
    + econstructor; eauto. eapply behind_plain; eauto.
    + econstructor 2; eauto.
Qed.
Lemma children_components : forall f l r, seq_children f l = Done r -> components l r.
Proof.
  induction f; intros l; [discriminate |].
  induction l as [| [n o t | m T] l IH]; intros r H; cbn in H.
  - unbind. constructor.
  - unbind. constructor. apply IH. auto.
  - destruct (tyof m T) as [[] |] eqn:E; unbind.
    econstructor; eauto. constructor; intros; discriminate.
Qed.
Lemma seq_children_S : forall f l, seq_children (S f) l =
  match l with
  | [] => Done []
  | UComp n o t :: l => bind (seq_children (S f) l) (fun r => Done ((n, o, t) :: r))
  | UCompsOf m T :: l =>
      match tyof m T with
      | Some (USeq l') => bind (seq_children f l') (fun a => bind (seq_children (S f) l) (fun r => Done (a ++ r)))
      | _ => Raise
      end
  end.
Proof. intros f [| [n o t | m T] l]; reflexivity. Qed.
Lemma children_direct : forall f l r, seq_children f l = Done r -> direct tyof l.
Proof.
  induction f; intros l; [discriminate |].
  induction l as [| [n o t | m T] l IH]; intros r H; rewrite seq_children_S in H.
  - constructor.
  - unbind. constructor. eauto.
  - destruct (tyof m T) as [[] |] eqn:E; unbind. econstructor; eauto.
Qed.
Lemma direct_children : forall l, direct tyof l -> exists r f0, forall f, (f0 <= f)%nat -> seq_children f l = Done r.
Proof.
  induction 1 as [| n o t l D (r & f0 & IH) | m T l' l E D' (r' & f1 & IH') D (r & f0 & IH)].
  - exists [], 1%nat. intros [| f] L; [lia | reflexivity].
  - exists ((n, o, t) :: r), (S f0). intros [| f] L; [lia |]. rewrite seq_children_S, IH by lia. reflexivity.
  - exists (r' ++ r), (S (f0 + f1)). intros [| f] L; [lia |]. rewrite seq_children_S, E, IH', IH by lia. reflexivity.
Qed.
Lemma children_exact : forall l r,
  ((exists f, seq_children f l = Done r) <-> direct tyof l /\ components l r) /\
  (forall f, seq_children f l = Done r -> forall f', (f <= f')%nat -> seq_children f' l = Done r).
Proof.
  intros l r. split.
  - split.
    + intros (f & H). split; [eapply children_direct | eapply children_components]; eauto.
    + intros (D & C). destruct (direct_children l D) as (r' & f0 & H). specialize (H f0 (le_n _)).
      exists f0. rewrite H. f_equal. eapply components_det; [eapply children_components |]; eauto.
  - intros f. revert l r. induction f; intros l; [discriminate |].
    induction l as [| [n o t | m T] l IH]; intros r H [| f'] L; try lia; rewrite seq_children_S in H |- *; auto.
    + unbind. match goal with K : seq_children (S f) l = Done _ |- _ => rewrite (IH _ K (S f') L) end. reflexivity.
    + destruct (tyof m T) as [[] |] eqn:E; unbind.
      match goal with K : seq_children (S f) l = Done _ |- _ => rewrite (IH _ K (S f') L) end.
      match goal with K : seq_children f _ = Done _ |- _ => rewrite (IHf _ _ K f') by lia end. reflexivity.
Qed.
Lemma behind_gden : forall t k e v, behind t k -> gden k e v -> gden t e v.
Proof. induction 1; auto. intros. econstructor; eauto. Qed.
Lemma int_number : forall f e z, int_value valof f e = Done z -> number_of valof e z.
Proof.
  induction f; cbn; intros e z H; try discriminate. destruct e; try discriminate; unbind; try constructor.
  destruct (valof m n) as [[t e] |] eqn:E; unbind. econstructor; eauto.
Qed.
Lemma pos_names : forall f ns e p, bit_pos valof f ns e = Done p -> names_bit ns e p.
Proof.
  intros f ns e p H. destruct e; cbn in H; try discriminate.
  destruct (assoc n ns) as [[z | m' n'] |] eqn:E; unbind; econstructor; eauto; constructor.
  eapply int_number; eauto.
Qed.
Lemma memZ_in : forall z l, memZ z l = true <-> In z l.
Proof.
  intros z l. unfold memZ. rewrite existsb_exists. split.
  - intros (x & I & E). apply Z.eqb_eq in E. subst. auto.
  - intros I. exists z. rewrite Z.eqb_refl. auto.
Qed.
Lemma maximum_le : forall l m p, maximum l = Some m -> In p l -> (p <= m)%Z.
Proof.
  assert (A : forall l a, (a <= fold_left Z.max l a)%Z /\ forall p, In p l -> (p <= fold_left Z.max l a)%Z).
  { induction l as [| x l IH]; cbn; intros a; [split; [lia | tauto] |].
    destruct (IH (Z.max a x)) as (L & R). split; [lia |]. intros p [<- | I]; [lia | auto]. }
  intros [| x l] m p H I; cbn in H; try discriminate. injection H as <-. destruct (A l x). destruct I as [<- | I]; auto.
Qed.
Lemma upto_nth : forall m f p, (0 <= p)%Z ->
  nth (Z.to_nat p) (map f (upto m)) false = if (p <=? m)%Z then f p else false.
Proof.
  intros m f p P. unfold upto. rewrite map_map.
  destruct (Z.leb_spec p m).
  - rewrite nth_indep with (d' := f (Z.of_nat 0)) by (rewrite map_length, seq_length; lia).
    rewrite (map_nth (fun x => f (Z.of_nat x))), seq_nth by lia. f_equal. lia.
  - apply nth_overflow. rewrite map_length, seq_length. lia.
Qed.
(** Line 183-189: the largest position that can be represented. *)
Lemma named_bits_at : forall f ns cs l bs, named_bits valof f ns cs l = Done bs ->
  (forall e p, In e l -> names_bit ns e p -> (0 <= p)%Z /\
     forall a b, getSizeableUperRange len cs = Some (Concrete a b) -> (p < b < 2 ^ 32)%Z) ->
  exists ps, Forall2 (names_bit ns) l ps /\ bits_at ps bs.
Proof.
  intros f ns cs l bs H B. unfold named_bits in H.
  destruct (getSizeableUperRange len cs) as [r |] eqn:R; [| discriminate].
  unbind. match goal with K : mapR _ l = Done ?x |- _ => rename x into ps; apply mapR_forall2 in K; rename K into F end.
  assert (F2 : Forall2 (names_bit ns) l ps).
  { eapply Forall2_imp; [| exact F]. intros x y K. cbn beta in K. eapply pos_names; exact K. }
  exists ps. split; auto.
  assert (Q : forall p, In p ps -> exists e, In e l /\ names_bit ns e p).
  { clear - F2. induction F2; cbn; [tauto |]. intros p [<- | I]; eauto. destruct (IHF2 _ I) as (? & ? & ?). eauto. }
  destruct (match r with Concrete _ b => Some (u32 (b - 1)) | _ => maximum ps end) as [m |] eqn:M; unbind.
  intros p. split.
  - intros I. destruct (Q _ I) as (e & Ie & N). destruct (B _ _ Ie N) as (P & C). split; auto.
    rewrite upto_nth by auto. assert (L : (p <= m)%Z).
    { destruct r as [a b | | |]; [| eapply maximum_le; eauto ..]. injection M as <-. specialize (C _ _ eq_refl).
      unfold u32. change (2 ^ 32)%Z with 4294967296%Z in *. rewrite Z.mod_small; lia. }
    apply Z.leb_le in L. rewrite L. apply memZ_in. auto.
  - intros (P & N). rewrite upto_nth in N by auto. destruct (p <=? m)%Z; [| discriminate]. apply memZ_in. auto.
Qed.

Lemma number_int : forall e z, number_of valof e z -> exists f0, forall f, (f0 <= f)%nat -> int_value valof f e = Done z.
Proof.
  induction 1 as [z | m n t e z E N (f0 & IH)].
  - exists 1%nat. intros [| f] L; [lia | reflexivity].
  - exists (S f0). intros [| f] L; [lia |]. cbn. rewrite E. apply IH. lia.
Qed.
Lemma names_pos : forall ns e p, names_bit ns e p -> exists f0, forall f, (f0 <= f)%nat -> bit_pos valof f ns e = Done p.
Proof.
  intros ns e p H. destruct H as [m n b z A B]. cbn. rewrite A. destruct B as [z | m' n' z N].
  - exists 0%nat. auto.
  - apply number_int; auto.
Qed.
Lemma names_all : forall ns l ps, Forall2 (names_bit ns) l ps ->
  exists f0, forall f, (f0 <= f)%nat -> mapR (bit_pos valof f ns) l = Done ps.
Proof.
  induction 1 as [| e p l ps N F (f0 & IH)].
  - exists 0%nat. reflexivity.
  - destruct (names_pos _ _ _ N) as (f1 & H). exists (f0 + f1)%nat. intros f L. cbn. rewrite H, IH by lia. reflexivity.
Qed.
Lemma maximum_in : forall l m, maximum l = Some m -> In m l.
Proof.
  assert (A : forall l a, fold_left Z.max l a = a \/ In (fold_left Z.max l a) l).
  { induction l as [| x l IH]; cbn; intros a; auto. destruct (IH (Z.max a x)) as [-> | I]; auto.
    destruct (Z.max_spec a x) as [(_ & ->) | (_ & ->)]; auto. }
  intros [| x l] m H; cbn in H; [discriminate |]. injection H as <-. destruct (A l x) as [-> | I]; cbn; auto.
Qed.
Lemma bits_eq : forall (a b : list bool), List.length a = List.length b ->
  (forall i, nth i a false = true <-> nth i b false = true) -> a = b.
Proof.
  intros a b L H. apply nth_ext with (d := false) (d' := false); auto. intros i _.
  specialize (H i). destruct (nth i a false), (nth i b false); intuition congruence.
Qed.
Lemma named_bits_exact : forall ns cs l r bs, getSizeableUperRange len cs = Some r ->
  (forall a b, r = Concrete a b -> (1 <= b < 2 ^ 32)%Z) ->
  ((exists f, named_bits valof f ns cs l = Done bs) <->
   exists ps, Forall2 (names_bit ns) l ps /\ bits_written r ps (List.length bs) /\
     forall i, nth i bs false = true <-> (i < List.length bs)%nat /\ In (Z.of_nat i) ps).
Proof.
  intros ns cs l r bs R B. unfold named_bits. rewrite R.
  set (top := fun ps => match r with Concrete _ b => Some (u32 (b - 1)) | _ => maximum ps end).
  assert (T : forall ps m, top ps = Some m -> bits_written r ps (Z.to_nat (m + 1))).
  { intros ps m H. unfold top in H. destruct r as [a b | | |]; cbn; try (exists m; split; [eapply maximum_in; eauto | split; auto; intros; eapply maximum_le; eauto]).
    specialize (B _ _ eq_refl). change (2 ^ 32)%Z with 4294967296%Z in *. injection H as <-.
    unfold u32. change (2 ^ 32)%Z with 4294967296%Z. rewrite Z.mod_small; lia. }
  assert (N : forall ps m i, nth i (map (fun i => memZ i ps) (upto m)) false = true <->
    (i < Z.to_nat (m + 1))%nat /\ In (Z.of_nat i) ps).
  { intros ps m i. rewrite <- (Nat2Z.id i) at 1. rewrite upto_nth by lia.
    destruct (Z.leb_spec (Z.of_nat i) m).
    - rewrite memZ_in. intuition lia.
    - split; [discriminate | lia]. }
  assert (W : forall ps n n', bits_written r ps n -> bits_written r ps n' -> n = n').
  { intros ps n n'. destruct r; cbn; try lia; intros (m & I & H & ->) (m' & I' & H' & ->); specialize (H _ I'); specialize (H' _ I); f_equal; lia. }
  assert (Le : forall ps m, List.length (map (fun i => memZ i ps) (upto m)) = Z.to_nat (m + 1)) by (intros; unfold upto; rewrite !map_length, seq_length; auto).
  split.
  - intros (f & H). unbind. match goal with K : mapR _ l = Done ?x |- _ => rename x into ps; apply mapR_forall2 in K; rename K into F end.
    exists ps. split; [eapply Forall2_imp; [| exact F]; intros x y K; cbn beta in K; eapply pos_names; exact K |].
    fold (top ps) in *. destruct (top ps) as [m |] eqn:M; unbind. rewrite Le. split; auto.
  - intros (ps & F & Wr & H). destruct (names_all _ _ _ F) as (f & E). exists f. rewrite (E f (le_n _)). cbn [bind]. fold (top ps).
    destruct (top ps) as [m |] eqn:M.
    + f_equal. pose proof (W _ _ _ (T _ _ M) Wr) as Ln. apply bits_eq; [rewrite Le; auto |].
      intros i. rewrite N, H, Ln. tauto.
    + exfalso. unfold top in M. destruct r; try discriminate; destruct Wr as (m & I & _); destruct ps; try discriminate; destruct I.
Qed.

Variable tyof' : string -> string -> option xtype.
Variable valof' : string -> string -> option (xtype * xval).
Hypothesis RT : resolved_types tyof valof tyof'.
Hypothesis RV : resolved_values tyof valof valof'.
Hypothesis ORD : all_orderly tyof valof.

Definition maps (t : gtype) (t' : xtype) : Prop := exists f, map_type f t = Done t'.
Definition maps_comp (c : string * gopt * gtype) (c' : string * xopt * xtype) : Prop :=
  fst (fst c) = fst (fst c') /\ (snd (fst c') = Omust <-> snd (fst c) = Gmust) /\ maps (snd c) (snd c').

Lemma maps_ref : forall u m T cs, maps u (XT (TRef m T) cs) -> exists cs', u = URef m T cs'.
Proof.
  intros u m T cs (f & H). destruct f; [discriminate |].
  destruct u; cbn in H; unbind; try discriminate. eauto.
Qed.
Lemma maps_of : forall k t cs, maps k (XT (TOf t) cs) -> exists t0, k = UOf t0 /\ maps t0 t.
Proof.
  intros k t cs (f & H). destruct f; [discriminate |]. destruct k; cbn in H; unbind; try discriminate.
  eexists; split; eauto. exists f. auto.
Qed.
Lemma maps_seq : forall k comps cs, maps k (XT (TSeq comps) cs) ->
  exists cl r, k = USeq cl /\ components cl r /\ Forall2 maps_comp r comps.
Proof.
  intros k comps cs (f & H). destruct f; [discriminate |]. destruct k; cbn in H; unbind; try discriminate.
  match goal with K : seq_children _ _ = Done ?x |- _ => apply children_components in K; exists l, x; split; auto; split; auto end.
  match goal with K : mapR _ _ = Done _ |- _ => apply mapR_forall2 in K; eapply Forall2_imp; [| exact K] end.
  intros [[n o] t] c H. cbn beta iota in H. unbind.
  split; [auto |]. split; [| exists f; auto]. cbn. destruct o; cbn in *; unbind; split; congruence.
Qed.
Lemma maps_ch : forall k alts cs, maps k (XT (TCh alts) cs) ->
  exists l, k = UCh l /\ Forall2 (fun c c' => fst c = fst c' /\ maps (snd c) (snd c')) l alts.
Proof.
  intros k alts cs (f & H). destruct f; [discriminate |]. destruct k; cbn in H; unbind; try discriminate.
  eexists; split; eauto.
  match goal with K : mapR _ _ = Done _ |- _ => apply mapR_forall2 in K; eapply Forall2_imp; [| exact K] end.
  intros [n t] c H. cbn beta iota in H. unbind. cbn. split; auto. exists f. auto.
Qed.
Lemma assoc_maps : forall l alts n t', Forall2 (fun c c' => fst c = fst c' /\ maps (snd c) (snd c')) l alts ->
  assoc n alts = Some t' -> exists t, assoc n l = Some t /\ maps t t'.
Proof.
  induction 1 as [| [a t] [b u] l alts (E & M) F IH]; cbn; try discriminate. cbn in E. subst b.
  destruct (String.eqb a n); auto. intros H. injection H as ->. eauto.
Qed.
Lemma find_child_in : forall n o t comps, NoDup (map (fun c : string * gopt * gtype => fst (fst c)) comps) ->
  In (n, o, t) comps -> find_child n comps = Some t.
Proof.
  unfold find_child. induction comps as [| [[n' o'] t'] comps IH]; cbn; intros D I; [tauto |].
  inversion D; subst. destruct I as [E | I].
  - injection E as -> -> ->. rewrite String.eqb_refl. reflexivity.
  - destruct (String.eqb_spec n' n); [| apply IH; auto]. subst.
    match goal with H : ~ In _ _ |- _ => destruct H end. change n with (fst (fst (n, o, t))). apply (in_map (fun c : string * gopt * gtype => fst (fst c))). auto.
Qed.
Lemma names_same : forall comps comps', Forall2 maps_comp comps comps' ->
  map (fun c => fst (fst c)) comps = map (fun c => fst (fst c)) comps'.
Proof. induction 1 as [| c c' l l' (E & _) F IH]; cbn; congruence. Qed.

(** The inverse of the resolution of a value. *)
Lemma value_kind : forall f t e x, map_value f t e = Done x -> exists k, behind t k.
Proof.
  intros [| f] t e x H; cbn in H; [discriminate |]. unbind. destruct x0. 
  match goal with K : actual_kind _ _ _ = Done _ |- _ => apply actual_behind in K as (K & _) end. eauto.
Qed.
Definition field_maps (comps : list (string * gopt * gtype)) (x : string * gval) (y : string * xval) : Prop :=
  fst x = fst y /\ forall o t, In (fst x, o, t) comps -> (exists f, map_value f t (snd x) = Done (snd y)) /\ orderly t (snd x).
Definition came_from (t k : gtype) (e : gval) (x : xval) : Prop :=
  match x with
  | XInt z => e = GInt z | XReal q => e = GReal q | XBool b => e = GBool b | XOcts l => e = GOcts l | XNull => e = GNull
  | XStr s => e = GStr s \/ exists l, k = UStr /\ e = GOf l /\ text_of l s
  | XBits bs => e = GBits bs \/ exists ns cs l ps, k = UBits ns cs /\ e = GOf l /\ Forall2 (names_bit ns) l ps /\ bits_at ps bs
  | XRef m n => exists m0, e = GRef m0 n /\ (m = m0 \/ exists items, k = UEnum items /\ last_module tyof t m)
  | XOf r => exists t', k = UOf t' /\ (e = GEmpty /\ r = [] \/
      exists l f, e = GOf l /\ Forall2 (fun a b => map_value f t' a = Done b) l r /\ forall a, In a l -> orderly t' a)
  | XSeq r => exists cl, k = USeq cl /\ (e = GEmpty /\ r = [] \/
      exists l, e = GSeq l /\ forall comps, components cl comps -> NoDup (map (fun c => fst (fst c)) comps) -> Forall2 (field_maps comps) l r)
  | XCh n r => exists alts t' e' f, k = UCh alts /\ e = GCh n e' /\ assoc n alts = Some t' /\ map_value f t' e' = Done r /\ orderly t' e'
  end.
Lemma value_from : forall f t e x k, map_value f t e = Done x -> orderly t e -> behind t k -> came_from t k e x.
Proof.
  intros [| f] t e x k H O B; cbn in H; [discriminate |]. unbind.
  destruct x0 as [k0 md]. match goal with K : actual_kind _ _ _ = Done _ |- _ => apply actual_behind in K as (B0 & L) end.
  pose proof (behind_det _ _ _ B0 B). subst k0. clear B0.
  destruct e; unbind; cbn; auto.
  - destruct k; try (destruct md); unbind; cbn; eauto. eexists; split; eauto. right. eexists; split; eauto.
    destruct L as [(_ & ?) | (m' & L & E)]; [discriminate | injection E as ->; auto].
  - destruct k; unbind; cbn.
    + right. eexists; split; eauto. split; eauto. apply concat_text. auto.
    + right. match goal with K : named_bits _ _ _ _ _ = Done _ |- _ => apply named_bits_at in K as (ps & F & A) end.
      * exists names, cs, l, ps. auto.
      * inversion O; subst; try tauto;
          match goal with P : behind t _ |- _ => pose proof (behind_det _ _ _ B P) as E end; try discriminate.
        injection E as <- <-. auto.
    + eexists; split; eauto. right. exists l, f. split; [reflexivity |]. split.
      * apply mapR_forall2; auto.
      * inversion O; subst; try tauto;
          match goal with P : behind t _ |- _ => pose proof (behind_det _ _ _ B P) as E end; try discriminate.
        injection E as <-. auto.
  - destruct k; unbind; cbn. eexists; split; eauto. right. eexists; split; eauto. intros comps C D.
    match goal with K : seq_children _ _ = Done _ |- _ => apply children_components in K; pose proof (components_det _ _ _ C K); subst end.
    match goal with K : mapR _ _ = Done _ |- _ => apply mapR_forall2 in K; rename K into F end.
    assert (O' : forall n e, In (n, e) l -> forall t', find_child n x0 = Some t' -> orderly t' e).
    { inversion O; subst; try tauto.
      match goal with P : behind t _ |- _ => pose proof (behind_det _ _ _ B P) as E end. injection E as <-.
      match goal with K : components l0 ?a |- _ => pose proof (components_det _ _ _ C K); subst end. auto. }
    clear O. induction F as [| [n e] y l r Q F IH]; constructor.
    + cbn [fst snd] in Q. destruct (find_child n x0) as [t' |] eqn:E; unbind. split; auto. cbn [fst snd].
      intros o t0 I. pose proof (find_child_in _ _ _ _ D I) as E'. rewrite E in E'. injection E' as <-.
      split; [eauto |]. eapply O'; eauto. left; auto.
    + apply IH. intros; eapply O'; eauto. right; auto.
  - destruct k; unbind. destruct (assoc n l) as [t' |] eqn:A; unbind. cbn. repeat eexists; eauto.
    inversion O; subst; try tauto.
    match goal with P : behind t _ |- _ => pose proof (behind_det _ _ _ B P) as E end. injection E as <-. congruence.
  - destruct k; unbind; cbn; eauto.
Qed.

Lemma maps_self : forall u kx cs k, maps u (XT kx cs) -> (forall m T, kx <> TRef m T) -> behind u k -> k = u.
Proof.
  intros u kx cs k (f & M) N B. inversion B; subst; auto.
  destruct f; [discriminate |]. cbn in M. injection M as <- <-. destruct (N _ _ eq_refl).
Qed.
Lemma fields_less : forall c comps l r, Forall2 (field_maps (c :: comps)) l r -> Forall2 (field_maps comps) l r.
Proof. intros c comps l r F. eapply Forall2_imp; [| exact F]. intros x y (E & P). split; auto. intros o t I. apply (P o). right; auto. Qed.
Lemma fields_names : forall comps l r, Forall2 (field_maps comps) l r -> map fst l = map fst r.
Proof. induction 1 as [| x y l r (E & _) F IH]; cbn; congruence. Qed.
Ltac kind' M B := let E := fresh in pose proof (maps_self _ _ _ _ M ltac:(discriminate) B) as E; rewrite E in *; clear E.
Ltac kind M B := kind' M B; match type of M with maps ?u _ => let f := fresh in let M' := fresh in
  destruct M as (f & M'); destruct f; [discriminate |]; destruct u; cbn in M'; unbind; try discriminate end.

Notation den := (den tyof' valof' Plain). Notation den_all := (den_all tyof' valof' Plain). Notation den_fields := (den_fields tyof' valof' Plain).
Lemma map_sound :
  (forall tx x v, den tx x v -> forall u t k e f, maps u tx -> behind u k -> behind t k -> map_value f t e = Done x -> orderly t e -> gden k e v) /\
  (forall tx r vs, den_all tx r vs -> forall u l f, maps u tx -> Forall2 (fun a b => map_value f u a = Done b) l r ->
     (forall a, In a l -> orderly u a) -> gden_all u l vs) /\
  (forall comps' r fs, den_fields comps' r fs -> forall comps l, Forall2 maps_comp comps comps' -> Forall2 (field_maps comps) l r ->
     gden_fields comps l fs).
Proof.
  apply (den_all_ind3 tyof' valof' Plain
    (fun tx x v _ => forall u t k e f, maps u tx -> behind u k -> behind t k -> map_value f t e = Done x -> orderly t e -> gden k e v)
    (fun tx r vs _ => forall u l f, maps u tx -> Forall2 (fun a b => map_value f u a = Done b) l r ->
       (forall a, In a l -> orderly u a) -> gden_all u l vs)
    (fun comps' r fs _ => forall comps l, Forall2 maps_comp comps comps' -> Forall2 (field_maps comps) l r -> gden_fields comps l fs)).
  - intros m T cs t' e v E D IH u t k e0 f M B B' H O.
    destruct (maps_ref _ _ _ _ M) as (cs' & ->). inversion B; subst; [match goal with X : forall m T cs, URef _ _ _ <> _ |- _ => destruct (X _ _ _ eq_refl) end |].
    pose proof (RT m T) as R. rewrite E in R. match goal with X : tyof m T = Some _ |- _ => rewrite X in R end.
    match goal with X : behind _ k |- _ => exact (IH _ _ _ _ _ R X B' H O) end.
  - (* d_int *) intros cs z u t k e f M B B' H O. kind M B. pose proof (value_from _ _ _ _ _ H O B') as V; cbn in V. subst e. constructor.
  - intros cs q u t k e f M B B' H O. kind M B. pose proof (value_from _ _ _ _ _ H O B') as V; cbn in V. subst e. constructor.
  - intros cs z N u t k e f M B B' H O. kind M B. pose proof (value_from _ _ _ _ _ H O B') as V; cbn in V. subst e. constructor.
  - intros cs z u t k e f M B B' H O. kind M B. pose proof (value_from _ _ _ _ _ H O B') as V; cbn in V.
    destruct V as [-> | (l & _ & -> & T)]; constructor; auto.
  - intros cs b u t k e f M B B' H O. kind M B. pose proof (value_from _ _ _ _ _ H O B') as V; cbn in V. subst e. constructor.
  - intros cs l u t k e f M B B' H O. kind M B. pose proof (value_from _ _ _ _ _ H O B') as V; cbn in V.
    destruct V as [-> | (ns & cs' & l' & ps & E & -> & F & A)]; [constructor |]. injection E as -> ->. econstructor; eauto.
  - intros cs l u t k e f M B B' H O. kind M B. pose proof (value_from _ _ _ _ _ H O B') as V; cbn in V. subst e. constructor.
  - intros cs l N u t k e f M B B' H O. kind M B. pose proof (value_from _ _ _ _ _ H O B') as V; cbn in V. subst e. constructor.
  - intros cs l os zs N P1 P2 P3 P4 u t k e f M B B' H O. kind M B. pose proof (value_from _ _ _ _ _ H O B') as V; cbn in V.
    destruct V as [-> | (ns & cs' & l' & ps & E & -> & F & A)]; [| discriminate]. econstructor; eauto.
  - intros cs u t k e f M B B' H O. kind M B. pose proof (value_from _ _ _ _ _ H O B') as V; cbn in V. subst e. constructor.
  - intros cs items m x I u t k e f M B B' H O. kind M B. pose proof (value_from _ _ _ _ _ H O B') as V; cbn in V.
    destruct V as (m0 & -> & _). constructor. auto.
  - (* d_name *)
    intros kx cs m n tx e1 v N K NI E D IH u t k e f M B B' H O. pose proof (maps_self _ _ _ _ M K B) as ->.
    pose proof (value_from _ _ _ _ _ H O B') as V; cbn in V. destruct V as (m0 & -> & V).
    pose proof (RV m n) as R. rewrite E in R. destruct (valof m n) as [[t' e'] |] eqn:E'; [| destruct R]. destruct R as (f' & R1 & R2).
    inversion O; subst; [tauto | |].
    { match goal with X : behind t (UEnum _) |- _ => pose proof (behind_det _ _ _ B' X); subst u end.
      destruct M as (f1 & M). destruct f1; [discriminate |]. cbn in M. injection M as <- <-. destruct (NI _ eq_refl); auto. }
    match goal with X : behind t k |- _ => pose proof (behind_det _ _ _ B' X); subst k end.
    assert (m = m0).
    { destruct V as [-> | (items & -> & L)]; auto.
      match goal with X : forall i, UEnum _ = _ -> _ |- _ => destruct (X _ eq_refl) as (_ & Y); apply Y; auto end. }
    subst m0. match goal with X : valof m n = Some (?a, ?b) |- _ => rewrite E' in X; injection X as <- <- end.
    assert (G : gden u e' v) by (eapply (IH u t' u); eauto).
    eapply g_name; eauto.
    + intros m1 T1 cs1 ->. destruct M as (f1 & M). destruct f1; [discriminate |]. cbn in M. injection M as <- <-. eapply K; eauto.
    + intros items ->. match goal with X : forall i, UEnum _ = _ -> _ |- _ => destruct (X _ eq_refl) as (Y & _); auto end.
    + eapply behind_gden; eauto.
  - (* d_of *)
    intros cs tx r vs D IH u t k e f M B B' H O. kind' M B. destruct (maps_of _ _ _ M) as (t0 & -> & M0).
    pose proof (value_from _ _ _ _ _ H O B') as V; cbn in V. destruct V as (t1 & E & V). injection E as <-.
    destruct V as [(-> & ->) | (l & f' & -> & F & P)].
    + inversion D; subst. constructor.
    + constructor. eapply IH; eauto.
  - (* d_seq *)
    intros cs comps' r fs ND D IH u t k e f M B B' H O. kind' M B. destruct (maps_seq _ _ _ M) as (cl & comps & -> & C & F).
    assert (ND' : NoDup (map (fun c => fst (fst c)) comps)) by (rewrite (names_same _ _ F); auto).
    pose proof (value_from _ _ _ _ _ H O B') as V; cbn in V. destruct V as (cl' & E & V). injection E as <-.
    destruct V as [(-> & ->) | (l & -> & P)].
    + eapply g_seq_none; eauto.
    + eapply g_seq; eauto.
  - discriminate.
  - (* d_ch *)
    intros cs alts' n tx x v A D IH u t k e f M B B' H O. kind' M B. destruct (maps_ch _ _ _ M) as (alts & -> & F).
    pose proof (value_from _ _ _ _ _ H O B') as V; cbn in V. destruct V as (alts0 & t1 & e1 & f1 & E & -> & A1 & M1 & O1). injection E as <-.
    destruct (assoc_maps _ _ _ _ F A) as (t2 & A2 & M2). rewrite A1 in A2. injection A2 as <-.
    destruct (value_kind _ _ _ _ M1) as (k1 & B1). econstructor; eauto. eapply behind_gden; eauto.
  - (* den_all *)
    intros tx u l f M F O. inversion F; subst. constructor.
  - intros tx x r v vs D IH Ds IHs u l f M F O. inversion F; subst. constructor.
    + match goal with X : map_value _ _ _ = Done _ |- _ => destruct (value_kind _ _ _ _ X) as (k1 & B1) end.
      eapply behind_gden; eauto. eapply IH; eauto. apply O; left; auto.
    + eapply IHs; eauto. intros a I. apply O. right; auto.
  - (* den_fields *)
    intros comps l F G. inversion F; inversion G; subst. constructor.
  - intros n ox tx comps' x r v fs D IH Ds IHs NI comps l F G. inversion F as [| c c' comps0 y E1 F0]; subst. inversion G as [| [n0 e0] y0 l0 r0 E2 G0]; subst.
    destruct c as [[n1 o1] t1]. destruct E1 as (X1 & X2 & X3). destruct E2 as (Y1 & Y2). cbn in *. subst.
    destruct (Y2 o1 t1) as ((f & Mv) & Ov); auto.
    destruct (value_kind _ _ _ _ Mv) as (k1 & B1). constructor.
    + eapply behind_gden; eauto.
    + apply IHs; auto. eapply fields_less; eauto.
    + rewrite (fields_names _ _ _ G0). auto.
  - intros n ox tx comps' r fs N Ds IHs NI comps l F G. inversion F as [| c c' comps0 y E1 F0]; subst.
    destruct c as [[n1 o1] t1]. destruct E1 as (X1 & X2 & X3). cbn in *. subst. constructor.
    + intros Q. apply N, X2, Q.
    + apply IHs; auto. eapply fields_less; eauto.
    + rewrite (fields_names _ _ _ G). auto.
Qed.
Lemma values_kept : forall t t' e x v f f', map_type f t = Done t' -> map_value f' t e = Done x -> orderly t e ->
  den t' x v -> gden t e v.
Proof.
  intros t t' e x v f f' M H O D. destruct (value_kind _ _ _ _ H) as (k & B). eapply behind_gden; eauto.
  eapply (proj1 map_sound); eauto. exists f. auto.
Qed.
End resolve.
