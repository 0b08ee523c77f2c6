(** Facts about the specified encoding: side conditions, agreement with X.691,
    normal forms, unique decodability. *)
From Verif Require Import Base Bits BitStream BitsProofs BitStreamProofs BitStreamProofs3 Ints IntsProofs SafeProofs RangeProofs
  StrSpec Octets OctetsProofs OctetsProofs2 Contracts Parse ParseProofs HistoryProofs Properties2Proofs
  Misc Oid OidProofs RealSpec RealC RealProofs UperTypes UperSpec Uper UperWf UperProofs1 UperProofs2 UperProofs3 UperProofs4 UperSizes UperClasses UperShape UperProofs5 UperProofs6.
From Coq Require Import ZifyBool ZifyNat Sorting.Sorted Sorting.Permutation.
Ltac Zify.zify_post_hook ::= Z.div_mod_to_equations.

(** ** Side conditions *)

Lemma range_side_wrap : forall c r p x z, ovf_wrap c = true -> shl_wrap c = true -> range_side c r p x z.
Proof. intros c r p x z H1 H2. unfold range_side, sfits. destruct r; auto 6. Qed.
Lemma side_wrap : forall c i p z, ovf_wrap c = true -> shl_wrap c = true -> side c (LInt i p z).
Proof. intros c i p z H1 H2. destruct i; cbn [side]; try (destruct (inroot z)); apply range_side_wrap; auto. Qed.

Lemma Forall_flat : forall {A B} (P : B -> Prop) (f : A -> list B) l, Forall (fun x => Forall P (f x)) l -> Forall P (flat_map f l).
Proof. intros A B P f l H. induction H; cbn [flat_map]; [constructor|]. apply Forall_app; auto. Qed.

Lemma sides_ok : forall c, ovf_wrap c = true -> shl_wrap c = true ->
  (forall t, wft t -> computed t -> cont_fit t -> forall v, valid t v -> Forall (side c) (leaves t v)) /\
  (forall fs, wf_fields fs -> computed_fields fs -> cont_fit_fields fs -> forall l, valid_fields fs l -> Forall (side c) (leaves_fields fs l)) /\
  (forall cs, wf_alts cs -> computed_alts cs -> cont_fit_alts cs -> forall i v, valid_alt cs i v -> Forall (side c) (leaves_alt cs i v)).
Proof.
  intros c Ho Hs.
  apply ty_mutind; cbn [wft wf_fields wf_alts computed computed_fields computed_alts cont_fit cont_fit_fields cont_fit_alts].
  - intros _ _ _ [] Hv; constructor.
  - intros _ _ _ [] Hv; constructor.
  - intros i p w Hw _ _ [] Hv; cbn [valid leaves] in *; try contradiction. constructor; [apply side_wrap; auto|constructor].
  - intros items eff _ _ _ [] Hv; constructor.
  - intros rel _ _ _ [] Hv; constructor.
  - intros f _ _ _ [] Hv; cbn [leaves]; constructor; [left; exact Hs|constructor].
  - intros a min max _ _ _ [] Hv; constructor.
  - intros min max _ _ _ [] Hv; constructor.
  - intros min max _ _ _ [] Hv; constructor.
  - intros t IH min max [_ Ht] Hc Hf [] Hv; cbn [valid leaves] in *; try contradiction. destruct Hv as [_ Hv].
    apply Forall_flat. eapply Forall_impl; [|exact Hv]. intros v Hv'. apply IH; auto.
  - intros fs IH Hw Hc Hf [] Hv; cbn [valid leaves] in *; try contradiction. apply IH; auto.
  - intros cs IH (_ & _ & Hw) Hc Hf [] Hv; cbn [valid leaves] in *; try contradiction. apply IH; auto.
  - intros ok t IH Hw Hc Hf v [Hv _]. cbn [leaves]. apply IH; auto.
  - intros bits min max req t IH [Hw Ht] (Hc & -> & Hb) (Hf & He & Hu) v Hv. cbn [leaves valid] in *.
    constructor; [|apply IH; auto].
    pose proof (proj1 umax_ok t Ht Hc v Hv) as HM. pose proof (proj1 umin_ok t Ht Hc He v Hv) as Hm.
    cbn [side]. unfold required_bytes. split; [lia|].
    destruct bits; destruct Hb as [-> ->]; [lia|]. rewrite !to_byte_eq by lia. lia.
  - intros _ _ _ [|] Hv; constructor.
  - intros o t IHt fs IHf (Ht & Hf & _) (Hc1 & Hc2) (Hf1 & Hf2) [|[e v] l] Hv; cbn [valid_fields leaves_fields] in *; try contradiction.
    destruct Hv as [Hv1 Hv2]. apply Forall_app. split; [|apply IHf; auto].
    destruct e; [|constructor]. destruct v as [v|]; [|constructor]. apply IHt; auto. destruct o; try assumption; discriminate.
  - intros _ _ _ i v Hv. contradiction.
  - intros t IHt cs IHc (Ht & Hc) (Hc1 & Hc2) (Hf1 & Hf2) [|i] v Hv; cbn [valid_alt leaves_alt] in *; auto.
Qed.
Lemma sides_wrap : forall c t v, ovf_wrap c = true -> shl_wrap c = true -> wft t -> computed t -> cont_fit t -> valid t v -> sides c t v.
Proof. intros c t v H1 H2 Hw Hc Hf Hv. exact (proj1 (sides_ok c H1 H2) t Hw Hc Hf v Hv). Qed.

(** ** Agreement with X.691 *)

Lemma filter_none : forall v l, Forall (fun x => v <= x) l -> filter (fun x => x <? v) l = [].
Proof. intros v l H. induction H; cbn [filter]; [reflexivity|]. destruct (Z.ltb_spec x v); [lia|auto]. Qed.
Lemma rank_index : forall v l, StronglySorted Z.lt l -> In v l -> rank v l = index v l.
Proof.
  intros v l HS. unfold rank. induction HS as [|x l HS IH HF]; intros HI; [contradiction|].
  cbn [filter index]. destruct (Z.eqb_spec x v) as [->|Hne].
  - rewrite Z.ltb_irrefl, filter_none; [reflexivity|]. eapply Forall_impl; [|exact HF]. cbv beta; intros; lia.
  - destruct HI as [HI|HI]; [congruence|]. rewrite Forall_forall in HF. specialize (HF v HI).
    destruct (Z.ltb_spec x v); [|lia]. cbn [length]. rewrite Nat2Z.inj_succ, IH by auto. lia.
Qed.
Lemma rank_perm : forall v l l', Permutation l l' -> rank v l = rank v l'.
Proof.
  intros v l l' H. unfold rank. induction H; cbn [filter]; try lia.
  - destruct (x <? v); cbn [length]; lia.
  - destruct (x <? v), (y <? v); cbn [length]; lia.
Qed.
Lemma sorted_nodup : forall l, StronglySorted Z.lt l -> NoDup l.
Proof.
  intros l H. induction H as [|x l HS IH HF]; constructor; auto. intros HI. rewrite Forall_forall in HF. specialize (HF _ HI). lia.
Qed.

Lemma frag_big : forall items k, 16384 <= len items -> k = Z.min 4 (len items / 16384) ->
  frag items = Zbits 8 (192 + k) ++ concat (firstn (Z.to_nat (k * 16384)) items) ++ frag (skipn (Z.to_nat (k * 16384)) items).
Proof.
  intros items k Hn Hk. unfold frag at 1. cbn [frag_bits].
  destruct (Z.leb_spec (len items) 127); [lia|]. destruct (Z.ltb_spec (len items) 16384); [lia|]. rewrite <- Hk.
  rewrite (app_assoc [true; true]). f_equal.
  - assert (1 <= k <= 4) as Hr by lia. clear - Hr. assert (k = 1 \/ k = 2 \/ k = 3 \/ k = 4) as [->|[->|[->| ->]]] by lia; reflexivity.
  - f_equal. unfold frag. apply frag_fuel_enough; rewrite skipn_length; lia.
Qed.
Lemma ffrag_frag : forall n items, (length items <= n)%nat -> len items mod 16384 <> 0 -> ffrag items = frag items.
Proof.
  induction n; intros items Hn Hm; [lia|].
  destruct (Z.ltb_spec (len items) 16384).
  - apply ffrag_small. lia.
  - pose proof (ffrag_big items (Z.min 4 (len items / 16384)) H) as E1.
    rewrite E1 by reflexivity. rewrite (frag_big items _ H eq_refl). f_equal. f_equal.
    apply IHn; rewrite skipn_length; lia.
Qed.
Lemma usized_std : forall min max items, size_in min max (length items) -> fixed16 min max = false ->
  usized false min max items = usized true min max items.
Proof.
  intros min max items Hs Hf. unfold usized, fixed16, size_in in *. cbn [negb andb].
  destruct (Z.eqb_spec min max); cbn [andb] in *; [|reflexivity].
  destruct (Z.leb_spec 65536 max); cbn [andb] in *; [|reflexivity].
  unfold sized. destruct (Z.ltb_spec max 65536); [lia|]. eapply ffrag_frag; [apply le_n|]. lia.
Qed.
Lemma char_std : forall a ch, conform_alpha a -> in_alpha a ch -> char_bits false a ch = char_bits true a ch.
Proof.
  intros [l|] ch Ha Hc; cbn [char_bits conform_alpha in_alpha] in *; [|reflexivity].
  destruct Ha as [H1 H2]. destruct (Z.ltb_spec (fold_right Z.max 0 l) (2 ^ Z.of_nat (crange 0 (len l - 1)))); [lia|].
  rewrite rank_index by auto. reflexivity.
Qed.

Lemma conform_ok :
  (forall t, wft t -> conform t -> forall v, valid t v -> ubits false t v = ubits true t v) /\
  (forall fs, wf_fields fs -> conform_fields fs -> forall l, valid_fields fs l -> fields_bits false fs l = fields_bits true fs l) /\
  (forall cs, wf_alts cs -> conform_alts cs -> forall i v, valid_alt cs i v -> alt_bits false cs i v = alt_bits true cs i v).
Proof.
  apply ty_mutind; cbn [wft wf_fields wf_alts conform conform_fields conform_alts].
  - intros _ _ [] Hv; reflexivity.
  - intros _ _ [] Hv; reflexivity.
  - intros i p w _ _ [] Hv; reflexivity.
  - intros items eff (Hn & Hd & HL & He) Hc [] Hv; cbn [valid ubits] in *; try reflexivity. f_equal. destruct eff as [a|].
    + destruct He as (He1 & He2 & He3). rewrite (rank_perm z items a).
      * rewrite rank_index; auto. apply He3; auto.
      * apply NoDup_Permutation; auto. apply sorted_nodup; auto.
    + destruct Hc as [Hc|Hc]; [|congruence]. rewrite rank_index; auto.
  - intros rel _ _ [] Hv; reflexivity.
  - intros f _ [].
  - intros a min max _ [Ha Hf] [] Hv; cbn [valid ubits] in *; try contradiction. destruct Hv as (H1 & H2 & _).
    rewrite usized_std; [|rewrite map_length; auto|auto]. f_equal. apply map_ext_in. intros ch Hch. apply char_std; auto.
    rewrite Forall_forall in H2. auto.
  - intros min max _ Hf [] Hv; cbn [valid ubits] in *; try contradiction. destruct Hv. apply usized_std; auto.
    unfold octets. rewrite map_length. auto.
  - intros min max _ Hf [] Hv; cbn [valid ubits] in *; try contradiction. apply usized_std; auto.
    unfold single_bits. rewrite map_length. auto.
  - intros t IH min max [_ Ht] [Hf Hc] [] Hv; cbn [valid ubits] in *; try contradiction. destruct Hv as [H1 H2].
    rewrite usized_std; [|rewrite map_length; auto|auto]. f_equal. apply map_ext_in. intros v Hin. apply IH; auto.
    rewrite Forall_forall in H2. auto.
  - intros fs IH Hw Hc [] Hv; cbn [valid ubits] in *; try contradiction. f_equal. apply IH; auto.
  - intros cs IH (_ & _ & Hw) Hc [] Hv; cbn [valid ubits] in *; try contradiction. f_equal. apply IH; auto.
  - intros ok t IH Hw Hc v [Hv _]. cbn [ubits]. apply IH; auto.
  - intros bits min max req t IH [Hw Ht] (Hm & Hc) v Hv. cbn [ubits valid] in *.
    unfold sized. destruct (Z.ltb_spec max 65536); [lia|]. rewrite IH by auto. reflexivity.
  - intros _ _ [|] Hv; reflexivity.
  - intros o t IHt fs IHf (Ht & Hf & _) (Hc1 & Hc2) [|[e v] l] Hv; cbn [valid_fields fields_bits] in *; try contradiction.
    destruct Hv as [Hv1 Hv2]. rewrite IHf by auto. f_equal.
    destruct e; [|reflexivity]. destruct v as [v|]; [|reflexivity]. apply IHt; auto. destruct o; try assumption; discriminate.
  - intros _ _ i v Hv. contradiction.
  - intros t IHt cs IHc (Ht & Hc) (Hc1 & Hc2) [|i] v Hv; cbn [valid_alt alt_bits] in *; auto.
Qed.

(** ** Normal forms *)
Lemma norm_facts :
  (forall t, forall v, valid t v -> norm t (norm t v) = norm t v /\ valid t (norm t v) /\ forall std, ubits std t (norm t v) = ubits std t v) /\
  (forall fs, forall l, valid_fields fs l -> norm_fields fs (norm_fields fs l) = norm_fields fs l /\ valid_fields fs (norm_fields fs l) /\
     forall std, fields_bits std fs (norm_fields fs l) = fields_bits std fs l /\ presence_bits fs (norm_fields fs l) = presence_bits fs l) /\
  (forall cs, forall i v, valid_alt cs i v -> norm_alt cs i (norm_alt cs i v) = norm_alt cs i v /\ valid_alt cs i (norm_alt cs i v) /\
     forall std, alt_bits std cs i (norm_alt cs i v) = alt_bits std cs i v).
Proof.
  apply ty_mutind.
  - intros [] Hv; cbn [valid norm] in *; try contradiction; auto.
  - intros [] Hv; cbn [valid norm] in *; try contradiction; auto.
  - intros i p w [] Hv; cbn [valid norm] in *; try contradiction; auto.
  - intros items eff [] Hv; cbn [valid norm] in *; try contradiction; auto.
  - intros rel [] Hv; cbn [valid norm] in *; try contradiction; auto.
  - intros f [] Hv; cbn [valid norm] in *; try contradiction; auto.
  - intros a min max [] Hv; cbn [valid norm] in *; try contradiction; auto.
  - intros min max [] Hv; cbn [valid norm] in *; try contradiction; auto.
  - intros min max [] Hv; cbn [valid norm] in *; try contradiction; auto.
  - intros t IH min max [] Hv; cbn [valid norm] in *; try contradiction. destruct Hv as [H1 H2]. rewrite Forall_forall in H2.
    splits.
    + f_equal. rewrite map_map. apply map_ext_in. intros a Ha. apply IH; auto.
    + rewrite map_length. auto.
    + apply Forall_forall. intros x Hx. apply in_map_iff in Hx. destruct Hx as (y & <- & Hy). apply IH; auto.
    + intros std. cbn [ubits]. f_equal. rewrite map_map. apply map_ext_in. intros a Ha. apply IH; auto.
  - intros fs IH [] Hv; cbn [valid norm] in *; try contradiction. destruct (IH _ Hv) as (H1 & H2 & H3).
    splits; [congruence|auto|]. intros std. cbn [ubits]. destruct (H3 std) as [-> ->]. reflexivity.
  - intros cs IH [] Hv; cbn [valid norm] in *; try contradiction. destruct (IH _ _ Hv) as (H1 & H2 & H3).
    splits; [congruence|auto|]. intros std. cbn [ubits]. rewrite H3. reflexivity.
  - intros ok t IH v [Hv Ho]. cbn [norm]. destruct (IH v Hv) as (H1 & H2 & H3). splits; auto. cbn [valid]. rewrite H1. auto.
  - intros bits min max req t IH v Hv. cbn [norm valid] in *. destruct (IH v Hv) as (H1 & H2 & H3). splits; auto.
    intros std. cbn [ubits]. rewrite H3. reflexivity.
  - intros [|] Hv; cbn in *; try contradiction; auto.
  - intros o t IHt fs IHf [|[e v] l] Hv; cbn [valid_fields] in *; try contradiction. destruct Hv as [Hv1 Hv2].
    destruct (IHf l Hv2) as (H1 & H2 & H3). cbn [norm_fields].
    destruct e; [destruct v as [v|]|].
    + assert (Hv : valid t v) by (destruct o; try assumption; discriminate). destruct (IHt v Hv) as (G1 & G2 & G3).
      cbn [norm_fields valid_fields fields_bits presence_bits]. rewrite H1, G1. splits; auto.
      * destruct o; auto.
      * intros std. destruct (H3 std) as [-> ->]. rewrite G3. auto.
    + exfalso. destruct o; try assumption; discriminate.
    + destruct o; cbn [norm_fields valid_fields fields_bits presence_bits] in *; try contradiction; rewrite ?H1; splits; auto;
        intros std; destruct (H3 std) as [-> ->]; auto.
  - intros i v Hv. contradiction.
  - intros t IHt cs IHc [|i] v Hv; cbn [valid_alt norm_alt alt_bits] in *; auto.
Qed.

(** ** Unique decodability *)
Lemma reads_prefix : forall {A} (f : M A) a1 a2 bs1 bs2 r1 r2, reads f a1 bs1 -> reads f a2 bs2 -> bs1 ++ r1 = bs2 ++ r2 ->
  a1 = a2 /\ bs1 = bs2 /\ r1 = r2.
Proof.
  intros A f a1 a2 bs1 bs2 r1 r2 R1 R2 E.
  set (mem := pack (bs1 ++ r1)).
  destruct (bits_of_pack _ (bs1 ++ r1) (le_n _)) as [HB HF]. fold mem in HB, HF.
  set (z := zeros (8 * length mem - length (bs1 ++ r1))) in HB.
  assert (HL : 8 * len mem = len (bs1 ++ r1) + len z).
  { assert (length (bits_of_bytes mem) = length ((bs1 ++ r1) ++ z)) by congruence.
    rewrite len_bits_of_bytes, app_length in H. lia. }
  pose proof HL as HL2. rewrite E in HL2. rewrite app_length in HL, HL2.
  destruct (run_reads f a1 bs1 mem (len mem) (r1 ++ z) R1 HF) as (s1 & E1 & P1 & _); [rewrite HB, app_assoc; auto|lia|].
  destruct (run_reads f a2 bs2 mem (len mem) (r2 ++ z) R2 HF) as (s2 & E2 & P2 & _); [rewrite HB, E, app_assoc; auto|lia|].
  rewrite E1 in E2. injection E2; intros; subst s2 a2.
  assert (Hl : length bs1 = length bs2) by lia. split; auto.
  apply (f_equal (firstn (length bs1))) in E as E3. rewrite firstn_app_exact in E3. rewrite Hl, firstn_app_exact in E3. subst bs2.
  split; auto. apply app_inv_head in E. auto.
Qed.

Lemma uniq : forall t v1 v2 r1 r2, wft t -> computed t -> cont_fit t -> valid t v1 -> valid t v2 ->
  ubits false t v1 ++ r1 = ubits false t v2 ++ r2 -> norm t v1 = norm t v2 /\ r1 = r2.
Proof.
  intros t v1 v2 r1 r2 Hw Hc Hf H1 H2 E.
  assert (S : forall v, valid t v -> reads (dec wrapv t true) (Some (norm t v)) (ubits false t v)).
  { intros v Hv. apply reads_uper; auto. apply sides_wrap; auto; reflexivity. }
  destruct (reads_prefix _ _ _ _ _ _ _ (S v1 H1) (S v2 H2) E) as (X & _ & Y). split; [congruence|auto].
Qed.

Lemma settled_ok :
  (forall t v, valid t v -> settled t v -> norm t v = v) /\
  (forall fs l, valid_fields fs l -> settled_fields fs l -> norm_fields fs l = l) /\
  (forall cs i v, valid_alt cs i v -> settled_alt cs i v -> norm_alt cs i v = v).
Proof.
  apply ty_mutind; try (intros; destruct v; reflexivity).
  - intros t IH min max [] Hv Hs; cbn [valid settled norm] in *; try contradiction. destruct Hv as [_ Hv]. f_equal.
    rewrite Forall_forall in Hv, Hs. rewrite <- (map_id l) at 2. apply map_ext_in. intros a Ha. auto.
  - intros fs IH [] Hv Hs; cbn [valid settled norm] in *; try contradiction. f_equal. auto.
  - intros cs IH [] Hv Hs; cbn [valid settled norm] in *; try contradiction. f_equal. auto.
  - intros ok t IH v [Hv _] Hs. cbn [norm settled] in *. auto.
  - intros bits min max req t IH v Hv Hs. cbn [norm settled valid] in *. auto.
  - intros [|] Hv Hs; [reflexivity|contradiction].
  - intros o t IHt fs IHf [|[e v] l] Hv Hs; cbn [valid_fields settled_fields norm_fields] in *; try contradiction.
    destruct Hv as [Hv1 Hv2]. destruct Hs as [Hs1 Hs2]. rewrite IHf by auto. f_equal. destruct e.
    + destruct v as [v|]; [|reflexivity]. rewrite IHt; auto. destruct o; try assumption; discriminate.
    + subst. destruct o; reflexivity.
  - intros t IHt cs IHc [|i] v Hv Hs; cbn [valid_alt settled_alt norm_alt] in *; auto.
Qed.
