(** The computed sizes bound the size of encodings. *)
From Verif Require Import Base Bits BitsProofs IntsProofs StrSpec OctetsProofs OctetsProofs2 Contracts
  Oid OidProofs RealSpec RealC RealProofs UperTypes UperSpec Uper UperWf UperProofs1 UperProofs2 UperProofs3 UperSizes UperClasses.
From Coq Require Import ZifyBool ZifyNat Sorting.Sorted.
Ltac Zify.zify_post_hook ::= Z.div_mod_to_equations.

Lemma first_pow_ok : forall k i a, 0 < i -> 2 ^ (i - 1) <= a < 2 ^ (i - 1 + Z.of_nat k) ->
  first_pow k i a = nbits a.
Proof.
  induction k; intros i a Hi H.
  - rewrite Z.add_0_r in H. lia.
  - cbn [first_pow]. destruct (2 ^ i - 1 <? a) eqn:E.
    + apply IHk; [lia|]. replace (i + 1 - 1) with i by lia. split; [lia|].
      replace (i + Z.of_nat k) with (i - 1 + Z.of_nat (S k)) by lia. lia.
    + symmetry. apply nbits_unique; lia.
Qed.
Lemma gnb_ok : forall a, a < 2 ^ 100 -> gnb a = nbits a.
Proof.
  intros a H. unfold gnb. destruct (0 <? a) eqn:E.
  - apply first_pow_ok; [lia|]. change (2 ^ (1 - 1)) with 1.
    change (1 - 1 + Z.of_nat 100) with 100. lia.
  - unfold nbits. destruct (a <=? 0) eqn:E2; lia.
Qed.
Lemma gnb_nn : forall a, 0 <= gnb a.
Proof.
  intros a. destruct (Z.ltb_spec a (2 ^ 100)).
  - rewrite gnb_ok by lia. apply nbits_nonneg.
  - unfold gnb. destruct (0 <? a); [|lia].
    assert (HH : forall k i, 0 < i -> 0 <= first_pow k i a).
    { induction k; intros i Hi; cbn [first_pow]; [lia|]. destruct (_ <? _); [apply IHk|]; lia. }
    apply HH; lia.
Qed.

Notation len l := (Z.of_nat (length l)).

Lemma concat_max : forall (l : list (list bool)) s, 0 <= s -> Forall (fun x => len x <= s) l -> len (concat l) <= len l * s.
Proof.
  induction l; intros s Hs HF; cbn [concat length]; [lia|].
  rewrite app_length. pose proof (Forall_inv HF) as H1. cbv beta in H1.
  pose proof (IHl s Hs (Forall_inv_tail HF)). rewrite !Nat2Z.inj_add, Nat2Z.inj_succ. nia.
Qed.
Lemma concat_min : forall (l : list (list bool)) s, 0 <= s -> Forall (fun x => s <= len x) l -> len l * s <= len (concat l).
Proof.
  induction l; intros s Hs HF; cbn [concat length]; [lia|].
  rewrite app_length. pose proof (Forall_inv HF) as H1. cbv beta in H1.
  pose proof (IHl s Hs (Forall_inv_tail HF)). rewrite !Nat2Z.inj_add, Nat2Z.inj_succ. nia.
Qed.

Lemma concat_split : forall k (l : list (list bool)),
  len (concat (firstn k l)) + len (concat (skipn k l)) = len (concat l).
Proof.
  intros k l. rewrite <- (firstn_skipn k l) at 3. rewrite concat_app, app_length. lia.
Qed.

Lemma frag_max : forall m items, Z.of_nat m = len items ->
  len (concat items) <= len (frag items) <= len (concat items) + len items / 65536 * 8 + 24.
Proof.
  induction m using (well_founded_induction lt_wf); intros items Hm.
  destruct (Z.leb_spec (len items) 127).
  { rewrite frag_small, app_length, len_Zbits by lia. lia. }
  destruct (Z.ltb_spec (len items) 16384).
  { rewrite frag_mid, !app_length, len_Zbits by lia. cbn [length]. lia. }
  pose (k := Z.min 4 (len items / 16384)).
  assert (Hk : 1 <= k <= 4 /\ k * 16384 <= len items) by (unfold k; lia).
  rewrite (frag_big items k) by (unfold k in *; lia).
  rewrite !app_length, len_Zbits.
  pose proof (concat_split (Z.to_nat (k * 16384)) items).
  assert (HL : len (skipn (Z.to_nat (k * 16384)) items) = len items - k * 16384) by (rewrite skipn_length; lia).
  destruct (Z.eq_dec k 4).
  - specialize (H (m - Z.to_nat (k * 16384))%nat ltac:(lia) (skipn (Z.to_nat (k * 16384)) items) ltac:(lia)).
    rewrite HL in H. lia.
  - assert (len items - k * 16384 < 16384) by (unfold k in *; lia).
    assert (len (frag (skipn (Z.to_nat (k * 16384)) items)) <= len (concat (skipn (Z.to_nat (k * 16384)) items)) + 16 /\
      len (concat (skipn (Z.to_nat (k * 16384)) items)) <= len (frag (skipn (Z.to_nat (k * 16384)) items))).
    { destruct (Z.leb_spec (len items - k * 16384) 127).
      - rewrite frag_small, app_length, len_Zbits by lia. lia.
      - rewrite frag_mid, !app_length, len_Zbits by lia. cbn [length]. lia. }
    lia.
Qed.
Lemma ffrag_max : forall m items, Z.of_nat m = len items ->
  len (concat items) <= len (ffrag items) <= len (concat items) + len items / 65536 * 8 + 24.
Proof.
  induction m using (well_founded_induction lt_wf); intros items Hm.
  destruct (Z.eq_dec (len items) 0).
  { rewrite ffrag_0 by lia. destruct items; [cbn; lia|discriminate]. }
  destruct (Z.ltb_spec (len items) 16384).
  { rewrite ffrag_small by lia. apply (frag_max m); auto. }
  pose (k := Z.min 4 (len items / 16384)).
  assert (Hk : 1 <= k <= 4 /\ k * 16384 <= len items) by (unfold k; lia).
  rewrite (ffrag_big items k) by (unfold k in *; lia).
  rewrite !app_length, len_Zbits.
  pose proof (concat_split (Z.to_nat (k * 16384)) items).
  assert (HL : len (skipn (Z.to_nat (k * 16384)) items) = len items - k * 16384) by (rewrite skipn_length; lia).
  destruct (Z.eq_dec k 4).
  - specialize (H (m - Z.to_nat (k * 16384))%nat ltac:(lia) (skipn (Z.to_nat (k * 16384)) items) ltac:(lia)).
    rewrite HL in H. lia.
  - assert (len items - k * 16384 < 16384) by (unfold k in *; lia).
    destruct (Z.eq_dec (len items - k * 16384) 0).
    { rewrite (ffrag_0 (skipn (Z.to_nat (k * 16384)) items)) by (rewrite HL; assumption).
      assert (HN : skipn (Z.to_nat (k * 16384)) items = []) by (apply length_zero_iff_nil; lia).
      rewrite HN in *. cbn [length concat] in *. lia. }
    assert (len (ffrag (skipn (Z.to_nat (k * 16384)) items)) <= len (concat (skipn (Z.to_nat (k * 16384)) items)) + 16 /\
      len (concat (skipn (Z.to_nat (k * 16384)) items)) <= len (ffrag (skipn (Z.to_nat (k * 16384)) items))).
    { rewrite ffrag_small by lia.
      destruct (Z.leb_spec (len items - k * 16384) 127).
      - rewrite frag_small, app_length, len_Zbits by lia. lia.
      - rewrite frag_mid, !app_length, len_Zbits by lia. cbn [length]. lia. }
    lia.
Qed.

Lemma crange_len : forall a b v, b - a < 2 ^ 100 -> len (Zbits (crange a b) v) = gnb (b - a).
Proof. intros. rewrite len_Zbits. unfold crange. rewrite gnb_ok by lia. pose proof (nbits_nonneg (b - a)). lia. Qed.

Lemma usized_max : forall min max items s, 0 <= s -> wf_size min max -> size_in min max (length items) ->
  Forall (fun x => len x <= s) items -> len (usized false min max items) <= max_sized min max s.
Proof.
  intros min max items s Hs [Hw Hw2] Hi HF. unfold size_in in Hi.
  pose proof (concat_max items s Hs HF). pose proof (gnb_nn (max - min)).
  unfold max_sized. destruct (Z.ltb_spec max 65536).
  - rewrite usized_small by lia. rewrite app_length, Nat2Z.inj_add, crange_len by lia.
    rewrite Bool.andb_true_r. destruct (Z.eqb_spec min max).
    + subst. replace (max - max) with 0 in * by lia. change (gnb 0) with 0. nia.
    + nia.
  - rewrite Bool.andb_false_r.
    assert (len items / 65536 <= max / 65536) by (apply Z.div_le_mono; lia).
    assert (len items * s <= max * s) by nia.
    destruct (Z.eq_dec min max).
    + rewrite usized_fixed by lia. pose proof (ffrag_max (length items) items eq_refl). lia.
    + rewrite usized_frag by lia. pose proof (frag_max (length items) items eq_refl). lia.
Qed.
Lemma usized_min : forall min max items s, 0 <= s -> wf_size min max -> size_in min max (length items) ->
  (max <? 65536) || (min =? max) = true ->
  Forall (fun x => s <= len x) items -> min_sized min max s <= len (usized false min max items).
Proof.
  intros min max items s Hs [Hw Hw2] Hi Hc HF. unfold size_in in Hi.
  pose proof (concat_min items s Hs HF).
  unfold min_sized. destruct (Z.ltb_spec max 65536).
  - rewrite usized_small by lia. rewrite app_length, Nat2Z.inj_add, crange_len by lia.
    rewrite Bool.andb_true_r. pose proof (gnb_nn (max - min)). destruct (Z.eqb_spec min max); nia.
  - rewrite Bool.andb_false_r. assert (min = max) by lia. subst.
    rewrite usized_fixed by lia. pose proof (ffrag_max (length items) items eq_refl).
    replace (max - max) with 0 by lia. change (gnb 0) with 0. nia.
Qed.

(** ** Leaves *)
Lemma nbytes_u_64 : forall u, is_u64 u -> 1 <= nbytes_u u <= 8.
Proof. intros u H. pose proof (nbits_u64 u H). unfold nbytes_u. lia. Qed.
Lemma nbytes_s_64 : forall v, is_s64 v -> 1 <= nbytes_s v <= 8.
Proof.
  intros v H. unfold nbytes_s, is_s64 in *.
  set (x := if v <? 0 then - v - 1 else v).
  assert (0 <= x < 2 ^ 63) by (unfold x; destruct (v <? 0) eqn:E; unfold two63 in *; lia).
  pose proof (nbits_nonneg x). pose proof (nbits_min x 63 ltac:(lia) ltac:(lia)). lia.
Qed.
Lemma semi_len : forall u, len (semi_bits u) = 8 + 8 * nbytes_u u.
Proof. intros. unfold semi_bits. rewrite app_length, !len_Zbits. unfold nbytes_u. lia. Qed.
Lemma nbytes_s_nn : forall v, 1 <= nbytes_s v.
Proof. intros. unfold nbytes_s. pose proof (nbits_nonneg (if v <? 0 then - v - 1 else v)). lia. Qed.
Lemma unc_len : forall v, len (unc_bits v) = 8 + 8 * nbytes_s v.
Proof. intros. unfold unc_bits. rewrite app_length, !len_Zbits. pose proof (nbytes_s_nn v). lia. Qed.

Lemma range_len : forall r z, wf_range64 r \/ (exists a b, r = Concrete a b /\ 0 <= a <= b /\ b < two64) \/ (exists a, r = PosInf a /\ 0 <= a) ->
  in_range r z -> is_s64 z \/ is_u64 z /\ (match r with Concrete _ _ => True | PosInf a => 0 <= a | _ => False end) ->
  fst (range_size r) <= len (range_bits r z) <= snd (range_size r).
Proof.
  intros r z Hw Hr Hz. destruct r as [a b|a|b|]; cbn [range_size range_bits fst snd].
  - assert (b - a < 2 ^ 100).
    { destruct Hw as [(H1 & H2 & H3)|[(a' & b' & H1 & H2)|(a' & H1 & _)]]; [|injection H1 as <- <-|discriminate];
        unfold is_s64, two63, two64 in *; lia. }
    rewrite crange_len by lia. lia.
  - rewrite semi_len.
    assert (is_u64 (z - a)).
    { cbn [in_range] in Hr. destruct Hw as [H1|[(a' & b' & H1 & H2)|(a' & H1 & H2)]]; [|discriminate|injection H1 as <-];
        cbn [wf_range64] in *; unfold is_s64, is_u64, two63, two64 in *; lia. }
    pose proof (nbytes_u_64 _ H). lia.
  - rewrite unc_len. destruct Hz as [Hz|[_ []]]. pose proof (nbytes_s_64 _ Hz). lia.
  - rewrite unc_len. destruct Hz as [Hz|[_ []]]. pose proof (nbytes_s_64 _ Hz). lia.
Qed.

Lemma int_max : forall i p w z, wf_int i p w -> in_class p w z -> valid_int i z ->
  len (int_bits i z) <= snd (int_size i).
Proof.
  intros i p w z Hw Hc Hv.
  assert (H64 : w = 64 -> p = false -> is_s64 z).
  { intros -> ->. cbn in Hc. unfold is_s64, two63. lia. }
  assert (HE : forall r, wf_range64 r -> is_s64 z -> in_range r z -> len (range_bits r z) <= 72).
  { intros r Hr Hz Hi. pose proof (range_len r z (or_introl Hr) Hi (or_introl Hz)) as HH.
    destruct r; cbn [range_size fst snd] in HH; try lia.
    cbn [wf_range64] in Hr. unfold is_s64, two63 in Hr.
    assert (gnb (b - a) <= 64) by (rewrite gnb_ok by lia; apply nbits_min; lia). lia. }
  destruct i as [r|r|r isr]; cbn [int_size int_bits snd fst range_size wf_int valid_int] in *.
  - destruct r as [a b|a|b|].
    + destruct Hw as (Hw & Hab & Ha & Hb).
      assert (b - a < 2 ^ 100) by (unfold in_class in *; destruct p; destruct Hw as [->|[->|[->| ->]]]; lia).
      cbn [range_bits range_size snd]. rewrite crange_len; lia.
    + destruct Hw as (-> & -> & Ha). apply range_len; [|exact Hv|].
      * destruct (0 <=? a) eqn:E; [right; right; exists a; split; auto; lia|].
        left. cbn in *. unfold is_s64, two63. lia.
      * destruct (0 <=? a) eqn:E; cbn in Hc.
        -- right. split; [unfold is_u64, two64; lia|lia].
        -- left; unfold is_s64, two63; lia.
    + destruct Hw as (-> & ->). apply range_len; [left; exact I|exact Hv|left; apply H64; auto].
    + destruct Hw as (-> & ->). apply range_len; [left; exact I|exact Hv|left; apply H64; auto].
  - destruct Hw as (-> & -> & Hw). rewrite app_length. cbn [length].
    pose proof (HE r Hw (H64 eq_refl eq_refl) Hv). lia.
  - destruct Hw as (-> & -> & Hw). destruct (isr z); rewrite app_length; cbn [length].
    + pose proof (HE r Hw (H64 eq_refl eq_refl) (Hv eq_refl)). lia.
    + pose proof (unc_len z). pose proof (nbytes_s_64 _ (H64 eq_refl eq_refl)). lia.
Qed.
Lemma int_min : forall r p w z, wf_int (INoExt r) p w -> in_class p w z -> valid_int (INoExt r) z ->
  fst (range_size r) <= len (range_bits r z).
Proof.
  intros r p w z Hw Hc Hv. cbn [wf_int valid_int] in *. destruct r as [a b|a|b|]; cbn [range_size range_bits fst].
  - destruct Hw as (Hw & Hab & Ha & Hb).
    assert (b - a < 2 ^ 100) by (unfold in_class in *; destruct p; destruct Hw as [->|[->|[->| ->]]]; lia).
    rewrite crange_len; lia.
  - rewrite semi_len. unfold nbytes_u. lia.
  - rewrite unc_len. pose proof (nbytes_s_nn z). lia.
  - rewrite unc_len. pose proof (nbytes_s_nn z). lia.
Qed.
Lemma int_size_nn : forall i, 0 <= fst (int_size i) /\ 0 <= snd (int_size i).
Proof. intros [[| | |]| |]; cbn; try lia. split; apply gnb_nn. Qed.

Lemma subid_from_len : forall n v, length (subid_from n v) = n.
Proof. induction n; intros; cbn [subid_from length]; auto. Qed.
Lemma octets_concat : forall l, len (concat (octets l)) = 8 * len l.
Proof.
  induction l; [reflexivity|]. cbn [octets map concat length]. rewrite app_length, len_bits_of_byte.
  fold (octets l). lia.
Qed.
Lemma subids_len : forall l, Forall (fun x => 0 <= x < 2 ^ 64) l ->
  len l <= len (concat (map subid l)) <= 10 * len l.
Proof.
  induction l; intros HF; [cbn; lia|]. cbn [map concat length]. rewrite app_length.
  specialize (IHl (Forall_inv_tail HF)). pose proof (Forall_inv HF) as H1. cbv beta in H1.
  assert (1 <= len (subid a) <= 10).
  { unfold subid. rewrite subid_from_len. pose proof (nbits_nonneg a). pose proof (nbits_min a 64). lia. }
  lia.
Qed.
Lemma oid_len : forall rel l, valid_oid rel l -> 16 <= len (oid_bits rel l) <= 16 * 8 * 20 + 16.
Proof.
  intros rel l (HL & HF & H). unfold oid_bits.
  pose proof (subids_len _ HF) as HS.
  assert (HA : 1 <= len (oid_arcs rel l) <= 20).
  { unfold oid_arcs. destruct rel; [destruct l; [congruence|cbn [length] in *; lia]|].
    destruct l as [|a [|b l]]; try contradiction. cbn [length] in *. lia. }
  remember (concat (map subid (oid_arcs rel l))) as d.
  assert (HO : len (octets d) = len d) by (unfold octets; rewrite map_length; auto).
  pose proof (octets_concat d).
  destruct (Z.leb_spec (len d) 127).
  - rewrite frag_small, app_length, len_Zbits by lia. lia.
  - rewrite frag_mid, !app_length, len_Zbits by lia. cbn [length]. lia.
Qed.

Lemma char_len : forall a ch, wf_alpha a -> len (char_bits false a ch) = char_size a.
Proof.
  intros [l|] ch H; unfold char_bits, char_size; cbn [wf_alpha] in H.
  - rewrite crange_len; [|lia]. f_equal; lia.
  - rewrite len_Zbits. reflexivity.
Qed.

Lemma presence_len : forall fs l, valid_fields fs l -> len (presence_bits fs l) = optionals fs.
Proof.
  induction fs as [|o t fs IH]; intros [|[e v] l] H; cbn [valid_fields presence_bits optionals] in *; try contradiction.
  - reflexivity.
  - destruct H as [_ H]. rewrite app_length. specialize (IH l H).
    destruct o; cbn [presence length]; lia.
Qed.
Lemma optionals_nn : forall fs, 0 <= optionals fs.
Proof. induction fs as [|[]]; cbn [optionals]; lia. Qed.

Lemma Forall_map_in : forall {A B} (f : A -> B) (P : B -> Prop) l, (forall x, In x l -> P (f x)) -> Forall P (map f l).
Proof. intros. apply Forall_forall. intros y Hy. apply in_map_iff in Hy. destruct Hy as (x & <- & Hx). auto. Qed.

Lemma max_sized_nn : forall a b s, 0 <= b -> 0 <= s -> 0 <= max_sized a b s.
Proof.
  intros. unfold max_sized. pose proof (gnb_nn (b - a)).
  destruct (_ && _); [nia|]. destruct (_ <? _); [nia|]. assert (0 <= b / 65536) by (apply Z.div_pos; lia). nia.
Qed.
Lemma min_sized_nn : forall a b s, 0 <= a -> 0 <= s -> 0 <= min_sized a b s.
Proof. intros. unfold min_sized. pose proof (gnb_nn (b - a)). destruct (_ && _); nia. Qed.
Lemma index_size_nn : forall n, 0 <= index_size n.
Proof. intros. unfold index_size. pose proof (gnb_nn (n - 1)). destruct (_ <? _); lia. Qed.
Lemma char_size_nn : forall a, 0 <= char_size a.
Proof. intros. apply gnb_nn. Qed.

Lemma umax_alts_cons : forall t cs, umax_alts (ACons t cs) = match cs with ANil => umax t | _ => Z.max (umax t) (umax_alts cs) end.
Proof. destruct cs; reflexivity. Qed.
Lemma umin_alts_cons : forall t cs, umin_alts (ACons t cs) = match cs with ANil => umin t | _ => Z.min (umin t) (umin_alts cs) end.
Proof. destruct cs; reflexivity. Qed.

Lemma widen_len : forall f x, valid_real f x -> 8 <= len (real_bits (widen f x)) <= 88.
Proof.
  intros f x H. unfold valid_real, widen in *. destruct f; destruct H as [H1 H2]; apply real_len; auto.
  - apply float_is_double; auto.
  - apply float_kept; auto.
Qed.

Lemma sizes_nn :
  (forall t, wft t -> 0 <= umax t /\ 0 <= umin t) /\
  (forall fs, wf_fields fs -> 0 <= umax_fields fs /\ 0 <= umin_fields fs) /\
  (forall cs, wf_alts cs -> 0 <= umax_alts cs /\ 0 <= umin_alts cs).
Proof.
  apply ty_mutind; cbn [wft wf_fields wf_alts umax umin umax_fields umin_fields]; intros; try lia.
  - pose proof (int_size_nn i). lia.
  - split; apply gnb_nn.
  - destruct H as [_ [H _]]. pose proof (char_size_nn alpha). split; [apply max_sized_nn|apply min_sized_nn]; lia.
  - destruct H as [H _]. split; [apply max_sized_nn|apply min_sized_nn]; lia.
  - destruct H as [H _]. split; [apply max_sized_nn|apply min_sized_nn]; lia.
  - destruct H0 as [[Hs _] Hw]. specialize (H Hw). split; [apply max_sized_nn|apply min_sized_nn]; lia.
  - specialize (H H0). pose proof (optionals_nn fs). lia.
  - destruct H0 as (_ & _ & H0). specialize (H H0). pose proof (index_size_nn (Z.of_nat (alts_len cs))). lia.
  - destruct H0 as [[Hs _] Hw]. destruct bits; cbn [item_size]; split; try apply max_sized_nn; try apply min_sized_nn; lia.
  - destruct H1 as (H1 & H2 & _). specialize (H H1). specialize (H0 H2). destruct o; lia.
  - cbn; lia.
  - rewrite umax_alts_cons, umin_alts_cons. destruct H1 as (H1 & H2). specialize (H H1). specialize (H0 H2).
    destruct cs; lia.
Qed.

Lemma to_byte_eq : forall n, to_byte n = (n + 7) / 8.
Proof. intros. unfold to_byte. destruct (n mod 8 =? 0) eqn:E; lia. Qed.

(** ** Upper bound *)
Lemma umax_ok :
  (forall t, wft t -> computed t -> forall v, valid t v -> len (ubits false t v) <= umax t) /\
  (forall fs, wf_fields fs -> computed_fields fs -> forall l, valid_fields fs l -> len (fields_bits false fs l) <= umax_fields fs) /\
  (forall cs, wf_alts cs -> computed_alts cs -> forall i v, valid_alt cs i v -> len (alt_bits false cs i v) <= umax_alts cs).
Proof.
  destruct sizes_nn as (Nt & Nf & Na).
  apply ty_mutind; cbn [wft wf_fields wf_alts computed computed_fields computed_alts umax umax_fields].
  - intros _ _ [] Hv; cbn [valid ubits] in *; try contradiction. cbn; lia.
  - intros _ _ [] Hv; cbn [valid ubits] in *; try contradiction. cbn; lia.
  - intros i p w Hw _ [] Hv; cbn [valid ubits] in *; try contradiction. destruct Hv. eapply int_max; eauto.
  - intros items eff (_ & _ & Hw & _) _ [] Hv; cbn [valid ubits] in *; try contradiction.
    rewrite crange_len by lia. replace (len items - 1 - 0) with (len items - 1) by lia. lia.
  - intros rel _ _ [] Hv; cbn [valid ubits] in *; try contradiction. pose proof (oid_len _ _ Hv). lia.
  - intros f _ _ [] Hv; cbn [valid ubits] in *; try contradiction. pose proof (widen_len _ _ Hv). lia.
  - intros a min max [Ha Hs] _ [] Hv; cbn [valid ubits] in *; try contradiction. destruct Hv as (H1 & _ & _).
    apply usized_max; auto; [apply char_size_nn|rewrite map_length; auto|].
    apply Forall_map_in. intros x _. rewrite char_len by auto. lia.
  - intros min max Hs _ [] Hv; cbn [valid ubits] in *; try contradiction. destruct Hv as (H1 & _).
    apply usized_max; auto; [lia|unfold octets; rewrite map_length; auto|].
    apply Forall_map_in. intros x _. rewrite len_bits_of_byte. lia.
  - intros min max Hs _ [] Hv; cbn [valid ubits] in *; try contradiction.
    apply usized_max; auto; [lia|unfold single_bits; rewrite map_length; auto|].
    apply Forall_map_in. intros x _. cbn. lia.
  - intros t IH min max [Hs Ht] Hc [] Hv; cbn [valid ubits] in *; try contradiction. destruct Hv as (H1 & Hv).
    apply usized_max; auto; [apply Nt; auto|rewrite map_length; auto|].
    apply Forall_map_in. intros x Hx. apply IH; auto. rewrite Forall_forall in Hv. auto.
  - intros fs IH Hw Hc [] Hv; cbn [valid ubits] in *; try contradiction.
    rewrite app_length, Nat2Z.inj_add, presence_len by auto. pose proof (IH Hw Hc _ Hv). lia.
  - intros cs IH (_ & HL & Hw) Hc [] Hv; cbn [valid ubits] in *; try contradiction.
    rewrite app_length, Nat2Z.inj_add, crange_len by lia.
    replace (Z.of_nat (alts_len cs) - 1 - 0) with (Z.of_nat (alts_len cs) - 1) by lia.
    pose proof (IH Hw Hc _ _ Hv). unfold index_size.
    destruct (Z.ltb_spec 1 (Z.of_nat (alts_len cs))); [lia|].
    assert (gnb (Z.of_nat (alts_len cs) - 1) = 0) by (unfold gnb; destruct (0 <? Z.of_nat (alts_len cs) - 1) eqn:E; lia).
    lia.
  - intros ok t IH Hw Hc v Hv; cbn [valid ubits] in *. destruct Hv. auto.
  - intros bits min max req t IH [Hs Ht] (Hc & Hq & Hm) v Hv; cbn [valid ubits] in *.
    specialize (IH Ht Hc v Hv). pose proof (proj1 (Nt t Ht)) as Hn.
    set (bs := ubits false t v) in *.
    assert (HI : len (if bits then single_bits bs else octets (pack bs)) <= max).
    { destruct bits; unfold single_bits, octets; rewrite map_length.
      - lia.
      - rewrite pack_len. destruct Hm as [_ ->]. rewrite to_byte_eq. apply Z.div_le_mono; lia. }
    assert (HF : Forall (fun x => len x = item_size bits) (if bits then single_bits bs else octets (pack bs))).
    { destruct bits; apply Forall_map_in; intros x _; cbn [item_size]; [reflexivity|]. rewrite len_bits_of_byte; reflexivity. }
    remember (if bits then single_bits bs else octets (pack bs)) as items.
    assert (0 <= item_size bits) by (destruct bits; cbn; lia).
    assert (HC : len (concat items) <= len items * item_size bits).
    { apply concat_max; auto. eapply Forall_impl; [|exact HF]. cbv beta. lia. }
    destruct Hs as [Hs Hs2]. unfold sized, max_sized. pose proof (gnb_nn (max - min)).
    destruct (Z.ltb_spec max 65536).
    + rewrite Bool.andb_true_r, app_length, Nat2Z.inj_add, crange_len by lia.
      destruct (Z.eqb_spec min max); [|nia]. subst min. replace (max - max) with 0 in * by lia.
      change (gnb 0) with 0. nia.
    + rewrite Bool.andb_false_r. pose proof (frag_max (length items) items eq_refl).
      assert (len items / 65536 <= max / 65536) by (apply Z.div_le_mono; lia). nia.
  - intros _ _ [|] Hv; cbn [fields_bits]; cbn; lia.
  - intros o t IHt fs IHf (Ht & Hf & _) (Ct & Cf) [|[e v] l] Hv; cbn [valid_fields fields_bits] in *; try contradiction.
    destruct Hv as [Hv Hl]. specialize (IHf Hf Cf l Hl). pose proof (proj1 (Nt t Ht)).
    rewrite app_length. destruct e; [|cbn [length]; lia]. destruct v as [v|]; [|cbn [length]; lia].
    destruct o; try (specialize (IHt Ht Ct v Hv); lia). discriminate.
  - intros _ _ [|] v Hv; cbn [valid_alt] in *; contradiction.
  - intros t IHt cs IHc (Ht & Hf) (Ct & Cf) [|i] v Hv; cbn [valid_alt alt_bits] in *; rewrite umax_alts_cons.
    + specialize (IHt Ht Ct v Hv). destruct cs; lia.
    + specialize (IHc Hf Cf i v Hv). destruct cs; [destruct i; contradiction|]. lia.
Qed.

Lemma umin_ok :
  (forall t, wft t -> computed t -> min_exact t = true -> forall v, valid t v -> umin t <= len (ubits false t v)) /\
  (forall fs, wf_fields fs -> computed_fields fs -> min_exact_fields fs = true -> forall l, valid_fields fs l -> umin_fields fs <= len (fields_bits false fs l)) /\
  (forall cs, wf_alts cs -> computed_alts cs -> min_exact_alts cs = true -> forall i v, valid_alt cs i v -> umin_alts cs <= len (alt_bits false cs i v)).
Proof.
  destruct sizes_nn as (Nt & Nf & Na).
  apply ty_mutind; cbn [wft wf_fields wf_alts computed computed_fields computed_alts umin umin_fields min_exact min_exact_fields min_exact_alts].
  - intros _ _ _ [] Hv; cbn [valid ubits] in *; try contradiction. cbn; lia.
  - intros _ _ _ [] Hv; cbn [valid ubits] in *; try contradiction. cbn; lia.
  - intros i p w Hw _ He [] Hv; cbn [valid ubits] in *; try contradiction. destruct Hv.
    destruct i; try discriminate. eapply int_min; eauto.
  - intros items eff (_ & _ & Hw & _) _ _ [] Hv; cbn [valid ubits] in *; try contradiction.
    rewrite crange_len by lia. replace (len items - 1 - 0) with (len items - 1) by lia. lia.
  - intros rel _ _ _ [] Hv; cbn [valid ubits] in *; try contradiction. pose proof (oid_len _ _ Hv). lia.
  - intros f _ _ _ [] Hv; cbn [valid ubits] in *; try contradiction. pose proof (widen_len _ _ Hv). lia.
  - intros a min max [Ha Hs] _ He [] Hv; cbn [valid ubits] in *; try contradiction. destruct Hv as (H1 & _ & _).
    apply usized_min; auto; [apply char_size_nn|rewrite map_length; auto|].
    apply Forall_map_in. intros x _. rewrite char_len by auto. lia.
  - intros min max Hs _ He [] Hv; cbn [valid ubits] in *; try contradiction. destruct Hv as (H1 & _).
    apply usized_min; auto; [lia|unfold octets; rewrite map_length; auto|].
    apply Forall_map_in. intros x _. rewrite len_bits_of_byte. lia.
  - intros min max Hs _ He [] Hv; cbn [valid ubits] in *; try contradiction.
    apply usized_min; auto; [lia|unfold single_bits; rewrite map_length; auto|].
    apply Forall_map_in. intros x _. cbn. lia.
  - intros t IH min max [Hs Ht] Hc He [] Hv; cbn [valid ubits] in *; try contradiction. destruct Hv as (H1 & Hv).
    apply andb_prop in He. destruct He as [He1 He2].
    apply usized_min; auto; [apply Nt; auto|rewrite map_length; auto|].
    apply Forall_map_in. intros x Hx. apply IH; auto. rewrite Forall_forall in Hv. auto.
  - intros fs IH Hw Hc He [] Hv; cbn [valid ubits] in *; try contradiction.
    rewrite app_length, Nat2Z.inj_add, presence_len by auto. pose proof (IH Hw Hc He _ Hv). lia.
  - intros cs IH (_ & HL & Hw) Hc He [] Hv; cbn [valid ubits] in *; try contradiction.
    rewrite app_length, Nat2Z.inj_add, crange_len by lia.
    replace (Z.of_nat (alts_len cs) - 1 - 0) with (Z.of_nat (alts_len cs) - 1) by lia.
    pose proof (IH Hw Hc He _ _ Hv). unfold index_size. pose proof (gnb_nn (Z.of_nat (alts_len cs) - 1)).
    destruct (Z.ltb_spec 1 (Z.of_nat (alts_len cs))); lia.
  - intros ok t IH Hw Hc He v Hv; cbn [valid ubits] in *. destruct Hv. auto.
  - intros bits min max req t IH [Hs Ht] (Hc & Hq & Hm) He v Hv; cbn [valid ubits] in *.
    apply andb_prop in He. destruct He as [He1 He2].
    specialize (IH Ht Hc He2 v Hv). pose proof (proj2 (Nt t Ht)) as Hn.
    set (bs := ubits false t v) in *.
    assert (HI : min <= len (if bits then single_bits bs else octets (pack bs))).
    { destruct bits; unfold single_bits, octets; rewrite map_length.
      - lia.
      - rewrite pack_len. destruct Hm as [-> _]. rewrite to_byte_eq. apply Z.div_le_mono; lia. }
    assert (HF : Forall (fun x => len x = item_size bits) (if bits then single_bits bs else octets (pack bs))).
    { destruct bits; apply Forall_map_in; intros x _; cbn [item_size]; [reflexivity|]. rewrite len_bits_of_byte; reflexivity. }
    remember (if bits then single_bits bs else octets (pack bs)) as items.
    assert (0 <= item_size bits) by (destruct bits; cbn; lia).
    assert (HC : len items * item_size bits <= len (concat items)).
    { apply concat_min; auto. eapply Forall_impl; [|exact HF]. cbv beta. lia. }
    destruct Hs as [Hs Hs2]. unfold sized, min_sized. pose proof (gnb_nn (max - min)).
    destruct (Z.ltb_spec max 65536).
    + rewrite Bool.andb_true_r, app_length, Nat2Z.inj_add, crange_len by lia.
      destruct (Z.eqb_spec min max); nia.
    + rewrite Bool.andb_false_r. pose proof (frag_max (length items) items eq_refl).
      assert (min = max) by lia. subst min. replace (max - max) with 0 in * by lia. change (gnb 0) with 0 in *. nia.
  - intros _ _ _ [|] Hv; cbn [fields_bits]; cbn; lia.
  - intros o t IHt fs IHf (Ht & Hf & _) (Ct & Cf) He [|[e v] l] Hv; cbn [valid_fields fields_bits] in *; try contradiction.
    destruct Hv as [Hv Hl]. rewrite app_length.
    destruct o; try (specialize (IHf Hf Cf He l Hl); lia).
    apply andb_prop in He. destruct He as [He1 He2]. specialize (IHf Hf Cf He2 l Hl).
    destruct e; [|contradiction]. destruct v as [v|]; [|contradiction]. specialize (IHt Ht Ct He1 v Hv); lia.
  - intros _ _ _ [|] v Hv; cbn [valid_alt] in *; contradiction.
  - intros t IHt cs IHc (Ht & Hf) (Ct & Cf) He [|i] v Hv; cbn [valid_alt alt_bits] in *; rewrite umin_alts_cons;
      apply andb_prop in He; destruct He as [He1 He2].
    + specialize (IHt Ht Ct He1 v Hv). destruct cs; lia.
    + specialize (IHc Hf Cf He2 i v Hv). destruct cs; [destruct i; contradiction|]. lia.
Qed.
