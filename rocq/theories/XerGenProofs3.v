(** The generated XER decoders read any layout of the tree of the value, concluded. *)
From Verif Require Import Base Bits BitsProofs ByteStream UperTypes XerSpec Xer XerProofs XerProofs2 XerProofs3 XerProofs4 XerProofs5 XerGen XerGenSpec XerGenProofs XerGenProofs2.
From Verif Require OctetsProofs Properties2Proofs.
From Coq Require Import ZifyBool ZifyNat.
Ltac Zify.zify_post_hook ::= Z.div_mod_to_equations.

Lemma unescaped_tree : forall lvl n ns, unescaped (NTree lvl n ns) -> Forall unescaped ns.
Proof. intros lvl n ns H. cbn [unescaped] in H. induction ns as [|d ns IH]; constructor; [apply H|apply IH, H]. Qed.

Section Dec.
Variables (L : libc) (old fill : Z).

Lemma get_items_spec : forall (dec : B (bool * value)) tg max l ds,
  Forall2 (fun v d => forall t rest, layout d t -> xreads dec (true, v) t rest) l ds -> Forall (fun d => name_ok (nname d)) ds ->
  name_ok tg -> forall ts i acc fuel w' rest, layouts ds ts -> Forall white w' -> i + Z.of_nat (length l) <= max -> (length l < fuel)%nat ->
  xahead (get_items L dec tg max fuel i acc) (true, rev l ++ acc) ts (w' ++ close_tag tg) rest.
Proof.
  intros dec tg max l ds H. induction H as [|v d l ds H F IH]; intros N T ts i acc fuel w' rest LY W Hi Hf; (destruct fuel as [|fuel]; [cbn in Hf; lia|]); cbn [get_items].
  - inversion LY; subst. eapply ahead_eq; [apply app_nil_r|]. eapply (ahead_bind _ _ _ true); [|cbn [rev app]; apply ahead_ret]. cbn [app].
    eapply ahead_peek; [symmetry; apply app_nil_r|]. now apply peeks_end_true.
  - inversion LY as [|? t ? ts' D LY' E1 E2]; subst. inversion N as [|? ? N1 N2]; subst. cbn [length] in *.
    change (t ++ ts') with ([] ++ (t ++ ts')). eapply ahead_bind; [rewrite <- app_assoc; now apply (peek_item L tg d)|]. cbv iota.
    replace (i >=? max) with false by lia.
    eapply ahead_bind; [apply ahead_reads; apply H; exact D|]. cbv iota beta.
    cbn [rev]. rewrite <- app_assoc. cbn [app]. apply IH; try assumption; lia.
Qed.

Definition dec_ok (t : xty) : Prop := forall lvl tag v d txt rest, tag_ok t tag -> sendable t -> readable t -> fits t v -> xml t lvl tag v d ->
  unescaped d -> layout d txt -> xreads (xdec L old fill t tag) (true, v) txt rest.
Definition dec_fields_ok (fs : xfields) : Prop := forall lvl l ds ts w' n rest, NoDup (field_names fs) -> sendable_fields fs -> readable_fields fs ->
  fits_fields fs l -> xml_fields fs lvl l ds -> Forall unescaped ds -> layouts ds ts -> Forall white w' ->
  xahead (xdec_fields L old fill fs) (Some l) ts (w' ++ close_tag n) rest.
Definition dec_alts_ok (cs : xalts) : Prop := forall lvl i v d txt rest j, NoDup (alt_names cs) -> sendable_alts cs -> readable_alts cs ->
  fits_alt cs i v -> xml_alt cs lvl i v d -> unescaped d -> layout d txt ->
  xreads (xdec_alt L old fill cs (nname d) j) (true, VChoice (j + i) v) txt rest.

Lemma xdec_spec : (forall t, dec_ok t) /\ (forall fs, dec_fields_ok fs) /\ (forall cs, dec_alts_ok cs).
Proof.
  apply xty_mutind.
  - intros u chk lvl tag v d txt rest T SD RD FT X U LY. destruct v; try contradiction. destruct X as (t & NM & ->). destruct FT as (R & CK).
    inversion LY; subst. cbn [xdec]. pose proof (tag_name (XInt u chk) tag eq_refl ltac:(discriminate) T) as N.
    eapply xreads_eq; [apply app_nil_r|]. eapply (xreads_bind _ _ _ (Some z)).
    + cbn [app]. destruct u; [now apply read_pos_integer|now apply read_integer].
    + cbv iota beta. destruct chk; [rewrite CK|]; apply xreads_ret.
  - intros lvl tag v d txt rest T SD RD FT X U LY. destruct v; try contradiction. cbn [xdec xml] in *. apply (reads_value _ _ VBool).
    eapply read_boolean_layout; [|exact X|exact LY]. apply (outer_name XBool); [reflexivity|exact T].
  - intros lvl tag v d txt rest T SD RD FT X U LY. destruct v; try contradiction. cbn [xdec xml] in *. subst d. inversion LY; subst.
    apply (reads_value _ _ (fun _ => VNull)) with (a := tt). apply read_null; [assumption|]. apply (tag_name XNull); [reflexivity|discriminate|exact T].
  - intros nm max sz lvl tag v d txt rest T SD RD FT X U LY. destruct v; try contradiction. cbn [xdec xml readable fits] in *. destruct FT as (FL & F0).
    replace (true, VStr l) with (true, VStr (cstr l)) by now rewrite cstr_id.
    apply (reads_value _ _ (fun l => VStr (cstr l)) l). unfold len_of in FL. pose proof (tag_name (XStr nm max sz) tag eq_refl ltac:(discriminate) T) as N.
    subst d. destruct l as [|x l]; inversion LY; subst.
    + apply (read_string L w _ []); [assumption|exact N|constructor|cbn; lia].
    + apply (read_string L w _ (x :: l)); [assumption|exact N|exact U|lia].
  - intros items lvl tag v d txt rest T (D & O) RD FT X U LY. destruct v; try contradiction. cbn [xdec xml readable] in *. destruct X as (m & I' & X).
    replace (VEnum z) with ((fun n => match enum_value items n with Some z => VEnum z | None => VJunk end) m) by (cbv beta; now rewrite (enum_value_in _ _ _ RD I')).
    apply (reads_value _ _ (fun n => match enum_value items n with Some z => VEnum z | None => VJunk end) m). rewrite Forall_forall in O. eapply read_enumerated_layout; [|apply O; apply (in_map snd _ _ I')|exact X|exact LY].
    apply (outer_name (XEnum items)); [reflexivity|exact T].
  - intros min max lvl tag v d txt rest T SD RD FT X U LY. destruct v; try contradiction. cbn [xdec xml readable fits] in *. subst d. inversion LY; subst.
    destruct FT as (Z1 & F). unfold sized, len_of in Z1.
    set (arr := l ++ skipn (length l) (repeat fill (Z.to_nat max))).
    replace (VOct l) with ((fun '(arr, n) => if min =? max then VOct arr else if n <=? max then VOct (firstn (Z.to_nat n) arr) else VJunk) (arr, Z.of_nat (length l))).
    + apply (reads_value _ _ (fun '(arr, n) => if min =? max then VOct arr else if n <=? max then VOct (firstn (Z.to_nat n) arr) else VJunk) (arr, Z.of_nat (length l))). apply read_octets; [assumption| |exact F|lia|rewrite repeat_length; lia|lia].
      apply (tag_name (XOct min max)); [reflexivity|discriminate|exact T].
    + unfold arr. cbv beta iota. destruct (min =? max) eqn:E.
      * rewrite skipn_all2 by (rewrite repeat_length; lia). now rewrite app_nil_r.
      * replace (_ <=? max) with true by lia. rewrite Nat2Z.id, firstn_app, Nat.sub_diag, firstn_all. cbn [firstn]. now rewrite app_nil_r.
  - intros min max lvl tag v d txt rest T SD RD FT X U LY. destruct v; try contradiction. cbn [xdec xml readable fits] in *. subst d. inversion LY; subst.
    unfold sized in FT. pose proof (OctetsProofs.pack_len l) as PL.
    set (arr := pack l ++ skipn (length (pack l)) (repeat fill (Z.to_nat ((max + 7) / 8)))).
    assert (LB : leading_bits (Z.of_nat (length l)) arr = l).
    { unfold leading_bits, arr. rewrite Nat2Z.id, bits_of_bytes_app. destruct (Properties2Proofs.bits_of_pack (length l) l (le_n _)) as (-> & _).
      rewrite <- app_assoc, firstn_app, Nat.sub_diag, firstn_all. cbn [firstn]. apply app_nil_r. }
    replace (VBit l) with ((fun '(arr, n) => if min =? max then VBit (leading_bits max arr) else if n <=? max then VBit (leading_bits n arr) else VJunk) (arr, Z.of_nat (length l))).
    + apply (reads_value _ _ (fun '(arr, n) => if min =? max then VBit (leading_bits max arr) else if n <=? max then VBit (leading_bits n arr) else VJunk) (arr, Z.of_nat (length l))). apply read_bits; [assumption| |lia|rewrite repeat_length; lia|lia].
      apply (tag_name (XBit min max)); [reflexivity|discriminate|exact T].
    + cbv beta iota. destruct (min =? max) eqn:E.
      * replace max with (Z.of_nat (length l)) by lia. now rewrite LB.
      * replace (_ <=? max) with true by lia. now rewrite LB.
  - intros lvl tag v d txt rest T SD RD. contradiction.
  - intros min max child t IH lvl tag v d txt rest T SD RD FT X U LY. destruct v; try contradiction. cbn [xdec xml fits sendable readable] in *. destruct X as (ds & X & ->).
    destruct FT as (Z1 & F). destruct SD as (T1 & SD). unfold sized in Z1. apply unescaped_tree in U. inversion LY as [| | |lvl' n ns w ts w' W W' LS]; subst.
    set (tg := or_else (default_tag (XSeqOf min max child t)) tag) in *.
    assert (N : name_ok tg) by (apply (tag_name (XSeqOf min max child t)); [reflexivity|discriminate|exact T]).
    rewrite app_assoc. eapply xreads_bind; [apply (read_start L w tg None _ W N)|]. cbv iota beta.
    eapply ahead_then.
    + apply get_items_spec with (l := l) (ds := ds); try assumption; [| |lia|lia].
      * clear -IH F X U T1 SD RD. revert F U. induction X as [|v d l ds X1 X IHX]; intros F U; [constructor|].
        inversion F; inversion U; subst. constructor; [|auto]. intros t0 rest0 LY0. eapply IH; eassumption.
      * clear -X T1 SD. induction X as [|v d l ds X1 X IHX]; constructor; [|exact IHX].
        destruct xml_name as (XN & _). destruct (XN _ _ _ _ _ T1 SD X1) as (A1 & _). exact A1.
    + cbv iota beta. rewrite app_nil_r, rev_involutive, rev_length.
      replace (l ++ _) with l by (destruct (min =? max) eqn:E; [replace (Z.to_nat max - length l)%nat with O by lia|]; symmetry; apply app_nil_r).
      apply (reads_value _ _ (fun _ => VSeqOf l)) with (a := tt). now apply read_end.
  - intros fs IH lvl tag v d txt rest T SD (ND & RD) FT X U LY. destruct v; try contradiction. cbn [xdec xml fits sendable] in *. destruct X as (ds & X & ->).
    apply unescaped_tree in U. inversion LY as [| | |lvl' n ns w ts w' W W' LS]; subst.
    set (tg := or_else (default_tag (XSeq fs)) tag) in *.
    assert (N : name_ok tg) by (apply (tag_name (XSeq fs)); [reflexivity|discriminate|exact T]).
    rewrite app_assoc. eapply xreads_bind; [apply (read_start L w tg None _ W N)|]. cbv iota beta.
    eapply ahead_then; [eapply IH; eassumption|]. cbv iota beta.
    apply (reads_value _ _ (fun _ => VSeq l)) with (a := tt). now apply read_end.
  - intros cs IH lvl tag v d txt rest T SD (ND & RD) FT X U LY. destruct v as [| | | | | | | | | | |i v|]; try contradiction. cbn [xdec xml fits sendable tag_ok] in *.
    assert (K : forall d0 txt0 rest0, xml_alt cs (lvl + 1) i v d0 -> unescaped d0 -> layout d0 txt0 ->
      xreads (do* n := Xer_LA_NextElementTag L in match n with None => bret (false, VJunk) | Some n => xdec_alt L old fill cs n 0 end)
        (true, VChoice i v) txt0 rest0).
    { intros d0 txt0 rest0 X0 U0 LY0. destruct xml_name as (_ & _ & XN). destruct (XN _ _ _ _ _ SD X0) as (N0 & _).
      pose proof LY0 as LY1. destruct (layout_head _ _ LY0) as (w & e & q & W & ->). eapply xreads_peek; [apply (peeks_tag L w _ e _ W N0)|].
      cbv iota. eapply (IH (lvl + 1) i v d0 _ rest0 0%nat); eassumption. }
    destruct tag as [[|x n]|].
    + change txt with ([] ++ txt). eapply xreads_bind; [apply xreads_ret|]. cbv iota beta.
      eapply xreads_eq; [apply app_nil_r|]. eapply xreads_bind; [eapply K; eassumption|]. cbv iota beta. apply xreads_ret.
    + destruct X as (d' & X & ->). apply unescaped_tree in U. inversion U as [|? ? U1 _]; subst. inversion LY as [| | |lvl' n' ns w ts w' W W' LS]; subst.
      inversion LS as [|? t0 ? ts0 LY1 LS']; subst. inversion LS'; subst. rewrite app_nil_r.
      rewrite app_assoc. eapply xreads_bind; [apply (read_start L w (x :: n) None _ W T)|]. cbv iota beta.
      eapply xreads_bind; [eapply K; eassumption|]. cbv iota beta.
      eapply xreads_eq; [apply app_nil_r|]. eapply xreads_bind; [apply (read_end L w' (x :: n)); assumption|]. cbv iota beta. apply xreads_ret.
    + eapply K; eassumption.
  - intros name t IH lvl tag v d txt rest T SD RD FT X U LY. cbn [xdec xml fits sendable tag_ok readable] in *. eapply IH; eassumption.
  - intros lvl l ds ts w' n rest ND SD RD FT X U LS W. destruct l; [|contradiction]. cbn [xml_fields] in X. subst. inversion LS; subst. apply ahead_ret.
  - intros name o t IHt fs IH lvl l ds ts w' n rest ND (N & T & S1 & S2) (R1 & R2) FT X U LS W. inversion ND as [|? ? NI ND']; subst.
    destruct xml_name as (XN & XF & _).
    destruct l as [|[[|] c] l]; [contradiction| |].
    + destruct c as [v|]; [|contradiction]. cbn [xml_fields xdec_fields] in *. destruct X as (d & ds' & X & X' & ->).
      assert (F : fits t v /\ fits_fields fs l) by (cbn [fits_fields] in FT; destruct o; exact FT). destruct F as (F1 & F2).
      inversion LS as [|? t0 ? ts' LY LS' E1 E2]; subst. inversion U as [|? ? U1 U2]; subst.
      destruct (XN _ _ _ _ _ T S1 X) as (A1 & A2). assert (A3 : nname d = name) by (destruct name; [destruct N; congruence|exact A2]).
      change (t0 ++ ts') with ([] ++ (t0 ++ ts')). eapply ahead_bind; [rewrite <- app_assoc; rewrite <- A3; now apply peek_present|]. cbv iota.
      eapply ahead_opt with (a := (true, Some v)).
      * eapply ahead_eq; [apply app_nil_r|]. eapply ahead_bind; [apply ahead_reads; eapply IHt; eassumption|]. cbv iota beta. apply ahead_ret.
      * eapply ahead_eq; [apply app_nil_r|]. eapply ahead_opt; [eapply IH; eassumption|]. apply ahead_ret.
    + cbn [xml_fields xdec_fields] in *. destruct X as (O & X).
      change ts with ([] ++ ts). eapply ahead_bind.
      { eapply peek_absent; [exact LS| |exact W]. pose proof (XF _ _ _ _ S2 X) as XX. eapply Forall_impl; [|exact XX]. intros d (A1 & A2).
        split; [exact A1|]. intros E. rewrite E in A2. contradiction. }
      cbv iota. change ts with ([] ++ ts).
      eapply ahead_opt with (a := (false, c)).
      * destruct o as [| |dv| |]; [congruence| | | |]; cbn [fits_fields] in FT; destruct FT as (-> & FT); apply ahead_ret.
      * assert (F2 : fits_fields fs l) by (cbn [fits_fields] in FT; destruct o; try apply FT; contradiction).
        eapply ahead_eq; [apply app_nil_r|]. eapply ahead_opt; [eapply IH; eassumption|]. apply ahead_ret.
  - intros lvl i v d txt rest j ND SD RD FT X. contradiction.
  - intros name t IHt cs IH lvl i v d txt rest j ND (N & T & S1 & S2) (R1 & R2) FT X U LY. inversion ND as [|? ? NI ND']; subst.
    destruct xml_name as (XN & _ & XA). destruct i as [|i]; cbn [xdec_alt xml_alt fits_alt] in *.
    + destruct (XN _ _ _ _ _ T S1 X) as (A1 & A2). assert (A3 : nname d = name) by (destruct name; [destruct N; congruence|exact A2]).
      rewrite A3, list_eqb_refl, Nat.add_0_r. eapply xreads_eq; [apply app_nil_r|]. eapply xreads_bind; [eapply IHt; eassumption|]. cbv iota beta. apply xreads_ret.
    + destruct (XA _ _ _ _ _ S2 X) as (A1 & A2). rewrite list_eqb_neq.
      * replace (j + S i)%nat with (S j + i)%nat by lia. eapply IH; eassumption.
      * intros E. apply NI. rewrite <- E. eapply nth_error_In; exact A2.
Qed.
End Dec.
