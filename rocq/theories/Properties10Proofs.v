(** Remaining proofs for Properties10.v. *)
From Verif Require Import Base Bits ByteStream UperTypes XerSpec Xer XerProofs XerProofs2 XerProofs6 XerGen XerGenSpec XerGenProofs XerGenProofs2 XerGenProofs3 XerGenProofs4 XerGenProofs5.
From Verif Require Properties9Proofs.
From Coq Require Import ZifyBool ZifyNat.
Ltac Zify.zify_post_hook ::= Z.div_mod_to_equations.

Lemma document : forall t lvl tag v, sendable t -> fits t v -> exists d, xml t lvl tag v d /\ forall d', xml t lvl tag v d' -> d' = d.
Proof.
  intros t lvl tag v SD F. destruct xml_exists as (E & _), xml_unique as (U & _). destruct (E t lvl tag v F) as (d & X). exists d. split; [exact X|].
  intros d' X'. exact (U _ _ _ _ _ _ SD X' X).
Qed.
Lemma encode : forall t lvl tag v d, 0 <= lvl -> tag_ok t tag -> sendable t -> fits t v -> xml t lvl tag v d ->
  emits (xenc t lvl tag v) tt (render d).
Proof. destruct xenc_spec as (H & _). intros. now apply H. Qed.
Lemma decode : forall L old fill t lvl tag v d txt, tag_ok t tag -> sendable t -> readable t -> fits t v -> xml t lvl tag v d -> unescaped d -> layout d txt ->
  forall s pre rest, bat s pre (txt ++ rest) -> Z.of_nat (length pre + length txt) <= size s ->
    xdec L old fill t tag s = Ok ((true, v), mkby (mem s) (size s) (Z.of_nat (length pre + length txt)) (ws s)).
Proof. intros L old fill t lvl tag v d txt T SD R F X U LY s pre rest HB HS. destruct (xdec_spec L old fill) as (H & _). exact (H t lvl tag v d txt rest T SD R F X U LY s pre HB HS). Qed.
Lemma round_trip : forall L old fill t lvl tag v d, 0 <= lvl -> tag_ok t tag -> sendable t -> readable t -> fits t v -> xml t lvl tag v d -> unescaped d ->
  forall s pre n rest, zeroed s pre n rest -> (length (render d (ws s)) < n)%nat ->
    exists s1 s2, xenc t lvl tag v s = Ok (Some tt, s1) /\ mem s1 = pre ++ render d (ws s) ++ repeat 0 (n - length (render d (ws s))) ++ rest /\
      xdec L old fill t tag (mkby (mem s1) (size s1) (cur s) (ws s1)) = Ok ((true, v), s2) /\ mem s2 = mem s1 /\
      cur s1 = cur s2 + Z.of_nat (length (newline (ws s))).
Proof.
  intros L old fill t lvl tag v d LV T SD R F X U s pre n rest HZ HS.
  destruct (encode t lvl tag v d LV T SD F X s pre n rest HZ) as [(Q & s1 & E1 & W1 & S1 & M1 & C1 & Z1)|(Q & _)]; [|lia].
  rewrite <- app_assoc in M1. destruct (render_layout (ws s) d) as (txt & LY & ER).
  exists s1. eexists. split; [exact E1|]. split; [exact M1|]. split.
  - apply (decode L old fill t lvl tag v d txt T SD R F X U LY _ pre (newline (ws s) ++ repeat 0 (n - length (render d (ws s))) ++ rest)).
    + split; cbn [mem cur]; [rewrite M1, ER; now rewrite <- !app_assoc|destruct HZ as (_ & HC & _); exact HC].
    + cbn [size]. rewrite S1. destruct HZ as (_ & _ & ->). rewrite ER in HS. rewrite app_length in HS. lia.
  - cbn [mem cur]. split; [reflexivity|]. rewrite C1, ER, !app_length. lia.
Qed.
Lemma unambiguous : forall t lvl tag v v' d, tag_ok t tag -> sendable t -> readable t -> fits t v -> fits t v' -> xml t lvl tag v d -> xml t lvl tag v' d ->
  unescaped d -> v = v'.
Proof.
  intros t lvl tag v v' d T SD R F F' X X' U. destruct (render_layout false d) as (txt & LY & _).
  set (s := mkby txt (Z.of_nat (length txt)) 0 false).
  assert (HB : bat s [] (txt ++ [])) by (split; [cbn; now rewrite app_nil_r|reflexivity]).
  assert (HS : Z.of_nat (@length Z [] + length txt) <= size s) by (cbn; lia).
  pose proof (decode glibc 0 0 t lvl tag v d txt T SD R F X U LY s [] [] HB HS) as E.
  pose proof (decode glibc 0 0 t lvl tag v' d txt T SD R F' X' U LY s [] [] HB HS) as E'. rewrite E in E'. injection E'. auto.
Qed.
Lemma safe : forall old fill t tag, tame t -> harmless (no_attributes true) (xdec glibc old fill t tag) (fun _ => True).
Proof.
  intros old fill t tag T. apply (Properties9Proofs.harmless_na _ glibc). intros M N HB HC HN HO.
  destruct (xdec_safe glibc old fill M N HC HN eq_refl HO) as (H & _). eapply calm_weak; [now apply H|]. auto.
Qed.
Lemma required : forall t lvl tag v d, sized_ref t tag -> sendable t -> roomy t -> fits t v -> xml t lvl tag v d ->
  Z.of_nat (length (render d false)) < xsize t tag.
Proof. intros t lvl tag v d SR SD R F X. destruct xml_weight as (H & _). specialize (H _ _ _ _ _ SR SD R F X). pose proof (eff_le t tag). unfold weight in H. lia. Qed.
Lemma enough : forall t lvl tag v, 0 <= lvl -> tag_ok t tag -> sized_ref t tag -> sendable t -> roomy t -> fits t v ->
  forall s pre n rest, zeroed s pre n rest -> ws s = false -> xsize t tag <= Z.of_nat n -> exists s', xenc t lvl tag v s = Ok (Some tt, s').
Proof.
  intros t lvl tag v LV T SR SD R F s pre n rest HZ W HS. destruct (document t lvl tag v SD F) as (d & X & _).
  pose proof (required t lvl tag v d SR SD R F X) as K.
  destruct (encode t lvl tag v d LV T SD F X s pre n rest HZ) as [(Q & s1 & E1 & _)|(Q & _)]; [eauto|]. rewrite W in Q. lia.
Qed.
