(** The generated XER decoders on any bytes. *)
From Verif Require Import Base Bits ByteStream UperTypes XerSpec Xer XerProofs XerProofs2 XerProofs3 XerProofs4 XerProofs6 XerGen XerGenSpec.
From Coq Require Import ZifyBool ZifyNat.
Ltac Zify.zify_post_hook ::= Z.div_mod_to_equations.

Section Safe.
Variables (L : libc) (old fill : Z) (M : list Z) (N : Z).
Hypothesis HB : Forall is_byte M.
Hypothesis HC : Forall (fun b => char_ok L b = true) M.
Hypothesis HN : N <= Z.of_nat (length M).
Hypothesis SAT : ato_sat L = true.
Hypothesis NE : ~ In 61 M.

(** Whatever the bound is: the text is shorter than 2048, the array has 256 bytes. *)
Lemma bit_loop_safe2 : forall l i max value, 0 <= i -> i + Z.of_nat (length l) <= 8 * Z.of_nat (length value) ->
  exists v, bit_loop l i max value = Ok v /\ length v = length value.
Proof.
  induction l as [|c l IH]; intros i max value Hi X; cbn [bit_loop]; [eexists; split; [reflexivity|reflexivity]|]. cbn [length] in X.
  destruct (i / 8 <? max) eqn:E; [|eexists; split; [reflexivity|reflexivity]]. cbv zeta.
  assert (NZ : nthZ value (i / 8) = Ok (nth (Z.to_nat (i / 8)) value 0)) by (rewrite <- nthZ_nat by lia; f_equal; lia).
    rewrite NZ. cbn [obind].
  match goal with |- context [updZ value (i / 8) ?x] => destruct (updZ_ok M value (i / 8) x ltac:(lia)) as (v & Ev & Lv) end. rewrite Ev. cbn [obind].
  destruct (IH (i + 1) max v ltac:(lia) ltac:(lia)) as (r & Er & Lr). exists r. split; [exact Er|]. congruence.
Qed.
Lemma bits_safe2 : forall tag value max, 256 <= Z.of_nat (length value) -> calm M N (Xer_DecodeBitString L tag value max) (opt any).
Proof.
  intros tag value max Y. eapply calm_opt; [apply (primitive_safe L M N HC HN tag 2048); lia|]. intros t [F TL].
  destruct (cstr_sub M t _ F) as [F' L']. destruct (unspaced_safe L M HC _ F') as (d & Ed & Ld). eapply calm_lift; [exact Ed|]. cbv zeta.
  set (n := Z.to_nat _). assert (n <= 256)%nat by (unfold n; destruct (_ =? 0) eqn:E; lia).
  eapply calm_lift; [unfold memset0; replace (n <=? length value)%nat with true by lia; reflexivity|].
  assert (LV : length (repeat 0 n ++ skipn n value) = length value) by (rewrite app_length, repeat_length, skipn_length; lia).
  destruct (bit_loop_safe2 d 0 max (repeat 0 n ++ skipn n value) ltac:(lia) ltac:(lia)) as (v & Ev & Lv). eapply calm_lift; [exact Ev|].
  apply calm_ret. exact I.
Qed.
Lemma as_value_safe : forall A (m : B (option A)) P f, calm M N m P -> calm M N (as_value m f) any.
Proof. intros A m P f H. eapply calm_bind; [exact H|]. intros r _. apply calm_ret. exact I. Qed.
Lemma get_items_safe : forall dec tg max, calm M N dec any -> forall fuel i acc, 0 <= i -> (0 < fuel)%nat -> max - i < Z.of_nat fuel ->
  calm M N (get_items L dec tg max fuel i acc) any.
Proof.
  intros dec tg max D. induction fuel as [|f IH]; intros i acc Hi F X; [lia|]. cbn [get_items].
  eapply calm_bind; [now apply next_end_safe|]. intros e _. destruct e; [apply calm_ret; exact I|].
  destruct (i >=? max) eqn:E; [apply calm_ret; exact I|].
  eapply calm_bind; [exact D|]. intros [ok v] _. destruct ok; [apply IH; lia|apply calm_ret; exact I].
Qed.
Lemma xdec_safe :
  (forall t tag, tame t -> calm M N (xdec L old fill t tag) any) /\
  (forall fs, tame_fields fs -> calm M N (xdec_fields L old fill fs) any) /\
  (forall cs n i, tame_alts cs -> calm M N (xdec_alt L old fill cs n i) any).
Proof.
  apply xty_mutind.
  - intros u chk tag T. cbn [xdec]. eapply calm_bind with (P := any).
    + destruct u; [eapply calm_weak; [now apply pos_integer_safe|]|eapply calm_weak; [now apply integer_safe|]]; intros; exact I.
    + intros r _. destruct r; apply calm_ret; exact I.
  - intros tag T. eapply as_value_safe. now apply boolean_safe.
  - intros tag T. eapply as_value_safe. now apply null_safe.
  - intros nm max size tag T. eapply as_value_safe. now apply primitive_safe.
  - intros items tag T. eapply as_value_safe. now apply enumerated_safe.
  - intros mi ma tag T. eapply as_value_safe. apply octets_safe; try assumption. rewrite repeat_length. lia.
  - intros mi ma tag T. cbn [tame] in T. eapply as_value_safe. apply bits_safe2. rewrite repeat_length. lia.
  - intros tag T. eapply as_value_safe. apply oid_safe; try assumption. rewrite repeat_length. lia.
  - intros mi ma child t IH tag T. cbn [xdec tame] in *. eapply calm_bind; [now apply start_safe|]. intros [s|] _; [|apply calm_ret; exact I].
    eapply calm_bind; [apply get_items_safe; [now apply IH|lia|lia|lia]|]. intros [ok l] _. cbv zeta. destruct ok; [|apply calm_ret; exact I].
    eapply as_value_safe. now apply end_safe.
  - intros fs IH tag T. cbn [xdec tame] in *. eapply calm_bind; [now apply start_safe|]. intros [s|] _; [|apply calm_ret; exact I].
    eapply calm_bind; [now apply IH|]. intros [l|] _; [|apply calm_ret; exact I]. eapply as_value_safe. now apply end_safe.
  - intros cs IH tag T. cbn [xdec tame] in *.
    assert (Bd : calm M N (do* n := Xer_LA_NextElementTag L in match n with None => bret (false, VJunk) | Some n => xdec_alt L old fill cs n 0 end) any).
    { eapply calm_bind; [now apply tag_safe|]. intros [n|] _; [now apply IH|apply calm_ret; exact I]. }
    destruct tag as [tg|]; [|exact Bd]. eapply calm_bind; [now apply start_safe|]. intros [s|] _; [|apply calm_ret; exact I].
    eapply calm_bind; [exact Bd|]. intros [ok v] _. eapply calm_bind; [now apply end_safe|]. intros e _. apply calm_ret. exact I.
  - intros n t IH tag T. now apply IH.
  - intros T. apply calm_ret. exact I.
  - intros n o t IHt fs IH (T1 & T2). cbn [xdec_fields]. eapply calm_bind; [now apply next_start_safe|]. intros p _.
    eapply calm_weak with (P := opt any); [|intros; exact I]. eapply calm_opt with (P := any).
    + destruct p; [|apply calm_ret; destruct o; exact I]. eapply calm_bind; [now apply IHt|]. intros [ok v] _. apply calm_ret. destruct ok; exact I.
    + intros c _. eapply calm_opt with (P := any); [eapply calm_weak; [now apply IH|intros [?|] _; exact I]|]. intros l _. apply calm_ret. exact I.
  - intros n i T. apply calm_ret. exact I.
  - intros name t IHt cs IH n i (T1 & T2). cbn [xdec_alt]. destruct (list_eqb n name); [|now apply IH].
    eapply calm_bind; [now apply IHt|]. intros [ok v] _. apply calm_ret. exact I.
Qed.
End Safe.
