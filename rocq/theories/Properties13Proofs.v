(** Proofs of Properties13.v *)
From Verif Require Import Base Bits BitStream Contracts SafeProofs UperTypes AcnGen AcnGenSpec AcnGenShape AcnGenProofs7.

Lemma decoder_safe : forall c h t s e, ovf_wrap c = true -> shl_wrap c = true -> ndebug c = true -> wfa t -> sturdy s t ->
  (forall d k, s d = Some k -> exists v, lookup d e = Some v /\ of_kind k v) ->
  safe (adec c h t e) (ashape t).
Proof. intros c h t s e H1 H2 H3 W HS HE. exact (proj1 (acn_safe c H1 H2 H3 h) t W s e HS HE). Qed.
Lemma assignment_safe : forall c h t ok, ovf_wrap c = true -> shl_wrap c = true -> ndebug c = true -> wfa t -> sturdy (fun _ => None) t ->
  safe (ACN_Decode c h t ok) (fun v => ashape t v /\ ok v = true).
Proof.
  intros c h t ok H1 H2 H3 W HS. unfold ACN_Decode. eapply safe_bindo; [eapply decoder_safe; eauto; discriminate|].
  intros v Hv. destruct (ok v) eqn:E; [apply safe_ret_some; auto|apply safe_ret_none].
Qed.
