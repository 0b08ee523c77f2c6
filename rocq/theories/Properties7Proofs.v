(** Remaining proofs for Properties7.v. *)
From Verif Require Import Base Bits UperTypes UperSpec UperWf ConSpec Constraints ConstraintsProofs Validate ValidSpec ValidateProofs Pipeline PipelineProofs.
From Coq Require Import Lia ZifyBool ZifyNat.

Lemma from_source : forall A (p : A -> bool) (c k : src A), no_open_ext c = true -> create c = Some (Some k) ->
  constrained k = true -> forallb (sat p) (fixConstraint k) = sats p c.
Proof.
  intros A p c k N C K. pose proof (create_sound A p c _ N C) as H. cbn in H. rewrite <- H. now apply fix_sound.
Qed.

Lemma int_exact : forall p w c x, width w = true -> every (atom_ok p) c = true -> fits_int p w x = true ->
  isConstraintValid (CPrim [AInt p w c]) (VInt x) = sat_int c x.
Proof.
  intros p w c x W L F. rewrite valid_exact.
  - cbn [sat_ty forallb sat_any]. apply andb_true_r.
  - cbn [handled_ty forallb handled]. now rewrite W, L.
  - cbn [fits_ty forallb fits]. now rewrite F.
Qed.
