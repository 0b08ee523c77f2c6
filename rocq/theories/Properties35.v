(** C76: when the uPER functions of a referenced type are called. *)
From Verif Require Import Base Bits RealSpec UperTypes UperSpec UperWf Contracts Uper UperShape ConSpec Constraints Validate Pipeline TypeEquiv TypeEquivSpec TypeEquivProofs.
From Verif Require UperProofs3.

(** Types found equivalent are both refused or have the same encodings and the same values after decoding. *)
Theorem C76_same : forall e g, sound e -> forall t1 t2, uperEquivalence e t1 t2 = true -> same_codec (uper_type g t1) (uper_type g t2).
Proof. exact equiv_ok. Qed.
(** The call of the functions of [t1] instead of those of [t2]. *)
Theorem C76_call : forall e g, sound e -> forall t1 t2 u1 u2, uperEquivalence e t1 t2 = true -> uper_type g t1 = Some u1 -> uper_type g t2 = Some u2 ->
  forall c v, wft u1 -> valid u1 v -> sides c u1 v ->
  writes (enc c u1 true v) true (ubits false u2 v) /\ reads (dec c u1 true) (Some (norm u2 v)) (ubits false u2 v).
Proof.
  intros e g S t1 t2 u1 u2 E H1 H2 c v W V D. pose proof (equiv_ok e g S t1 t2 E) as K. rewrite H1, H2 in K. destruct (K v) as [A B].
  rewrite <- A, <- B. split; [now apply UperProofs3.writes_uper|now apply UperProofs3.reads_uper].
Qed.
(** What is equivalent, exactly. *)
Theorem C76_exact : forall e, sound e -> reflexive e -> forall t1 t2, uperEquivalence e t1 t2 = true <-> no_oid t1 /\ erase t1 = erase t2.
Proof. exact equiv_iff. Qed.
(** A type without OBJECT IDENTIFIER and a reference to it are equivalent; references do not matter. *)
Theorem C76_reflexive : forall e, reflexive e -> forall t, no_oid t -> uperEquivalence e t t = true.
Proof. exact equiv_refl. Qed.
Theorem C76_references : forall e t1 t2,
  uperEquivalence e (ERef t1) t2 = uperEquivalence e t1 t2 /\ uperEquivalence e t1 (ERef t2) = uperEquivalence e t1 t2.
Proof. intros e t1 t2. split; [reflexivity|apply equiv_ref_r]. Qed.

(** An OBJECT IDENTIFIER, and all that contains one, is not equivalent to itself: its code is repeated. *)
Theorem C76_oid_refuted : exists t, forall e, uperEquivalence e t t = false.
Proof. exists (EOid false). reflexivity. Qed.
(** INTEGER (0..10) and INTEGER (0..10)(0..10) have the same encodings. *)
Definition rng (a b : Z) : icon := Atom (Rng a b true true).
Theorem C76_complete_refuted : exists t1 t2, (forall e, sound e -> uperEquivalence e t1 t2 = false) /\
  forall g, same_codec (uper_type g t1) (uper_type g t2).
Proof.
  exists (EInt [rng 0 10]), (EInt [rng 0 10; rng 0 10]). split.
  - intros e (S & _). cbn [uperEquivalence strip]. destruct (eq_int e [rng 0 10] [rng 0 10; rng 0 10]) eqn:H; [|reflexivity]. apply S in H. discriminate H.
  - intros [[|] f ch ef]; vm_compute; intros v; split; reflexivity.
Qed.

(** SEQUENCE { a INTEGER (0..10), b BOOLEAN OPTIONAL } and the same with references; tests of equality that are sound. *)
Definition one_test : eqs := Eqs
  (fun a b => match a, b with
              | [Atom (Rng x y true true)], [Atom (Rng z w true true)] => (x =? z) && (y =? w)
              | _, _ => false
              end)
  (fun _ _ => false) (fun _ _ => false) (fun _ _ => false) (fun _ _ => false) (fun _ _ => false)
  (fun a b => match a, b with Mandatory, Mandatory | Optional, Optional => true | _, _ => false end).
Example C76_sound : sound one_test.
Proof.
  repeat split; cbn; try discriminate.
  - intros a b H. repeat match type of H with context [match ?x with _ => _ end] => is_var x; destruct x; try discriminate H end.
    apply andb_true_iff in H as [A B]. apply Z.eqb_eq in A, B. now subst.
  - now intros [] [].
Qed.
Definition sq (r : ety -> ety) : ety := ESeq [(Mandatory, r (EInt [rng 0 10])); (Optional, r (EBool []))].
Example C76_used : uperEquivalence one_test (sq (fun t => t)) (ERef (sq ERef)) = true /\
  uperEquivalence one_test (sq (fun t => t)) (ESeq [(Mandatory, EInt [rng 0 11]); (Optional, EBool [])]) = false /\
  exists u1 u2, uper_type (Gen false false (fun _ => []) (fun _ _ => None)) (sq (fun t => t)) = Some u1 /\
    uper_type (Gen false false (fun _ => []) (fun _ _ => None)) (ERef (sq ERef)) = Some u2 /\
    ubits false u1 (VSeq [(true, Some (VInt 3)); (true, Some (VBool true))]) = [true; false; false; true; true; true] /\
    ubits false u2 (VSeq [(true, Some (VInt 3)); (true, Some (VBool true))]) = [true; false; false; true; true; true].
Proof. split; [reflexivity|]. split; [reflexivity|]. eexists. eexists. split; [reflexivity|]. split; [reflexivity|]. split; vm_compute; reflexivity. Qed.
(** SEQUENCE (SIZE (1..2)) OF BOOLEAN. *)
Example C76_sequence_of : exists u, uper_type (Gen false false (fun _ => []) (fun _ _ => None)) (ESeqOf [Atom (Size (rng 1 2))] (ERef (EBool []))) = Some u /\
  ubits false u (VSeqOf [VBool true; VBool false]) = [true; true; false] /\ ubits false u (VSeqOf [VBool true]) = [false; true].
Proof. eexists. split; [reflexivity|]. split; vm_compute; reflexivity. Qed.

(** * Assumptions of all theorems above *)
Definition theorems35 := (
  @C76_same, @C76_call, @C76_exact, @C76_reflexive, @C76_references, @C76_oid_refuted,
  @C76_complete_refuted).
Print Assumptions theorems35.
