(** C63: tags and the order of alternatives and components in uPER. Statements only. *)
From Verif Require Import Base Bits BitStream Contracts UperTypes UperSpec UperWf UperClasses Uper Tags TagsSpec.
From Verif Require TagsProofs.

(** The alternatives of every CHOICE in the order of their tags: X.691, tags included. *)
Theorem C63_choice : forall c g v, ordered g -> wft (compile g) -> conform (compile g) -> valid (compile g) v -> sides c (compile g) v ->
  writes (enc c (compile g) true v) true (xbits g v) /\ reads (dec c (compile g) true) (Some (norm (compile g) v)) (xbits g v).
Proof. exact TagsProofs.choice. Qed.
Definition int01 : ty := TInt (INoExt (Concrete 0 1)) true 64.
(** CHOICE { a [0] INTEGER (0..1), b CHOICE { c [APPLICATION 1] BOOLEAN, d [3] NULL }, ... } wants
    b first: its smallest tag is of class APPLICATION. *)
Definition g1 : gty := GChoice false [GChoice false [GTag 1 1 (GBase 1 TBool); GTag 2 3 (GBase 5 TNull)]; GTag 2 0 (GBase 2 int01)].
Example C63_choice_example : ordered g1 /\ xbits g1 (VChoice 0 (VChoice 0 (VBool true))) = [false; false; true] /\
  ordered (GChoice false [GBase 1 TBool; GBase 2 int01]).
Proof. cbn. repeat split; repeat constructor. Qed.

(** AUTOMATIC TAGS without written tags: always in order. *)
Theorem C63_automatic : forall g, untagged g -> ordered g.
Proof. exact TagsProofs.auto_ordered. Qed.
Example C63_automatic_example : untagged (GChoice true [GBase 2 int01; GBase 1 TBool; GChoice true [GBase 5 TNull]]).
Proof. cbn. repeat split. Qed.

(** Otherwise some alternative has the wrong index: the position is the rank of the tag
    only if the tags ascend. *)
Theorem C63_converse : forall ks, NoDup ks -> (forall i, (i < length ks)%nat -> tag_rank (nth i ks (0, 0)) ks = Z.of_nat i) -> ascending ks.
Proof. exact TagsProofs.wrong_index. Qed.
Example C63_converse_example : tag_rank (2, 1) [(2, 1); (0, 7)] = 1 /\ NoDup [(2, 1); (0, 7)] /\ ~ ascending [(2, 1); (0, 7)].
Proof.
  split; [reflexivity|]. split; [repeat constructor; cbn; intuition congruence|].
  cbn. intros [F _]. inversion F. discriminate.
Qed.

(** SET with mandatory components in the order of their tags. *)
Theorem C63_set : forall c l, let t := TSeq (set_of (map fst l)) in let v := set_value (map snd l) in
  ascending (map (fun p : gty * value => key (fst p)) l) -> Forall (fun p => ordered (fst p)) l ->
  wft t -> conform t -> valid t v -> sides c t v ->
  writes (enc c t true v) true (set_bits l) /\ reads (dec c t true) (Some (norm t v)) (set_bits l).
Proof. exact TagsProofs.set. Qed.
Example C63_set_example : let l := [(GBase 1 TBool, VBool true); (GBase 2 int01, VInt 0)] in
  ascending (map (fun p : gty * value => key (fst p)) l) /\ set_bits l = [true; false].
Proof. cbn. repeat split; repeat constructor. Qed.

(** CHOICE { a INTEGER (0..1), b BOOLEAN } in a module without AUTOMATIC TAGS: BOOLEAN has the
    smaller tag, so a has index 1; the generated code writes 0. *)
Theorem C63_choice_refuted : let g := GChoice false [GBase 2 int01; GBase 1 TBool] in let v := VChoice 0 (VInt 1) in
  wft (compile g) /\ valid (compile g) v /\ xbits g v = [true; true] /\
  exists s, enc iso (compile g) true v (mkbs (repeat 0 2) 2 0 0) = Ok (true, s) /\ hd 0 (buf s) = 0x40.
Proof.
  cbv zeta. split; [cbn; repeat split; try congruence; lia|]. split; [cbn; lia|]. split; [reflexivity|].
  eexists. split; [vm_compute; reflexivity|reflexivity].
Qed.
(** The same with written tags: CHOICE { a [1] BOOLEAN, b [0] BOOLEAN }, even under AUTOMATIC TAGS. *)
Theorem C63_tag_refuted : let g := GChoice true [GTag 2 1 (GBase 1 TBool); GTag 2 0 (GBase 1 TBool)] in let v := VChoice 0 (VBool false) in
  wft (compile g) /\ valid (compile g) v /\ xbits g v = [true; false] /\
  exists s, enc iso (compile g) true v (mkbs (repeat 0 2) 2 0 0) = Ok (true, s) /\ hd 1 (buf s) = 0.
Proof.
  cbv zeta. split; [cbn; repeat split; try congruence; lia|]. split; [exact I|]. split; [reflexivity|].
  eexists. split; [vm_compute; reflexivity|reflexivity].
Qed.
(** SET { a INTEGER (0..1), b BOOLEAN }: X.691 puts b first. *)
Theorem C63_set_refuted : let l := [(GBase 2 int01, VInt 1); (GBase 1 TBool, VBool false)] in
  let t := TSeq (set_of (map fst l)) in let v := set_value (map snd l) in
  wft t /\ valid t v /\ set_bits l = [false; true] /\
  exists s, enc iso t true v (mkbs (repeat 0 2) 2 0 0) = Ok (true, s) /\ hd 0 (buf s) = 0x80.
Proof.
  cbv zeta. split; [cbn; repeat split; try congruence; lia|]. split; [cbn; repeat split; lia|]. split; [reflexivity|].
  eexists. split; [vm_compute; reflexivity|reflexivity].
Qed.

(** * Assumptions of all theorems above *)
Definition theorems22 := (
  @C63_choice, @C63_automatic, @C63_converse, @C63_set, @C63_choice_refuted, @C63_tag_refuted,
  @C63_set_refuted).
Print Assumptions theorems22.
