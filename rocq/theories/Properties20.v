(** C61: types are written in an order in which each is declared before it is used.
    Statements only. *)
From Verif Require Import Base Topo TopoSpec.
From Verif Require TopoProofs.
From Coq Require Import Permutation.

Theorem C61_total : forall A (cmp : A -> A -> bool) imports nodes, exists r, sort_nodes cmp imports nodes = Some r.
Proof. exact @TopoProofs.nodes_total. Qed.
Theorem C61_sorted : forall A (cmp : A -> A -> bool), equality cmp -> forall imports nodes out,
  sort_nodes cmp imports nodes = Some (inl out) ->
  Permutation (imports ++ map fst nodes) out /\ forall n l, In (n, l) nodes -> after out n l.
Proof. exact @TopoProofs.nodes_sorted. Qed.
Theorem C61_complete : forall A (cmp : A -> A -> bool), equality cmp -> forall imports nodes ord,
  NoDup (imports ++ map fst nodes) ->
  Permutation (imports ++ map fst nodes) ord -> (forall n l, In (n, l) nodes -> after ord n l) ->
  exists out, sort_nodes cmp imports nodes = Some (inl out).
Proof. exact @TopoProofs.nodes_complete. Qed.
(** What the error message lists: nodes each of which waits for a node of the list or for
    an unknown name. *)
Theorem C61_reported : forall A (cmp : A -> A -> bool), equality cmp -> forall imports nodes rest,
  sort_nodes cmp imports nodes = Some (inr rest) ->
  rest <> [] /\ forall n k, In (n, k) rest -> k <> [] /\ (exists l, In (n, l) nodes /\ incl k l) /\
    forall x, In x k -> In x (map fst rest) \/ ~ In x (imports ++ map fst nodes).
Proof. exact @TopoProofs.nodes_reported. Qed.
Example C61_nodes_example : equality Z.eqb /\
  sort_nodes Z.eqb [9] [(1, [2; 9]); (2, [3; 4; 3]); (3, []); (4, [3])] = Some (inl [9; 3; 4; 2; 1]) /\
  sort_nodes Z.eqb [9] [(1, [2]); (2, [3; 1]); (3, []); (4, [3]); (5, [2])] = Some (inr [(1, [2]); (2, [1]); (5, [2])]).
Proof. split; [intros x y; apply Z.eqb_eq|split; reflexivity]. Qed.

(** The header of a file: each of its types once, and every type mentioned is imported
    or stands earlier. *)
Theorem C61_header : forall A (cmp : A -> A -> bool), equality cmp -> forall imports tas out,
  NoDup (imports ++ map fst tas) -> file_order cmp imports tas = Some (inl out) ->
  Permutation (map fst tas) out /\
  forall a n b t, out = a ++ n :: b -> In (n, t) tas -> forall r, mentions t r -> In r imports \/ In r a.
Proof. exact @TopoProofs.header. Qed.
(** T1 ::= SEQUENCE { a T2, b SEQUENCE OF T3 }, T2 ::= CHOICE { c T9 }, T3 ::= INTEGER *)
Example C61_header_example :
  let tas := [(1, DSeq [] [DRef [] 2; DSeqOf [] (DRef [] 3)]); (2, DSeq [] [DRef [] 9]); (3, DOther [])] in
  NoDup ([9] ++ map fst tas) /\ file_order Z.eqb [9] tas = Some (inl [2; 3; 1]) /\ mentions (snd (nth 0 tas (0, DOther []))) 3.
Proof.
  cbv zeta. split; [|split; [reflexivity|]].
  - cbn. repeat constructor; cbn; intuition lia.
  - cbn. eapply m_seq; [right; left; reflexivity|]. apply m_of, m_ref.
Qed.

(** The function itself needs the callers to split the nodes: a dependent node with
    nothing to wait for is only seen if some other node comes first. *)
Theorem C61_split_refuted : DoTopologicalSort2 Z.eqb [] [(1, [])] = Some (inr [(1, [])]) /\
  DoTopologicalSort2 Z.eqb [2] [(1, [])] = Some (inl [2; 1]).
Proof. split; reflexivity. Qed.
(** A name that is not known gives the message "Cyclic Types detected" without a cycle. *)
Theorem C61_cycle_refuted : exists nodes, sort_nodes Z.eqb [] nodes = Some (inr nodes) /\ nodes = [(1, [2])].
Proof. exists [(1, [2])]. split; reflexivity. Qed.
(** Names have to be distinct: 2 imported and also defined hides the cycle of 1, 2 and 3.
    (For C createProgramUnits leaves out imports from the modules of the file.) *)
Theorem C61_duplicate_refuted : exists imports nodes out, file_order Z.eqb imports nodes = Some (inl out) /\
  imports = [2] /\ nodes = [(2, DRef [] 3); (1, DRef [] 2); (3, DRef [] 1)] /\ out = [2; 1; 3; 2].
Proof. exists [2], [(2, DRef [] 3); (1, DRef [] 2); (3, DRef [] 1)], [2; 1; 3; 2]. repeat split; reflexivity. Qed.

(** * Assumptions of all theorems above *)
Definition theorems20 := (
  @C61_total, @C61_sorted, @C61_complete, @C61_reported, @C61_header, @C61_split_refuted,
  @C61_cycle_refuted, @C61_duplicate_refuted).
Print Assumptions theorems20.
