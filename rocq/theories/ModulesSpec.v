(** What references between modules mean. *)
From Coq Require Import List String.
From Verif Require Import Topo TopoSpec Modules.
Import ListNotations.
Local Open Scope list_scope.

(** A reference stands in a type, at any depth. *)
Inductive uses {R} : stype R -> R -> Prop :=
| u_ref : forall r, uses (SRef r) r
| u_of : forall t r, uses t r -> uses (SOf t) r
| u_seq : forall ts t r, In t ts -> uses t r -> uses (SSeq ts) r.

Definition defines {R} (m : smodule R) (n : name) : Prop := exists t, In (n, t) (m_types m).
Definition defines_val {R} (m : smodule R) (n : name) : Prop := exists t, In (n, t) (m_vals m).
Definition imports {R} (m : smodule R) (b n : name) : Prop := exists c, In c (m_imports m) /\ c_mod c = b /\ In n (c_types c).
Definition imports_val {R} (m : smodule R) (b n : name) : Prop := exists c, In c (m_imports m) /\ c_mod c = b /\ In n (c_vals c).
(** The clause of an import speaks of a name: it imports it, or, as the code has it, the
    module itself is so called. *)
Definition speaks (c : clause) (x : name) : Prop := c_mod c = x \/ In x (c_types c).
(** What a reference in the module m is taken for: the type x of the module b. *)
Inductive denotes (m : smodule rname) : rname -> name -> name -> Prop :=
| d_ext : forall b x, denotes m (Ext b x) b x
| d_imported : forall before c rest x, m_imports m = before ++ c :: rest -> (forall d, In d before -> ~ speaks d x) ->
    speaks c x -> denotes m (Plain x) (c_mod c) x
| d_own : forall x, (forall c, In c (m_imports m) -> ~ speaks c x) -> denotes m (Plain x) (m_name m) x.
(** A type of the module called md refers to the type x of another module b. *)
Definition refers (ms : list (smodule rname)) (md b x : name) : Prop :=
  b <> md /\ exists m n t r, In m ms /\ m_name m = md /\ In (n, t) (m_types m) /\ uses t r /\ denotes m r b x.
(** The names other modules may see, by the EXPORTS clause. *)
Definition shows_type (m : amodule) (n : name) : Prop :=
  match m_exports m with
  | None => defines m n \/ exists b, imports m b n
  | Some l => In n l /\ upper n = true
  end.
Definition shows_val (m : amodule) (n : name) : Prop :=
  match m_exports m with
  | None => defines_val m n
  | Some l => In n l /\ upper n = false
  end.

Definition well_named (ada : bool) (own imported : list name) : Prop :=
  NoDup (own ++ imported) /\ (ada = true -> NoDup (map lower own)).
Definition visible (ast : list amodule) (t : stype (name * name)) : Prop :=
  forall b n, uses t (b, n) -> exists m, In m ast /\ m_name m = b /\ shows_type m n.
(** What CheckFiles asks of a set of modules. *)
Record well_formed (ada : bool) (ast : list amodule) : Prop := {
  wf_names : NoDup (map m_name ast);
  wf_order : exists order, (forall x, In x order <-> In x (map m_name ast)) /\ NoDup order /\
    forall m, In m ast -> after order (m_name m) (map c_mod (m_imports m));
  wf_types : forall m, In m ast -> well_named ada (map fst (m_types m)) (flat_map c_types (m_imports m));
  wf_vals : forall m, In m ast -> well_named ada (map fst (m_vals m)) (flat_map c_vals (m_imports m));
  wf_refs : forall m n t, In m ast -> In (n, t) (m_types m) \/ In (n, t) (m_vals m) -> visible ast t;
  wf_imports : forall m c, In m ast -> In c (m_imports m) ->
    exists im, In im ast /\ m_name im = c_mod c /\
      (forall n, In n (c_types c) -> defines im n /\ shows_type im n) /\
      (forall n, In n (c_vals c) -> defines_val im n /\ shows_val im n) }.
