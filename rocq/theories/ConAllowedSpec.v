(** Which constraints a type may have. *)
From Coq Require Import List String Bool.
From Verif Require Import ConAllowed.
Import ListNotations.
Local Open Scope list_scope.

Section spec.
Variable V : Type.
Variable value_ok : atype -> V -> bool.
Variable tyof : string -> string -> option atype.

(** The type at the end of the references. *)
Inductive resolves : atype -> atype -> Prop :=
| r_here : forall l k, (forall m T, k <> KRef m T) -> resolves (AT l k) (AT l k)
| r_ref : forall l m T t u, tyof m T = Some t -> resolves t u -> resolves (AT l (KRef m T)) u.
Inductive simple : akind -> Prop :=
| s_int : simple KInt | s_real : simple KReal | s_ia5 : simple KIA5 | s_num : simple KNum | s_oct : simple KOct | s_null : simple KNull
| s_time : forall c, simple (KTime c) | s_bits : simple KBits | s_bool : simple KBool | s_oid : simple KOid | s_roid : simple KRoid.
Inductive ranged : akind -> Prop := ra_int : ranged KInt | ra_real : ranged KReal | ra_ia5 : ranged KIA5 | ra_num : ranged KNum.
Inductive sized : akind -> Prop :=
| si_ia5 : sized KIA5 | si_num : sized KNum | si_oct : sized KOct | si_bits : sized KBits | si_of : forall t, sized (KOf t).
Inductive lettered : akind -> Prop := le_ia5 : lettered KIA5 | le_num : lettered KNum.

(** Components that stand in the same places: those of one definition. *)
Definition one_place (a b : comp) : Prop := fst (fst a) = fst (fst b) /\ loc_of (snd a) = loc_of (snd b).
(** Types that are taken as compatible. *)
Inductive alike : atype -> atype -> Prop :=
| al_left : forall l m T t u, resolves (AT l (KRef m T)) t -> alike t u -> alike (AT l (KRef m T)) u
| al_right : forall l m T t u, resolves (AT l (KRef m T)) u -> alike t u -> alike t (AT l (KRef m T))
| al_simple : forall l l' k, simple k -> alike (AT l k) (AT l' k)
| al_enum : forall l l' i j, List.length i = List.length j -> alike (AT l (KEnum i)) (AT l' (KEnum j))
| al_of : forall l l' t u, alike t u -> alike (AT l (KOf t)) (AT l' (KOf u))
| al_seq : forall l l' c d, Forall2 one_place c d -> Forall2 (fun a b => alike (snd a) (snd b)) c d -> alike (AT l (KSeq c)) (AT l' (KSeq d))
| al_ch : forall l l' c d, Forall2 one_place c d -> Forall2 (fun a b => alike (snd a) (snd b)) c d -> alike (AT l (KCh c)) (AT l' (KCh d)).
(** Marks of WITH COMPONENTS: a component of a SEQUENCE that is PRESENT or ABSENT must not be
    mandatory, one with a default value must not be ABSENT; an alternative is not OPTIONAL. *)
Definition seq_mark (o : opt) (m : mark) : Prop :=
  (m = MarkPresent -> o <> Mandatory) /\ (m = MarkAbsent -> o <> Mandatory /\ o <> Optional true).
Definition ch_mark (m : mark) : Prop := m <> MarkOptional.
(** The first component of a name. *)
Inductive component (n : string) : list comp -> opt -> atype -> Prop :=
| co_here : forall o t l, component n ((n, o, t) :: l) o t
| co_later : forall n' o' t' l o t, n' <> n -> component n l o t -> component n ((n', o', t') :: l) o t.

(** All references in a type lead to a type, and those in that one too. *)
Inductive grounded : atype -> Prop :=
| g_ref : forall l m T u, resolves (AT l (KRef m T)) u -> grounded u -> grounded (AT l (KRef m T))
| g_simple : forall l k, simple k -> grounded (AT l k)
| g_enum : forall l i, grounded (AT l (KEnum i))
| g_of : forall l t, grounded t -> grounded (AT l (KOf t))
| g_seq : forall l c, (forall n o t, In (n, o, t) c -> grounded t) -> grounded (AT l (KSeq c))
| g_ch : forall l c, (forall n o t, In (n, o, t) c -> grounded t) -> grounded (AT l (KCh c)).

Inductive allowed : atype -> acon V -> Prop :=
| w_single : forall t v, value_ok t v = true -> allowed t (ASingle v)
| w_range : forall t l k v w, resolves t (AT l k) -> ranged k -> value_ok t v = true -> value_ok t w = true -> allowed t (ARange v w)
| w_from : forall t l k v, resolves t (AT l k) -> ranged k -> value_ok t v = true -> allowed t (AFrom v)
| w_to : forall t l k v, resolves t (AT l k) -> ranged k -> value_ok t v = true -> allowed t (ATo v)
| w_any : forall t l k, resolves t (AT l k) -> ranged k -> allowed t AAny
| w_size : forall t l k c, resolves t (AT l k) -> sized k -> allowed (AT (loc_of t) KInt) c -> allowed t (ASize c)
| w_alpha : forall t l k c, resolves t (AT l k) -> lettered k -> allowed t c -> allowed t (AAlpha c)
| w_union : forall t c d, allowed t c -> allowed t d -> allowed t (AUnion c d)
| w_inter : forall t c d, allowed t c -> allowed t d -> allowed t (AInter c d)
| w_except : forall t c d, allowed t c -> allowed t d -> allowed t (AExcept c d)
| w_root2 : forall t c d, allowed t c -> allowed t d -> allowed t (ARoot2 c d)
| w_allexcept : forall t c, allowed t c -> allowed t (AAllExcept c)
| w_root : forall t c, allowed t c -> allowed t (ARoot c)
| w_incl : forall t m T i u a, tyof m T = Some i -> resolves i u -> resolves t a -> alike u a -> allowed t (AIncl m T)
| w_with : forall t l e c, resolves t (AT l (KOf e)) -> allowed e c -> allowed t (AWith c)
| w_seq : forall t l comps nc, resolves t (AT l (KSeq comps)) -> NoDup (map (fun x => fst (fst x)) nc) ->
    (forall n m c, In (n, m, c) nc -> exists o u, component n comps o u /\ seq_mark o m /\ (forall d, c = Some d -> allowed u d)) ->
    allowed t (AWiths nc)
| w_ch : forall t l comps nc, resolves t (AT l (KCh comps)) -> NoDup (map (fun x => fst (fst x)) nc) ->
    (forall n m c, In (n, m, c) nc -> exists o u, component n comps o u /\ ch_mark m /\ (forall d, c = Some d -> allowed u d)) ->
    allowed t (AWiths nc).
End spec.
