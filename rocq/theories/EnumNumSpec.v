(** X.680 20.3-20.6: the values of the items of an ENUMERATED. *)
From Verif Require Import Base EnumNum.

Definition given (items : list item) : list Z := flat_map (fun x => match snd x with Some v => [v] | None => [] end) items.
(** v is the k-th (from 0) non-negative integer that is not in e. *)
Definition below (v : Z) : list Z := map Z.of_nat (seq 0 (Z.to_nat v)).
Definition is_free (e : list Z) (k : nat) (v : Z) : Prop :=
  0 <= v /\ ~ In v e /\ length (filter (fun u => negb (existsb (Z.eqb u) e)) (below v)) = k.
(** Names and values of the items in the order of the text; [k]: numbers already taken. *)
Fixpoint numbered (e : list Z) (k : nat) (items : list item) (out : list (String.string * Z)) : Prop :=
  match items, out with
  | [], [] => True
  | (n, Some v) :: items, (n', v') :: out => n' = n /\ v' = v /\ numbered e k items out
  | (n, None) :: items, (n', v') :: out => n' = n /\ is_free e k v' /\ numbered e (S k) items out
  | _, _ => False
  end.
