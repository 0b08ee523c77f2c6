(** Texts of the XER values, independent of the model of the code, and the
    contract of the encoders. *)
From Verif Require Import Base Bits ByteStream.

(** ** Numerals *)
Definition horner (ds : list Z) : Z := fold_left (fun a d => 10 * a + d) ds 0.
(** Decimal digits without leading zeros, a minus sign for a negative number. *)
Definition numeral (v : Z) (t : list Z) : Prop :=
  exists ds, Forall (fun d => 0 <= d <= 9) ds /\ ds <> [] /\ horner ds = Z.abs v /\
    (hd 0 ds = 0 -> ds = [0]) /\
    t = (if v <? 0 then [45] else []) ++ map (Z.add 48) ds.

(** ** Octets and bits *)
Definition hex_alphabet : list Z := [48; 49; 50; 51; 52; 53; 54; 55; 56; 57; 65; 66; 67; 68; 69; 70].
Definition hex_text (l : list Z) : list Z :=
  flat_map (fun b => [nth (Z.to_nat (b / 16)) hex_alphabet 0; nth (Z.to_nat (b mod 16)) hex_alphabet 0]) l.
Definition bit_text (l : list bool) : list Z := map (fun b : bool => if b then 49 else 48) l.

(** ** Elements *)
Definition id_char (c : Z) : Prop :=
  65 <= c <= 90 \/ 97 <= c <= 122 \/ 48 <= c <= 57 \/ c = 46 \/ c = 43 \/ c = 45 \/ c = 95.
(** Names fit the Value of a Token. *)
Definition name_ok (t : list Z) : Prop := t <> [] /\ (length t <= 99)%nat /\ Forall id_char t.
Definition white (c : Z) : Prop := c = 32 \/ 9 <= c <= 13.
Definition open_tag (t : list Z) : list Z := [60] ++ t ++ [62].
Definition close_tag (t : list Z) : list Z := [60; 47] ++ t ++ [62].
Definition empty_tag (t : list Z) : list Z := [60] ++ t ++ [47; 62].
Definition element (t body : list Z) : list Z := open_tag t ++ body ++ close_tag t.
(** A value without text becomes an empty element. *)
Definition text_element (t v : list Z) : list Z :=
  match v with [] => empty_tag t | _ => element t v end.

Definition bool_name (b : bool) : list Z := if b then [116; 114; 117; 101] else [102; 97; 108; 115; 101].
(** A line of its own at [level], when white space is asked for. *)
Definition indent (w : bool) (level : Z) : list Z :=
  if w && (0 <=? level) then repeat 32 (Z.to_nat (2 * level)) else [].
Definition newline (w : bool) : list Z := if w then [10] else [].
Definition line (level : Z) (t : list Z) (w : bool) : list Z := indent w level ++ t ++ newline w.

(** ** Contract of the encoders: the part of the buffer that is not used yet holds
    zeros. Then either [f] appends exactly [bs] and leaves the rest zero, or
    there is not more room than [bs] needs, and it reports failure having
    appended a part of [bs] inside the buffer. [bs] depends on
    EncodeWhiteSpace. *)
Definition zeroed (s : bytes_) (pre : list Z) (n : nat) (rest : list Z) : Prop :=
  mem s = pre ++ repeat 0 n ++ rest /\ cur s = Z.of_nat (length pre) /\
  size s = Z.of_nat (length pre + n).
Definition emits {A} (f : B (option A)) (a : A) (bs : bool -> list Z) : Prop :=
  forall s pre n rest, zeroed s pre n rest ->
    ((length (bs (ws s)) <= n)%nat /\
     exists s', f s = Ok (Some a, s') /\ ws s' = ws s /\ size s' = size s /\
       zeroed s' (pre ++ bs (ws s)) (n - length (bs (ws s))) rest) \/
    ((n <= length (bs (ws s)))%nat /\
     exists s' p q, f s = Ok (None, s') /\ ws s' = ws s /\ size s' = size s /\
       bs (ws s) = p ++ q /\ zeroed s' (pre ++ p) (n - length p) rest).

(** ** Object identifiers: the arcs joined by points *)
Definition dotted (ts : list (list Z)) : list Z :=
  match ts with [] => [] | t :: r => t ++ flat_map (cons 46) r end.
Definition oid_text (arcs t : list Z) : Prop := exists ts, Forall2 numeral arcs ts /\ t = dotted ts.

(** ** Safety of the decoders: any bytes, a cursor at most one byte beyond the
    declared end (where the comment and header skipping can leave it), declared
    bytes inside the memory. Then [f] returns, without undefined behaviour or a
    failing assertion, and leaves the memory alone; the result satisfies [P].
    [ok] restricts the memory. *)
Definition harmless {A} (ok : list Z -> Prop) (f : B A) (P : A -> Prop) : Prop :=
  forall s, Forall is_byte (mem s) -> ok (mem s) -> 0 <= cur s <= size s + 1 -> size s <= Z.of_nat (length (mem s)) ->
    exists r s', f s = Ok (r, s') /\ mem s' = mem s /\ size s' = size s /\ ws s' = ws s /\
      0 <= cur s' <= size s + 1 /\ P r.
(** Memory without bytes that the character class functions may not be given
    ([any]: they may be given any), and without an attribute. *)
Definition plain (any : bool) (M : list Z) : Prop := any = true \/ Forall (fun b => b < 128) M.
Definition no_attributes (any : bool) (M : list Z) : Prop := plain any M /\ ~ In 61 M.
(** With [bs] next and inside the declared bytes, [f] returns [a] and changes nothing. *)
Definition looks {A} (f : B A) (a : A) (bs : list Z) : Prop :=
  forall s pre rest, bat s pre (bs ++ rest) -> Z.of_nat (length pre + length bs) <= size s -> f s = Ok (a, s).
(** An attribute: white space, name, "=", and the value in quotes. *)
Definition attribute (nv : list Z * list Z) (t : list Z) : Prop :=
  exists w1 w2 w3, Forall white w1 /\ w1 <> [] /\ Forall white w2 /\ Forall white w3 /\
    t = w1 ++ fst nv ++ w2 ++ [61] ++ w3 ++ [34] ++ snd nv ++ [34].
