(** The XML document of a value, independent of the codecs of XerGen.v: it is
    given by a tree of elements. *)
From Verif Require Import Base Bits ByteStream UperTypes XerSpec XerGen.

(** Elements, with the level they are indented by. [NWrap]: an element that holds one
    empty element, on one line. *)
Inductive node :=
| NEmpty (lvl : Z) (name : list Z)
| NText (lvl : Z) (name text : list Z)
| NWrap (lvl : Z) (name inner : list Z)
| NTree (lvl : Z) (name : list Z) (ns : list node).

(** ** Texts of a tree *)
(** As it is written: an element or tag per line. *)
Fixpoint render (d : node) (w : bool) : list Z :=
  match d with
  | NEmpty lvl n => line lvl (empty_tag n) w
  | NText lvl n t => line lvl (element n t) w
  | NWrap lvl n m => line lvl (element n (empty_tag m)) w
  | NTree lvl n ns =>
      line lvl (open_tag n) w ++ flat_map (fun d => render d w) ns ++ line lvl (close_tag n) w
  end.
(** As it may be read: any white space before every tag. *)
Inductive layout : node -> list Z -> Prop :=
| lay_empty : forall lvl n w, Forall white w -> layout (NEmpty lvl n) (w ++ empty_tag n)
| lay_text : forall lvl n t w, Forall white w -> layout (NText lvl n t) (w ++ element n t)
| lay_wrap : forall lvl n m w w1 w2, Forall white w -> Forall white w1 -> Forall white w2 ->
    layout (NWrap lvl n m) (w ++ open_tag n ++ w1 ++ empty_tag m ++ w2 ++ close_tag n)
| lay_tree : forall lvl n ns w ts w', Forall white w -> Forall white w' -> layouts ns ts ->
    layout (NTree lvl n ns) (w ++ open_tag n ++ ts ++ w' ++ close_tag n)
with layouts : list node -> list Z -> Prop :=
| lays_nil : layouts [] []
| lays_cons : forall d t ds ts, layout d t -> layouts ds ts -> layouts (d :: ds) (t ++ ts).

(** ** The tree of a value. [None] for the name: the element has the name of its
    type, and a CHOICE, BOOLEAN or ENUMERATED no element of its own; so has one whose name
    is empty. *)
Definition wrapped (lvl : Z) (n inner : list Z) (d : node) : Prop :=
  d = match n with [] => NEmpty lvl inner | _ => NWrap lvl n inner end.
Fixpoint xml (t : xty) (lvl : Z) (tag : option (list Z)) (v : value) (d : node) {struct t} : Prop :=
  let n := or_else (default_tag t) tag in
  match t, v with
  | XInt _ _, VInt z => exists txt, numeral z txt /\ d = NText lvl n txt
  | XBool, VBool b => wrapped lvl n (bool_name b) d
  | XNull, VNull => d = NEmpty lvl n
  | XStr _ _ _, VStr l => d = match l with [] => NEmpty lvl n | _ => NText lvl n l end
  | XEnum items, VEnum z => exists m, In (z, m) items /\ wrapped lvl n m d
  | XOct _ _, VOct l => d = NText lvl n (hex_text l)
  | XBit _ _, VBit l => d = NText lvl n (bit_text l)
  | XOid, VOid l => exists txt, oid_text l txt /\ d = NText lvl n txt
  | XSeqOf _ _ child t, VSeqOf l => exists ds, Forall2 (xml t (lvl + 1) child) l ds /\ d = NTree lvl n ds
  | XSeq fs, VSeq l => exists ds, xml_fields fs (lvl + 1) l ds /\ d = NTree lvl n ds
  | XCho cs, VChoice i v =>
      match tag with
      | None | Some [] => xml_alt cs (lvl + 1) i v d
      | Some n => exists d', xml_alt cs (lvl + 1) i v d' /\ d = NTree lvl n [d']
      end
  | XRef name t, _ => xml t 0 (ref_tag name t tag) v d
  | _, _ => False
  end
with xml_fields (fs : xfields) (lvl : Z) (l : list (bool * option value)) (ds : list node) {struct fs} : Prop :=
  match fs, l with
  | XFNil, [] => ds = []
  | XFCons name o t fs, (true, Some v) :: l =>
      exists d ds', xml t lvl (Some name) v d /\ xml_fields fs lvl l ds' /\ ds = d :: ds'
  | XFCons name o t fs, (false, _) :: l => o <> Mandatory /\ xml_fields fs lvl l ds
  | _, _ => False
  end
with xml_alt (cs : xalts) (lvl : Z) (i : nat) (v : value) (d : node) {struct cs} : Prop :=
  match cs, i with
  | XANil, _ => False
  | XACons name t _, O => xml t lvl (Some name) v d
  | XACons _ _ cs, S i => xml_alt cs lvl i v d
  end.

(** ** Values of a type, as far as the codecs depend on it *)
Definition sized (min max n : Z) : Prop := min <= n <= max.
Fixpoint fits (t : xty) (v : value) {struct t} : Prop :=
  match t, v with
  | XInt unsigned chk, VInt z =>
      (if unsigned then is_u64 z else is_s64 z) /\ match chk with Some c => c z = true | None => True end
  | XBool, VBool _ | XNull, VNull => True
  | XStr _ max _, VStr l => len_of l <= max /\ Forall (fun c => c <> 0) l
  | XEnum items, VEnum z => In z (map fst items)
  | XOct min max, VOct l => sized min max (len_of l) /\ Forall is_byte l
  | XBit min max, VBit l => sized min max (Z.of_nat (length l))
  | XOid, VOid l => (length l <= 20)%nat /\ Forall is_u64 l
  | XSeqOf min max _ t, VSeqOf l => sized min max (Z.of_nat (length l)) /\ Forall (fits t) l
  | XSeq fs, VSeq l => fits_fields fs l
  | XCho cs, VChoice i v => fits_alt cs i v
  | XRef _ t, _ => fits t v
  | _, _ => False
  end
with fits_fields (fs : xfields) (l : list (bool * option value)) {struct fs} : Prop :=
  match fs, l with
  | XFNil, [] => True
  | XFCons _ Mandatory t fs, (true, Some v) :: l => fits t v /\ fits_fields fs l
  | XFCons _ Mandatory _ _, _ :: _ => False
  | XFCons _ _ t fs, (true, Some v) :: l => fits t v /\ fits_fields fs l
  (* an absent component with a DEFAULT holds it *)
  | XFCons _ (Default d) t fs, (false, c) :: l => c = Some d /\ fits_fields fs l
  | XFCons _ _ t fs, (false, c) :: l => c = None /\ fits_fields fs l
  | _, _ => False
  end
with fits_alt (cs : xalts) (i : nat) (v : value) {struct cs} : Prop :=
  match cs, i with
  | XANil, _ => False
  | XACons _ t _, O => fits t v
  | XACons _ _ cs, S i => fits_alt cs i v
  end.

(** ** Types that can be sent: no name is too long for the buffer of
    Xer_EncodeEnumerated, the values of an ENUMERATED are distinct, and an element
    that needs a name has one. *)
Definition untagged (t : xty) : bool := match t with XBool | XEnum _ | XCho _ => true | _ => false end.
Fixpoint tag_ok (t : xty) (tag : option (list Z)) {struct t} : Prop :=
  match t with
  | XRef name t => tag_ok t (ref_tag name t tag)
  | _ => match tag with None => True | Some [] => untagged t = true | Some n => name_ok n end
  end.
Fixpoint field_names (fs : xfields) : list (list Z) :=
  match fs with XFNil => [] | XFCons n _ _ fs => n :: field_names fs end.
Fixpoint alt_names (cs : xalts) : list (list Z) :=
  match cs with XANil => [] | XACons n _ cs => n :: alt_names cs end.
Fixpoint sendable (t : xty) {struct t} : Prop :=
  match t with
  | XEnum items => NoDup (map fst items) /\ Forall (fun n => name_ok n) (map snd items)
  | XSeqOf _ _ child t => tag_ok t child /\ sendable t
  | XSeq fs => sendable_fields fs
  | XCho cs => sendable_alts cs
  | XRef _ t => sendable t
  | _ => True
  end
with sendable_fields (fs : xfields) {struct fs} : Prop :=
  match fs with
  | XFNil => True
  | XFCons n _ t fs => name_ok n /\ tag_ok t (Some n) /\ sendable t /\ sendable_fields fs
  end
with sendable_alts (cs : xalts) {struct cs} : Prop :=
  match cs with
  | XANil => True
  | XACons n t cs => name_ok n /\ tag_ok t (Some n) /\ sendable t /\ sendable_alts cs
  end.

(** ** Types that can be read back *)
Fixpoint readable (t : xty) {struct t} : Prop :=
  match t with
  | XStr _ max size => max < size
  | XEnum items => NoDup (map snd items)
  | XOct _ max => max <= 511
  | XBit _ max => max <= 2047
  | XOid => False
  | XSeqOf _ _ _ t => readable t
  | XSeq fs => NoDup (field_names fs) /\ readable_fields fs
  | XCho cs => NoDup (alt_names cs) /\ readable_alts cs
  | XRef _ t => readable t
  | _ => True
  end
with readable_fields (fs : xfields) {struct fs} : Prop :=
  match fs with XFNil => True | XFCons _ _ t fs => readable t /\ readable_fields fs end
with readable_alts (cs : xalts) {struct cs} : Prop :=
  match cs with XANil => True | XACons _ t cs => readable t /\ readable_alts cs end.
(** No text of the document holds a '<', which the encoder does not escape. *)
Fixpoint unescaped (d : node) : Prop :=
  match d with
  | NText _ _ t => Forall (fun c => c <> 60) t
  | NTree _ _ ns => (fix all (l : list node) : Prop := match l with [] => True | d :: l => unescaped d /\ all l end) ns
  | _ => True
  end.

(** ** Room: types whose REQUIRED_BYTES_FOR_XER_ENCODING is enough: no OBJECT
    IDENTIFIER, no name of an ENUMERATED longer than twice the one that sorts last, and
    no reference that gets no tag, unless it is one to a CHOICE. *)
Definition sized_ref (t : xty) (tag : option (list Z)) : Prop :=
  match t, tag with
  | XRef _ (XCho _), _ => True
  | XRef _ _, None => False
  | _, _ => True
  end.
Fixpoint roomy (t : xty) {struct t} : Prop :=
  match t with
  | XStr _ max _ | XOct _ max | XBit _ max => 0 <= max
  | XEnum items => Forall (fun n => len_of n <= 2 * len_of (max_name [] (map snd items))) (map snd items)
  | XOid => False
  | XSeqOf _ max child t => 0 <= max /\ sized_ref t child /\ roomy t
  | XSeq fs => roomy_fields fs
  | XCho cs => roomy_alts cs
  | XRef _ t => roomy t
  | _ => True
  end
with roomy_fields (fs : xfields) {struct fs} : Prop :=
  match fs with XFNil => True | XFCons _ _ t fs => roomy t /\ roomy_fields fs end
with roomy_alts (cs : xalts) {struct cs} : Prop :=
  match cs with XANil => True | XACons _ t cs => roomy t /\ roomy_alts cs end.

(** ** Safety: types whose decoders stay inside their variable: the array of a BIT STRING
    holds the longest text that Xer_DecodeBitString accepts (2047 digits). *)
Fixpoint tame (t : xty) {struct t} : Prop :=
  match t with
  | XStr _ _ size => 1 <= size
  | XBit _ max => 2040 < max
  | XSeqOf _ _ _ t => tame t
  | XSeq fs => tame_fields fs
  | XCho cs => tame_alts cs
  | XRef _ t => tame t
  | _ => True
  end
with tame_fields (fs : xfields) {struct fs} : Prop :=
  match fs with XFNil => True | XFCons _ _ t fs => tame t /\ tame_fields fs end
with tame_alts (cs : xalts) {struct cs} : Prop :=
  match cs with XANil => True | XACons _ t cs => tame t /\ tame_alts cs end.
