(** Specification of ACN encodings of the types of AcnGen.v, independent of the
    generated code: which bit strings encode a value. *)
From Verif Require Import Base Bits StrSpec Contracts RealSpec RealC UperTypes UperSpec UperWf AcnSpec AcnReal AcnGen.
From Coq Require Import Sorting.Sorted.

Definition blen (bs : list bool) : Z := Z.of_nat (length bs).

(** ** Integers *)
Definition icode (k : icodec) (z : Z) (bs : list bool) : Prop :=
  match k with
  | KUper a b => a <= z <= b /\ bs = Zbits (crange a b) (z - a)
  | KPos n => 0 <= z < 2 ^ n /\ bs = Zbits (Z.to_nat n) z
  | KPos8 => 0 <= z < 256 /\ bs = Zbits 8 z
  | KPosBE k => 0 <= z < 2 ^ (8 * k) /\ bs = Zbits (Z.to_nat (8 * k)) z
  | KPosLE k => 0 <= z < 2 ^ (8 * k) /\ bs = bits_of_bytes (le_octets (Z.to_nat k) z)
  | KPosVar => 0 <= z < 2 ^ 64 /\ bs = semi_bits z
  | KTwos n => - 2 ^ (n - 1) <= z < 2 ^ (n - 1) /\ bs = Zbits (Z.to_nat n) z
  | KTwos8 => -128 <= z < 128 /\ bs = Zbits 8 z
  | KTwosBE k => - 2 ^ (8 * k - 1) <= z < 2 ^ (8 * k - 1) /\ bs = Zbits (Z.to_nat (8 * k)) z
  | KTwosLE k => - 2 ^ (8 * k - 1) <= z < 2 ^ (8 * k - 1) /\ bs = bits_of_bytes (le_octets (Z.to_nat k) z)
  | KTwosVar => - 2 ^ 63 <= z < 2 ^ 63 /\ bs = unc_bits z
  | KBcd n => 0 <= z < 2 ^ 64 /\ z < 10 ^ n /\ bs = nibbles (digits (Z.to_nat n) z)
  | KBcdVar => 0 <= z < 2 ^ 64 /\ exists n, least_digits z n /\ bs = Zbits 8 (Z.of_nat n) ++ nibbles (digits n z)
  | KBcdNull => 0 <= z < 2 ^ 64 /\ exists n, least_digits z n /\ bs = nibbles (digits n z) ++ Zbits 4 15
  | KText n => - 2 ^ 63 <= z < 2 ^ 63 /\ Z.abs z < 10 ^ (n - 1) /\
      bs = bits_of_bytes (sign_char z :: digit_chars (digits (Z.to_nat (n - 1)) (Z.abs z)))
  | KTextVar => - 2 ^ 63 <= z < 2 ^ 63 /\ exists n, text_digits (Z.abs z) n /\
      bs = bits_of_bytes (1 + Z.of_nat n :: sign_char z :: digit_chars (digits n (Z.abs z)))
  | KTextNull p => - 2 ^ 63 <= z < 2 ^ 63 /\ exists n, text_digits (Z.abs z) n /\
      terminates p (digit_chars (digits n (Z.abs z))) /\
      bs = bits_of_bytes (sign_char z :: digit_chars (digits n (Z.abs z)) ++ p)
  | KUText n => 0 <= z < 2 ^ 64 /\ z < 10 ^ n /\ bs = bits_of_bytes (digit_chars (digits (Z.to_nat n) z))
  | KUTextNull p => 0 <= z < 2 ^ 64 /\ exists n, text_digits z n /\
      terminates p (digit_chars (digits n z)) /\ bs = bits_of_bytes (digit_chars (digits n z) ++ p)
  end.
(** C arithmetic: the encoders negate a negative value, the n-bit decoder shifts it
    (C16); packed decimal with a length field is limited to 16 digits (C18). *)
Definition iside (c : cfg) (k : icodec) (z : Z) : Prop :=
  match k with
  | KTwos _ => sfits c (- z) /\ (shl_wrap c = true \/ 0 <= z)
  | KTwosBE _ | KTwosLE _ | KTwosVar | KText _ | KTextVar | KTextNull _ => sfits c (- z)
  | KBcdVar => z < 10 ^ 16
  | _ => True
  end.
(** The C variable: w bits, signed when the encoding is. *)
Definition signed_coding (k : icodec) : bool :=
  match k with
  | KTwos _ | KTwos8 | KTwosBE _ | KTwosLE _ | KTwosVar | KText _ | KTextVar | KTextNull _ => true
  | _ => false
  end.
Definition int_encodes (c : cfg) (k : icodec) (w z : Z) (bs : list bool) : Prop :=
  icode k z bs /\ iside c k z /\ in_class (negb (signed_coding k)) w z.

(** ** REAL. [u]: the IEEE 754 pattern. *)
Definition real_encodes (be d64 fp32 : bool) (x : spec_float) (bs : list bool) : Prop :=
  exists u,
    if d64 then
      0 <= u < 2 ^ 64 /\ ieee_value 52 11 u = x /\ x <> S754_nan /\
      bs = if be then Zbits 64 u else bits_of_bytes (le_octets 8 u)
    else
      0 <= u < 2 ^ 32 /\ ieee_value 23 8 u = (if fp32 then x else to_float x) /\ ieee_value 23 8 u <> S754_nan /\
      bs = if be then Zbits 32 u else bits_of_bytes (le_octets 4 u).

(** ** Values of determinants *)
Definition plain (v : value) : Prop :=
  match v with VBool _ | VInt _ | VEnum _ | VStr _ => True | _ => False end.
(** Determinant [d] has value [x]: the innermost binding counts. *)
Inductive has (d : Z) (x : value) : env -> Prop :=
| has_here : forall e, has d x ((d, x) :: e)
| has_there : forall d' y e, d <> d' -> has d x e -> has d x ((d', y) :: e).
Definition bound (d : Z) (e : env) : Prop := exists x, has d x e.

(** ** Strings *)
Definition str_encodes (k : str_kind) (min max : Z) (e : env) (l : list Z) (bs : list bool) : Prop :=
  size_in min max (length l) /\ Forall (fun ch => 0 < ch < 256) l /\
  match k with
  | SAscii => bs = Zbits (crange min max) (Z.of_nat (length l) - min) ++ bits_of_bytes l
  | SNull p => terminates p l /\ bs = bits_of_bytes (l ++ p)
  | SAsciiExt d => has d (VInt (Z.of_nat (length l))) e /\ bs = bits_of_bytes l
  | SIndexExt set d =>
      has d (VInt (Z.of_nat (length l))) e /\ Forall (char_of set) l /\ bs = index_bits set l
  | SIA5Ext d =>
      has d (VInt (Z.of_nat (length l))) e /\ Forall (fun ch => ch < 128) l /\ bs = concat (map (Zbits 7) l)
  end.

(** ** Lists *)
(** The items one after the other from position p; [bss]: the encoding of each. *)
Fixpoint items_encode {A} (R : A -> Z -> list bool -> Prop) (l : list A) (p : Z) (bss : list (list bool)) : Prop :=
  match l, bss with
  | [], [] => True
  | v :: l, b :: bss => R v p b /\ items_encode R l (p + blen b) bss
  | _, _ => False
  end.
(** The terminator is not seen before any of the items. *)
Definition no_early (pat : list bool) (bss : list (list bool)) : Prop :=
  forall i, (i < length bss)%nat -> firstn (length pat) (concat (skipn i bss) ++ pat) <> pat.

(** The size field, the size as determinant, or the terminator; [lead] comes before
    the items and [trail] after them. *)
Definition size_field (sz : size_kind) (min max : Z) (e : env) (n : nat) (lead trail : list bool) : Prop :=
  size_in min max n /\
  match sz with
  | SzFixed | SzEmbedded => lead = Zbits (crange min max) (Z.of_nat n - min) /\ trail = []
  | SzExt d lo hi => has d (VInt (Z.of_nat n)) e /\ lead = [] /\ trail = []
  | SzNull pat k => lead = [] /\ trail = take_bits k pat
  end.

(** Types whose decoder contains the search for a terminator. *)
Fixpoint terms (t : aty) : bool :=
  match t with
  | AOct (SzNull _ _) _ _ => true
  | ASeqOf t sz _ _ => match sz with SzNull _ _ => true | _ => terms t end
  | ASeq fs => terms_fields fs
  | AChoice _ cs => terms_alts cs
  | AAlign _ t => terms t
  | _ => false
  end
with terms_fields (fs : afields) : bool :=
  match fs with
  | GNil => false
  | GAsn _ t fs => terms t || terms_fields fs
  | GAcn _ _ fs => terms_fields fs
  | GPad _ fs => terms_fields fs
  end
with terms_alts (cs : aalts) : bool :=
  match cs with HNil => false | HCons t cs => terms t || terms_alts cs end.

(** ** Which determinants a value needs: some present consumer of [d]. *)
Definition size_uses (d : Z) (sz : size_kind) : Prop := match sz with SzExt d' _ _ => d' = d | _ => False end.
Fixpoint uses (d : Z) (t : aty) (v : value) {struct t} : Prop :=
  match t, v with
  | AStr k _ _, VStr _ => match k with SAsciiExt d' | SIndexExt _ d' | SIA5Ext d' => d' = d | _ => False end
  | AOct sz _ _, VOct _ | ABit sz _ _, VBit _ | ASeqOf _ sz _ _, VSeqOf _ => size_uses d sz
  | ASeq fs, VSeq l => uses_fields d fs l
  | AChoice k cs, VChoice i v =>
      (match k with
       | CIndex => False
       | CEnum d' _ => d' = d
       | CPres conds => exists l, nth_error conds i = Some l /\ exists x, In (d, x) l
       end) \/ uses_alt d cs i v
  | ARef _ t, v | AAlign _ t, v => uses d t v
  | _, _ => False
  end
with uses_fields (d : Z) (fs : afields) (l : list (bool * option value)) {struct fs} : Prop :=
  match fs, l with
  | GAsn o t fs, (e, ov) :: l =>
      (exists def, o = OOptional (PDet d) def) \/
      (match o, e, ov with
       | OMandatory, _, Some v | OPresent, _, Some v | OOptional _ _, true, Some v => uses d t v
       | _, _, _ => False
       end) \/ uses_fields d fs l
  | GAcn _ _ fs, l | GPad _ fs, l => uses_fields d fs l
  | _, _ => False
  end
with uses_alt (d : Z) (cs : aalts) (i : nat) (v : value) {struct cs} : Prop :=
  match cs, i with
  | HNil, _ => False
  | HCons t _, O => uses d t v
  | HCons _ cs, S i => uses_alt d cs i v
  end.

(** ** What a decoder returns for an encoded value: absent components hold their
    default value; a double sent as a float is rounded. *)
Fixpoint anorm (t : aty) (v : value) {struct t} : value :=
  match t, v with
  | AUper t, v => norm t v
  | AReal _ false false, VReal x => VReal (float_to_double (to_float x))
  | ASeqOf t _ _ _, VSeqOf l => VSeqOf (map (anorm t) l)
  | ASeq fs, VSeq l => VSeq (anorm_fields fs l)
  | AChoice _ cs, VChoice i v => VChoice i (anorm_alt cs i v)
  | ARef _ t, v | AAlign _ t, v => anorm t v
  | _, v => v
  end
with anorm_fields (fs : afields) (l : list (bool * option value)) {struct fs} : list (bool * option value) :=
  match fs, l with
  | GAsn o t fs, (x, ov) :: l =>
      (match o with
       | OMandatory | OPresent => (true, option_map (anorm t) ov)
       | OAbsent => (false, None)
       | OOptional _ def => if x then (true, option_map (anorm t) ov) else (false, def)
       end) :: anorm_fields fs l
  | GAcn _ _ fs, l | GPad _ fs, l => anorm_fields fs l
  | _, _ => []
  end
with anorm_alt (cs : aalts) (i : nat) (v : value) {struct cs} : value :=
  match cs, i with
  | HNil, _ => v
  | HCons t _, O => anorm t v
  | HCons _ cs, S i => anorm_alt cs i v
  end.

(** ** Encodings. [encodes c st t e v p bs]: with the determinants [e], the value
    [v] of type [t] starting at bit position [p] of the message is encoded by
    [bs]. [c]: the C implementation, whose arithmetic must not overflow; [st]: a
    determinant must have a consumer. *)
Fixpoint presence_of (fs : afields) (l : list (bool * option value)) : list bool :=
  match fs, l with
  | GAsn (OOptional PBit _) _ fs, (x, _) :: l => x :: presence_of fs l
  | GAsn _ _ fs, _ :: l => presence_of fs l
  | GAcn _ _ fs, l | GPad _ fs, l => presence_of fs l
  | _, _ => []
  end.

(** How an alternative is told. With conditions, the first alternative whose
    conditions all hold. *)
Definition holds (e : env) (p : Z * value) : Prop := has (fst p) (snd p) e.
Definition told (k : choice_kind) (n : nat) (e : env) (i : nat) (bs : list bool) : Prop :=
  match k with
  | CIndex => bs = Zbits (crange 0 (Z.of_nat n - 1)) (Z.of_nat i)
  | CEnum d zs => bs = [] /\ exists z, nth_error zs i = Some z /\ has d (VEnum z) e
  | CPres conds => bs = [] /\
      (exists l, nth_error conds i = Some l /\ Forall (holds e) l) /\
      forall j l, (j < i)%nat -> nth_error conds j = Some l ->
        Forall (fun p => bound (fst p) e) l /\ ~ Forall (holds e) l
  end.

Fixpoint encodes (c : cfg) (st : bool) (t : aty) (e : env) (v : value) (p : Z) (bs : list bool) {struct t} : Prop :=
  match t, v with
  | AUper t, v => valid t v /\ sides c t v /\ bs = ubits false t v
  | ABool _ tp fp n, VBool b => bs = take_bits n (if b then tp else fp)
  | ANull None _, VNull => bs = []
  | ANull (Some (pat, n)) _, VNull => bs = take_bits n pat
  | AInt k w mf, VInt z =>
      match mf with
      | None => int_encodes c k w z bs
      | Some (f, g) => int_encodes c k w (f z) bs /\ g (f z) = z
      end
  | AEnum items k w, VEnum z => exists z', In (z, z') items /\ int_encodes c k w z' bs
  | AEnumEff arr _ _ vals k w, VEnum z =>
      exists i, nth_error arr i = Some z /\ int_encodes c k w (if vals then z else Z.of_nat i) bs
  | AReal be d64 fp32, VReal x => real_encodes be d64 fp32 x bs
  | AStr k min max, VStr l => str_encodes k min max e l bs
  | AOct sz min max, VOct l =>
      Forall (fun b => 0 <= b < 256) l /\
      exists lead trail, size_field sz min max e (length l) lead trail /\
        bs = lead ++ bits_of_bytes l ++ trail /\
        match sz with SzNull _ _ => no_early trail (octets l) | _ => True end
  | ABit sz min max, VBit l =>
      exists lead trail, size_field sz min max e (length l) lead trail /\
        bs = lead ++ l ++ trail /\
        match sz with SzNull _ _ => no_early trail (single_bits l) | _ => True end
  | ASeqOf t sz min max, VSeqOf l =>
      exists lead bss trail, size_field sz min max e (length l) lead trail /\
        bs = lead ++ concat bss ++ trail /\
        items_encode (encodes c st t e) l (p + blen lead) bss /\
        match sz with
        | SzNull _ _ => no_early trail bss /\ (Z.of_nat (length l) < max \/ terms t = false)
        | _ => True
        end
  | ASeq fs, VSeq l =>
      exists bs2, bs = presence_of fs l ++ bs2 /\
        encodes_fields c st fs e l (p + blen (presence_of fs l)) bs2
  | AChoice k cs, VChoice i v =>
      exists b1 b2, bs = b1 ++ b2 /\ told k (aalts_len cs) e i b1 /\
        encodes_alt c st cs e i v (p + blen b1) b2
  | ARef ok t, v => encodes c st t e v p bs /\ ok (anorm t v) = true
  | AAlign n t, v =>
      exists b, bs = zeros (Z.to_nat (align n p - p)) ++ b /\ encodes c st t e v (align n p) b
  | _, _ => False
  end
with encodes_fields (c : cfg) (st : bool) (fs : afields) (e : env) (l : list (bool * option value)) (p : Z) (bs : list bool)
  {struct fs} : Prop :=
  match fs, l with
  | GNil, [] => bs = []
  | GAsn o t fs, (x, ov) :: l =>
      exists b1 b2, bs = b1 ++ b2 /\
        (match o, x, ov with
         | OMandatory, _, Some v | OPresent, _, Some v => encodes c st t e v p b1
         | OAbsent, _, _ => b1 = []
         | OOptional k _, x, ov =>
             (match k with PBit => True | PDet d => has d (VBool x) e end) /\
             (match x, ov with
              | true, Some v => encodes c st t e v p b1
              | false, _ => b1 = []
              | _, _ => False
              end)
         | _, _, _ => False
         end) /\
        encodes_fields c st fs e l (p + blen b1) b2
  | GAcn d t fs, l =>
      exists x b1 b2, bs = b1 ++ b2 /\ plain x /\ encodes c st t e x p b1 /\
        encodes_fields c st fs ((d, x) :: e) l (p + blen b1) b2 /\
        (st = true -> uses_fields d fs l)
  | GPad t fs, l =>
      exists b1 b2, bs = b1 ++ b2 /\ encodes c st t e VNull p b1 /\
        encodes_fields c st fs e l (p + blen b1) b2
  | _, _ => False
  end
with encodes_alt (c : cfg) (st : bool) (cs : aalts) (e : env) (i : nat) (v : value) (p : Z) (bs : list bool) {struct cs} : Prop :=
  match cs, i with
  | HNil, _ => False
  | HCons t _, O => encodes c st t e v p bs
  | HCons _ cs, S i => encodes_alt c st cs e i v p bs
  end.

(** ** Well-formed types: what the front end guarantees. *)
Definition wf_codec (k : icodec) (w : Z) : Prop :=
  (w = 8 \/ w = 16 \/ w = 32 \/ w = 64) /\
  match k with
  | KUper a b => 0 <= a <= b /\ b < 2 ^ w
  | KPos n => 0 <= n <= 64
  | KTwos n => 1 <= n <= 64
  | KPosBE k | KPosLE k | KTwosBE k | KTwosLE k => 1 <= k <= 8
  | KBcd n | KUText n => 0 <= n <= 100
  | KText n => 1 <= n <= 101
  | KTextNull p | KUTextNull p => Forall is_byte p /\ (1 <= length p <= 10)%nat
  | _ => True
  end.
(** A pattern of n bits, left justified in its octets. *)
Definition wf_pat (pat : list Z) (n : Z) : Prop :=
  Forall is_byte pat /\ 0 <= n <= 8 * Z.of_nat (length pat).
Definition exact_pat (pat : list Z) (n : Z) : Prop :=
  wf_pat pat n /\ exists tl, pat = pack (take_bits n pat) ++ tl.
Definition wf_szkind (sz : size_kind) (min max : Z) : Prop :=
  wf_size min max /\
  match sz with
  | SzFixed => min = max
  | SzEmbedded => True
  | SzExt _ lo hi =>
      (match lo with Some a => a <= min | None => True end) /\
      (match hi with Some b => max <= b | None => True end)
  | SzNull pat n => exact_pat pat n /\ 1 <= max
  end.
Definition wf_str (k : str_kind) : Prop :=
  match k with
  | SNull p => Forall is_byte p /\ (1 <= length p <= 10)%nat
  | SIndexExt set _ => Z.of_nat (length set) < 2 ^ 62
  | _ => True
  end.
Definition wf_choice (k : choice_kind) (n : nat) : Prop :=
  (0 < n)%nat /\ Z.of_nat n < 2 ^ 31 /\
  match k with
  | CIndex => True
  | CEnum _ zs => length zs = n /\ NoDup zs
  | CPres conds => length conds = n /\ Forall (Forall (fun p => plain (snd p))) conds
  end.

(** Determinants bound inside a type. *)
Fixpoint binds (d : Z) (t : aty) : bool :=
  match t with
  | ASeqOf t _ _ _ | ARef _ t | AAlign _ t => binds d t
  | ASeq fs => binds_fields d fs
  | AChoice _ cs => binds_alts d cs
  | _ => false
  end
with binds_fields (d : Z) (fs : afields) : bool :=
  match fs with
  | GNil => false
  | GAsn _ t fs => binds d t || binds_fields d fs
  | GAcn d' t fs => (d =? d') || binds d t || binds_fields d fs
  | GPad t fs => binds d t || binds_fields d fs
  end
with binds_alts (d : Z) (cs : aalts) : bool :=
  match cs with HNil => false | HCons t cs => binds d t || binds_alts d cs end.

Fixpoint wfa (t : aty) : Prop :=
  match t with
  | AUper t => wft t
  | ABool _ tp fp n => wf_pat tp n /\ wf_pat fp n /\ take_bits n tp <> take_bits n fp
  | ANull None _ => True
  | ANull (Some (pat, n)) _ => wf_pat pat n
  | AInt k w mf => wf_codec k w /\ (k = KTwosBE 2 -> mf = None)
  | AEnum items k w => wf_codec k w /\ NoDup (map fst items) /\ NoDup (map snd items)
  | AEnumEff arr cnt last vals k w =>
      wf_codec k w /\ StronglySorted Z.lt arr /\ cnt = Z.of_nat (length arr) /\ last = cnt - 1 /\ cnt < 2 ^ 31
  | AReal _ d64 fp32 => d64 = true -> fp32 = false
  | AStr k min max => wf_size min max /\ wf_str k
  | AOct sz min max | ABit sz min max => wf_szkind sz min max
  | ASeqOf t sz min max => wf_szkind sz min max /\ wfa t
  | ASeq fs => wfa_fields fs
  | AChoice k cs => wf_choice k (aalts_len cs) /\ wfa_alts cs
  | ARef _ t => wfa t
  | AAlign n t => (n = 8 \/ n = 16 \/ n = 32) /\ wfa t
  end
with wfa_fields (fs : afields) : Prop :=
  match fs with
  | GNil => True
  | GAsn _ t fs => wfa t /\ wfa_fields fs
  | GAcn d t fs => wfa t /\ wfa_fields fs /\ binds_fields d fs = false
  | GPad t fs => wfa t /\ wfa_fields fs
  end
with wfa_alts (cs : aalts) : Prop :=
  match cs with HNil => True | HCons t cs => wfa t /\ wfa_alts cs end.

(** ** Contracts that depend on the position in the message, for alignment. As
    [writes] and [reads], from position [p]; the decoder's memory holds the
    declared data. *)
Definition writesAt {A} (p : Z) (f : M A) (a : A) (bs : list bool) : Prop :=
  forall s pre n tl,
    blen pre = p ->
    at_ s pre (zeros n ++ tl) ->
    Z.of_nat (length pre + n) = 8 * count s ->
    (length bs <= n)%nat ->
    exists s', f s = Ok (a, s') /\
      at_ s' (pre ++ bs) (zeros (n - length bs) ++ tl) /\
      count s' = count s.
Definition readsAt {A} (p : Z) (f : M A) (a : A) (bs : list bool) : Prop :=
  forall s pre rest,
    blen pre = p ->
    count s <= Z.of_nat (length (buf s)) ->
    at_ s pre (bs ++ rest) ->
    Z.of_nat (length pre + length bs) <= 8 * count s ->
    exists s', f s = Ok (a, s') /\
      at_ s' (pre ++ bs) rest /\
      count s' = count s /\
      buf s' = buf s.
