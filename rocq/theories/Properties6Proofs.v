(** Proofs of the statements in Properties6.v that are not lemmas elsewhere. *)
From Coq Require Import Lia ZifyBool ZifyNat Zquot.
From Verif Require Import Base Bits BitsProofs BitStream Ints Misc Contracts Parse BitStreamProofs BitStreamProofs2 BitStreamProofs3
  IntsProofs MiscProofs ParseProofs SafeProofs Octets RealSpec RealC RealProofs FloatProofs HistoryProofs
  AcnSpec Acn AcnStr AcnReal AcnProofs1 AcnProofs2 AcnProofs3 AcnProofs4 AcnProofs5 AcnProofs6 AcnProofs7.
Ltac Zify.zify_post_hook ::= Z.div_mod_to_equations.

(** ** C15, C16 *)
Lemma nbits_int : forall c v n, is_u64 v -> 0 <= n -> v < 2 ^ n ->
  writes (Acn_Enc_Int_PositiveInteger_ConstSize c v n) tt (Zbits (Z.to_nat n) v) /\
  (n <= 64 -> reads (Acn_Dec_Int_PositiveInteger_ConstSize n) (Some v) (Zbits (Z.to_nat n) v)).
Proof.
  intros c v n Hv Hn Hl. split; [now apply writes_ConstSize|]. intro. apply reads_DecodeNonNeg; [lia|]. destruct Hv; lia.
Qed.
Lemma octet_int : forall c v, is_byte v ->
  overwrites (Acn_Enc_Int_PositiveInteger_ConstSize_8 c v) tt (Zbits 8 v) /\
  reads Acn_Dec_Int_PositiveInteger_ConstSize_8 (Some v) (Zbits 8 v).
Proof. intros. split; [apply overwrites_U8|now apply reads_U8]. Qed.
Lemma be_int : forall c size v, 1 <= size <= 8 -> 0 <= v < 2 ^ (8 * size) ->
  overwrites (Acn_Enc_Int_PositiveInteger_ConstSize_big_endian c size v) tt (Zbits (Z.to_nat (8 * size)) v) /\
  reads (Acn_Dec_Int_PositiveInteger_ConstSize_big_endian size) (Some v) (Zbits (Z.to_nat (8 * size)) v).
Proof. intros. split; [now apply overwrites_BE|]. apply reads_BE; [lia|assumption]. Qed.
Lemma le_int : forall c size v, 1 <= size <= 8 -> 0 <= v < 2 ^ (8 * size) ->
  overwrites (Acn_Enc_Int_PositiveInteger_ConstSize_little_endian c size v) tt (bits_of_bytes (le_octets (Z.to_nat size) v)) /\
  reads (Acn_Dec_Int_PositiveInteger_ConstSize_little_endian size) (Some v) (bits_of_bytes (le_octets (Z.to_nat size) v)).
Proof. intros. split; [now apply overwrites_LE|]. apply reads_LE; [lia|assumption]. Qed.
Lemma narrow_u_ok : forall w f v bs, 0 <= v < 2 ^ w -> reads f (Some v) bs -> reads (narrow_u w f) (Some v) bs.
Proof.
  intros w f v bs Hv H. unfold narrow_u. rewrite <- (app_nil_r bs). eapply reads_bindo; [exact H|].
  rewrite Z.mod_small by assumption. apply reads_ret.
Qed.
Lemma narrow_s_ok : forall w f v bs, 1 <= w -> - 2 ^ (w - 1) <= v < 2 ^ (w - 1) -> reads f (Some v) bs -> reads (narrow_s w f) (Some v) bs.
Proof.
  intros w f v bs Hw Hv H. unfold narrow_s. rewrite <- (app_nil_r bs). eapply reads_bindo; [exact H|].
  rewrite sN_id by assumption. apply reads_ret.
Qed.
Lemma milbus : forall v, 1 <= v <= 32 -> milbus_decode (milbus_encode v) = v /\ 0 <= milbus_encode v < 32.
Proof. intros v H. unfold milbus_decode, milbus_encode. destruct (Z.eqb_spec v 32); [subst; split; [reflexivity|lia]|].
  destruct (Z.eqb_spec v 0); [lia|]. split; [reflexivity|lia]. Qed.
Lemma milbus_0 : exists v, 0 <= v <= 32 /\ milbus_decode (milbus_encode v) <> v.
Proof. exists 0. split; [lia|]. vm_compute. discriminate. Qed.

Lemma nbits_twos : forall c v n, 1 <= n <= 64 -> - 2 ^ (n - 1) <= v < 2 ^ (n - 1) ->
  (sfits c (- v) -> writes (Acn_Enc_Int_TwosComplement_ConstSize c v n) tt (Zbits (Z.to_nat n) v)) /\
  (shl_wrap c = true \/ 0 <= v -> reads (Acn_Dec_Int_TwosComplement_ConstSize c n) (Some v) (Zbits (Z.to_nat n) v)).
Proof. intros. split; intro; [now apply writes_Twos|now apply reads_Twos]. Qed.
Lemma small_s64 : forall v n, 1 <= n <= 64 -> - 2 ^ (n - 1) <= v < 2 ^ (n - 1) -> is_s64 v.
Proof.
  intros v n Hn Hv. assert (2 ^ (n - 1) <= 2 ^ 63) by (apply Z.pow_le_mono_r; lia).
  unfold is_s64, two63. lia.
Qed.
Lemma octet_twos : forall c v, -128 <= v < 128 ->
  overwrites (Acn_Enc_Int_TwosComplement_ConstSize_8 c v) tt (Zbits 8 v) /\
  reads (Acn_Dec_Int_TwosComplement_ConstSize_8 c) (Some v) (Zbits 8 v).
Proof.
  intros c v H. split; [apply overwrites_I8|now apply reads_I8]; [|left]; unfold is_s64, two63; lia.
Qed.
Lemma be_twos : forall c size v, 1 <= size <= 8 -> - 2 ^ (8 * size - 1) <= v < 2 ^ (8 * size - 1) ->
  (sfits c (- v) -> overwrites (Acn_Enc_Int_TwosComplement_ConstSize_big_endian c size v) tt (Zbits (Z.to_nat (8 * size)) v)) /\
  reads (Acn_Dec_Int_TwosComplement_ConstSize_big_endian c size) (Some v) (Zbits (Z.to_nat (8 * size)) v).
Proof.
  intros c size v H1 H2. split; [intro|now apply reads_IN_BE].
  apply overwrites_IN_BE; [assumption|apply (small_s64 v (8 * size)); [lia|assumption]|assumption].
Qed.
Lemma le_twos : forall c size v, 1 <= size <= 8 -> - 2 ^ (8 * size - 1) <= v < 2 ^ (8 * size - 1) ->
  (sfits c (- v) -> overwrites (Acn_Enc_Int_TwosComplement_ConstSize_little_endian c size v) tt
     (bits_of_bytes (le_octets (Z.to_nat size) v))) /\
  reads (Acn_Dec_Int_TwosComplement_ConstSize_little_endian c size) (Some v) (bits_of_bytes (le_octets (Z.to_nat size) v)).
Proof.
  intros c size v H1 H2. split; [intro|now apply reads_IN_LE].
  apply overwrites_IN_LE; [assumption|apply (small_s64 v (8 * size)); [lia|assumption]|assumption].
Qed.
Lemma twos_min_ub : exists v s, is_s64 v /\ wfs s /\ pos s = 0 /\ 8 * count s >= 64 /\
  Acn_Enc_Int_TwosComplement_ConstSize gcc v 64 s = UB /\
  Acn_Enc_Int_TwosComplement_ConstSize_big_endian gcc 8 v s = UB /\
  Acn_Enc_Int_TwosComplement_VarSize_LengthEmbedded gcc v s = UB.
Proof.
  exists (-9223372036854775808), (mkbs (repeat 0 17) 16 0 0).
  split; [split; vm_compute; [discriminate|reflexivity]|].
  split; [unfold wfs; cbn; repeat split; try lia; repeat constructor; unfold is_byte; lia|].
  split; [reflexivity|]. split; [vm_compute; discriminate|]. split; [|split]; vm_compute; reflexivity.
Qed.
Lemma twos_neg_ub : exists v s, -8 <= v < 8 /\ wfs s /\ take_bits 16 (buf s) = Zbits 16 v /\ pos s = 0 /\ count s = 2 /\
  Acn_Dec_Int_TwosComplement_ConstSize iso 16 s = UB.
Proof.
  exists (-3), (mkbs [255; 253; 0] 2 0 0). split; [lia|].
  split; [unfold wfs; cbn; repeat split; try lia; repeat constructor; unfold is_byte; lia|].
  repeat split; vm_compute; reflexivity.
Qed.

(** ** C17 *)
Lemma var_u : forall c v, is_u64 v ->
  overwrites (Acn_Enc_Int_PositiveInteger_VarSize_LengthEmbedded c v) tt (semi_bits v) /\
  reads Acn_Dec_Int_PositiveInteger_VarSize_LengthEmbedded (Some v) (semi_bits v).
Proof. intros. split; [now apply overwrites_VarU|now apply reads_VarU]. Qed.
Lemma var_s : forall c v, is_s64 v ->
  (sfits c (- v) -> overwrites (Acn_Enc_Int_TwosComplement_VarSize_LengthEmbedded c v) tt (unc_bits v)) /\
  reads (Acn_Dec_Int_TwosComplement_VarSize_LengthEmbedded c) (Some v) (unc_bits v).
Proof. intros. split; [intro; now apply overwrites_VarS|now apply reads_VarS]. Qed.

(** ** C18 *)
Lemma bcd : forall c v n, is_u64 v -> v < 10 ^ Z.of_nat n ->
  ((n <= 100)%nat -> writes (Acn_Enc_Int_BCD_ConstSize c v (Z.of_nat n)) tt (nibbles (digits n v))) /\
  reads (Acn_Dec_Int_BCD_ConstSize (Z.of_nat n)) (Some v) (nibbles (digits n v)).
Proof. intros. split; [intro; now apply writes_BCD|now apply reads_BCD]. Qed.
Lemma bcd_var : forall c v n, is_u64 v -> least_digits v n ->
  writes (Acn_Enc_Int_BCD_VarSize_LengthEmbedded c v) tt (Zbits 8 (Z.of_nat n) ++ nibbles (digits n v)) /\
  ((n <= 16)%nat -> reads Acn_Dec_Int_BCD_VarSize_LengthEmbedded (Some v) (Zbits 8 (Z.of_nat n) ++ nibbles (digits n v))) /\
  ((16 < n)%nat -> reads Acn_Dec_Int_BCD_VarSize_LengthEmbedded None (Zbits 8 (Z.of_nat n))).
Proof.
  intros c v n Hv Hn. split; [now apply writes_BCD_Var|]. split; intro; [now apply reads_BCD_Var|].
  apply reads_BCD_Var_none. pose proof (least_digits_20 v n Hv Hn). lia.
Qed.
Lemma bcd_null : forall c v n, is_u64 v -> least_digits v n ->
  writes (Acn_Enc_Int_BCD_VarSize_NullTerminated c v) tt (nibbles (digits n v) ++ Zbits 4 15) /\
  reads Acn_Dec_Int_BCD_VarSize_NullTerminated (Some v) (nibbles (digits n v) ++ Zbits 4 15).
Proof. intros c v n Hv Hn. split; [now apply writes_BCD_Null|]. apply reads_BCD_Null; [assumption|]. apply Hn. Qed.
Lemma bcd_size : forall v n, is_u64 v -> least_digits v n -> Acn_Get_Int_Size_BCD v = Ok (Z.of_nat n).
Proof. exact Get_Int_Size_BCD_ok. Qed.
Lemma bcd_var_refuted : exists v s s', is_u64 v /\
  Acn_Enc_Int_BCD_VarSize_LengthEmbedded iso v (mkbs (repeat 0 20) 20 0 0) = Ok (tt, s) /\
  Acn_Dec_Int_BCD_VarSize_LengthEmbedded (mkbs (buf s) 20 0 0) = Ok (None, s').
Proof.
  exists 12345678901234567, (mkbs [17; 18; 52; 86; 120; 144; 18; 52; 86; 112; 0; 0; 0; 0; 0; 0; 0; 0; 0; 0] 20 9 4).
  eexists. split; [split; vm_compute; [discriminate|reflexivity]|]. split; vm_compute; reflexivity.
Qed.
Lemma bcd_nibble_refuted : exists s s' v, wfs s /\ Acn_Dec_Int_BCD_ConstSize 2 s = Ok (Some v, s') /\
  v >= 10 ^ 2 /\ forall l, Forall (fun d => 0 <= d <= 9) l -> take_bits 8 (buf s) <> nibbles l.
Proof.
  exists (mkbs [0xFF; 0] 1 0 0). do 2 eexists.
  split; [unfold wfs; cbn; repeat split; try lia; repeat constructor; unfold is_byte; lia|].
  split; [vm_compute; reflexivity|]. split; [vm_compute; discriminate|].
  intros l F E. destruct l as [|a l]; [discriminate|]. pose proof (Forall_inv F) as Ha. cbv beta in Ha.
  assert (N : firstn 4 (nibbles (a :: l)) = Zbits 4 a).
  { unfold nibbles. cbn [map concat]. rewrite firstn_app, len_Zbits, Nat.sub_diag, firstn_O, app_nil_r.
    apply firstn_all2. rewrite len_Zbits. lia. }
  rewrite <- E in N.
  assert (B : bval (Zbits 4 a) = a) by (apply bval_Zbits_small; cbn; lia).
  rewrite <- N in B. vm_compute in B. lia.
Qed.

(** ** C19 *)
Lemma ascii_u : forall c v n, is_u64 v -> v < 10 ^ Z.of_nat n ->
  ((n <= 100)%nat -> overwrites (Acn_Enc_UInt_ASCII_ConstSize c v (Z.of_nat n)) tt (bits_of_bytes (digit_chars (digits n v)))) /\
  reads (Acn_Dec_UInt_ASCII_ConstSize c (Z.of_nat n)) (Some v) (bits_of_bytes (digit_chars (digits n v))).
Proof. intros. split; [intro; now apply overwrites_ASCII_U|now apply reads_ASCII_U]. Qed.
Lemma ascii_s : forall c v n, is_s64 v -> sfits c (- v) -> Z.abs v < 10 ^ Z.of_nat n ->
  ((n <= 100)%nat -> overwrites (Acn_Enc_SInt_ASCII_ConstSize c v (1 + Z.of_nat n)) tt
     (bits_of_bytes (sign_char v :: digit_chars (digits n (Z.abs v))))) /\
  reads (Acn_Dec_SInt_ASCII_ConstSize c (1 + Z.of_nat n)) (Some v)
    (bits_of_bytes (sign_char v :: digit_chars (digits n (Z.abs v)))).
Proof. intros. split; [intro; now apply overwrites_ASCII_S|now apply reads_ASCII_S]. Qed.
Lemma ascii_var_u : forall c v n, is_u64 v -> text_digits v n ->
  overwrites (Acn_Enc_UInt_ASCII_VarSize_LengthEmbedded c v) tt (bits_of_bytes (Z.of_nat n :: digit_chars (digits n v))) /\
  reads (Acn_Dec_UInt_ASCII_VarSize_LengthEmbedded c) (Some v) (bits_of_bytes (Z.of_nat n :: digit_chars (digits n v))).
Proof.
  intros c v n Hv Hn. split; [now apply overwrites_ASCII_VarU|]. pose proof (text_digits_20 v n Hv Hn).
  apply reads_ASCII_VarU; [assumption|now apply text_digits_lt|lia].
Qed.
Lemma ascii_var_s : forall c v n, is_s64 v -> sfits c (- v) -> text_digits (Z.abs v) n ->
  overwrites (Acn_Enc_SInt_ASCII_VarSize_LengthEmbedded c v) tt
    (bits_of_bytes (1 + Z.of_nat n :: sign_char v :: digit_chars (digits n (Z.abs v)))) /\
  reads (Acn_Dec_SInt_ASCII_VarSize_LengthEmbedded c) (Some v)
    (bits_of_bytes (1 + Z.of_nat n :: sign_char v :: digit_chars (digits n (Z.abs v)))).
Proof.
  intros c v n Hv Hs Hn. split; [now apply overwrites_ASCII_VarS|]. pose proof (text_digits_20 _ n (abs_u64 v Hv) Hn).
  apply reads_ASCII_VarS; [assumption|assumption|now apply text_digits_lt|lia].
Qed.
Lemma ascii_null_u : forall c v n p, is_u64 v -> text_digits v n -> Forall is_byte p ->
  overwrites (Acn_Enc_UInt_ASCII_VarSize_NullTerminated c v p (Z.of_nat (length p))) tt (bits_of_bytes (digit_chars (digits n v) ++ p)) /\
  ((1 <= length p <= 10)%nat -> terminates p (digit_chars (digits n v)) ->
   reads (Acn_Dec_UInt_ASCII_VarSize_NullTerminated p (Z.of_nat (length p))) (Some v) (bits_of_bytes (digit_chars (digits n v) ++ p))).
Proof.
  intros c v n p Hv Hn Hp. split; [now apply overwrites_ASCII_NullU|]. intros HL HT.
  apply reads_ASCII_NullU; [assumption|now apply text_digits_lt|assumption|assumption|assumption].
Qed.
Lemma ascii_null_s : forall c v n p, is_s64 v -> sfits c (- v) -> text_digits (Z.abs v) n -> Forall is_byte p ->
  overwrites (Acn_Enc_SInt_ASCII_VarSize_NullTerminated c v p (Z.of_nat (length p))) tt
    (bits_of_bytes (sign_char v :: digit_chars (digits n (Z.abs v)) ++ p)) /\
  ((1 <= length p <= 10)%nat -> terminates p (digit_chars (digits n (Z.abs v))) ->
   reads (Acn_Dec_SInt_ASCII_VarSize_NullTerminated c p (Z.of_nat (length p))) (Some v)
     (bits_of_bytes (sign_char v :: digit_chars (digits n (Z.abs v)) ++ p))).
Proof.
  intros c v n p Hv Hs Hn Hp. split; [now apply overwrites_ASCII_NullS|]. intros HL HT.
  apply reads_ASCII_NullS; [assumption|assumption|now apply text_digits_lt|assumption|assumption|assumption].
Qed.
Lemma ascii_min_refuted : exists v s, is_s64 v /\ wfs s /\ pos s = 0 /\
  Acn_Enc_SInt_ASCII_VarSize_LengthEmbedded gcc v s = UB /\
  Acn_Dec_SInt_ASCII_ConstSize gcc 20 (mkbs ([45; 57; 50; 50; 51; 51; 55; 50; 48; 51; 54; 56; 53; 52; 55; 55; 53; 56; 48; 56; 0]) 20 0 0) = UB.
Proof.
  exists (-9223372036854775808), (mkbs (repeat 0 33) 32 0 0).
  split; [split; vm_compute; [discriminate|reflexivity]|].
  split; [unfold wfs; cbn; repeat split; try lia; repeat constructor; unfold is_byte; lia|].
  split; [reflexivity|]. split; vm_compute; reflexivity.
Qed.
Lemma ascii_abort_refuted : exists s s', wfs s /\ Acn_Dec_UInt_ASCII_ConstSize iso 2 s = Abort /\
  Acn_Dec_UInt_ASCII_VarSize_NullTerminated [0] 1 s = Ok (Some 490, s').
Proof.
  exists (mkbs [97; 48; 0; 0] 3 0 0). eexists.
  split; [unfold wfs; cbn; repeat split; try lia; repeat constructor; unfold is_byte; lia|].
  split; vm_compute; reflexivity.
Qed.

(** ** C20 *)
Lemma str_ascii_fix : forall c l tl dst, Forall is_byte l -> (length l < length dst)%nat ->
  let n := Z.of_nat (length l) in
  writes (Acn_Enc_String_Ascii_FixSize c n (l ++ tl)) tt (bits_of_bytes l) /\
  reads (Acn_Dec_String_Ascii_FixSize n dst) (Some (stored l (length l) dst)) (bits_of_bytes l).
Proof. intros. split; [now apply writes_Ascii_FixSize|]. apply reads_Ascii_private; [assumption|lia|assumption]. Qed.
Lemma str_index_fix : forall c set l tl dst, Z.of_nat (length set) < 2 ^ 62 -> Forall (char_of set) l -> (length l < length dst)%nat ->
  let n := Z.of_nat (length l) in
  writes (Acn_Enc_String_CharIndex_FixSize c n set (Z.of_nat (length set)) (l ++ tl)) tt (index_bits set l) /\
  reads (Acn_Dec_String_CharIndex_FixSize c n set (Z.of_nat (length set)) dst) (Some (stored l (length l) dst)) (index_bits set l).
Proof. intros. split; [now apply writes_CharIndex_FixSize|]. apply reads_CharIndex_private; [assumption|assumption|lia|assumption]. Qed.
Lemma str_null : forall c mem l (max : nat) null dst, c_string mem l -> Forall is_byte l -> is_byte null -> ~ In null l ->
  (length l <= max)%nat -> (max < length dst)%nat ->
  writes (Acn_Enc_String_Ascii_Null_Terminated c (Z.of_nat max) null mem) tt (bits_of_bytes (l ++ [null])) /\
  reads (Acn_Dec_String_Ascii_Null_Terminated (Z.of_nat max) null dst) (Some (stored l max dst)) (bits_of_bytes (l ++ [null])).
Proof. intros. split; [apply writes_Null; [assumption|assumption|lia|assumption]|now apply reads_Null]. Qed.
Lemma str_null_mult : forall c mem l (max : nat) p tl dst, c_string mem l -> Forall is_byte l -> Forall is_byte p ->
  (1 <= length p <= 10)%nat -> terminates p l -> (length l <= max)%nat -> (max < length dst)%nat ->
  writes (Acn_Enc_String_Ascii_Null_Terminated_mult c (Z.of_nat max) (p ++ tl) (Z.of_nat (length p)) mem) tt (bits_of_bytes (l ++ p)) /\
  reads (Acn_Dec_String_Ascii_Null_Terminated_mult (Z.of_nat max) p (Z.of_nat (length p)) dst) (Some (stored l max dst)) (bits_of_bytes (l ++ p)).
Proof. intros. split; [apply writes_Null_mult; [assumption|assumption|lia|assumption]|now apply reads_Null_mult]. Qed.
Lemma str_ascii_ext : forall c mem l (max : nat) dst, c_string mem l -> Forall is_byte l -> (length l <= max)%nat -> (max < length dst)%nat ->
  writes (Acn_Enc_String_Ascii_External_Field_Determinant c (Z.of_nat max) mem) tt (bits_of_bytes l) /\
  reads (Acn_Dec_String_Ascii_External_Field_Determinant (Z.of_nat max) (Z.of_nat (length l)) dst) (Some (stored l max dst)) (bits_of_bytes l).
Proof. intros. split; [apply writes_Ascii_private; [assumption|assumption|lia]|now apply reads_Ascii_External]. Qed.
Lemma str_index_ext : forall c set mem l (max : nat) dst, Z.of_nat (length set) < 2 ^ 62 -> c_string mem l -> Forall (char_of set) l ->
  (length l <= max)%nat -> (max < length dst)%nat ->
  writes (Acn_Enc_String_CharIndex_External_Field_Determinant c (Z.of_nat max) set (Z.of_nat (length set)) mem) tt (index_bits set l) /\
  reads (Acn_Dec_String_CharIndex_External_Field_Determinant c (Z.of_nat max) set (Z.of_nat (length set)) (Z.of_nat (length l)) dst)
    (Some (stored l max dst)) (index_bits set l).
Proof. intros. split; [apply writes_CharIndex_private; [assumption|assumption|assumption|lia]|now apply reads_CharIndex_External]. Qed.
Lemma str_ascii_int : forall c mem l min (max : nat) dst, c_string mem l -> Forall is_byte l ->
  0 <= min <= Z.of_nat (length l) -> (length l <= max)%nat -> Z.of_nat max < 2 ^ 31 -> (max < length dst)%nat ->
  let bs := Zbits (crange min (Z.of_nat max)) (Z.of_nat (length l) - min) ++ bits_of_bytes l in
  writes (Acn_Enc_String_Ascii_Internal_Field_Determinant c (Z.of_nat max) min mem) tt bs /\
  reads (Acn_Dec_String_Ascii_Internal_Field_Determinant c (Z.of_nat max) min dst) (Some (stored l max dst)) bs.
Proof. intros. split; [apply writes_Ascii_Internal; try assumption; lia|now apply reads_Ascii_Internal]. Qed.
Lemma str_index_int : forall c set mem l min (max : nat) dst, Z.of_nat (length set) < 2 ^ 62 -> c_string mem l -> Forall (char_of set) l ->
  0 <= min <= Z.of_nat (length l) -> (length l <= max)%nat -> Z.of_nat max < 2 ^ 31 -> (max < length dst)%nat ->
  let bs := Zbits (crange min (Z.of_nat max)) (Z.of_nat (length l) - min) ++ index_bits set l in
  writes (Acn_Enc_String_CharIndex_Internal_Field_Determinant c (Z.of_nat max) set (Z.of_nat (length set)) min mem) tt bs /\
  reads (Acn_Dec_String_CharIndex_Internal_Field_Determinant c (Z.of_nat max) set (Z.of_nat (length set)) min dst) (Some (stored l max dst)) bs.
Proof. intros. split; [apply writes_CharIndex_Internal; try assumption; lia|now apply reads_CharIndex_Internal]. Qed.
Lemma ia5_char : forall ch, 0 < ch < 128 -> char_of ia5_set ch.
Proof.
  intros ch H. split; [lia|]. unfold ia5_set. apply in_map_iff. exists (Z.to_nat ch). split; [lia|]. apply in_seq. lia.
Qed.
Lemma ia5_index_at : forall n a ch, Z.of_nat a <= ch < Z.of_nat (a + n) -> first_index ch (map Z.of_nat (seq a n)) = ch - Z.of_nat a.
Proof.
  induction n; intros a ch H; [lia|]. cbn [seq map first_index]. destruct (Z.eqb_spec ch (Z.of_nat a)); [lia|].
  rewrite IHn by lia. lia.
Qed.
Lemma ia5_bits : forall l, Forall (fun ch => 0 < ch < 128) l -> index_bits ia5_set l = concat (map (Zbits 7) l).
Proof.
  intros l F. unfold index_bits. change (crange 0 (Z.of_nat (length ia5_set) - 1)) with 7%nat. f_equal. apply map_ext_in.
  intros ch Hin. rewrite Forall_forall in F. specialize (F ch Hin). f_equal. unfold ia5_set. rewrite ia5_index_at by lia. lia.
Qed.
Lemma str_ia5 : forall c mem l min (max : nat) dst, c_string mem l -> Forall (fun ch => 0 < ch < 128) l ->
  0 <= min <= Z.of_nat (length l) -> (length l <= max)%nat -> Z.of_nat max < 2 ^ 31 -> (max < length dst)%nat ->
  let bs := concat (map (Zbits 7) l) in
  let n := Zbits (crange min (Z.of_nat max)) (Z.of_nat (length l) - min) in
  writes (Acn_Enc_IA5String_CharIndex_External_Field_Determinant c (Z.of_nat max) mem) tt bs /\
  reads (Acn_Dec_IA5String_CharIndex_External_Field_Determinant c (Z.of_nat max) (Z.of_nat (length l)) dst) (Some (stored l max dst)) bs /\
  writes (Acn_Enc_IA5String_CharIndex_Internal_Field_Determinant c (Z.of_nat max) min mem) tt (n ++ bs) /\
  reads (Acn_Dec_IA5String_CharIndex_Internal_Field_Determinant c (Z.of_nat max) min dst) (Some (stored l max dst)) (n ++ bs).
Proof.
  intros c mem l min max dst Hc F H1 H2 H3 H4 bs n. unfold bs. rewrite <- (ia5_bits l F).
  assert (F2 : Forall (char_of ia5_set) l) by (eapply Forall_impl; [|exact F]; exact ia5_char).
  assert (HS : Z.of_nat (length ia5_set) < 2 ^ 62) by reflexivity.
  destruct (str_index_ext c ia5_set mem l max dst HS Hc F2 H2 H4) as [A1 A2].
  destruct (str_index_int c ia5_set mem l min max dst HS Hc F2 H1 H2 H3 H4) as [A3 A4].
  split; [exact A1|]. split; [exact A2|]. split; [exact A3|exact A4].
Qed.
Lemma stored_terminated : forall l (max : nat) dst, (length l <= max)%nat -> (max < length dst)%nat ->
  length (stored l max dst) = length dst /\ nth max (stored l max dst) 1 = 0 /\ skipn (S max) (stored l max dst) = skipn (S max) dst /\
  (Forall (fun ch => ch <> 0) l -> c_string (stored l max dst) l).
Proof.
  intros l max dst H1 H2. unfold stored. split; [|split; [|split]].
  - rewrite !app_length, repeat_length, skipn_length. lia.
  - rewrite app_nth2 by lia. rewrite app_nth1 by (rewrite repeat_length; lia).
    eapply repeat_spec. apply nth_In. rewrite repeat_length. lia.
  - rewrite skipn_app, skipn_all2 by lia. rewrite skipn_app, repeat_length, skipn_all2 by (rewrite repeat_length; lia).
    cbn [app]. replace (S max - length l - (S max - length l))%nat with 0%nat by lia. reflexivity.
  - intro F. now apply stored_c_string.
Qed.
(** A terminator of more than ten bytes is written whole but only ten are read. *)
Lemma term_refuted : exists p l s s', Forall is_byte p /\ terminates p l /\
  Acn_Enc_UInt_ASCII_VarSize_NullTerminated iso 7 p (Z.of_nat (length p)) (mkbs (repeat 0 13) 12 0 0) = Ok (tt, s) /\ pos s = 96 /\
  bits_of_bytes (firstn 12 (buf s)) = bits_of_bytes (l ++ p) /\
  Acn_Dec_UInt_ASCII_VarSize_NullTerminated p (Z.of_nat (length p)) (mkbs (buf s) 12 0 0) = Ok (Some 7, s') /\ pos s' = 88.
Proof.
  exists [1;2;3;4;5;6;7;8;9;10;11], [55]. do 2 eexists.
  split; [repeat constructor; unfold is_byte; lia|].
  split; [intros i Hi; cbn [length] in Hi; destruct i; [discriminate|lia]|].
  split; [vm_compute; reflexivity|]. repeat (split; [vm_compute; reflexivity|]). vm_compute. reflexivity.
Qed.
(** The decoder for multi-byte terminators writes strVal[max + 1]. *)
Lemma mult_refuted : exists s, wfs s /\
  Acn_Dec_String_Ascii_Null_Terminated_mult 2 [0; 0] 2 (repeat 0 3) s = UB.
Proof.
  exists (mkbs [65; 66; 67; 0; 0; 0] 5 0 0).
  split; [unfold wfs; cbn; repeat split; try lia; repeat constructor; unfold is_byte; lia|]. vm_compute. reflexivity.
Qed.
(** and returns a string longer than max when the array is longer *)
Lemma mult_long_refuted : exists s s' d, wfs s /\
  Acn_Dec_String_Ascii_Null_Terminated_mult 2 [0; 0] 2 (repeat 9 5) s = Ok (Some d, s') /\ c_string d [65; 66; 67].
Proof.
  exists (mkbs [65; 66; 67; 0; 0; 0] 5 0 0). do 2 eexists.
  split; [unfold wfs; cbn; repeat split; try lia; repeat constructor; unfold is_byte; lia|]. split; [vm_compute; reflexivity|].
  exists [9]. split; [reflexivity|]. repeat constructor; lia.
Qed.
(** A character with the top bit set is not encodable as an index: GetCharIndex
    compares it as a negative char and falls back to index 0. *)
Lemma index_high_refuted : exists set ch s s', In ch set /\ is_byte ch /\
  Acn_Enc_String_CharIndex_FixSize iso 1 set 2 [ch] (mkbs [0; 0] 1 0 0) = Ok (tt, s) /\
  Acn_Dec_String_CharIndex_FixSize iso 1 set 2 [0; 0] (mkbs (buf s) 1 0 0) = Ok (Some [65; 0], s') /\ ch <> 65.
Proof.
  exists [65; 200], 200. do 2 eexists. split; [right; left; reflexivity|]. split; [unfold is_byte; lia|].
  split; [vm_compute; reflexivity|]. split; [vm_compute; reflexivity|]. lia.
Qed.

(** ** C21 *)
Lemma len_take_bits : forall n p, 0 <= n <= 8 * Z.of_nat (length p) -> Z.of_nat (length (take_bits n p)) = n.
Proof. intros n p H. unfold take_bits. rewrite firstn_length, len_bits_of_bytes. lia. Qed.
Lemma bit_pattern : forall c p n, Forall is_byte p -> 0 <= n <= 8 * Z.of_nat (length p) ->
  writes (BitStream_AppendBits c p n) tt (take_bits n p) /\
  reads (BitStream_ReadBitPattern p n) (Some true) (take_bits n p) /\
  reads (BitStream_ReadBitPattern_ignore_value n) (Some tt) (take_bits n p).
Proof.
  intros c p n F H. assert (L : Z.of_nat (length (take_bits n p)) = n) by now apply len_take_bits.
  split; [now apply writes_AppendBits|]. split; [|now apply reads_ReadBitPattern_ignore].
  destruct (reads_ReadBitPattern p n (take_bits n p) F H L) as (r & R & I). now rewrite <- (proj2 I eq_refl).
Qed.
Lemma true_false : forall c p q n, Forall is_byte p -> Forall is_byte q ->
  0 <= n <= 8 * Z.of_nat (length p) -> n <= 8 * Z.of_nat (length q) -> take_bits n p <> take_bits n q ->
  forall b : bool, let pat := if b then p else q in
  writes (BitStream_AppendBits c pat n) tt (take_bits n pat) /\
  reads (BitStream_DecodeTrueFalseBoolean p q n) (Some b) (take_bits n pat).
Proof.
  intros c p q n Fp Fq Hp Hq D b pat. unfold pat.
  assert (L : Z.of_nat (length (take_bits n (if b then p else q))) = n) by (apply len_take_bits; destruct b; lia).
  split; [apply writes_AppendBits; destruct b; try assumption; lia|].
  destruct (reads_TrueFalse p q n (take_bits n (if b then p else q)) Fp Fq Hp Hq L) as (r & R & I1 & I2 & _).
  destruct b.
  - rewrite <- (proj2 I1 eq_refl). exact R.
  - rewrite <- (proj2 I2 (conj eq_refl (fun e => D (eq_sym e)))). exact R.
Qed.

(** ** C22 *)
Lemma align_all : forall c s, inside s ->
  (align 8 (pos s) <= 8 * count s ->
   exists s', Acn_AlignToNextByte c s = Ok (tt, s') /\ pos s' = align 8 (pos s) /\ buf s' = buf s /\ count s' = count s /\ curBit s' = 0) /\
  (align 16 (pos s) <= 8 * count s ->
   exists s', Acn_AlignToNextWord c s = Ok (tt, s') /\ pos s' = align 16 (pos s) /\ buf s' = buf s /\ count s' = count s /\ curBit s' = 0) /\
  (align 32 (pos s) <= 8 * count s ->
   exists s', Acn_AlignToNextDWord c s = Ok (tt, s') /\ pos s' = align 32 (pos s) /\ buf s' = buf s /\ count s' = count s /\ curBit s' = 0).
Proof.
  intros c s I.
  assert (G : forall k, 0 <= k -> 8 * (align (8 * 2 ^ k) (pos s) / 8) + 0 = align (8 * 2 ^ k) (pos s)).
  { intros k Hk. unfold align. rewrite (Z.mul_comm 8 (2 ^ k)), Z.mul_assoc, Z.div_mul by lia. lia. }
  split; [|split]; intro H.
  - eexists. split; [now apply AlignByte_run|]. cbn [buf count curBit]. split; [|auto]. unfold pos at 1. cbn [curByte curBit].
    exact (G 0 ltac:(lia)).
  - eexists. split; [apply (AlignN_run c 2 1); [lia|reflexivity|exact I|exact H]|]. cbn [buf count curBit]. split; [|auto].
    unfold pos at 1. cbn [curByte curBit]. exact (G 1 ltac:(lia)).
  - eexists. split; [apply (AlignN_run c 4 2); [lia|reflexivity|exact I|exact H]|]. cbn [buf count curBit]. split; [|auto].
    unfold pos at 1. cbn [curByte curBit]. exact (G 2 ltac:(lia)).
Qed.
Lemma align_spec : forall n p, 0 < n -> p <= align n p < p + n /\ (n | align n p) /\
  (forall q, p <= q -> (n | q) -> align n p <= q).
Proof.
  intros n p H. split; [|split; [apply align_divides|intros; now apply align_least]].
  split; [now apply align_ge|]. unfold align. pose proof (Z.mul_div_le (p + n - 1) n H). nia.
Qed.

(** ** C23 *)
Ltac deferred := intros; eapply writes_deferred; [|eapply overwrites_writes| |eassumption].
Lemma def_U8 : forall {A} c v d0 (body : M A) a bb, writes body a bb ->
  writes (let* d := Acn_InitDet_U8 c d0 in let* x := body in let* r := Acn_PatchDet_U8 c v d in ret (x, fst r, det_value (snd r)))
    (a, true, v) (Zbits 8 v ++ bb).
Proof. deferred; [|apply overwrites_U8|apply overwrites_U8]. now rewrite !len_Zbits. Qed.
Lemma def_UN_BE : forall {A} c size v d0 (body : M A) a bb, 1 <= size <= 8 -> writes body a bb ->
  writes (let* d := Acn_InitDet_UN_BE c size d0 in let* x := body in let* r := Acn_PatchDet_UN_BE c size v d in ret (x, fst r, det_value (snd r)))
    (a, true, v) (Zbits (Z.to_nat (8 * size)) v ++ bb).
Proof. deferred; [|now apply overwrites_BE|now apply overwrites_BE]. now rewrite !len_Zbits. Qed.
Lemma def_UN_LE : forall {A} c size v d0 (body : M A) a bb, 1 <= size <= 8 -> writes body a bb ->
  writes (let* d := Acn_InitDet_UN_LE c size d0 in let* x := body in let* r := Acn_PatchDet_UN_LE c size v d in ret (x, fst r, det_value (snd r)))
    (a, true, v) (bits_of_bytes (le_octets (Z.to_nat size) v) ++ bb).
Proof. deferred; [|now apply overwrites_LE|now apply overwrites_LE]. rewrite !len_bits_of_bytes, !len_le_octets. reflexivity. Qed.
Lemma s64_is : forall v, is_s64 (s64 v).
Proof. exact s64_range. Qed.
Lemma sfits_0 : forall c, sfits c (- 0).
Proof. intros. unfold sfits. left. red. unfold two63. lia. Qed.
Lemma Zbits_s64 : forall k v, (k <= 64)%nat -> Zbits k (s64 v) = Zbits k v.
Proof.
  intros k v H. rewrite <- (Zbits_mod64 k (s64 v)) by assumption. rewrite <- (Zbits_mod64 k v) by assumption. f_equal.
  unfold s64, two64. destruct (_ <? _); lia.
Qed.
Lemma def_I8 : forall {A} c v d0 (body : M A) a bb, sfits c (- s64 v) -> writes body a bb ->
  writes (let* d := Acn_InitDet_I8 c d0 in let* x := body in let* r := Acn_PatchDet_I8 c v d in ret (x, fst r, det_value (snd r)))
    (a, true, v) (Zbits 8 v ++ bb).
Proof.
  intros A c v d0 body a bb H HB. rewrite <- (Zbits_s64 8 v) by lia.
  eapply writes_deferred; [|eapply overwrites_writes| |eassumption].
  2: apply overwrites_I8; [red; unfold two63; lia|apply sfits_0]. 2: apply overwrites_I8; [apply s64_is|assumption].
  now rewrite !len_Zbits.
Qed.
Lemma def_IN_BE : forall {A} c size v d0 (body : M A) a bb, 1 <= size <= 8 -> sfits c (- s64 v) -> writes body a bb ->
  writes (let* d := Acn_InitDet_IN_BE c size d0 in let* x := body in let* r := Acn_PatchDet_IN_BE c size v d in ret (x, fst r, det_value (snd r)))
    (a, true, v) (Zbits (Z.to_nat (8 * size)) v ++ bb).
Proof.
  intros A c size v d0 body a bb Hs H HB. rewrite <- (Zbits_s64 (Z.to_nat (8 * size)) v) by lia.
  eapply writes_deferred; [|eapply overwrites_writes| |eassumption].
  2: apply overwrites_IN_BE; [assumption|red; unfold two63; lia|apply sfits_0].
  2: apply overwrites_IN_BE; [assumption|apply s64_is|assumption].
  now rewrite !len_Zbits.
Qed.
Lemma def_BOOL1 : forall {A} c v d0 (body : M A) a bb, writes body a bb ->
  writes (let* d := Acn_InitDet_BOOL1 c d0 in let* x := body in let* r := Acn_PatchDet_BOOL1 c v d in ret (x, fst r, det_value (snd r)))
    (a, true, v) ([negb (v =? 0)] ++ bb).
Proof. deferred; [|apply overwrites_Bool1|apply overwrites_Bool1]. reflexivity. Qed.
Lemma def_ConstSize : forall {A} c v n d0 (body : M A) a bb, 0 <= n <= 64 -> writes body a bb ->
  writes (let* d := Acn_InitDet_ConstSize c n d0 in let* x := body in let* r := Acn_PatchDet_ConstSize c v n d in ret (x, fst r, det_value (snd r)))
    (a, true, v) (Zbits (Z.to_nat n) v ++ bb).
Proof.
  intros A c v n d0 body a bb H HB. eapply writes_deferred; [| |now apply overwrites_patch_ConstSize|eassumption].
  2: apply writes_ConstSize; [red; unfold two64; lia|lia|lia]. now rewrite !len_Zbits.
Qed.
Lemma def_TwosConstSize : forall {A} c v n d0 (body : M A) a bb, 1 <= n <= 64 -> writes body a bb ->
  writes (let* d := Acn_InitDet_TwosComplement_ConstSize c n d0 in let* x := body in
          let* r := Acn_PatchDet_ConstSize c v n d in ret (x, fst r, det_value (snd r)))
    (a, true, v) (Zbits (Z.to_nat n) v ++ bb).
Proof.
  intros A c v n d0 body a bb H HB. eapply writes_deferred; [| |apply overwrites_patch_ConstSize; lia|eassumption].
  2: apply writes_Twos; [lia|lia|apply sfits_0]. now rewrite !len_Zbits.
Qed.
Lemma def_IA5 : forall {A} c mem l n d0 (body : M A) a bb, c_string mem l -> Z.of_nat (length l) < 2 ^ 31 -> writes body a bb ->
  writes (let* d := Acn_InitDet_IA5String_FixSize c (Z.of_nat n) d0 in let* x := body in
          let* r := Acn_PatchDet_IA5String_FixSize c mem (Z.of_nat n) d in ret (x, fst r))
    (a, true) (ia5_padded l n ++ bb).
Proof.
  intros A c mem l n d0 body a bb Hm Hl WB s pre k tl At Hn Hbs.
  rewrite app_length, len_ia5_padded in Hbs.
  destruct (overwrites_writes _ _ _ _ (overwrites_zero_bits c (n * 7)) s pre k tl At Hn) as (s1 & R1 & At1 & C1).
  { unfold zeros. rewrite repeat_length. lia. }
  assert (LZ : length (zeros (n * 7)) = (n * 7)%nat) by (unfold zeros; now rewrite repeat_length).
  destruct (WB s1 (pre ++ zeros (n * 7)) (k - n * 7)%nat tl) as (s2 & R2 & At2 & C2).
  { rewrite <- LZ at 2. exact At1. }
  { rewrite app_length, C1. lia. }
  { lia. }
  destruct At as (F & E & P & B). destruct At2 as (F2 & E2 & P2 & B2).
  destruct (patch_IA5_run c mem l n (mkdet (curByte s, curBit s) false 0 (0 :: List.tl (det_str d0))) s2 pre (zeros (n * 7))
    (bb ++ zeros (k - n * 7 - length bb) ++ tl) Hm Hl) as (m & R3 & F3 & E3); try assumption; try reflexivity.
  - rewrite E2, <- !app_assoc. reflexivity.
  - rewrite C2, C1. lia.
  - exists (mkbs m (count s2) (curByte s2) (curBit s2)).
    unfold bind at 1. unfold Acn_InitDet_IA5String_FixSize, bind at 1, Acn_BitStream_GetPos, bind at 1, get, ret at 1.
    unfold bind at 1. replace (Z.to_nat (Z.of_nat n * 7)) with (n * 7)%nat by lia.
    rewrite R1. unfold ret at 1. unfold bind at 1. rewrite R2. unfold bind at 1. rewrite R3.
    split; [reflexivity|]. split; [|cbn [count]; lia].
    unfold at_. cbn [buf curByte curBit]. unfold pos in *. cbn [curByte curBit]. split; [assumption|]. split; [|split; [|exact B2]].
    + rewrite E3, app_length, len_ia5_padded, <- !app_assoc, Nat.sub_add_distr. reflexivity.
    + rewrite !app_length, len_ia5_padded in *. lia.
Qed.
Lemma distance : forall a b, 0 <= fst a -> 0 <= snd a < 8 -> 0 <= snd b < 8 -> fst b < 2 ^ 60 ->
  8 * fst a + snd a <= 8 * fst b + snd b ->
  let n := (8 * fst b + snd b) - (8 * fst a + snd a) in
  Acn_BitStream_DistanceInBits a b = n /\ Acn_BitStream_DistanceInBytes a b = (n + 7) / 8.
Proof.
  intros a b H1 H2 H3 H4 H5 n. unfold Acn_BitStream_DistanceInBits, Acn_BitStream_DistanceInBytes, n.
  rewrite Z.quot_div_nonneg by lia. unfold u64, two64.
  split; rewrite Z.mod_small by lia; [lia|]. f_equal. lia.
Qed.

(** ** C24 *)
Lemma real64 : forall le v, is_double v -> exists u, 0 <= u < 2 ^ 64 /\ ieee_value 52 11 u = v /\
  overwrites (Acn_Enc_Real_IEEE754_64_big_endian le v) tt (Zbits 64 u) /\
  reads (Acn_Dec_Real_IEEE754_64_big_endian le) (Some v) (Zbits 64 u) /\
  overwrites (Acn_Enc_Real_IEEE754_64_little_endian le v) tt (bits_of_bytes (le_octets 8 u)) /\
  reads (Acn_Dec_Real_IEEE754_64_little_endian le) (Some v) (bits_of_bytes (le_octets 8 u)).
Proof.
  intros le v H. destruct (double_bits_ok v H) as [R E]. exists (double_bits v). split; [exact R|]. split; [exact E|].
  split; [apply overwrites_real_be|]. split; [|split; [apply overwrites_real_le|]].
  - rewrite <- (app_nil_r (Zbits 64 _)). eapply reads_bindo with (a := double_bits v); [apply reads_real_be; exact R|].
    rewrite E. apply reads_ret.
  - rewrite <- (app_nil_r (bits_of_bytes _)). eapply reads_bindo with (a := double_bits v); [apply reads_real_le; exact R|].
    rewrite E. apply reads_ret.
Qed.
Lemma real32 : forall le v, is_double v -> exists u, 0 <= u < 2 ^ 32 /\ ieee_value 23 8 u = to_float v /\
  overwrites (Acn_Enc_Real_IEEE754_32_big_endian le v) tt (Zbits 32 u) /\
  reads (Acn_Dec_Real_IEEE754_32_big_endian_fp32 le) (Some (to_float v)) (Zbits 32 u) /\
  reads (Acn_Dec_Real_IEEE754_32_big_endian le) (Some (float_to_double (to_float v))) (Zbits 32 u) /\
  overwrites (Acn_Enc_Real_IEEE754_32_little_endian le v) tt (bits_of_bytes (le_octets 4 u)) /\
  reads (Acn_Dec_Real_IEEE754_32_little_endian_fp32 le) (Some (to_float v)) (bits_of_bytes (le_octets 4 u)) /\
  reads (Acn_Dec_Real_IEEE754_32_little_endian le) (Some (float_to_double (to_float v))) (bits_of_bytes (le_octets 4 u)).
Proof.
  intros le v H. assert (HF : is_float (to_float v)) by apply to_float_valid.
  destruct (float_bits_ok _ HF) as [R E]. exists (float_bits (to_float v)). split; [exact R|]. split; [exact E|].
  assert (GB : forall {B} (f : Z -> B), reads (let? u := Acn_dec_real_big_endian le 4 in ret (Some (f u))) (Some (f (float_bits (to_float v)))) (Zbits 32 (float_bits (to_float v)))).
  { intros B f. rewrite <- (app_nil_r (Zbits 32 _)). eapply reads_bindo with (a := float_bits (to_float v)); [apply reads_real_be; exact R|]. apply reads_ret. }
  assert (GL : forall {B} (f : Z -> B), reads (let? u := Acn_dec_real_little_endian le 4 in ret (Some (f u))) (Some (f (float_bits (to_float v)))) (bits_of_bytes (le_octets 4 (float_bits (to_float v))))).
  { intros B f. rewrite <- (app_nil_r (bits_of_bytes _)). eapply reads_bindo with (a := float_bits (to_float v)); [apply reads_real_le; exact R|]. apply reads_ret. }
  split; [apply overwrites_real_be|]. split; [rewrite <- E at 1; apply GB|]. split; [rewrite <- E at 1; apply (GB _ (fun u => float_to_double (ieee_value 23 8 u)))|].
  split; [apply overwrites_real_le|]. split; [rewrite <- E at 1; apply GL|]. rewrite <- E at 1. apply (GL _ (fun u => float_to_double (ieee_value 23 8 u))).
Qed.
Lemma real_pattern64 : forall le u, 0 <= u < 2 ^ 64 -> ieee_value 52 11 u <> S754_nan ->
  is_double (ieee_value 52 11 u) /\
  overwrites (Acn_Enc_Real_IEEE754_64_big_endian le (ieee_value 52 11 u)) tt (Zbits 64 u) /\
  overwrites (Acn_Enc_Real_IEEE754_64_little_endian le (ieee_value 52 11 u)) tt (bits_of_bytes (le_octets 8 u)).
Proof.
  intros le u H N. destruct (ieee_double u H) as [D E]. split; [exact D|].
  split; [pose proof (overwrites_real_be le 8 (double_bits (ieee_value 52 11 u))) as W|pose proof (overwrites_real_le le 8 (double_bits (ieee_value 52 11 u))) as W];
    rewrite (E N) in W at 2; exact W.
Qed.
Lemma real_pattern32 : forall le u, 0 <= u < 2 ^ 32 -> ieee_value 23 8 u <> S754_nan ->
  let v := float_to_double (ieee_value 23 8 u) in
  is_double v /\ to_float v = ieee_value 23 8 u /\
  overwrites (Acn_Enc_Real_IEEE754_32_big_endian le v) tt (Zbits 32 u) /\
  overwrites (Acn_Enc_Real_IEEE754_32_little_endian le v) tt (bits_of_bytes (le_octets 4 u)).
Proof.
  intros le u H N v. destruct (ieee_float u H) as [D E].
  assert (T : to_float v = ieee_value 23 8 u) by (apply to_float_inv; exact D).
  split; [now apply float_is_double|]. split; [exact T|].
  unfold Acn_Enc_Real_IEEE754_32_big_endian, Acn_Enc_Real_IEEE754_32_little_endian. rewrite T.
  split; [pose proof (overwrites_real_be le 4 (float_bits (ieee_value 23 8 u))) as W|pose proof (overwrites_real_le le 4 (float_bits (ieee_value 23 8 u))) as W];
    rewrite (E N) in W at 2; exact W.
Qed.
(** Doubles that a float cannot hold come back rounded. *)
Lemma real32_refuted : exists v, is_double v /\ float_to_double (to_float v) <> v.
Proof.
  exists (S754_finite false 4503599627370497 0). split; [vm_compute; reflexivity|]. vm_compute. discriminate.
Qed.

(** Patching a second time compares the strings. *)
Lemma strncmp0_ok : forall n l t l' t', Forall (fun ch => ch <> 0) l -> Forall (fun ch => ch <> 0) l' ->
  exists e, strncmp0 (l ++ 0 :: t) (l' ++ 0 :: t') n = Ok e /\ (e = true <-> firstn n l = firstn n l').
Proof.
  induction n; intros l t l' t' F F'.
  - exists true. split; [destruct l; reflexivity|]. split; reflexivity.
  - destruct l as [|x l]; destruct l' as [|y l']; cbn [app strncmp0 firstn].
    + exists true. split; [reflexivity|]. split; reflexivity.
    + pose proof (Forall_inv F') as Hy. cbv beta in Hy. destruct (Z.eqb_spec 0 y); [congruence|].
      exists false. split; [reflexivity|]. split; discriminate.
    + pose proof (Forall_inv F) as Hx. cbv beta in Hx. destruct (Z.eqb_spec x 0); [congruence|].
      exists false. split; [reflexivity|]. split; discriminate.
    + pose proof (Forall_inv F) as Hx. cbv beta in Hx. destruct (Z.eqb_spec x y) as [E|N].
      * destruct (Z.eqb_spec x 0); [congruence|]. subst y.
        destruct (IHn l t l' t' (Forall_inv_tail F) (Forall_inv_tail F')) as (e & E1 & E2). exists e. split; [exact E1|].
        rewrite E2. split; intro H; [now f_equal|]. now apply (f_equal (@List.tl Z)) in H.
      * exists false. split; [reflexivity|]. split; [discriminate|]. intro H. apply (f_equal (hd 0)) in H. cbn in H. congruence.
Qed.
Lemma patch_IA5_again : forall c mem l l' n d s, c_string mem l' -> Forall (fun ch => ch <> 0) l ->
  det_set d = true -> det_str d = firstn 255 (l ++ repeat 0 255) ++ [0] ->
  exists e, Acn_PatchDet_IA5String_FixSize c mem (Z.of_nat n) d s = Ok ((e, d), s) /\
    (e = true <-> firstn n (firstn 255 l) = firstn n l').
Proof.
  intros c mem l l' n d s (t' & Em & F') F Hd Hs. unfold Acn_PatchDet_IA5String_FixSize. rewrite Hd. cbn [negb].
  assert (FF : Forall (fun ch => ch <> 0) (firstn 255 l)).
  { rewrite Forall_forall in *. intros x Hx. apply F. rewrite <- (firstn_skipn 255 l). apply in_app_iff. now left. }
  assert (ES : exists t, det_str d = firstn 255 l ++ 0 :: t).
  { rewrite Hs, firstn_app, AcnProofs4.firstn_repeat. destruct (Nat.min (255 - length l) 255) as [|k] eqn:K.
    - exists []. cbn [repeat]. now rewrite app_nil_r.
    - exists (repeat 0 k ++ [0]). cbn [repeat]. rewrite <- app_assoc. reflexivity. }
  destruct ES as [t ES]. destruct (strncmp0_ok n (firstn 255 l) t l' t' FF F') as (e & E1 & E2).
  exists e. split; [|exact E2]. unfold bind, lift, ret. rewrite ES, Em, Nat2Z.id, E1. reflexivity.
Qed.
(** A string of 256 characters is copied with 255: patching it again with the
    same string fails. *)
Lemma patch_IA5_refuted : exists mem l d s s1 d1, c_string mem l /\ Forall (fun ch => 0 < ch < 128) l /\
  Acn_PatchDet_IA5String_FixSize iso mem 256 d s = Ok ((true, d1), s1) /\
  Acn_PatchDet_IA5String_FixSize iso mem 256 d1 s1 = Ok ((false, d1), s1).
Proof.
  exists (repeat 65 256 ++ [0]), (repeat 65 256), (mkdet (0, 0) false 0 []), (mkbs (repeat 0 225) 224 224 0). do 2 eexists.
  split. { exists []. split; [reflexivity|]. apply Forall_forall. intros x Hx. apply repeat_spec in Hx. lia. }
  split. { apply Forall_forall. intros x Hx. apply repeat_spec in Hx. lia. }
  split; [vm_compute; reflexivity|]. vm_compute. reflexivity.
Qed.
