(** Machine model shared by all files: outcomes, configuration, machine
    integers, the BitStream state and its monad. *)
From Coq Require Export ZArith List Bool Lia.
Export ListNotations.
Open Scope Z_scope.

(** Result of running a C function.
    [Abort]   : an [assert] failed;
    [UB]      : undefined behaviour (out-of-bounds access, signed overflow...);
    [Diverge] : a model loop ran out of fuel. *)
Inductive outcome (A : Type) : Type :=
| Ok (a : A)
| Abort
| UB
| Diverge.
Arguments Ok {A} a.
Arguments Abort {A}.
Arguments UB {A}.
Arguments Diverge {A}.

Definition obind {A B} (m : outcome A) (k : A -> outcome B) : outcome B :=
  match m with
  | Ok a => k a
  | Abort => Abort
  | UB => UB
  | Diverge => Diverge
  end.

(** Build configuration.
    [ndebug]   : asserts are compiled out (NDEBUG, asn1crt.h:300-318, assert.h);
    [ovf_wrap] : signed + and - wrap (gcc -fwrapv) instead of being UB;
    [shl_wrap] : << on a signed value that does not fit wraps (gcc) instead of
                 being UB (ISO C99 6.5.7p4). *)
Record cfg : Type := mkcfg {
  ndebug : bool;
  ovf_wrap : bool;
  shl_wrap : bool
}.

(** Strict ISO C with asserts on, and the gcc -fwrapv configuration. *)
Definition iso : cfg := mkcfg false false false.
Definition gcc : cfg := mkcfg false false true.
Definition wrapv : cfg := mkcfg false true true.

(** ** Machine integers (WORD_SIZE = 8, asn1crt.h:44-46, 103-126) *)
Definition two32 : Z := 2 ^ 32.
Definition two63 : Z := 2 ^ 63.
Definition two64 : Z := 2 ^ 64.

Definition byte_of (x : Z) : Z := x mod 256.          (* (byte)x *)
Definition u32 (x : Z) : Z := x mod two32.            (* (asn1SccUint32)x *)
Definition u64 (x : Z) : Z := x mod two64.            (* (asn1SccUint)x *)
Definition s64 (x : Z) : Z :=                         (* (asn1SccSint)x, two's complement *)
  let m := x mod two64 in if m <? two63 then m else m - two64.
Definition s32 (x : Z) : Z :=                         (* (int)x *)
  let m := x mod two32 in if m <? 2 ^ 31 then m else m - two32.

Definition is_byte (b : Z) : Prop := 0 <= b < 256.
Definition is_u32 (x : Z) : Prop := 0 <= x < two32.
Definition is_u64 (x : Z) : Prop := 0 <= x < two64.
Definition is_s64 (x : Z) : Prop := - two63 <= x < two63.

Definition in_s64 (x : Z) : bool := (- two63 <=? x) && (x <? two63).

(** A signed 64-bit result: exact if representable, otherwise wrapped or UB. *)
Definition sres (c : cfg) (x : Z) : outcome Z :=
  if in_s64 x then Ok x else if ovf_wrap c then Ok (s64 x) else UB.

(** Signed left shift [x << k]. *)
Definition sshl (c : cfg) (x k : Z) : outcome Z :=
  let r := x * 2 ^ k in
  if (0 <=? x) && in_s64 r then Ok r else if shl_wrap c then Ok (s64 r) else UB.

(** ** The BitStream (asn1crt.h:151-164).  [buf] is the memory reachable
    through the pointer; [count] is the declared size. pushDataPrm and
    fetchDataPrm are NULL (non-streaming build). *)
Record bstream : Type := mkbs {
  buf : list Z;
  count : Z;
  curByte : Z;
  curBit : Z
}.

Definition M (A : Type) : Type := bstream -> outcome (A * bstream).

Definition ret {A} (a : A) : M A := fun s => Ok (a, s).
Definition bind {A B} (m : M A) (k : A -> M B) : M B :=
  fun s => match m s with
           | Ok (a, s') => k a s'
           | Abort => Abort
           | UB => UB
           | Diverge => Diverge
           end.
Definition lift {A} (m : outcome A) : M A :=
  fun s => match m with
           | Ok a => Ok (a, s)
           | Abort => Abort
           | UB => UB
           | Diverge => Diverge
           end.
Definition get : M bstream := fun s => Ok (s, s).
Definition set_cur (cb ci : Z) : M unit :=
  fun s => Ok (tt, mkbs (buf s) (count s) cb ci).
Definition ub {A} : M A := fun _ => UB.
Definition diverge {A} : M A := fun _ => Diverge.

Notation "'let*' x := m 'in' k" := (bind m (fun x => k))
  (at level 200, x pattern, m at level 100, k at level 200, right associativity).
Notation "m ;;; k" := (bind m (fun _ => k))
  (at level 61, right associativity).

(** assert(b) *)
Definition massert (c : cfg) (b : bool) : M unit :=
  fun s => if b || ndebug c then Ok (tt, s) else Abort.

(** ASSERT_OR_RETURN_FALSE(b) (asn1crt.h:316); the continuation runs only when
    b holds. *)
Definition assert_or_false {A} (c : cfg) (b : bool) (k : M (option A)) : M (option A) :=
  massert c b ;;; if b then k else ret None.

(** Continue only on success of a decoder returning [flag] and a value. *)
Definition bindo {A B} (m : M (option A)) (k : A -> M (option B)) : M (option B) :=
  let* r := m in match r with Some a => k a | None => ret None end.
Notation "'let?' x := m 'in' k" := (bindo m (fun x => k))
  (at level 200, x pattern, m at level 100, k at level 200, right associativity).

(** Indexed access; outside the memory it is undefined behaviour. *)
Definition nthZ (l : list Z) (i : Z) : outcome Z :=
  if i <? 0 then UB
  else match nth_error l (Z.to_nat i) with Some b => Ok b | None => UB end.

Fixpoint upd {A} (l : list A) (i : nat) (v : A) : list A :=
  match l, i with
  | [], _ => []
  | _ :: t, O => v :: t
  | h :: t, S j => h :: upd t j v
  end.

Definition updZ (l : list Z) (i v : Z) : outcome (list Z) :=
  if (i <? 0) || (Z.of_nat (length l) <=? i) then UB
  else Ok (upd l (Z.to_nat i) v).

(** pBitStrm->buf[i] *)
Definition rd (i : Z) : M Z :=
  fun s => match nthZ (buf s) i with
           | Ok b => Ok (b, s) | Abort => Abort | UB => UB | Diverge => Diverge end.

(** pBitStrm->buf[i] = v *)
Definition wr (i v : Z) : M unit :=
  fun s => match updZ (buf s) i v with
           | Ok m => Ok (tt, mkbs m (count s) (curByte s) (curBit s))
           | Abort => Abort | UB => UB | Diverge => Diverge end.

(** A constant table. *)
Definition tbl (l : list Z) (i : Z) : M Z := lift (nthZ l i).
