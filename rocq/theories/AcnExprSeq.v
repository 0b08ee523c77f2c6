(** The generated ACN code of a SEQUENCE with components "present-when expression". *)
From Verif Require Import Base CExpr AcnExpr.
From Coq Require Import String.
Local Open Scope Z_scope.

(** A component: [cond] is its expression, None for a mandatory one. [sets]: whether the C
    statements that encode it assign ret (they do for references to functions, strings, ...,
    and do not for most integers). Its own encoding is abstract here: one item on the wire. *)
Record schild := mksc { sinfo : cinfo; skind : akind; cond : option aexp; sets : bool }.
Definition item : Type := list string -> Z.
(** The struct: flags exist.c and the values of the members by path. *)
Record sval := mksv { exist : string -> bool; fieldv : list string -> Z }.
Definition kids (cs : list schild) : children := map (fun c => (sinfo c, skind c)) cs.
(** The type of a member, and the memory below the parameter pVal. *)
Fixpoint member_kind (k : akind) (l : list string) : option akind :=
  match l with
  | [] => Some k
  | n :: l =>
      match k with
      | ASeq s => match find (fun c => String.eqb (cback (fst c)) n) s with Some (_, k') => member_kind k' l | None => None end
      | _ => None
      end
  end.
Definition memory (seq : children) (sv : sval) : mem := fun r l =>
  if String.eqb r "pVal" then
    match member_kind (ASeq seq) l with
    | Some (AInt s w) => Some ((s, w), fieldv sv l)
    | Some ABool => Some ((false, 8), fieldv sv l)
    | _ => None
    end
  else None.
(** (expression) ? 1 : 0; None: undefined behaviour or no C expression. [txt]: how the text is
    understood by the C compiler. *)
Definition test (seq : children) (sv : sval) (t : cexp) : option bool :=
  match ceval (memory seq sv) t with CV _ z => Some (negb (z =? 0)) | _ => None end.
Definition back (c : schild) : string := cback (sinfo c).
(** sequence_presence_optChild_pres_acn_expression_encode, acn_c.stg:782-785, followed in the
    same statement list by sequence_optional_child_encode, acn_c.stg:882-888 (combinedBody,
    AcnSequence.fs:198-199); then "if (ret)", nestChildItems, AcnPrimitives.fs:285. *)
Fixpoint seq_enc (seq : children) (f : aexp -> cexp) (cs : list schild) (sv : sval) : option (bool * list item) :=
  match cs with
  | [] => Some (true, [])
  | c :: cs =>
      let it : item := fun l => fieldv sv (back c :: l) in
      let r :=
        match cond c with
        | None => Some (true, [it])
        | Some e =>
            match test seq sv (f e) with
            | None => None
            | Some x =>
                let ret := Bool.eqb (exist sv (back c)) x in
                if exist sv (back c) then Some (if sets c then true else ret, [it]) else Some (ret, [])
            end
        end in
      match r with
      | None => None
      | Some (ret, w) =>
          if ret then match seq_enc seq f cs sv with None => None | Some (ret', w') => Some (ret', w ++ w') end
          else Some (false, w)
      end
  end.
(** sequence_presence_optChild_pres_acn_expression_decode, acn_c.stg:786-789, and
    sequence_optional_child_decode, 890-896. None: undefined behaviour or end of input. *)
Definition set_field (sv : sval) (n : string) (it : item) : sval :=
  mksv (exist sv) (fun l => match l with x :: r => if String.eqb x n then it r else fieldv sv l | [] => fieldv sv l end).
Definition set_exist (sv : sval) (n : string) (b : bool) : sval :=
  mksv (fun x => if String.eqb x n then b else exist sv x) (fieldv sv).
Fixpoint seq_dec (seq : children) (f : aexp -> cexp) (cs : list schild) (w : list item) (sv : sval) : option sval :=
  match cs with
  | [] => Some sv
  | c :: cs =>
      let read w sv := match w with [] => None | it :: w => seq_dec seq f cs w (set_field sv (back c) it) end in
      match cond c with
      | None => read w sv
      | Some e =>
          match test seq sv (f e) with
          | None => None
          | Some x => let sv := set_exist sv (back c) x in if x then read w sv else seq_dec seq f cs w sv
          end
      end
  end.
