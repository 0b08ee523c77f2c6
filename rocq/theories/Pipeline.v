(** From the constraints of a type to the uPER functions generated for it:
    ranges by Constraints.v, C types and function bodies chosen from them, and
    the validity function called after decoding. One type assignment at a time;
    the constraints are those of the type and of all types it refers to. *)
From Verif Require Import Base Bits UperTypes ConSpec Constraints Validate.

(** getIntfuncBodyByCons, BackendAst/DAstUPer.fs:162-220: the first constraint
    with an extension marker decides. [p], [w]: the C type; the test of the root
    is printed by ValidationBlockAsStringExpr (DastValidate2.fs:48-53). *)
Definition int_spec (p : bool) (w : Z) (r : range) (cs : list icon) : option ispec :=
  match filter (fun c => match c with Root _ | Root2 _ _ => true | _ => false end) cs with
  | Root a :: _ => obind (getIntTypeConstraintUperRange [a]) (fun ra => Some (IExt ra))
  | Root2 a _ :: _ => obind (getIntTypeConstraintUperRange [a]) (fun ra =>
                      Some (IExt2 ra (fun x => vrun (v_int p w a) x true)))
  | _ => Some (INoExt r)
  end.
(** [slim]: command line option; integers of 8 bytes *)
Definition int_ty (slim : bool) (cs : list icon) : option ty :=
  obind (getIntTypeConstraintUperRange cs) (fun r =>
  let '(p, w) := int_class slim 64 r in
  obind (int_spec p w r cs) (fun i =>
  Some (TRef (isConstraintValid (CPrim (map (AInt p w) cs))) (TInt i p w)))).

(** createIA5StringFunction, DAstUPer.fs:430-480; AcnCreateFromAntlr.fs:1100-1135.
    [d]: the characters of the type. *)
Definition str_ty (d : list Z) (cs : list scon) : option ty :=
  obind (obind (getStringSizeUperRange cs) getSizeMinAndMaxValue) (fun '(a, b) =>
  obind (getSrtingAlphaUperRange d cs) (fun l =>
  Some (TRef (isConstraintValid (CPrim (map AStr cs)))
             (TStr (if Z.of_nat (length l) =? 128 then None else Some l) a b)))).

(** OCTET STRING and BIT STRING *)
Definition fixed_size (a b : Z) : option Z := if a =? b then Some a else None.
Definition oct_ty (cs : list (con (szatom (list Z)))) : option ty :=
  obind (obind (getSizeableUperRange len cs) getSizeMinAndMaxValue) (fun '(a, b) =>
  Some (TRef (isConstraintValid (CPrim (map (AOct (fixed_size a b)) cs))) (TOct a b))).
Definition bit_ty (cs : list (con (szatom (list bool)))) : option ty :=
  obind (obind (getSizeableUperRange len cs) getSizeMinAndMaxValue) (fun '(a, b) =>
  Some (TRef (isConstraintValid (CPrim (map (ABit (fixed_size a b)) cs))) (TBit a b))).
