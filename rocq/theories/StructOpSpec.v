(** What an operator on simdized structs means: on every lane, the operator on the structs. *)
From Verif Require Import Base StructOpModel.

Section spec.
  Context {A R : Type} (dummy : A).

  (** The operand of lane i. *)
  Definition lane (i : nat) (x : @operand A) : operand :=
    match x with
    | VecArg l | BaseArg l => StructArg (nth i l [])
    | SimdArg v => SameArg (nth i v dummy)
    | _ => x
    end.

  (** The operator of the scalar code; [None]: ill-formed.  Templates need the exact element type. *)
  Definition scalar_op (o : @operators A R) (x y : @operand A) : option R :=
    match x, y with
    | StructArg s, StructArg t => option_map (fun f => snd f s t) (o_ss o)
    | StructArg s, SameArg a => option_map (fun f => snd f s a) (o_se o)
    | StructArg s, (IntArg a | OtherArg a) =>
        match o_se o with Some (false, f) => Some (f s a) | _ => None end
    | SameArg a, StructArg s => option_map (fun f => snd f a s) (o_es o)
    | (IntArg a | OtherArg a), StructArg s =>
        match o_es o with Some (false, f) => Some (f a s) | _ => None end
    | _, _ => None
    end.

  Definition has_lanes (n : nat) (x : @operand A) : Prop :=
    match x with VecArg l | BaseArg l => length l = n | SimdArg v => length v = n | _ => True end.

  Definition vectorized (x : @operand A) : Prop := exists l, x = VecArg l.
  Definition struct_like (x : @operand A) : Prop :=
    match x with VecArg _ | BaseArg _ | StructArg _ => True | _ => False end.
  Definition element_like (x : @operand A) : Prop :=
    match x with SimdArg _ | SameArg _ | IntArg _ => True | _ => False end.

  (** Operands of scalar code. *)
  Definition scalar_operand (x : @operand A) : Prop :=
    match x with VecArg _ | BaseArg _ | SimdArg _ => False | _ => True end.

  (** One result per lane, each the scalar one; or ill-formed, and so is the scalar operation. *)
  Definition agrees (o : @operators A R) (n : nat) (x y : @operand A) (r : res (list R * bool)) : Prop :=
    match r with
    | Ok (rs, _) => length rs = n
        /\ forall i, (i < n)%nat -> nth_error rs i = scalar_op o (lane i x) (lane i y)
    | Stop s => s = SIllFormed /\ forall i, (i < n)%nat -> scalar_op o (lane i x) (lane i y) = None
    end.
End spec.
