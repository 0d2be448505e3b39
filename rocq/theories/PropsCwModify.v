(** Property theorems C70: &, *, ++, --, assignments and -> of constexpr_wrapper. *)
From Verif Require Import Base CwModifyModel CwModifySpec CwModifyProofs CwModifyExamples.

(** C70: *w, ++w, w++, --w and w-- give a wrapper exactly if the operator gives a constant for the value, and
    then the wrapper of that constant (README.md 501-505). *)
Theorem C70_unary_iff :
  forall sv u1 lvalue op v r, op <> AddressOf ->
    (unary sv u1 lvalue op v = RWrapped r <-> expr1 sv u1 op (named v) v = Constant r).
Proof. exact unary_wrapped_iff. Qed.
Print Assumptions C70_unary_iff.

(** Exactly when they compile: if the operator can be applied to the value, unless it is a member of the
    value's class and gives no constant. *)
Theorem C70_unary_accepted_iff :
  forall sv u1 lvalue op v, op <> AddressOf ->
    (unary sv u1 lvalue op v <> RIllFormed <->
     expr1 sv u1 op (named v) v <> IllFormed /\
     (is_class v = true -> expr1 sv u1 op (named v) v = NotConstant ->
      exists f, u1 op v = Some f /\ f_member f = false)).
Proof. exact unary_accepted_iff. Qed.
Print Assumptions C70_unary_accepted_iff.

Example C70_unary_case :
  unary ex_static ex_user1 true PreInc (Cls 1 0) = RWrapped (Num 5 1) /\
  unary ex_static ex_user1 true PostDec (Cls 1 0) = RWrapped (Num 5 4) /\
  unary ex_static ex_user1 true Deref (Addr (Static 8)) = RWrapped (Num 5 42) /\
  unary ex_static ex_user1 true Deref (Addr (Static 7)) = RPlain /\
  unary ex_static ex_user1 true Deref (Num 5 1) = RIllFormed /\
  unary ex_static ex_user1 true PreInc (Cls 2 0) = RIllFormed /\
  unary ex_static ex_user1 true PreInc (Cls 3 0) = RPlain /\
  unary ex_static ex_user1 true PreInc (Cls 4 0) = RIllFormed.
Proof. repeat split; reflexivity. Qed.

(** Scalars are never incremented or decremented. *)
Theorem C70_scalar_modification_rejected :
  forall sv u1 lvalue op v, is_class v = false -> op <> AddressOf -> op <> Deref ->
    unary sv u1 lvalue op v = RIllFormed.
Proof. exact scalar_modification. Qed.
Print Assumptions C70_scalar_modification_rejected.

(** The address of a scalar constant: &w is the address of the wrapper object instead, and an error if w is
    no lvalue, although value has an address that could be wrapped. *)
Theorem C70_address_of_scalar_refuted :
  forall sv u1 v, is_class v = false ->
    expr1 sv u1 AddressOf (named v) v = Constant (Addr (Member v)) /\
    unary sv u1 true AddressOf v = RAddress /\ unary sv u1 false AddressOf v = RIllFormed.
Proof. exact address_scalar. Qed.
Print Assumptions C70_address_of_scalar_refuted.

(** The address of a constant of class type is that of an object with the same value, but not of w.value,
    to which w-> points. *)
Theorem C70_address_of_class :
  forall sv u1 lvalue t d, u1 AddressOf (Cls t d) = None ->
    expr1 sv u1 AddressOf (named (Cls t d)) (Cls t d) = Constant (Addr (Member (Cls t d))) /\
    unary sv u1 lvalue AddressOf (Cls t d) = RWrapped (Addr (Param (Cls t d))) /\
    object_at sv (Param (Cls t d)) = Some (Cls t d).
Proof. exact address_class. Qed.
Print Assumptions C70_address_of_class.

Theorem C70_two_objects_refuted :
  exists v p q, unary ex_static ex_user1 true AddressOf v = RWrapped (Addr p) /\
    arrow ex_arrow v = Ok (q, true) /\ ~ same_object p q.
Proof. exists (Cls 1 0), (Param (Cls 1 0)), (Member (Cls 1 0)). repeat split. discriminate. Qed.
Print Assumptions C70_two_objects_refuted.

(** *&w is w. *)
Theorem C70_deref_address :
  forall sv u1 lvalue lvalue' v w, unary sv u1 lvalue AddressOf v = RWrapped w -> u1 AddressOf v = None ->
    unary sv u1 lvalue' Deref w = RWrapped v.
Proof. exact deref_address. Qed.
Print Assumptions C70_deref_address.

Example C70_deref_address_case :
  unary ex_static ex_user1 true AddressOf (Cls 1 0) = RWrapped (Addr (Param (Cls 1 0))) /\
  ex_user1 AddressOf (Cls 1 0) = None /\
  unary ex_static ex_user1 true Deref (Addr (Param (Cls 1 0))) = RWrapped (Cls 1 0).
Proof. repeat split. Qed.

(** Compound assignments give a wrapper exactly if both operands are constants for which the operator gives
    a constant. *)
Theorem C70_compound_iff :
  forall u2 n a b r,
    compound u2 n a b = RWrapped r <->
    exists x y, has_constant a x /\ has_constant b y /\ gives u2 (Compound n) x y r.
Proof. exact compound_gives_iff. Qed.
Print Assumptions C70_compound_iff.

(** Where the operator is built in there is an error with a wrapper on the left; *)
Theorem C70_compound_builtin :
  forall u2 n v b, u2 (Compound n) v (converted b) = None -> compound u2 n (OWrap v) b = RIllFormed.
Proof. exact compound_builtin_rejected. Qed.
Print Assumptions C70_compound_builtin.

(** a variable on the left is modified, with the value of the wrapper, exactly if the operator is built in for the
    types or declared by a class. *)
Theorem C70_compound_variable_iff :
  forall u2 n v b,
    (compound u2 n (ORun v) b = RPlain <-> built_in n v (converted b) \/ u2 (Compound n) v (converted b) <> None)
    /\ (compound u2 n (ORun v) b = RPlain \/ compound u2 n (ORun v) b = RIllFormed).
Proof. exact compound_run_iff. Qed.
Print Assumptions C70_compound_variable_iff.

Example C70_compound_case :
  compound ex_user2 0 (OWrap (Cls 1 0)) (OWrap (Num 6 3)) = RWrapped (Num 5 4) /\
  compound ex_user2 1 (OWrap (Cls 1 0)) (OConst (Num 6 3)) = RWrapped (Num 5 2) /\
  compound ex_user2 0 (OConst (Cls 1 0)) (OWrap (Num 6 3)) = RWrapped (Num 5 4) /\
  compound ex_user2 0 (OWrap (Num 5 1)) (OWrap (Num 5 3)) = RIllFormed /\
  compound ex_user2 2 (ORun (Num 5 1)) (OWrap (Num 5 3)) = RPlain /\
  compound ex_user2 0 (ORun (Addr (Static 7))) (OWrap (Num 5 3)) = RPlain /\
  compound ex_user2 2 (ORun (Addr (Static 7))) (OWrap (Num 5 3)) = RIllFormed.
Proof. repeat split; reflexivity. Qed.

(** So does assignment, unless the wrapper is not const and both have the same type. *)
Theorem C70_assign_iff :
  forall u2 const same v b r,
    assign u2 const same v b = RWrapped r <->
    (const = true \/ same = false) /\ exists y, has_constant b y /\ gives u2 Assign v y r.
Proof. exact assign_gives_iff. Qed.
Print Assumptions C70_assign_iff.

(** Then w = w gives w whatever the operator of the class would give. *)
Theorem C70_assign_same_refuted :
  exists u2 v r, expr2 u2 Assign v v = Constant r /\
    assign u2 true true v (OWrap v) = RWrapped r /\ assign u2 false true v (OWrap v) = RSelf.
Proof. exists ex_user2, (Cls 5 1), (Num 5 2). repeat split. Qed.
Print Assumptions C70_assign_same_refuted.

Theorem C70_assign_builtin_rejected :
  forall u2 const same v b, const = true \/ same = false ->
    (forall y, u2 Assign v y = None) -> assign u2 const same v b = RIllFormed.
Proof. exact assign_builtin_rejected. Qed.
Print Assumptions C70_assign_builtin_rejected.

Example C70_assign_case :
  assign ex_user2 false false (Cls 1 0) (OWrap (Num 6 3)) = RWrapped (Num 5 3) /\
  assign ex_user2 true false (Num 5 1) (OWrap (Num 5 2)) = RIllFormed.
Proof. split; reflexivity. Qed.

(** w-> points to what value-> points to, if value has an operator-> (that returns a pointer), and to value if
    not (constexpr_wrapper.h 25-26). *)
Theorem C70_arrow :
  forall ua v,
    (forall p c, native_arrow ua v = Some (p, c) -> arrow ua v = Ok (p, true)) /\
    ((forall f, ua v = Some f -> a_const f = false) -> arrow ua v = Ok (Member v, true)).
Proof. intros ua v. split; [exact (arrow_native ua v)|exact (arrow_value ua v)]. Qed.
Print Assumptions C70_arrow.

(** It fails exactly if that operator-> returns an object with another operator->. *)
Theorem C70_arrow_rejected_iff :
  forall ua v, arrow ua v = Stop SIllFormed <-> exists f, ua v = Some f /\ a_const f = true /\ a_result f = None.
Proof. exact arrow_rejected_iff. Qed.
Print Assumptions C70_arrow_rejected_iff.

(** Finding: through w-> the object can never be modified, even where it can be through value->. *)
Theorem C70_arrow_const_refuted :
  exists ua v p, native_arrow ua v = Some (p, false) /\ forall q c, arrow ua v = Ok (q, c) -> c = true.
Proof. exists ex_arrow, (Cls 6 0), (Static 7). split; [reflexivity|]. intros q c H. now injection H. Qed.
Print Assumptions C70_arrow_const_refuted.

Example C70_arrow_case :
  arrow ex_arrow (Cls 1 0) = Ok (Member (Cls 1 0), true) /\ arrow ex_arrow (Num 5 3) = Ok (Member (Num 5 3), true) /\
  arrow ex_arrow (Cls 6 0) = Ok (Static 7, true) /\ arrow ex_arrow (Cls 8 0) = Stop SIllFormed /\
  arrow ex_arrow (Cls 9 0) = Ok (Member (Cls 9 0), true).
Proof. repeat split; reflexivity. Qed.
