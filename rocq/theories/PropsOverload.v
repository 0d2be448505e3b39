(** Property theorems C56: the conditions where and the reductions of scalars accept. *)
From Verif Require Import Base OverloadModel OverloadSpec OverloadProofs.

(** C56.  Of the arithmetic types and enumerations, bool alone.  Missing: pointers (below). *)
Theorem C56_reduction_exact_bool_partial : forall s, arithmetic s -> (reduction_accepts s = true <-> s = SBool).
Proof. exact reductions_arithmetic. Qed.
Print Assumptions C56_reduction_exact_bool_partial.

Theorem C56_where_exact_bool_partial : forall s v c, arithmetic s ->
  ((exists e, where_call (CScalar s) v c = Accepted e) <-> s = SBool /\ ~ is_simd v).
Proof. exact where_arithmetic. Qed.
Print Assumptions C56_where_exact_bool_partial.

(** Pointers pass for bool. *)
Theorem C56_exact_bool_refuted : SPointer <> SBool /\ reduction_accepts SPointer = true
  /\ forall t, where_call (CScalar SPointer) (VOther t) Lvalue = Accepted (mkexpr true None (VOther t)).
Proof. split; [discriminate|]. split; reflexivity. Qed.
Print Assumptions C56_exact_bool_refuted.

(** All types: bool and pointers, nothing else. *)
Theorem C56_reduction_accepts_iff : forall s, reduction_accepts s = true <-> s = SBool \/ s = SPointer.
Proof. exact reductions_iff. Qed.
Print Assumptions C56_reduction_accepts_iff.

(** All calls of where: a mask of the value, or such a scalar with anything but a simd. *)
Theorem C56_where_accepts_iff : forall k v c, (exists e, where_call k v c = Accepted e) <->
  mask_for k v \/ ((k = CScalar SBool \/ k = CScalar SPointer) /\ ~ is_simd v).
Proof. exact where_iff. Qed.
Print Assumptions C56_where_accepts_iff.

(** Only a non-const lvalue can be written through the result; the result refers to the value, with the
    value's own mask type, or bool exactly for scalar conditions. *)
Theorem C56_where_result : forall k v c e, where_call k v c = Accepted e ->
  (e_writable e = true <-> c = Lvalue) /\ e_value e = v /\ (e_mask e = None <-> exists s, k = CScalar s)
  /\ forall t a, e_mask e = Some (t, a) -> v = VSimd t a \/ v = VMask t a.
Proof. exact where_writable. Qed.
Print Assumptions C56_where_result.

Example C56_instances :
  arithmetic SArith
  /\ where_call (CScalar SBool) (VOther 7) Lvalue = Accepted (mkexpr true None (VOther 7))
  /\ where_call (CScalar SBool) (VOther 7) ConstLvalue = Accepted (mkexpr false None (VOther 7))
  /\ where_call (CScalar SInt) (VOther 7) Lvalue = Rejected
  /\ where_call (CScalar SArith) (VOther 7) Lvalue = Rejected
  /\ where_call (CScalar SBool) (VSimd 7 (AFixed 4)) Lvalue = Rejected
  /\ where_call (CMask 7 AScalar) (VSimd 7 AScalar) Rvalue = Accepted (mkexpr false (Some (7, AScalar)) (VSimd 7 AScalar))
  /\ where_call (CMask 8 (AFixed 4)) (VSimd 7 (AFixed 4)) Lvalue
     = Accepted (mkexpr true (Some (7, AFixed 4)) (VSimd 7 (AFixed 4)))
  /\ where_call (CMask 8 AScalar) (VSimd 7 AScalar) Lvalue = Rejected
  /\ where_call (CScalar SBool) (VMask 7 AScalar) Lvalue = Accepted (mkexpr true None (VMask 7 AScalar)).
Proof. split; [unfold arithmetic; tauto|]. repeat split. Qed.
