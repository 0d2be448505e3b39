(** Property theorems C82: the order of evaluation in reduce(simd, op), which C++ leaves open. *)
From Verif Require Import Base ExecModel ExecSpec ExecExamples ReduceModel TReduceModel TReduceExamples ScheduleSpec
  RCallsModel RCallsSpec RCallsExamples ROrderSpec ROrderProofs ROrderExamples.
From Coq Require Import Permutation.

(** If the operations answer without looking at their state, the order makes no difference to the value, and the calls
    are the same but for their order; also without the preconditions of C82_calls. *)
Theorem C82_order_unobservable :
  forall (T A St : Type) (rop : St -> list A -> list A -> St * list A) (sop : St -> A -> A -> St * A)
         (tr : St -> list (list T) -> St * list A) (E1 E2 : eval_order) c pol w first last srcs2 (m : mem T) init s s2 es s' x,
    stateless2 rop -> stateless2 sop -> stateless1 tr ->
    transform_reduce_calls (EO := E1) c rop sop tr m pol w first last srcs2 init s = (es, s', Ok x) ->
    exists es2 s2', transform_reduce_calls (EO := E2) c rop sop tr m pol w first last srcs2 init s2 = (es2, s2', Ok x)
      /\ Permutation es es2.
Proof. exact @calls_order. Qed.
Print Assumptions C82_order_unobservable.

(** With state, the calls and the value can depend on it: six elements in one object of six lanes. *)
Theorem C82_order_refuted :
  exists c pol w first last (m : mem Z) es es' s s' x x',
    target_ok c /\ c_ce c = false /\ policy_ok pol /\ width_ok w /\ range_ok first last /\ size_matches pol w first last
    /\ prologue_length c pol w first (last - first) 0 /\ op_keeps_lanes order_op /\ tr_keeps_lanes counting_tr 1
    /\ Forall (fun p => mapped m p (p + (last - first))) [first]
    /\ transform_reduce_calls (EO := left_to_right) c order_op order_scalar counting_tr m pol w first last [] 0 (0%nat, 0%nat)
       = (es, s, Ok x)
    /\ transform_reduce_calls (EO := right_to_left) c order_op order_scalar counting_tr m pol w first last [] 0 (0%nat, 0%nat)
       = (es', s', Ok x')
    /\ es <> es' /\ x <> x'.
Proof. exact order_seen. Qed.
Print Assumptions C82_order_refuted.

(** The two orders, with operations that only count. *)
Example C82_order_case :
  stateless2 counting_op /\ stateless2 counting_scalar /\ stateless1 counting_tr
  /\ transform_reduce_calls (EO := left_to_right) (ex_cfg 4 false false) counting_op counting_scalar counting_tr full_mem
       (pol_unroll 2) 6 0 6 [] 0 (0%nat, 0%nat)
     = ([Transform [0] 6; Reduce 2; Scalar; Scalar; Scalar; Reduce 1], (1%nat, 5%nat), Ok 615)
  /\ transform_reduce_calls (EO := right_to_left) (ex_cfg 4 false false) counting_op counting_scalar counting_tr full_mem
       (pol_unroll 2) 6 0 6 [] 0 (0%nat, 0%nat)
     = ([Transform [0] 6; Scalar; Reduce 2; Scalar; Scalar; Reduce 1], (1%nat, 5%nat), Ok 615).
Proof. repeat split; vm_compute; reflexivity. Qed.
