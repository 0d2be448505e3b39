(** Property theorems C84. *)
From Verif Require Import Base ExecModel ExecSpec ExecExamples ReduceModel TReduceModel TReduceExamples ScheduleSpec
  RCallsModel RCallsSpec RThrowModel RThrowSpec RThrowThm RThrowExamples RStateSpec RStateProofs.

(** C84.  Either nothing throws, and all the calls of C82 are made, or the exception of the last call made leaves the
    algorithm, and the calls are the first ones of C82. *)
Theorem C84_calls :
  forall (T A St : Type) (EO : eval_order) (rop : St -> list A -> list A -> St * option (list A)) (sop : St -> A -> A -> St * option A)
    (tr : St -> list (list T) -> St * option (list A)) c pol w first last srcs2 (m : mem T) init d s,
    reduce_keeps_lanes rop -> transform_keeps_lanes tr (S (length srcs2)) ->
    target_ok c -> c_ce c = false -> policy_ok pol -> width_ok w -> range_ok first last ->
    size_matches pol w first last ->
    prologue_length c pol w first (last - first) d -> d < last - first -> first < last ->
    Forall (fun p => mapped m p (p + (last - first))) (first :: srcs2) ->
    let all := consecutive (first :: srcs2) 0 (concat (schedule w (p_unroll pol) d (last - first))) in
    exists es s' o, transform_reduce_throwing c rop sop tr m pol w first last srcs2 init s = (es, s', o)
      /\ match o with
         | Ends (Ok x) => transforms es = all /\ reductions es = reduction_calls w (p_unroll pol) d (last - first)
                          /\ pairs es = Z.to_nat (last - first)
         | Ends (Stop _) => False
         | Throws => (exists es0 e, es = es0 ++ [e] /\ threw rop sop tr m e s')
                     /\ (exists rest, transforms es ++ rest = all)
                     /\ (reductions es <= reduction_calls w (p_unroll pol) d (last - first))%nat
                     /\ (pairs es <= Z.to_nat (last - first))%nat
         end.
Proof. exact @throwing_run. Qed.
Print Assumptions C84_calls.

(** In every case, also in constant evaluation and where the behaviour is undefined: whatever the call that throws would
    have returned instead, the same calls would have been made before it. *)
Theorem C84_prefix :
  forall (T A St : Type) (EO : eval_order) (rop : St -> list A -> list A -> St * option (list A)) (sop : St -> A -> A -> St * option A)
    (tr : St -> list (list T) -> St * option (list A)) rop' sop' tr',
    reduce_completes rop' rop -> scalar_completes sop' sop -> transform_completes tr' tr ->
    forall c pol w first last srcs2 (m : mem T) init s,
    match transform_reduce_throwing c rop sop tr m pol w first last srcs2 init s with
    | (es, s', Ends r) => transform_reduce_calls c rop' sop' tr' m pol w first last srcs2 init s = (es, s', r)
    | (es, s', Throws) =>
        (exists es0 e, es = es0 ++ [e] /\ threw rop sop tr m e s')
        /\ exists es2 s2 r, transform_reduce_calls c rop' sop' tr' m pol w first last srcs2 init s = (es ++ es2, s2, r)
    end.
Proof. exact @throwing_prefix. Qed.
Print Assumptions C84_prefix.

(** Operations that do not throw: no difference. *)
Theorem C84_nothrow :
  forall (T A St : Type) (EO : eval_order) (rop : St -> list A -> list A -> St * list A) (sop : St -> A -> A -> St * A)
    (tr : St -> list (list T) -> St * list A) c pol w first last srcs2 (m : mem T) init s,
    transform_reduce_throwing c (fun s a b => (fst (rop s a b), Some (snd (rop s a b))))
      (fun s x y => (fst (sop s x y), Some (snd (sop s x y)))) (fun s ch => (fst (tr s ch), Some (snd (tr s ch))))
      m pol w first last srcs2 init s
    = let '(es, s', r) := transform_reduce_calls c rop sop tr m pol w first last srcs2 init s in (es, s', Ends r).
Proof. exact @throwing_never. Qed.
Print Assumptions C84_nothrow.

(** Every call finds the state the call before it has left, the one that throws included. *)
Theorem C84_state :
  forall (T A St : Type) (EO : eval_order) (rop : St -> list A -> list A -> St * option (list A)) (sop : St -> A -> A -> St * option A)
    (tr : St -> list (list T) -> St * option (list A)) c pol w first last srcs2 (m : mem T) init s,
    match transform_reduce_throwing c rop sop tr m pol w first last srcs2 init s with
    | (es, s', Ends (Ok _)) => calls_from rop sop tr m s es s'
    | (_, _, Ends (Stop _)) => True
    | (es, s', Throws) =>
        exists es0 e s0, es = es0 ++ [e] /\ calls_from rop sop tr m s es0 s0 /\ call_step rop sop tr m true e s0 s'
    end.
Proof. exact @throwing_state'. Qed.
Print Assumptions C84_state.

(** The same for C82. *)
Theorem C82_state :
  forall (T A St : Type) (EO : eval_order) (rop : St -> list A -> list A -> St * list A) (sop : St -> A -> A -> St * A)
    (tr : St -> list (list T) -> St * list A) c pol w first last srcs2 (m : mem T) init s es s' x,
    transform_reduce_calls c rop sop tr m pol w first last srcs2 init s = (es, s', Ok x) ->
    calls_from (fun s a b => (fst (rop s a b), Some (snd (rop s a b)))) (fun s x y => (fst (sop s x y), Some (snd (sop s x y))))
               (fun s ch => (fst (tr s ch), Some (snd (tr s ch)))) m s es s'.
Proof. exact @calls_state. Qed.
Print Assumptions C82_state.

(** The seven elements in front of the main loop are chunks of 1, 2 and 4; then one of 8; the chunk [15, 19) has the element
    transform_op throws at.  Or reduce_op throws at its second call, on scalars. *)
Example C84_case : forall EO : eval_order,
  reduce_keeps_lanes (op_throws 0) /\ transform_keeps_lanes tr_throws 1
  /\ (exists es, ex_throws 0 tr_throws = (es, (5%nat, 7%nat), Throws)
       /\ transforms es = [([0], 1); ([1], 2); ([3], 4); ([7], 8); ([15], 4)] /\ reductions es = 7%nat)
  /\ ex_throws 2 tr_returns = ([Transform [0] 1; Reduce 1; Transform [1] 2; Scalar], (2%nat, 2%nat), Throws)
  /\ (exists es, ex_throws 0 tr_returns = (es, (6%nat, 12%nat), Ends (Ok 2190))).
Proof.
  intros EO. split; [exact (op_throws_keeps 0)|]. split; [exact (tr_throws_keeps 0)|].
  split; [eexists; repeat split; vm_compute; reflexivity|]. split; [vm_compute; reflexivity|].
  eexists. vm_compute. reflexivity.
Qed.
