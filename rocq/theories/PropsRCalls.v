(** Property theorems C82: the calls transform_reduce makes to its operations. *)
From Verif Require Import Base ExecModel ExecSpec ExecExamples ReduceModel TReduceModel TReduceExamples ScheduleSpec
  AnyReduceSpec AnyReduceExamples CostSpec RCallsModel RCallsSpec RCallsThm RCallsExamples.

(** C82 at run time: transform_op is called for the chunks of the schedule (C66), from left to right, with the chunk of
    every range; reduce_op is called [reduction_calls] times and combines as many pairs of lanes as there are elements.
    The operations may have effects ([s]), and need not treat lanes separately. *)
Theorem C82_calls :
  forall (T A St : Type) (EO : eval_order) (rop : St -> list A -> list A -> St * list A) (sop : St -> A -> A -> St * A)
         (tr : St -> list (list T) -> St * list A),
    op_keeps_lanes rop ->
    forall c pol w first last srcs2 (m : mem T) init d s,
    target_ok c -> c_ce c = false -> policy_ok pol -> width_ok w -> range_ok first last ->
    size_matches pol w first last ->
    prologue_length c pol w first (last - first) d -> d < last - first -> first < last ->
    tr_keeps_lanes tr (S (length srcs2)) ->
    Forall (fun p => mapped m p (p + (last - first))) (first :: srcs2) ->
    exists es s' x, transform_reduce_calls c rop sop tr m pol w first last srcs2 init s = (es, s', Ok x)
      /\ transforms es = consecutive (first :: srcs2) 0 (concat (schedule w (p_unroll pol) d (last - first)))
      /\ reductions es = reduction_calls w (p_unroll pol) d (last - first)
      /\ pairs es = Z.to_nat (last - first).
Proof. exact @calls_run. Qed.
Print Assumptions C82_calls.

(** 20 elements, 7 of them in front of the main loop, chunks of 8: operations that count their calls. *)
Example C82_case : forall EO : eval_order,
  op_keeps_lanes counting_op /\ tr_keeps_lanes counting_tr 1 /\ target_ok (ex_cfg 4 false false)
  /\ prologue_length (ex_cfg 4 false false) pol_aligned 8 0 20 7
  /\ concat (schedule 8 0 7 20) = [1; 2; 4; 8; 4; 1]%nat /\ reduction_calls 8 0 7 20 = 12%nat
  /\ exists es, ex_calls = (es, (6%nat, 12%nat), Ok 2190) /\ pairs es = 20%nat
     /\ transforms es = [([0], 1); ([1], 2); ([3], 4); ([7], 8); ([15], 4); ([19], 1)].
Proof.
  intros EO. split; [exact counting_op_keeps|]. split; [exact (counting_tr_keeps 0)|]. split; [now apply ex_target|].
  split; [exact seven_in_front|]. split; [vm_compute; reflexivity|]. split; [vm_compute; reflexivity|].
  eexists. split; [vm_compute; reflexivity|]. split; vm_compute; reflexivity.
Qed.

(** Every element is in one chunk. *)
Theorem C82_every_element_once :
  forall (T A St : Type) (EO : eval_order) (rop : St -> list A -> list A -> St * list A) (sop : St -> A -> A -> St * A)
         (tr : St -> list (list T) -> St * list A) c pol w first last srcs2 (m : mem T) init d s,
    op_keeps_lanes rop -> tr_keeps_lanes tr (S (length srcs2)) ->
    target_ok c -> c_ce c = false -> policy_ok pol -> width_ok w -> range_ok first last ->
    size_matches pol w first last ->
    prologue_length c pol w first (last - first) d -> d < last - first -> first < last ->
    Forall (fun p => mapped m p (p + (last - first))) (first :: srcs2) ->
    exists es s' x sizes, transform_reduce_calls c rop sop tr m pol w first last srcs2 init s = (es, s', Ok x)
      /\ transforms es = consecutive (first :: srcs2) 0 sizes /\ covers w (last - first) sizes.
Proof. exact @calls_cover. Qed.
Print Assumptions C82_every_element_once.

(** No more calls of reduce_op than elements: no more than a loop over the elements makes. *)
Theorem C82_no_more_than_elements :
  forall (T A St : Type) (EO : eval_order) (rop : St -> list A -> list A -> St * list A) (sop : St -> A -> A -> St * A)
         (tr : St -> list (list T) -> St * list A) c pol w first last srcs2 (m : mem T) init d s,
    op_keeps_lanes rop -> tr_keeps_lanes tr (S (length srcs2)) ->
    target_ok c -> c_ce c = false -> policy_ok pol -> width_ok w -> range_ok first last ->
    size_matches pol w first last ->
    prologue_length c pol w first (last - first) d -> d < last - first -> first < last ->
    Forall (fun p => mapped m p (p + (last - first))) (first :: srcs2) ->
    exists es s' x, transform_reduce_calls c rop sop tr m pol w first last srcs2 init s = (es, s', Ok x)
      /\ Z.of_nat (reductions es) <= last - first.
Proof. exact @calls_bound. Qed.
Print Assumptions C82_no_more_than_elements.

(** Without a prologue, no way to cover the range by objects of the width or of a smaller power of two takes fewer calls
    of transform_op. *)
Theorem C82_fewest_transforms :
  forall (T A St : Type) (EO : eval_order) (rop : St -> list A -> list A -> St * list A) (sop : St -> A -> A -> St * A)
         (tr : St -> list (list T) -> St * list A) c pol w k first last srcs2 (m : mem T) init s,
    op_keeps_lanes rop -> tr_keeps_lanes tr (S (length srcs2)) ->
    target_ok c -> c_ce c = false -> policy_ok pol -> plain pol -> width_ok w -> w = 2 ^ Z.of_nat k -> range_ok first last ->
    size_matches pol w first last -> first < last ->
    Forall (fun p => mapped m p (p + (last - first))) (first :: srcs2) ->
    exists es s' x, transform_reduce_calls c rop sop tr m pol w first last srcs2 init s = (es, s', Ok x)
      /\ fewest w (last - first) (length (transforms es)).
Proof. exact @calls_fewest. Qed.
Print Assumptions C82_fewest_transforms.

(** In constant evaluation: one call of either per element. *)
Theorem C82_consteval :
  forall (T A St : Type) (EO : eval_order) (rop : St -> list A -> list A -> St * list A) (sop : St -> A -> A -> St * A)
         (tr : St -> list (list T) -> St * list A),
    op_keeps_lanes rop ->
    forall c pol w first last srcs2 (m : mem T) init s,
    c_ce c = true -> width_ok w -> range_ok first last -> size_matches pol w first last -> first < last ->
    tr_keeps_lanes tr (S (length srcs2)) ->
    Forall (fun p => mapped m p (p + (last - first))) (first :: srcs2) ->
    exists es s' x, transform_reduce_calls c rop sop tr m pol w first last srcs2 init s = (es, s', Ok x)
      /\ transforms es = consecutive (first :: srcs2) 0 (repeat 1%nat (Z.to_nat (last - first)))
      /\ reductions es = Z.to_nat (last - first) /\ pairs es = Z.to_nat (last - first).
Proof. exact @calls_const. Qed.
Print Assumptions C82_consteval.

Example C82_consteval_case : forall EO : eval_order,
  exists es, transform_reduce_calls (ex_cfg 4 false true) counting_op counting_scalar counting_tr full_mem
               pol_aligned 8 0 3 [] 0 (0%nat, 0%nat) = (es, (3%nat, 3%nat), Ok 303)
             /\ transforms es = [([0], 1); ([1], 1); ([2], 1)].
Proof. intros EO. eexists. split; [vm_compute; reflexivity|]. vm_compute. reflexivity. Qed.

(** Nothing is called for an empty range. *)
Theorem C82_empty :
  forall (T A St : Type) (EO : eval_order) (rop : St -> list A -> list A -> St * list A) (sop : St -> A -> A -> St * A)
         (tr : St -> list (list T) -> St * list A) c pol w first srcs2 (m : mem T) init s,
    transform_reduce_calls c rop sop tr m pol w first first srcs2 init s = ([], s, Ok init).
Proof. exact @calls_empty. Qed.
Print Assumptions C82_empty.

(** If assume_matching_size() does not hold, the program stops before any call. *)
Theorem C82_mismatch :
  forall (T A St : Type) (EO : eval_order) (rop : St -> list A -> list A -> St * list A) (sop : St -> A -> A -> St * A)
         (tr : St -> list (list T) -> St * list A) c pol w first last srcs2 (m : mem T) init s,
    first < last -> 1 <= w -> p_match pol = true -> ~ (w | last - first) ->
    transform_reduce_calls c rop sop tr m pol w first last srcs2 init s = ([], s, Stop STrap).
Proof. exact @calls_trap. Qed.
Print Assumptions C82_mismatch.

Example C82_mismatch_case : forall EO : eval_order,
  transform_reduce_calls (ex_cfg 4 false false) counting_op counting_scalar counting_tr full_mem
    pol_match 8 0 20 [] 0 (0%nat, 0%nat) = ([], (0%nat, 0%nat), Stop STrap).
Proof. intros EO. vm_compute. reflexivity. Qed.

(** For operations that work lane by lane the value is the one of the properties above (C07, C69, C74). *)
Theorem C82_value :
  forall (T A St : Type) (EO : eval_order) (rop : St -> list A -> list A -> St * list A) (sop : St -> A -> A -> St * A)
         (tr : St -> list (list T) -> St * list A) (op : A -> A -> A) (tr1 : list (list T) -> list A)
         c pol w first last srcs2 (m : mem T) init d s,
    (forall s a b, length a = length b -> snd (rop s a b) = map2 op a b) -> (forall s x y, snd (sop s x y) = op x y) ->
    (forall s chunks, snd (tr s chunks) = tr1 chunks) ->
    target_ok c -> c_ce c = false -> policy_ok pol -> width_ok w -> range_ok first last ->
    size_matches pol w first last ->
    prologue_length c pol w first (last - first) d -> (first = last \/ d < last - first) ->
    keeps_lanes tr1 (S (length srcs2)) ->
    Forall (fun p => mapped m p (p + (last - first))) (first :: srcs2) ->
    exists es s' x, transform_reduce_calls c rop sop tr m pol w first last srcs2 init s = (es, s', Ok x)
      /\ transform_reduce c op tr1 m pol w first last srcs2 init = Ok x.
Proof. exact @calls_value. Qed.
Print Assumptions C82_value.

Example C82_value_case :
  (forall s a b, length a = length b -> snd (counting_op s a b) = map2 Z.add a b)
  /\ (forall s x y, snd (counting_scalar s x y) = x + y)
  /\ (forall s chunks, snd (counting_tr s chunks) = hd [] chunks)
  /\ keeps_lanes (fun chunks : list (list Z) => hd [] chunks) 1
  /\ transform_reduce (ex_cfg 4 false false) Z.add (fun chunks => hd [] chunks) full_mem pol_aligned 8 0 20 [] 0 = Ok 2190.
Proof.
  split; [reflexivity|]. split; [reflexivity|]. split; [reflexivity|]. split; [exact (first_range_keeps 0)|].
  vm_compute. reflexivity.
Qed.
