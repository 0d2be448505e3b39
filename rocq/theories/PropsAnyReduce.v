(** Property theorems C74: vir::transform_reduce and vir::count_if with callables that mix lanes. *)
From Verif Require Import Base ExecModel ExecSpec ExecExamples ReduceSpec TReduceModel TReduceSpec TReduceExamples ScheduleSpec
  OrderSpec CallsSpec AnyReduceSpec CountModel AnyReduceThm CountAny
  AnyReduceExamples.

(** C74 at run time: [vals] are the results of the transform operation for the chunks, which are a function of width,
    length and the number of elements in front of the main loop.  The result is the expression [grouped] (C69) of them,
    in which init and every lane of every result occurs once.  (Nothing left after the prologue: C08.) *)
Theorem C74_transform_reduce :
  forall (T A : Type) (tr : list (list T) -> list A) (op : A -> A -> A) c pol w first last srcs2 (m : mem T) init d,
    target_ok c -> c_ce c = false -> policy_ok pol -> width_ok w -> range_ok first last ->
    size_matches pol w first last ->
    prologue_length c pol w first (last - first) d -> (first = last \/ d < last - first) ->
    keeps_lanes tr (S (length srcs2)) ->
    Forall (fun p => mapped m p (p + (last - first))) (first :: srcs2) ->
    exists vals, (first < last -> chunk_values tr m (first :: srcs2) w d (last - first) vals)
      /\ (first = last -> vals = [])
      /\ transform_reduce c op tr m pol w first last srcs2 init
         = Ok (grouped op (Z.to_nat w) (Z.to_nat (p_unroll pol)) d init vals)
      /\ gsum op (init :: vals) (grouped op (Z.to_nat w) (Z.to_nat (p_unroll pol)) d init vals).
Proof. exact @transform_reduce_any. Qed.
Print Assumptions C74_transform_reduce.

(** There is only one such list. *)
Theorem C74_values_unique :
  forall (T A : Type) (tr : list (list T) -> list A) (m : mem T) srcs w d n vals vals',
    1 <= w -> 0 <= d <= n -> chunk_values tr m srcs w d n vals -> chunk_values tr m srcs w d n vals' -> vals = vals'.
Proof. exact @chunk_values_unique. Qed.
Print Assumptions C74_values_unique.

(** In constant evaluation every chunk is a single element. *)
Theorem C74_consteval :
  forall (T A : Type) (tr : list (list T) -> list A) (op : A -> A -> A) c pol w first last srcs2 (m : mem T) vals init,
    c_ce c = true -> width_ok w -> range_ok first last -> size_matches pol w first last ->
    keeps_lanes tr (S (length srcs2)) ->
    Z.of_nat (length vals) = last - first ->
    (forall i, 0 <= i < last - first -> exists args, Forall2 (fun p x => m (p + i) = Some x) (first :: srcs2) args
                 /\ nth_error vals (Z.to_nat i) = hd_error (tr (map (fun x => [x]) args))) ->
    transform_reduce c op tr m pol w first last srcs2 init = Ok (seq_sum op init vals).
Proof. exact @transform_reduce_any_consteval. Qed.
Print Assumptions C74_consteval.

(** The result depends on the policy, though op is associative and commutative and nothing else differs. *)
Theorem C74_policy_independent_refuted :
  exists c pol pol' w first last (m : mem Z) d d' x x',
    target_ok c /\ c_ce c = false /\ policy_ok pol /\ policy_ok pol' /\ width_ok w /\ range_ok first last
    /\ size_matches pol w first last /\ size_matches pol' w first last
    /\ prologue_length c pol w first (last - first) d /\ prologue_length c pol' w first (last - first) d'
    /\ d < last - first /\ d' < last - first
    /\ keeps_lanes running 1 /\ mapped m first (first + (last - first)) /\ assoc_comm Z.add
    /\ transform_reduce c Z.add running m pol w first last [] 0 = Ok x
    /\ transform_reduce c Z.add running m pol' w first last [] 0 = Ok x' /\ x <> x'.
Proof. exact mixing_refuted. Qed.
Print Assumptions C74_policy_independent_refuted.

(** count_if: the number of true values in all the masks the predicate returns for the chunks of the schedule (C66). *)
Theorem C74_count_if :
  forall (T : Type) (pred : list T -> list bool), keeps_mask pred ->
    forall c lib pol w first last m d,
    target_ok c -> c_ce c = false -> policy_ok pol -> width_ok w -> range_ok first last ->
    size_matches pol w first last -> reaches_alignment c pol w first last ->
    prologue_length c pol w first (last - first) d -> mapped m first last ->
    exists chunks, chunks_at m first (concat (places 0 (schedule w (p_unroll pol) d (last - first)))) chunks
      /\ count_if pred c lib pol w first last m
         = (if true_values pred chunks <=? int_max then Ok (true_values pred chunks) else Stop SUB).
Proof. exact @count_if_any. Qed.
Print Assumptions C74_count_if.

(** In constant evaluation, except for C05_count_if_consteval_refuted (width 2 and an even number of elements). *)
Theorem C74_count_if_consteval :
  forall (T : Type) (pred : list T -> list bool), keeps_mask pred ->
    forall c lib pol w first last m,
    c_ce c = true -> width_ok w -> range_ok first last -> size_matches pol w first last ->
    (w = 2 -> first = last \/ (last - first) mod 2 <> 0) -> mapped m first last ->
    exists chunks, chunks_at m first (concat (places 0 (schedule w 1 0 (last - first)))) chunks
      /\ count_if pred c lib pol w first last m
         = (if true_values pred chunks <=? int_max then Ok (true_values pred chunks) else Stop SUB).
Proof. exact @count_if_any_consteval. Qed.
Print Assumptions C74_count_if_consteval.

(** A predicate that is true for the first lane counts the chunks: 2 in one step, one of 2 and one of 1;
    with prefer_aligned three in front (1, 2 and 4), one of 8, one of 4, one of 1. *)
Example C74_count_cases :
  keeps_mask first_lane
  /\ count_if first_lane (ex_cfg 0 false false) true (pol_unroll 2) 4 0 11 full_mem = Ok 4
  /\ count_if first_lane (ex_cfg 4 false false) true pol_aligned 8 0 20 full_mem = Ok 6
  /\ count_if first_lane (ex_cfg 4 false true) true pol_aligned 8 0 20 full_mem = Ok 3
  /\ prologue_length (ex_cfg 4 false false) pol_aligned 8 0 20 7
  /\ places 0 (schedule 8 0 7 20) = [[(0, 1)]; [(1, 2)]; [(3, 4)]; [(7, 8)]; [(15, 4)]; [(19, 1)]].
Proof.
  split; [exact first_lane_keeps|]. split; [vm_compute; reflexivity|]. split; [vm_compute; reflexivity|].
  split; [vm_compute; reflexivity|]. split; [exact seven_in_front|vm_compute; reflexivity].
Qed.

(** Running totals over chunks of 1, 2, 4 (in front), 8, 4 and 1 of the elements 100, 101, ...; and in constant evaluation. *)
Example C74_cases :
  transform_reduce (ex_cfg 4 false false) Z.add running full_mem pol_aligned 8 0 20 [] 0
  = Ok (fold_right Z.add 0 (concat (map (totals_from 0)
         [[100]; [101; 102]; [103; 104; 105; 106]; [107; 108; 109; 110; 111; 112; 113; 114]; [115; 116; 117; 118]; [119]])))
  /\ transform_reduce (ex_cfg 4 false true) Z.add running full_mem pol_aligned 8 0 20 [] 7 = Ok (20 * 100 + 190 + 7).
Proof. split; vm_compute; reflexivity. Qed.
