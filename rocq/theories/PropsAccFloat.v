(** C80: C79 on the numbers of IEEE 754, with the addition of Flocq's binary formats, rounding to nearest even. The
    proofs use the real numbers of the standard library and hence its axioms. *)
From Verif Require Import Base ExecModel ExecSpec ExecExamples TransformModel ReduceModel TReduceModel
  TReduceSpec ScheduleSpec AccSpec AccFloat AccFloatThm.
From Coq Require Import QArith Qabs.
From Flocq Require Import Core BinarySingleNaN.
#[local] Open Scope Z_scope.

(** It adds up with a relative error of 2^-prec, as long as the exact sum is not above the largest number;
    this includes subnormal numbers. *)
Theorem C80_float_addition :
  forall prec emax (Hprec : Prec_gt_0 prec) (Hemax : Prec_lt_emax prec emax),
    adds_up (float_value prec emax) (fun x => is_finite x = true) (Bplus mode_NE)
      (2 ^ (- prec))%Q (inject_Z (2 ^ prec - 1) * 2 ^ (emax - prec))%Q.
Proof. exact float_adds_up. Qed.
Print Assumptions C80_float_addition.

(** So vir::reduce over floating-point numbers does not overflow, and is that accurate. *)
Theorem C80_float_reduce :
  forall prec emax (Hprec : Prec_gt_0 prec) (Hemax : Prec_lt_emax prec emax)
         c pol w first last (m : mem (binary_float prec emax)) l init d k,
    target_ok c -> c_ce c = false -> policy_ok pol -> width_ok w -> range_ok first last ->
    size_matches pol w first last ->
    prologue_length c pol w first (last - first) d -> (first = last \/ d < last - first) ->
    range_is m first last l ->
    k = Nat.min (length l) (depth_bound (Z.to_nat w) (Z.to_nat (p_unroll pol)) (length l - Z.to_nat d)) ->
    Forall (fun x => is_finite x = true) (init :: l) ->
    ((1 + 2 ^ (- prec)) ^ Z.of_nat k * qsum (map (fun y => Qabs (float_value prec emax y)) (init :: l))
     <= inject_Z (2 ^ prec - 1) * 2 ^ (emax - prec))%Q ->
    exists x, reduce_alg c (Bplus mode_NE) m pol w first last init = Ok x /\ is_finite x = true
      /\ sum_within (float_value prec emax) (2 ^ (- prec)) k (init :: l) x.
Proof. exact reduce_floats. Qed.
Print Assumptions C80_float_reduce.

Theorem C80_float_transform_reduce :
  forall prec emax (Hprec : Prec_gt_0 prec) (Hemax : Prec_lt_emax prec emax)
         (T : Type) (g : list T -> binary_float prec emax) tr c pol w first last srcs2 (m : mem T) vals init d k,
    target_ok c -> c_ce c = false -> policy_ok pol -> width_ok w -> range_ok first last ->
    size_matches pol w first last ->
    prologue_length c pol w first (last - first) d -> (first = last \/ d < last - first) ->
    (forall k, 0 < k -> transforms_at g tr (S (length srcs2)) k) ->
    transformed_are g m (first :: srcs2) (last - first) vals ->
    k = Nat.min (length vals) (depth_bound (Z.to_nat w) (Z.to_nat (p_unroll pol)) (length vals - Z.to_nat d)) ->
    Forall (fun x => is_finite x = true) (init :: vals) ->
    ((1 + 2 ^ (- prec)) ^ Z.of_nat k * qsum (map (fun y => Qabs (float_value prec emax y)) (init :: vals))
     <= inject_Z (2 ^ prec - 1) * 2 ^ (emax - prec))%Q ->
    exists x, transform_reduce c (Bplus mode_NE) tr m pol w first last srcs2 init = Ok x /\ is_finite x = true
      /\ sum_within (float_value prec emax) (2 ^ (- prec)) k (init :: vals) x.
Proof. exact @transform_reduce_floats. Qed.
Print Assumptions C80_float_transform_reduce.

Theorem C80_float_consteval :
  forall prec emax (Hprec : Prec_gt_0 prec) (Hemax : Prec_lt_emax prec emax)
         (T : Type) (g : list T -> binary_float prec emax) tr c pol w first last srcs2 (m : mem T) vals init,
    c_ce c = true -> width_ok w -> range_ok first last -> size_matches pol w first last ->
    transforms_at g tr (S (length srcs2)) 1 ->
    transformed_are g m (first :: srcs2) (last - first) vals ->
    Forall (fun x => is_finite x = true) (init :: vals) ->
    ((1 + 2 ^ (- prec)) ^ (last - first) * qsum (map (fun y => Qabs (float_value prec emax y)) (init :: vals))
     <= inject_Z (2 ^ prec - 1) * 2 ^ (emax - prec))%Q ->
    exists x, transform_reduce c (Bplus mode_NE) tr m pol w first last srcs2 init = Ok x /\ is_finite x = true
      /\ sum_within (float_value prec emax) (2 ^ (- prec)) (length vals) (init :: vals) x.
Proof. exact @transform_reduce_floats_const. Qed.
Print Assumptions C80_float_consteval.

(** 2^24 and fifteen ones in binary32: constant evaluation and a single lane lose all of the ones, eight lanes
    only one of them. *)
Example C80_float_instance :
  range_is ex_floats 0 16 ex_float_list /\ Forall (fun x : binary32 => is_finite x = true) (of_int32 0 :: ex_float_list)
  /\ 8%nat = Nat.min (length ex_float_list) (depth_bound 8 0 (length ex_float_list))
  /\ ((1 + 2 ^ (- 24)) ^ Z.of_nat 8 * qsum (map (fun y => Qabs (float_value 24 128 y)) (of_int32 0 :: ex_float_list))
      <= inject_Z (2 ^ 24 - 1) * 2 ^ (128 - 24))%Q
  /\ (qsum (map (float_value 24 128) (of_int32 0 :: ex_float_list)) == 16777231 # 1)%Q
  /\ ex_float_sum false 8 = Ok (16777230 # 1)%Q /\ ex_float_sum false 1 = Ok (16777216 # 1)%Q
  /\ ex_float_sum true 8 = Ok (16777216 # 1)%Q.
Proof.
  split; [exact ex_floats_range|]. split; [exact ex_floats_finite|]. split; [vm_compute; reflexivity|].
  split; [exact ex_floats_in_range|]. repeat split; vm_compute; reflexivity.
Qed.
