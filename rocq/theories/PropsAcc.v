(** C79: how deep the expression is that vir::transform_reduce and vir::reduce compute, and what follows
    for the accuracy of sums. *)
From Verif Require Import Base ExecModel ExecSpec ExecExamples TransformModel ReduceModel ReduceSpec TReduceModel
  TReduceSpec TReduceExamples ScheduleSpec OrderSpec OrderExamples AccSpec AccThm AccExamples.
From Coq Require Import Permutation QArith Qabs.
#[local] Open Scope Z_scope.

(** Every element, and the initial value, occurs once in an expression that is no deeper than the main
    loop has iterations, plus two for every halving of the width. *)
Theorem C79_depth :
  forall (T A : Type) (g : list T -> A) (tr : list (list T) -> list A) (op : A -> A -> A)
         c pol w first last srcs2 (m : mem T) vals init d,
    target_ok c -> c_ce c = false -> policy_ok pol -> width_ok w -> range_ok first last ->
    size_matches pol w first last ->
    prologue_length c pol w first (last - first) d -> (first = last \/ d < last - first) ->
    (forall k, 0 < k -> transforms_at g tr (S (length srcs2)) k) ->
    transformed_are g m (first :: srcs2) (last - first) vals ->
    exists t, transform_reduce c op tr m pol w first last srcs2 init = Ok (value op t)
      /\ Permutation (elems t) (init :: vals)
      /\ (depth t <= length vals)%nat
      /\ (depth t <= depth_bound (Z.to_nat w) (Z.to_nat (p_unroll pol)) (length vals - Z.to_nat d))%nat.
Proof. exact @transform_reduce_depth. Qed.
Print Assumptions C79_depth.

Theorem C79_depth_reduce :
  forall (T : Type) (op : T -> T -> T) c pol w first last (m : mem T) l init d,
    target_ok c -> c_ce c = false -> policy_ok pol -> width_ok w -> range_ok first last ->
    size_matches pol w first last ->
    prologue_length c pol w first (last - first) d -> (first = last \/ d < last - first) ->
    range_is m first last l ->
    exists t, reduce_alg c op m pol w first last init = Ok (value op t)
      /\ Permutation (elems t) (init :: l)
      /\ (depth t <= length l)%nat
      /\ (depth t <= depth_bound (Z.to_nat w) (Z.to_nat (p_unroll pol)) (length l - Z.to_nat d))%nat.
Proof. exact @reduce_alg_depth. Qed.
Print Assumptions C79_depth_reduce.

(** The bound is reached: widths that are powers of two, the longest epilogue. *)
Theorem C79_depth_reached :
  forall (A : Type) c pol k q first last (m : mem (expr A)) (l : list A) x0,
    target_ok c -> c_ce c = false -> plain pol -> p_unroll pol <= 1 -> width_ok (2 ^ Z.of_nat k) ->
    range_ok first last -> size_matches pol (2 ^ Z.of_nat k) first last ->
    (1 <= q)%nat -> length l = (q * 2 ^ k + (2 ^ k - 1))%nat -> range_is m first last (map Elem l) ->
    exists t, reduce_alg c Comb m pol (2 ^ Z.of_nat k) first last (Elem x0) = Ok t
              /\ depth t = depth_bound (2 ^ k) (Z.to_nat (p_unroll pol)) (length l).
Proof. exact @reduce_bound_reached. Qed.
Print Assumptions C79_depth_reached.

(** Constant evaluation keeps the order; an element may pass through all operations. *)
Theorem C79_depth_consteval :
  forall (T A : Type) (g : list T -> A) (tr : list (list T) -> list A) (op : A -> A -> A)
         c pol w first last srcs2 (m : mem T) vals init,
    c_ce c = true -> width_ok w -> range_ok first last -> size_matches pol w first last ->
    transforms_at g tr (S (length srcs2)) 1 ->
    transformed_are g m (first :: srcs2) (last - first) vals ->
    exists t, transform_reduce c op tr m pol w first last srcs2 init = Ok (value op t)
      /\ elems t = init :: vals /\ (depth t <= length vals)%nat.
Proof. exact @transform_reduce_depth_const. Qed.
Print Assumptions C79_depth_consteval.

(** 45 elements in lanes of eight with two accumulators, five of them in front: seven of at most ten; the bound
    is reached for 47 elements; a single lane takes all elements one after the other. *)
Example C79_depth_instance :
  ex_depth 12 (pol_aligned_unroll 2) 8 45 = Ok 7%nat /\ depth_bound 8 2 (45 - Z.to_nat 5) = 10%nat
  /\ prologue_length (ex_cfg 12 false false) (pol_aligned_unroll 2) 8 0 45 5
  /\ ex_depth 0 pol0 8 47 = Ok 11%nat /\ depth_bound 8 0 47 = 11%nat /\ 47%nat = (5 * 2 ^ 3 + (2 ^ 3 - 1))%nat
  /\ ex_depth 0 pol0 1 47 = Ok 47%nat /\ depth_bound 1 0 47 = 47%nat
  /\ ex_depth 0 (pol_unroll 4) 8 400 = Ok 19%nat /\ depth_bound 8 4 400 = 22%nat.
Proof.
  split; [vm_compute; reflexivity|]. split; [vm_compute; reflexivity|]. split; [exact ex_length|].
  repeat split; vm_compute; reflexivity.
Qed.

(** Sums of numbers whose addition has a relative error: nothing overflows if the bound says so, and the
    result is as good as that many additions after each other. *)
Theorem C79_accuracy :
  forall (T A : Type) (g : list T -> A) (tr : list (list T) -> list A) (op : A -> A -> A)
         (v : A -> Q) finite eps limit c pol w first last srcs2 (m : mem T) vals init d k,
    target_ok c -> c_ce c = false -> policy_ok pol -> width_ok w -> range_ok first last ->
    size_matches pol w first last ->
    prologue_length c pol w first (last - first) d -> (first = last \/ d < last - first) ->
    (forall k, 0 < k -> transforms_at g tr (S (length srcs2)) k) ->
    transformed_are g m (first :: srcs2) (last - first) vals ->
    k = Nat.min (length vals) (depth_bound (Z.to_nat w) (Z.to_nat (p_unroll pol)) (length vals - Z.to_nat d)) ->
    (0 <= eps)%Q -> adds_up v finite op eps limit -> Forall finite (init :: vals) ->
    ((1 + eps) ^ Z.of_nat k * qsum (map (fun y => Qabs (v y)) (init :: vals)) <= limit)%Q ->
    exists x, transform_reduce c op tr m pol w first last srcs2 init = Ok x
      /\ finite x /\ sum_within v eps k (init :: vals) x.
Proof. exact @transform_reduce_accuracy. Qed.
Print Assumptions C79_accuracy.

Theorem C79_accuracy_reduce :
  forall (T : Type) (op : T -> T -> T)
         (v : T -> Q) finite eps limit c pol w first last (m : mem T) l init d k,
    target_ok c -> c_ce c = false -> policy_ok pol -> width_ok w -> range_ok first last ->
    size_matches pol w first last ->
    prologue_length c pol w first (last - first) d -> (first = last \/ d < last - first) ->
    range_is m first last l ->
    k = Nat.min (length l) (depth_bound (Z.to_nat w) (Z.to_nat (p_unroll pol)) (length l - Z.to_nat d)) ->
    (0 <= eps)%Q -> adds_up v finite op eps limit -> Forall finite (init :: l) ->
    ((1 + eps) ^ Z.of_nat k * qsum (map (fun y => Qabs (v y)) (init :: l)) <= limit)%Q ->
    exists x, reduce_alg c op m pol w first last init = Ok x
      /\ finite x /\ sum_within v eps k (init :: l) x.
Proof. exact @reduce_alg_accuracy. Qed.
Print Assumptions C79_accuracy_reduce.

Theorem C79_accuracy_consteval :
  forall (T A : Type) (g : list T -> A) (tr : list (list T) -> list A) (op : A -> A -> A)
         (v : A -> Q) finite eps limit c pol w first last srcs2 (m : mem T) vals init,
    c_ce c = true -> width_ok w -> range_ok first last -> size_matches pol w first last ->
    transforms_at g tr (S (length srcs2)) 1 ->
    transformed_are g m (first :: srcs2) (last - first) vals ->
    (0 <= eps)%Q -> adds_up v finite op eps limit -> Forall finite (init :: vals) ->
    ((1 + eps) ^ (last - first) * qsum (map (fun y => Qabs (v y)) (init :: vals)) <= limit)%Q ->
    exists x, transform_reduce c op tr m pol w first last srcs2 init = Ok x
      /\ finite x /\ sum_within v eps (length vals) (init :: vals) x.
Proof. exact @transform_reduce_accuracy_const. Qed.
Print Assumptions C79_accuracy_consteval.

(** An addition that rounds: the sum 5490 comes out as 8031 at run time and as 27332 in constant evaluation. *)
Example C79_accuracy_instance :
  adds_up ex_quarters (fun a => 0 <= a) ex_add (1 # 16) (3000 # 1)
  /\ reduce_alg (ex_cfg 12 false false) ex_add (ex_mem 0 45) (pol_aligned_unroll 2) 8 0 45 0 = Ok 8031
  /\ reduce_alg (ex_cfg 12 false true) ex_add (ex_mem 0 45) (pol_aligned_unroll 2) 8 0 45 0 = Ok 27332
  /\ ((1 + (1 # 16)) ^ Z.of_nat 10 * qsum (map (fun y => Qabs (ex_quarters y)) (0%Z :: map (fun i => 100 + Z.of_nat i)%Z (seq 0 45)))
      <= 3000 # 1)%Q.
Proof.
  split; [apply ex_adds_up|]. repeat split; vm_compute; try reflexivity; discriminate.
Qed.
