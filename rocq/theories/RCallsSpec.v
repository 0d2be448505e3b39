(** Specification for C82: the calls vir::transform_reduce makes to its operations. The definitions below refer to
    the recorded calls ([event]), not to the model's functions. *)
From Coq Require Import List ZArith Bool.
From Verif Require Import Base RCallsModel ScheduleSpec.
Import ListNotations.
Open Scope Z_scope.

(** Consecutive chunks of the given sizes from offset [p] in all ranges on. *)
Fixpoint consecutive (ranges : list Z) (p : Z) (sizes : list nat) : list (list Z * Z) :=
  match sizes with
  | [] => []
  | k :: ks => (map (fun a => a + p) ranges, Z.of_nat k) :: consecutive ranges (p + Z.of_nat k) ks
  end.

(** The calls of transform_op. *)
Definition transforms (es : list event) : list (list Z * Z) :=
  flat_map (fun e => match e with Transform ps k => [(ps, k)] | _ => [] end) es.

(** The number of calls of reduce_op, and the number of pairs of lanes they combine. *)
Definition reductions (es : list event) : nat :=
  list_sum (map (fun e => match e with Transform _ _ => 0 | Reduce _ => 1 | Scalar => 1 end)%nat es).
Definition pairs (es : list event) : nat :=
  list_sum (map (fun e => match e with Transform _ _ => 0 | Reduce k => k | Scalar => 1 end)%nat es).

(** The number of calls that combine [k] lanes: the logarithms of the powers of two [k] is made of, and one call less
    than there are of them. *)
Definition across_calls (k : Z) : nat := (list_sum (digits k) + (length (digits k) - 1))%nat.

(** The first chunk behind the prologue, if [m] > 0 elements are left. *)
Definition widest (w m : Z) : Z := if w <=? m then w else 2 ^ Z.log2 m.

(** One call per chunk, what it takes to combine the lanes of the accumulator, and of every chunk of the prologue. *)
Definition reduction_calls (w u d n : Z) : nat :=
  (length (concat (schedule w u d n)) + across_calls (widest w (n - d)) + list_sum (digits d))%nat.

(** Operations on simd objects that return as many lanes as they are given. *)
Definition op_keeps_lanes {A St} (rop : St -> list A -> list A -> St * list A) : Prop :=
  forall s a b, length a = length b -> length (snd (rop s a b)) = length a.
Definition tr_keeps_lanes {T A St} (tr : St -> list (list T) -> St * list A) (ranges : nat) : Prop :=
  forall s chunks k, length chunks = ranges -> Forall (fun ch => length ch = k) chunks ->
    length (snd (tr s chunks)) = k.
