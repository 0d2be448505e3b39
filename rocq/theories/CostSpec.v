(** Specification for C81: the fewest simd objects that cover a range. No definition below refers to the model. *)
From Coq Require Import List ZArith.
Import ListNotations.
Open Scope Z_scope.

(** [n] elements in simd objects of [w] lanes or of a power of two below that. *)
Definition covers (w n : Z) (sizes : list nat) : Prop :=
  Forall (fun k => Z.of_nat k = w \/ Z.of_nat k < w /\ exists i, k = Nat.pow 2 i) sizes
  /\ Z.of_nat (list_sum sizes) = n.

Definition fewest (w n : Z) (k : nat) : Prop :=
  (exists sizes, covers w n sizes /\ length sizes = k)
  /\ forall sizes, covers w n sizes -> (k <= length sizes)%nat.
