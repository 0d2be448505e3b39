(** Which calls the documentation announces (simd_execution.h 444-448, 466-472, 477-488, 498-501). *)
From Verif Require Import Base AcceptModel.
#[local] Open Scope nat_scope.

(** A positive width, unrolling at least once; a prologue aligns to at most one iteration (571-573). *)
Definition policy_fits (c : config) : Prop :=
  0 < c_size c /\ 0 < c_unroll c
  /\ (forall k, c_prologue c = Some k -> 0 < k /\ Nat.pow 2 k <= c_size c).

(** The calls that can be made: one chunk, or unroll chunks, of the policy's width; single smaller chunks. *)
Definition announced (c : config) (k n : nat) : Prop :=
  (n = c_size c /\ (k = 1 \/ k = c_unroll c))
  \/ (c_matching c = false /\ k = 1 /\ n < c_size c /\ exists j, n = Nat.pow 2 j).

(** ... for callables that always get a single chunk *)
Definition announced_width (c : config) (n : nat) : Prop :=
  n = c_size c \/ (c_matching c = false /\ n < c_size c /\ exists j, n = Nat.pow 2 j).

Definition pair_dec (a b : nat * nat) : {a = b} + {a <> b}.
Proof. decide equality; apply Nat.eq_dec. Defined.
