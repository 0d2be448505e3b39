(** Specification: the lanes that hmin(v) and hmax(v) take into account when some are NaN (C21). *)
From Verif Require Import Base HReduceModel.
#[local] Open Scope nat_scope.

(** Of n lanes: if lane a is NaN, lane j does not matter.  Lane 0 decides about all, every lane about itself.  The lanes
    below the largest power of two not above n are those of one half and of the other: lane j mod 2^h decides with
    what decides about it in 2^h lanes.  The others are on their own (apart from lane 0). *)
Inductive decides : nat -> nat -> nat -> Prop :=
| decides_self n j : decides n j j
| decides_first n j : decides n j 0
| decides_half h n j a : 2 ^ S h <= n < 2 ^ S (S h) -> j < 2 ^ S h ->
    decides (2 ^ h) (j mod 2 ^ h) a -> decides n j a
| decides_rest h n j a : 2 ^ S h <= n < 2 ^ S (S h) -> 2 ^ S h <= j ->
    decides (n - 2 ^ S h) (j - 2 ^ S h) a -> decides n j (2 ^ S h + a).

(** Lane j of v matters. *)
Definition considered (v : list fval) (j : nat) : Prop :=
  j < length v /\ forall a, decides (length v) j a -> nth_error v a <> Some FNaN.
