(** GENERALIZED_SUM as in [numerics.defns] of the C++ standard. *)
From Verif Require Import Base.
From Coq Require Import Permutation.

(** GENERALIZED_NONCOMMUTATIVE_SUM(op, b1, ..., bN): any bracketing. *)
Inductive gncsum {T} (op : T -> T -> T) : list T -> T -> Prop :=
| gn_one x : gncsum op [x] x
| gn_op l1 l2 a b : gncsum op l1 a -> gncsum op l2 b -> gncsum op (l1 ++ l2) (op a b).

(** GENERALIZED_SUM(op, b1, ..., bN): any bracketing of any permutation. *)
Definition gsum {T} (op : T -> T -> T) (l : list T) (x : T) : Prop :=
  exists l', Permutation l l' /\ gncsum op l' x.

Definition assoc_comm {T} (op : T -> T -> T) : Prop :=
  (forall x y z, op (op x y) z = op x (op y z)) /\ (forall x y, op x y = op y x).

(** The sequential fold over a non-empty list. *)
Definition seq_sum {T} (op : T -> T -> T) (x : T) (l : list T) : T := fold_left op l x.
