(** Vocabulary for C77: calls for which the single algorithms are right (the exact extent is the subject of C03, C05
    and C08), at run time or in constant evaluation. *)
From Verif Require Import Base ExecModel ExecSpec TReduceSpec.

(** A call of for_each, count_if or (for the output range) transform. *)
Definition visit_ok (c : cfg) (pol : policy) (w first last : Z) : Prop :=
  width_ok w /\ range_ok first last /\ size_matches pol w first last
  /\ ((c_ce c = true /\ (w = 2 -> first = last \/ (last - first) mod 2 <> 0))
      \/ (c_ce c = false /\ target_ok c /\ policy_ok pol /\ reaches_alignment c pol w first last)).

(** A call of transform_reduce or reduce. *)
Definition reduce_ok (c : cfg) (pol : policy) (w first last : Z) : Prop :=
  width_ok w /\ range_ok first last /\ size_matches pol w first last
  /\ (c_ce c = true \/ (c_ce c = false /\ target_ok c /\ policy_ok pol /\ prologue_room c pol w first last)).

(** The sum of ones for the elements with [p]. *)
Definition hit {T} (p : T -> bool) (args : list T) : Z :=
  match args with x :: _ => if p x then 1 else 0 | [] => 0 end.

(** An operation on one element, as one on the list of the arguments. *)
Definition unary {T} (g : T -> T) (op : list T -> T) : Prop := forall x, op [x] = g x.
