(** The aggregates whose flattened members can be accessed (C33). *)
From Verif Require Import Base SimdizeModel SimdizeSpec.

(** A scalar; an aggregate with one scalar per member, wrapped or not; a wrapper around such a type. *)
Inductive accessible {A} : tree A -> Prop :=
| acc_leaf a : accessible (Leaf a)
| acc_flat ms : (forall x, In x ms -> length (leaves x) = 1%nat) -> accessible (Struct ms)
| acc_wrap x : accessible x -> accessible (Struct [x]).

(** An aggregate with one scalar per member, or one whose members are such types and where all members but
    the last hold 1, 2, 3, ... scalars, in this order. *)
Inductive reachable {A} : tree A -> Prop :=
| reach_flat ms : (forall x, In x ms -> length (leaves x) = 1%nat) -> reachable (Struct ms)
| reach_steps ms : (forall x, In x ms -> reachable x) ->
    (forall j x, nth_error ms j = Some x -> (S j < length ms)%nat -> length (leaves x) = S j) ->
    reachable (Struct ms).

(** flat_get<I> compiles and returns scalar number I. *)
Definition gets {A} (t : tree A) (i : nat) : Prop :=
  exists fuel x a, flat_get fuel i 0 t = Ok x /\ leaves x = [a] /\ nth_error (leaves t) i = Some a.
