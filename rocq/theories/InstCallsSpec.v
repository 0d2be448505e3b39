(** Specification vocabulary for C71: the calls made at run time. *)
From Verif Require Import Base ExecModel ThrowModel AcceptModel.

(** The policy of the algorithm as the compiler sees it. *)
Definition describes (d : config) (pol : policy) (w : Z) : Prop :=
  c_size d = Z.to_nat w /\ c_unroll d = Z.to_nat (Z.max 1 (p_unroll pol)) /\ c_matching d = p_match pol.

(** The chunks of all calls of transform, including the call that threw. *)
Definition all_calls {T St} (e : ended (state T St) (list (list T))) : list (list (list T)) :=
  match e with Returned s => s_trace s | Threw s ch => s_trace s ++ [ch] end.

(** Callables that give the same for chunks of these widths. *)
Definition same_where {T R} (widths : nat -> Prop) (f g : list (list T) -> R) : Prop :=
  forall n chunks, widths n -> Forall (fun v => length v = n) chunks -> f chunks = g chunks.
