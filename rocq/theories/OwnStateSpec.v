(** Specification vocabulary for C85. *)
From Verif Require Import Base ExecModel ThrowModel RThrowModel.

(** The function object frozen in the state [w0]: a callable with no state inside. *)
Definition frozen {S W X R : Type} (op : S * W -> X -> (S * W) * R) (w0 : W) (s : S) (x : X) : S * R :=
  (fst (fst (op (s, w0) x)), snd (op (s, w0) x)).

(** The same end of a run, with a function object in state [w0] beside. *)
Definition beside {T S W : Type} (w0 : W) (s : state T S) : state T (S * W) := mkst (s_mem s) (s_st s, w0) (s_trace s).
Definition beside_end {T S W X : Type} (w0 : W) (e : ended (state T S) X) : ended (state T (S * W)) X :=
  match e with Returned s => Returned (beside w0 s) | Threw s ch => Threw (beside w0 s) ch end.
