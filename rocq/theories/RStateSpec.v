(** The state the operations of transform_reduce share: every call finds what the call before it has left. *)
From Verif Require Import Base RCallsModel RThrowModel.

Section State.
  Context {T A St : Type}.
  Variables (rop : St -> list A -> list A -> St * option (list A)) (sop : St -> A -> A -> St * option A)
            (tr : St -> list (list T) -> St * option (list A)) (m : mem T).

  (** The call [e] in state [s] leaves [s'], and returns or throws. *)
  Definition call_step (throws : bool) (e : event) (s s' : St) : Prop :=
    match e with
    | Reduce k => exists a b o, length a = k /\ length b = k /\ rop s a b = (s', o) /\ (throws = true <-> o = None)
    | Scalar => exists x y o, sop s x y = (s', o) /\ (throws = true <-> o = None)
    | Transform ps k => exists ch o, Forall2 (fun p v => load m p (Z.to_nat k) = Some v) ps ch
                                     /\ tr s ch = (s', o) /\ (throws = true <-> o = None)
    end.

  Inductive calls_from : St -> list event -> St -> Prop :=
  | calls_none s : calls_from s [] s
  | calls_next s e s1 es s2 : call_step false e s s1 -> calls_from s1 es s2 -> calls_from s (e :: es) s2.
End State.
