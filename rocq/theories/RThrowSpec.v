(** Specification for transform_reduce with operations that may throw. *)
From Verif Require Import Base RCallsModel RThrowModel.

(** Operations that agree with the given ones where those return, and return something where those throw. *)
Definition reduce_completes {A St} (rop' : St -> list A -> list A -> St * list A)
           (rop : St -> list A -> list A -> St * option (list A)) : Prop :=
  forall s a b s' z, rop s a b = (s', Some z) -> rop' s a b = (s', z).
Definition scalar_completes {A St} (sop' : St -> A -> A -> St * A) (sop : St -> A -> A -> St * option A) : Prop :=
  forall s x y s' z, sop s x y = (s', Some z) -> sop' s x y = (s', z).
Definition transform_completes {T A St} (tr' : St -> list (list T) -> St * list A)
           (tr : St -> list (list T) -> St * option (list A)) : Prop :=
  forall s ch s' v, tr s ch = (s', Some v) -> tr' s ch = (s', v).

(** Operations that return as many lanes as they are given, if they return. *)
Definition reduce_keeps_lanes {A St} (rop : St -> list A -> list A -> St * option (list A)) : Prop :=
  forall s a b s' z, length a = length b -> rop s a b = (s', Some z) -> length z = length a.
Definition transform_keeps_lanes {T A St} (tr : St -> list (list T) -> St * option (list A)) (ranges : nat) : Prop :=
  forall s chunks k s' v, length chunks = ranges -> Forall (fun ch => length ch = k) chunks ->
    tr s chunks = (s', Some v) -> length v = k.

(** The call [e] threw and left the state [s']. *)
Definition threw {T A St} (rop : St -> list A -> list A -> St * option (list A)) (sop : St -> A -> A -> St * option A)
           (tr : St -> list (list T) -> St * option (list A)) (m : mem T) (e : event) (s' : St) : Prop :=
  match e with
  | Reduce k => exists s a b, length a = k /\ length b = k /\ rop s a b = (s', None)
  | Scalar => exists s x y, sop s x y = (s', None)
  | Transform ps k => exists s ch, Forall2 (fun p v => load m p (Z.to_nat k) = Some v) ps ch /\ tr s ch = (s', None)
  end.
