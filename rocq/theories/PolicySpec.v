(** What the documentation of the policy modifiers promises. *)
From Verif Require Import Base ExecModel PolicyModel.

Definition exclusive (o : opt) : bool :=
  match o with PreferAligned | AutoPrologue | MatchSize => true | _ => false end.
Definition unrolls (o : opt) : bool := match o with UnrollBy _ => true | _ => false end.
Definition sizes (o : opt) : bool := match o with PreferSize _ => true | _ => false end.

Definition how_many (P : opt -> bool) (calls : list opt) : nat := length (filter P calls).

(** A chain of calls is legal iff at most one of the exclusive three, at most one unroll factor
    (greater than one) and at most one size (positive) is requested. *)
Definition legal (calls : list opt) : Prop :=
  (how_many exclusive calls <= 1)%nat /\ (how_many unrolls calls <= 1)%nat
  /\ (how_many sizes calls <= 1)%nat
  /\ (forall n, In (UnrollBy n) calls -> 1 < n) /\ (forall n, In (PreferSize n) calls -> 0 < n).

(** The policy carries exactly what was requested. *)
Definition carries (p : policy) (calls : list opt) : Prop :=
  (p_aligned p = true <-> In PreferAligned calls) /\ (p_auto p = true <-> In AutoPrologue calls)
  /\ (p_match p = true <-> In MatchSize calls)
  /\ (forall n, In (UnrollBy n) calls -> p_unroll p = n)
  /\ ((forall n, ~ In (UnrollBy n) calls) -> p_unroll p = 0)
  /\ (forall n, In (PreferSize n) calls -> p_size p = n)
  /\ ((forall n, ~ In (PreferSize n) calls) -> p_size p = 0).
