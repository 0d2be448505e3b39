(** Specification for C79: expressions over the elements, how deep they are, how deep the expression
    computed by vir::transform_reduce may be, and what it means for an operation to add up with a
    relative error. No definition below refers to the model's functions. *)
From Coq Require Import List Arith Bool QArith Qabs.
Import ListNotations.
#[local] Open Scope nat_scope.

Inductive expr (A : Type) : Type :=
| Elem (x : A)
| Comb (a b : expr A).
Arguments Elem {A}.
Arguments Comb {A}.

Section Expr.
  Context {A : Type}.

  (** The value, with [op] for every inner node. *)
  Fixpoint value (op : A -> A -> A) (t : expr A) : A :=
    match t with Elem x => x | Comb a b => op (value op a) (value op b) end.

  (** The elements, from left to right. *)
  Fixpoint elems (t : expr A) : list A :=
    match t with Elem x => [x] | Comb a b => elems a ++ elems b end.

  (** The largest number of operations an element passes through. *)
  Fixpoint depth (t : expr A) : nat :=
    match t with Elem _ => 0 | Comb a b => S (Nat.max (depth a) (depth b)) end.
End Expr.

(** Iterations of the main loop over [n] elements, one after the other: full chunks of [w], or groups
    of [u] of them with the accumulators combined pairwise at the end. *)
Definition rounds (w u n : nat) : nat :=
  let q := n / w in
  if (1 <? u) && (2 * u <=? q) then q / u + q mod u + Nat.log2_up u else Nat.max 1 q.

(** Two more for every halving of the width. *)
Definition depth_bound (w u n : nat) : nat := rounds w u n + 2 * Nat.log2_up w.

(** ** Accuracy *)
Local Open Scope Q_scope.

Definition qsum (l : list Q) : Q := fold_right Qplus 0 l.

(** Up to a magnitude of [limit], [op] adds up the values [v] of numbers that satisfy [finite], with
    a relative error of at most [eps]. *)
Definition adds_up {A} (v : A -> Q) (finite : A -> Prop) (op : A -> A -> A) (eps limit : Q) : Prop :=
  forall a b, finite a -> finite b -> Qabs (v a + v b) <= limit ->
    finite (op a b) /\ Qabs (v (op a b) - (v a + v b)) <= eps * Qabs (v a + v b).

(** [x] is the sum of [l] but for the errors of [k] additions after each other. *)
Definition sum_within {A} (v : A -> Q) (eps : Q) (k : nat) (l : list A) (x : A) : Prop :=
  Qabs (v x - qsum (map v l)) <= ((1 + eps) ^ Z.of_nat k - 1) * qsum (map (fun y => Qabs (v y)) l).
