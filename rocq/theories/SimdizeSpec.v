(** Specification for simdize.h (C31, C32, C33, C42), independent of the shuffles of the model. *)
From Verif Require Import Base SimdizeModel.

Section Spec.
  Context {W : Type}.

  (** The [n] words starting at [p] exist. *)
  Definition defined_at (m : mem W) (p n : Z) : Prop := forall q, 0 <= q < n -> m (p + q) <> None.

  (** An object: [k] members of [n] lanes. *)
  Definition shaped (vs : list (list W)) (k n : Z) : Prop :=
    Z.of_nat (length vs) = k /\ forall v, In v vs -> Z.of_nat (length v) = n.

  (** Member j of lane i is word k * i + j behind [p]. *)
  Definition lanes_from (m : mem W) (p k n : Z) (vs : list (list W)) : Prop :=
    forall i j v, 0 <= i < n -> 0 <= j < k -> nth_error vs (Z.to_nat j) = Some v ->
      nth_error v (Z.to_nat i) = m (p + k * i + j).

  (** Member j of lane i goes to member j of struct i, nothing else changes. *)
  Definition stored (m m' : mem W) (p k n : Z) (vs : list (list W)) : Prop :=
    (forall i j v, 0 <= i < n -> 0 <= j < k -> nth_error vs (Z.to_nat j) = Some v ->
       m' (p + k * i + j) = nth_error v (Z.to_nat i))
    /\ (forall a, a < p \/ p + k * n <= a -> m' a = m a).

  (** The one path whose lanes are not in the order of the array: 8 lanes of three floats, 656-693. *)
  Definition unordered_path (s : senv) (k n : Z) : Prop :=
    s_shuffle s = true /\ s_ce s = false /\ s_unpadded s = true /\ s_floats s = true /\ s_tuple3 s = true
    /\ k = 3 /\ n = 8.
End Spec.

(** The scalar members of an aggregate in declaration order. *)
Fixpoint leaves {A} (t : tree A) : list A :=
  match t with Leaf a => [a] | Struct ms => flat_map leaves ms end.

(** No member is an empty aggregate. *)
Inductive populated {A} : tree A -> Prop :=
| pop_leaf a : populated (Leaf a)
| pop_struct ms : ms <> [] -> (forall x, In x ms -> populated x) -> populated (Struct ms).
