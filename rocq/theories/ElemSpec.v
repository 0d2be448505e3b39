(** Specification: value types that can be processed in simds (C72). *)
From Verif Require Import Base SimdizeModel SimdizeSpec SimdizeTypeModel SimdizeTypeSpec ElemModel.

(** A scalar, or an aggregate of scalars. *)
Inductive flat : tree leaf_type -> Prop :=
| flat_leaf l : flat (Leaf l)
| flat_struct ms : (forall m, In m ms -> exists l, m = Leaf l) -> flat (Struct ms).

(** The width a policy with size [n] asks for: its own, or the largest native one. *)
Definition asked (n : Z) (t : tree leaf_type) (k : Z) : Prop := (n = 0 /\ widest t k) \/ (0 < n /\ k = n).

(** ... of several ranges *)
Definition asked_of_all (n : Z) (ts : list (tree leaf_type)) (k : Z) : Prop :=
  (n = 0 /\ (exists t, In t ts /\ widest t k) /\ forall t m, In t ts -> widest t m -> m <= k) \/ (0 < n /\ k = n).

(** The type is made of scalars that all have simds of [n] lanes, and its members can be simdized on their own. *)
Definition turns_into (n : Z) (t : tree leaf_type) : Prop :=
  vectorizable_type t /\ defaults_ok t /\ all_allow n t.

(** All scalars have simds of every positive width (so in the fallback, simd.h 449-454). *)
Definition unlimited (t : tree leaf_type) : Prop :=
  forall native can n, In (Scalar native can) (leaves t) -> 0 < n -> can n = true.

(** Unrolling at least once; a prologue aligns to at most one iteration of [n] lanes (571-573). *)
Definition prologue_fits (q : policy) (n : Z) : Prop :=
  (0 < q_unroll q)%nat /\ forall k, q_prologue q = Some k -> (0 < k)%nat /\ 2 ^ Z.of_nat k <= n.

(** The documentation of the concepts (400-411): contiguous, and simdize gives something with simds. *)
Definition documented (s : source) : Prop :=
  s_contiguous s = true /\ exists n, widest (s_value s) n /\ turns_into n (s_value s).
