(** Specification of simdize<T, N> (C45). *)
From Verif Require Import Base SimdizeModel SimdizeSpec SimdizeTypeModel.

(** Made of scalars only, and no empty aggregate anywhere. *)
Definition vectorizable_type (t : tree leaf_type) : Prop :=
  populated t /\ ~ In Opaque (leaves t).

Definition native_of (l : leaf_type) (n : Z) : Prop := exists can, l = Scalar n can.
Definition allows (n : Z) (l : leaf_type) : Prop := exists native can, l = Scalar native can /\ can n = true.

(** native_simd has a lane. *)
Definition natives_ok (t : tree leaf_type) : Prop := forall l n, In l (leaves t) -> native_of l n -> 0 < n.

(** The largest native size of any scalar. *)
Definition widest (t : tree leaf_type) (n : Z) : Prop :=
  (exists l, In l (leaves t) /\ native_of l n)
  /\ forall l k, In l (leaves t) -> native_of l k -> k <= n.

(** Every scalar of the type has a simd of that width. *)
Definition all_allow (n : Z) (t : tree leaf_type) : Prop := forall l, In l (leaves t) -> allows n l.

(** [u] is a member of [t], or a member of a member, ... *)
Inductive inside {A} (u : tree A) : tree A -> Prop :=
| inside_here ms : In u ms -> inside u (Struct ms)
| inside_deep x ms : In x ms -> inside u x -> inside u (Struct ms).

(** Every member, at any depth, could be simdized on its own with its default width. *)
Definition defaults_ok (t : tree leaf_type) : Prop :=
  forall u n, inside u t -> widest u n -> all_allow n u.

(** The same structure with a simd of [n] lanes in place of every scalar, and [n] as size at every level. *)
Inductive simd_like (n : Z) : tree leaf_type -> stype -> Prop :=
| sl_leaf l : simd_like n (Leaf l) (Simd n)
| sl_struct ms rs : ms <> [] -> Forall2 (simd_like n) ms rs -> simd_like n (Struct ms) (Tup n rs).
