(** Specification for simd_tuple (C48). *)
From Verif Require Import Base SimdizeModel SimdTupleModel.

Section Spec.
  Context {W : Type}.

  (** An object of simd_tuple<T, N>: the structure of T with N lanes per scalar. *)
  Inductive object_of (n : nat) : tree unit -> object W -> Prop :=
  | oo_leaf x v : length v = n -> object_of n (Leaf x) (Leaf v)
  | oo_struct ts os : Forall2 (object_of n) ts os -> object_of n (Struct ts) (Struct os).

  (** [x] is lane [i] of the object. *)
  Inductive lane_of (i : nat) : object W -> tree W -> Prop :=
  | lo_leaf v w : nth_error v i = Some w -> lane_of i (Leaf v) (Leaf w)
  | lo_struct os ws : Forall2 (lane_of i) os ws -> lane_of i (Struct os) (Struct ws).

  (** What the aggregate [u] says about lane [i]: a scalar stands for every lane. *)
  Inductive arg_lane (i : nat) : tree (arg W) -> tree W -> Prop :=
  | al_val w : arg_lane i (Leaf (AVal w)) (Leaf w)
  | al_vec v w : nth_error v i = Some w -> arg_lane i (Leaf (AVec v)) (Leaf w)
  | al_struct us ws : Forall2 (arg_lane i) us ws -> arg_lane i (Struct us) (Struct ws).

  (** An aggregate of the structure [t] whose simds have [n] lanes. *)
  Inductive fits (n : nat) : tree unit -> tree (arg W) -> Prop :=
  | f_val x w : fits n (Leaf x) (Leaf (AVal w))
  | f_vec x v : length v = n -> fits n (Leaf x) (Leaf (AVec v))
  | f_struct ts us : Forall2 (fits n) ts us -> fits n (Struct ts) (Struct us).

  (** The aggregate of the simds of an object. *)
  Inductive simds : object W -> tree (arg W) -> Prop :=
  | s_leaf v : simds (Leaf v) (Leaf (AVec v))
  | s_struct os us : Forall2 simds os us -> simds (Struct os) (Struct us).

  (** Same structure. *)
  Inductive same_shape {A B} : tree A -> tree B -> Prop :=
  | ss_leaf a b : same_shape (Leaf a) (Leaf b)
  | ss_struct xs ys : Forall2 same_shape xs ys -> same_shape (Struct xs) (Struct ys).

  (** An aggregate of scalars as argument. *)
  Fixpoint scalars (x : tree W) : tree (arg W) :=
    match x with Leaf w => Leaf (AVal w) | Struct xs => Struct (map scalars xs) end.
End Spec.
