(** What vir::cvt(x) should do, independently of how it does it. *)
From Verif Require Import Base IntModel CvtModel.

Definition lanes_of (T : ty) : nat :=
  match T with Arith _ => 1%nat | Simd _ AScalar | Mask _ AScalar => 1%nat | Simd _ (AFixed n) | Mask _ (AFixed n) => n end.

(** The type of one lane; a mask consists of bools. *)
Definition lane_type (boolty : arith) (T : ty) : arith :=
  match T with Arith a => a | Simd a _ => a | Mask _ _ => boolty end.

(** Conversions that make sense: between arithmetic types, from an arithmetic type to every lane of a
    simd, between simds or masks with equally many lanes. *)
Inductive lane_wise : ty -> ty -> Prop :=
| lw_arith a b : lane_wise (Arith a) (Arith b)
| lw_broadcast a b B : lane_wise (Arith a) (Simd b B)
| lw_simd a A b B : lanes_of (Simd a A) = lanes_of (Simd b B) -> lane_wise (Simd a A) (Simd b B)
| lw_mask a A b B : lanes_of (Mask a A) = lanes_of (Mask b B) -> lane_wise (Mask a A) (Mask b B).

(** Every lane of the result is the corresponding lane of x (the only one if x is arithmetic),
    converted to the type of the target's lanes. *)
Definition source_lane (T : ty) (i : nat) : nat := match T with Arith _ => 0%nat | _ => i end.
Definition converted {V} (conv : arith -> arith -> V -> res V) (boolty : arith) (T U : ty) (x r : list V) : Prop :=
  length r = lanes_of U /\
  forall i, (i < lanes_of U)%nat -> exists v w,
    nth_error x (source_lane T i) = Some v /\
    conv (lane_type boolty T) (lane_type boolty U) v = Ok w /\ nth_error r i = Some w.

(** Conversions of an arithmetic type to itself do nothing. *)
Definition conv_refl {V} (conv : arith -> arith -> V -> res V) : Prop :=
  forall a b v, a_id a = a_id b -> conv a b v = Ok v.
(** An arithmetic conversion compiles and checks nothing; at worst it is undefined. *)
Definition conv_ub {V} (conv : arith -> arith -> V -> res V) : Prop :=
  forall a b v s, conv a b v = Stop s -> s = SUB.

(** The exception: copy-initialisation of a simd from a const cvt of an arithmetic type that converts to
    that simd without cvt already. *)
Definition const_copy_of_convertible (l : lang) (sum : arith -> arith -> bool) (c : context) (const_arg : bool) (T U : ty) : Prop :=
  c = CopyInit /\ const_arg = true /\ (exists a, T = Arith a) /\ (exists b B, U = Simd b B) /\
  convertible l sum T U = true.

(** What compiles and should not, by the above: conversions between simds with different numbers of
    lanes, from masks to simds; and the explicit conversion of an arithmetic value to a mask. *)
Inductive also_accepted (c : context) : ty -> ty -> Prop :=
| aa_lanes a A b B : lanes_of (Simd a A) <> lanes_of (Simd b B) -> also_accepted c (Simd a A) (Simd b B)
| aa_mask a A b B : lanes_of (Mask a A) = lanes_of (Simd b B) -> also_accepted c (Mask a A) (Simd b B)
| aa_explicit a b B : c = DirectInit -> also_accepted c (Arith a) (Mask b B).
