(** Property theorems C48. *)
From Verif Require Import Base LaneModel SimdizeModel SimdizeSpec SimdTupleModel SimdTupleSpec SimdTupleProofs.

(** C48: lane i of a simd_tuple built from an aggregate has the scalars of the aggregate, and lane i of its
    simds. *)
Theorem C48_construct_lanes :
  forall {W} n t (u : tree (arg W)), fits n t u ->
    exists o, construct n t u = Ok o /\ object_of n t o
      /\ forall i, 0 <= i < Z.of_nat n -> exists w, lane_at i o = Ok w /\ arg_lane (Z.to_nat i) u w.
Proof. exact @construct_lanes. Qed.
Print Assumptions C48_construct_lanes.

(** From an aggregate of scalars: every lane is that aggregate. *)
Theorem C48_broadcast :
  forall {W} n t (x : tree W), same_shape t x ->
    exists o, construct n t (scalars x) = Ok o /\ object_of n t o
      /\ forall i, 0 <= i < Z.of_nat n -> lane_at i o = Ok x.
Proof. exact @broadcast. Qed.
Print Assumptions C48_broadcast.

(** Nothing else is accepted. *)
Theorem C48_construct_iff :
  forall {W} n t (u : tree (arg W)), ((exists o, construct n t u = Ok o) <-> fits n t u)
    /\ (~ fits n t u -> construct n t u = Stop SIllFormed).
Proof. exact @construct_iff. Qed.
Print Assumptions C48_construct_iff.

(** Subscripts yield the lane of every member. *)
Theorem C48_subscript :
  forall {W} n t (o : object W) i, object_of n t o -> 0 <= i < Z.of_nat n ->
    exists w, lane_at i o = Ok w /\ lane_of (Z.to_nat i) o w.
Proof. exact @lane_at_ok. Qed.
Print Assumptions C48_subscript.

(** Conversion to an aggregate of simds and back. *)
Theorem C48_convert_back :
  forall {W} n t s (o : object W), object_of n t o -> same_shape s t ->
    exists u, convert s o = Ok u /\ simds o u /\ construct n t u = Ok o.
Proof. exact @convert_back. Qed.
Print Assumptions C48_convert_back.

(** Loads, for aggregates whose members are scalars (missing: nested aggregates, refuted below). *)
Theorem C48_load_partial :
  forall {W} (m : mem W) p n ts, 1 <= n -> ts <> [] -> (forall t, In t ts -> exists a, t = Leaf a) ->
    defined_at m p (Z.of_nat (length ts) * n) ->
    exists vs, load_object m p n (Struct ts) = Ok vs /\ shaped vs (Z.of_nat (length ts)) n
      /\ lanes_from m p (Z.of_nat (length ts)) n vs.
Proof. exact @load_flat. Qed.
Print Assumptions C48_load_partial.

(** Finding: a simdized struct with a struct as member cannot be loaded. *)
Theorem C48_load_nested_refuted :
  exists (m : mem Z) p n (t : tree unit), populated t /\ 1 <= n
    /\ defined_at m p (Z.of_nat (length (leaves t)) * n) /\ load_object m p n t = Stop SIllFormed.
Proof. exact load_nested_refuted. Qed.
Print Assumptions C48_load_nested_refuted.

Theorem C48_load_nested :
  forall {W} (m : mem W) p n ts us, In (Struct us) ts -> load_object m p n (Struct ts) = Stop SIllFormed.
Proof. exact @load_nested. Qed.
Print Assumptions C48_load_nested.

Example C48_instance :
  let t := Struct [Leaf tt; Struct [Leaf tt; Leaf tt]] in
  let u := Struct [Leaf (AVal 7); Struct [Leaf (AVec [1; 2; 3]); Leaf (AVal 9)]] in
  fits 3 t u /\ construct 3 t u = Ok (Struct [Leaf [7; 7; 7]; Struct [Leaf [1; 2; 3]; Leaf [9; 9; 9]]])
  /\ bindR (construct 3 t u) (lane_at 1) = Ok (Struct [Leaf 7; Struct [Leaf 2; Leaf 9]])
  /\ construct 4 t u = Stop SIllFormed.
Proof. cbv zeta. split; [|now vm_compute]. repeat constructor. Qed.
