(** Specification for for_each over structs (C50). *)
From Verif Require Import Base SimdizeModel SimdizeSpec ExecModel ExecSpec StructRunModel.
From Coq Require Import Permutation.

Section Spec.
  Context {W : Type}.

  (** [xs] are the structs (of [k] scalar members) the memory holds in [first, last). *)
  Definition structs_are (m : mem W) (k first last : Z) (xs : list (list W)) : Prop :=
    Z.of_nat (length xs) = last - first /\
    forall i x, nth_error xs i = Some x -> load m (k * (first + Z.of_nat i)) (Z.to_nat k) = Some x.

  Definition structs_mapped (m : mem W) (k first last : Z) : Prop :=
    forall a, k * first <= a < k * last -> m a <> None.

  (** [x] consists of lane [i] of every member. *)
  Definition lane_is (o : list (list W)) (i : nat) (x : list W) : Prop :=
    length x = length o /\ forall j v, nth_error o j = Some v -> nth_error x j = nth_error v i.

  (** The lanes of an object, as structs. *)
  Definition lanes_are (k : Z) (o : list (list W)) (xs : list (list W)) : Prop :=
    shaped o k (Z.of_nat (length xs)) /\ forall i x, nth_error xs i = Some x -> lane_is o i x.

  (** The order in which 8 consecutive structs of three floats are presented (simdize.h 656-693). *)
  Definition shuffled (zs xs : list (list W)) : Prop :=
    length zs = 8%nat /\
    map Some xs = map (nth_error zs) [0; 3; 6; 1; 4; 7; 2; 5]%nat.

  (** The types whose 8-lane objects are loaded that way. *)
  Definition unordered_kind (kd : skind) (k : Z) : Prop :=
    match kd with KVectorized se => unordered_path (se 8) k 8 | KTuple => False end.

  Definition presented (kd : skind) (k : Z) (zs xs : list (list W)) : Prop :=
    (unordered_kind kd k /\ shuffled zs xs) \/ (~ (unordered_kind kd k /\ length zs = 8%nat) /\ xs = zs).

  (** Callables do not change the shape of their arguments. *)
  Definition keeps_objects {St} (f : St -> list (list (list W)) -> St * list (list (list W))) : Prop :=
    forall st ch, Forall2 (fun o o' => forall k n, shaped o k n -> shaped o' k n) ch (snd (f st ch)).

  (** The callable updates each lane with [g]. *)
  Definition updates_lanes {St} (g : list W -> list W)
             (f : St -> list (list (list W)) -> St * list (list (list W))) : Prop :=
    forall st ch, Forall2 (fun o o' => (forall k n, shaped o k n -> shaped o' k n)
                             /\ forall i x, lane_is o i x -> lane_is o' i (g x)) ch (snd (f st ch)).
End Spec.

(** With 8 lanes, struct [i] of [count] ends up with what struct [shuffle_index count i] was. *)
Definition shuffle_index (count i : Z) : Z :=
  if i <? 8 * (count / 8) then 8 * (i / 8) + nth (Z.to_nat (i mod 8)) [0; 3; 6; 1; 4; 7; 2; 5] 0 else i.

(** memory_alignment of simdized structs is alignof(T). *)
Definition struct_target (c : cfg) : Prop :=
  0 < c_sz c /\ forall n, 0 < n -> 0 < c_malign c n <= c_sz c.

(** Any policy; in constant evaluation with two lanes only odd lengths (C05). *)
Definition runs_on (c : cfg) (pol : policy) (w first last : Z) : Prop :=
  struct_target c /\ policy_ok pol /\ width_ok w /\ range_ok first last /\ size_matches pol w first last
  /\ (c_ce c = true -> w = 2 -> first = last \/ (last - first) mod 2 <> 0).

(** No object of 8 lanes can occur, or they are loaded in order. *)
Definition in_order (kd : skind) (k w first last : Z) : Prop :=
  ~ unordered_kind kd k \/ w < 8 \/ last - first < 8.
