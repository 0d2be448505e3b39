(** Specification for transform_reduce over structs (C54). *)
From Verif Require Import Base SimdizeModel SimdizeSpec ExecModel ExecSpec StructRunModel StructRunSpec
  StructTransformModel StructTransformSpec TReduceSpec.

Section Spec.
  Context {W A : Type}.

  (** Called with objects of [n] lanes, [tr] applies [g] to the structs in the lanes; [ks]: their sizes. *)
  Definition transforms_structs (ks : list Z) (g : list (list W) -> A) (tr : list (list (list W)) -> list A)
             (n : Z) : Prop :=
    forall os, Forall2 (fun k o => shaped o k n) ks os ->
      Z.of_nat (length (tr os)) = n /\
      forall i xs, Z.of_nat i < n -> Forall2 (fun o x => lane_is o i x) os xs -> nth_error (tr os) i = Some (g xs).

  (** [vals] are g(x_0, y_0, ...), ..., g(x_(n-1), y_(n-1), ...). *)
  Definition values_are (g : list (list W) -> A) (m : mem W) (ins : list (srange * Z)) (n : Z)
             (vals : list A) : Prop :=
    Z.of_nat (length vals) = n /\
    forall i, 0 <= i < n ->
      exists xs, Forall2 (fun rp x => elem m (fst rp) (snd rp + i) x) ins xs
                 /\ nth_error vals (Z.to_nat i) = Some (g xs).
End Spec.

(** No object of 8 lanes can occur, or no range is of the unordered type, or all of them are. *)
Definition same_order (rs : list srange) (w n : Z) : Prop :=
  ranges_in_order rs w n \/ Forall unordered_range rs.

(** [kd]: the elements of the first range. *)
Definition sreduce_runs (c : cfg) (pol : policy) (w first last : Z) (kd : rkind) : Prop :=
  out_target c kd /\ policy_ok pol /\ width_ok w /\ range_ok first last /\ size_matches pol w first last
  /\ (kd = RScalar -> prologue_room c pol w first last).

(** The same with the elements [order i] of the ranges of the unordered type. *)
Definition values_in_order {W A : Type} (order : Z -> Z) (g : list (list W) -> A) (m : mem W) (ins : list (srange * Z))
           (n : Z) (vals : list A) : Prop :=
  Z.of_nat (length vals) = n /\
  forall i, 0 <= i < n ->
    exists xs, Forall2 (fun rp x => (unordered_range (fst rp) /\ elem m (fst rp) (snd rp + order i) x)
                                    \/ (~ unordered_range (fst rp) /\ elem m (fst rp) (snd rp + i) x)) ins xs
               /\ nth_error vals (Z.to_nat i) = Some (g xs).

(** Chunks of 8 lanes are read in the order 0, 3, 6, 1, 4, 7, 2, 5, the others in order. *)
Definition chunk_order (w d n : Z) (order : Z -> Z) : Prop :=
  forall p k, tr_chunk w d n p k -> forall j, 0 <= j < k ->
    order (p + j) = p + (if k =? 8 then nth (Z.to_nat j) [0; 3; 6; 1; 4; 7; 2; 5] 0 else j).
