(** Specification for transform over structs (C52). *)
From Verif Require Import Base SimdizeModel SimdizeSpec ExecModel ExecSpec StructRunModel StructRunSpec
  StructTransformModel.

Section Spec.
  Context {W : Type}.

  (** The words of an element. *)
  Definition elem (m : mem W) (r : srange) (p : Z) (x : list W) : Prop :=
    load m (r_base r + r_k r * p) (Z.to_nat (r_k r)) = Some x.

  Definition range_mapped (m : mem W) (r : srange) (p n : Z) : Prop :=
    forall a, r_base r + r_k r * p <= a < r_base r + r_k r * (p + n) -> m a <> None.

  (** One member for arithmetic types, at least one for structs. *)
  Definition kind_ok (kd : rkind) (k : Z) : Prop :=
    match kd with RScalar => k = 1 | RStruct _ => 1 <= k end.

  (** 8 lanes of it are loaded in the order 0, 3, 6, 1, 4, 7, 2, 5 (C31). *)
  Definition unordered_range (r : srange) : Prop :=
    match r_kind r with RScalar => False | RStruct kd => unordered_kind kd (r_k r) end.

  (** [opv] applies the element operation [op] lane by lane; the inputs have [ks] members, the output [ko]. *)
  Definition lanewise_structs (ks : list Z) (ko : Z) (op : list (list W) -> list W)
             (opv : list (list (list W)) -> list (list W)) : Prop :=
    forall n os, 1 <= n -> Forall2 (fun k o => shaped o k n) ks os ->
      shaped (opv os) ko n /\
      forall i xs, Z.of_nat i < n -> Forall2 (fun o x => lane_is o i x) os xs -> lane_is (opv os) i (op xs).

  (** The words of the output do not overlap those of the input, or both hold elements of the same size and
      the output starts at or before the input. *)
  Definition not_overwritten (ko dst n : Z) (rp : srange * Z) : Prop :=
    let (r, p) := rp in
    let a := r_base r + r_k r * p in
    (r_k r = ko /\ ko * dst <= a) \/ a + r_k r * n <= ko * dst \/ ko * (dst + n) <= a.

  (** out[i] = op(x, ...) with the elements [order i] of the unordered inputs and [i] of the others;
      nothing else changes. *)
  Definition stransformed (order : Z -> Z) (op : list (list W) -> list W) (ins : list (srange * Z))
             (ko dst n : Z) (m m' : mem W) : Prop :=
    (forall i args, 0 <= i < n ->
       Forall2 (fun rp x => (unordered_range (fst rp) /\ elem m (fst rp) (snd rp + order i) x)
                         \/ (~ unordered_range (fst rp) /\ elem m (fst rp) (snd rp + i) x)) ins args ->
       load m' (ko * (dst + i)) (Z.to_nat ko) = Some (op args))
    /\ forall a, ~ (ko * dst <= a < ko * (dst + n)) -> m' a = m a.

  (** What std::transform does. *)
  Definition stransformed_in_order (op : list (list W) -> list W) (ins : list (srange * Z))
             (ko dst n : Z) (m m' : mem W) : Prop :=
    (forall i args, 0 <= i < n -> Forall2 (fun rp x => elem m (fst rp) (snd rp + i) x) ins args ->
       load m' (ko * (dst + i)) (Z.to_nat ko) = Some (op args))
    /\ forall a, ~ (ko * dst <= a < ko * (dst + n)) -> m' a = m a.
End Spec.

(** A rearrangement of 0 .. n - 1. *)
Definition rearranges (n : Z) (order : Z -> Z) : Prop :=
  (forall i, 0 <= i < n -> 0 <= order i < n) /\
  (forall i j, 0 <= i < n -> 0 <= j < n -> order i = order j -> i = j).

(** 8-lane objects do not occur, or no input is of the unordered type. *)
Definition ranges_in_order (rs : list srange) (w n : Z) : Prop :=
  w < 8 \/ n < 8 \/ Forall (fun r => ~ unordered_range r) rs.

(** memory_alignment of the output is that of simd, or alignof(T) for structs. *)
Definition out_target (c : cfg) (kd : rkind) : Prop :=
  match kd with RScalar => target_ok c | RStruct _ => struct_target c end.

Definition stransform_runs (c : cfg) (pol : policy) (w first last dst : Z) (kd : rkind) (ko : Z) : Prop :=
  out_target c kd /\ kind_ok kd ko /\ policy_ok pol /\ width_ok w /\ range_ok first last /\ size_matches pol w first last
  /\ (c_ce c = false -> kd = RScalar -> reaches_alignment c pol w dst (dst + (last - first))).
