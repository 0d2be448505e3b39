(** Model of detail::transform_reduce (simd_execution.h:939-1088) when some of the ranges hold structs: the
    control flow of TReduceModel with the load constructors of StructTransformModel.  The accumulator type is
    arithmetic (there is no reduce for structs), so the transform operation turns objects into a simd.

    One memory of words; element [p] of a range is the [r_k] words from [r_base + r_k * p] on.  [c] gives the
    size, the addresses and the memory alignment of the elements of the first range. *)
From Verif Require Import Base PermuteModel SimdizeModel ExecModel TransformModel StructRunModel
  StructTransformModel TReduceModel.

Section StructReduce.
  Context {W A : Type}.
  Variable zero : W.
  Variable tr : list (list (list W)) -> list A.

  (** simdized_load_flag1_and_invoke, simd_execution.h:626-634: the flags are those of the load of the first
      range; the struct types ignore them. *)
  Definition sload (c : cfg) (rs : list srange) (m : mem W) (al : bool) (ps : list Z) (k : Z) : res (list A) :=
    match rs, ps with
    | r :: _, p :: _ =>
      let checked := match r_kind r with RScalar => al | RStruct _ => false end in
      if checked && negb (aligned_at c p k) then Stop SUB
      else bindR (range_loads zero m rs ps k) (fun os => Ok (tr os))
    | _, _ => Stop SIllFormed
    end.

  Definition stransform_reduce (c : cfg) (op : A -> A -> A) (rs : list srange) (m : mem W) (pol : policy)
             (w first1 last1 : Z) (first2 : list Z) (init : A) : res A :=
    transform_reduce_on op (sload c rs m) c pol w first1 last1 first2 init.
End StructReduce.
