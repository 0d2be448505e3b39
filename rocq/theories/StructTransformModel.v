(** Model of detail::transform (simd_execution.h:710-806) when some of the ranges hold structs: the control
    flow of TransformModel, with the load constructors and [copy_to] of the types [vir::simdize] gives the
    element type of each range.

    One memory of words, a word being one scalar.  Element [p] of an input range is the [r_k] words from
    [r_base + r_k * p] on.  The addresses are counted such that the output has base 0: its element [p] is
    the [k] words from [k * p] on.  [c] describes the element type of the output, as in TransformModel. *)
From Verif Require Import Base PermuteModel SimdizeModel ExecModel TransformModel StructRunModel.

(** The element type of a range: arithmetic (simdize<T, N> is a simd) or a struct. *)
Inductive rkind : Type := RScalar | RStruct (kd : skind).

Record srange : Type := mksr { r_kind : rkind; r_k : Z; r_base : Z }.

Section StructTransform.
  Context {W : Type}.
  Variable zero : W.
  (** The callable on objects (a simd is an object with one member). *)
  Variable op : list (list (list W)) -> list (list W).

  (** iter_simdize_t<It, size>(std::to_address(it), element_aligned), simd_execution.h:623: the load
      constructor of simd, of vectorized_struct (simdize.h 907-912) or of simd_tuple (458-467). *)
  Definition range_load (m : mem W) (r : srange) (pos n : Z) : res (list (list W)) :=
    let a := r_base r + r_k r * pos in
    match r_kind r with
    | RScalar => if r_k r =? 1 then bindR (of_option (load m a (Z.to_nat n))) (fun v => Ok [v]) else Stop SIllFormed
    | RStruct (KVectorized se) => bindR (load_elements zero (se n) m a (r_k r) n)
                                        (mapR (mapR (fun l => of_option (lane_val l))))
    | RStruct KTuple => tuple_load m a (r_k r) n
    end.

  (** One load per iterator. *)
  Fixpoint range_loads (m : mem W) (rs : list srange) (ps : list Z) (n : Z) : res (list (list (list W))) :=
    match rs, ps with
    | [], [] => Ok []
    | r :: rs', p :: ps' => bindR (range_load m r p n) (fun o =>
                            bindR (range_loads m rs' ps' n) (fun os => Ok (o :: os)))
    | _, _ => Stop SIllFormed
    end.

  (** simdized_load_and_invoke and unroll2 (detail.h:270-280): all invocations first. *)
  Fixpoint sinvoke_all (m : mem W) (rs : list srange) (ps : list Z) (k : Z) (n : nat) : res (list (list (list W))) :=
    match n with
    | O => Ok []
    | S n' => bindR (range_loads m rs ps k) (fun os =>
              bindR (sinvoke_all m rs (adv k ps) k n') (fun outs => Ok (op os :: outs)))
    end.

  (** result.copy_to(ptr, flags): simd respects the flags, the struct types ignore them. *)
  Definition out_store (c : cfg) (kd : rkind) (ko : Z) (o : list (list W)) (m : mem W) (al : bool) (pos n : Z) : res (mem W) :=
    match kd with
    | RScalar => match o with
                 | [v] => if ko =? 1 then store_chunk c m al pos n v else Stop SIllFormed
                 | _ => Stop SIllFormed
                 end
    | RStruct sk => obj_store sk o m pos ko n
    end.

  Fixpoint out_stores (c : cfg) (kd : rkind) (ko : Z) (m : mem W) (al : bool) (pos n : Z) (os : list (list (list W))) : res (mem W) :=
    match os with
    | [] => Ok m
    | o :: os' => bindR (out_store c kd ko o m al pos n) (fun m' => out_stores c kd ko m' al (pos + n) n os')
    end.

  Definition srun_step (c : cfg) (rs : list srange) (kd : rkind) (ko : Z) (m : mem W) (s : step) : res (mem W) :=
    bindR (sinvoke_all m rs (t_srcs s) (t_k s) (t_n s)) (fun os =>
    out_stores c kd ko m (t_al s) (t_dst s) (t_k s) os).

  Fixpoint srun_steps (c : cfg) (rs : list srange) (kd : rkind) (ko : Z) (m : mem W) (l : list step) : res (mem W) :=
    match l with
    | [] => Ok m
    | s :: l' => bindR (srun_step c rs kd ko m s) (fun m' => srun_steps c rs kd ko m' l')
    end.

  (** A whole execution: final memory and returned iterator.  [rs]: the ranges of first1, first2... *)
  Definition run_stransform (c : cfg) (pol : policy) (w : Z) (rs : list srange) (kd : rkind) (ko : Z)
             (first last dst : Z) (srcs2 : list Z) (m : mem W) : res (mem W * Z) :=
    let (steps, r) := transform c pol w first last dst srcs2 in
    bindR (srun_steps c rs kd ko m steps) (fun m' => bindR r (fun d => Ok (m', d))).
End StructTransform.
