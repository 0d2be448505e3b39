(** Model of detail::transform, simd_execution.h:636-806, and the public wrappers
    (simd_execution.h:1212-1271, which only reorder arguments).

    Like for_each, the control flow never looks at values: it is modelled by the sequence of
    "load a chunk from every input, apply op, store the result" steps.  All pointers are kept
    separately, as in the code.  Positions are element indices in one memory; [c] describes the
    element type and the base address of the *output* (the only access that may be aligned). *)
From Verif Require Import Base ExecModel.

(** [t_n] chunks of [t_k] lanes: read from [t_srcs], written to [t_dst] with [vector_aligned]
    iff [t_al]. *)
Record step : Type := mkstep { t_srcs : list Z; t_dst : Z; t_k : Z; t_n : nat; t_al : bool }.

Definition WT (A : Type) : Type := (list step * res A)%type.
Definition retT {A} (a : A) : WT A := ([], Ok a).
Definition stopT {A} (s : stop) : WT A := ([], Stop s).
Definition tellT (s : step) : WT unit := ([s], Ok tt).
Definition bindT {A B} (x : WT A) (f : A -> WT B) : WT B :=
  match x with
  | (l, Stop s) => (l, Stop s)
  | (l, Ok a) => let (l', r) := f a in (l ++ l', r)
  end.

(** [((ptrs += n), ...)] *)
Definition adv (n : Z) (ps : list Z) : list Z := map (fun p => p + n) ps.

(** simd_transform_prologue<R>, simd_execution.h:636-669. [vs] is R::size(). *)
Fixpoint transform_prologue (fuel : nat) (vs maxe to_process : Z) (srcs : list Z) (dst : Z) : WT unit :=
  match fuel with
  | O => stopT SDiverge
  | S fuel' =>
    if negb ((1 <? maxe) && has_single_bit maxe && has_single_bit vs && (vs <? maxe))
    then stopT SIllFormed else
    if (to_process =? 0) || (maxe <=? to_process) then stopT SUB else
    if (maxe =? 2) || negb (Z.land vs to_process =? 0) then
      bindT (tellT (mkstep srcs dst vs 1 true)) (fun _ =>
      if maxe =? 2 then retT tt else
      if vs * 2 <? maxe
      then transform_prologue fuel' (vs * 2) maxe to_process (adv vs srcs) (dst + vs)
      else retT tt)
    else
      if vs * 2 <? maxe then transform_prologue fuel' (vs * 2) maxe to_process srcs dst
      else retT tt
  end.

(** simd_transform_epilogue<V0>, simd_execution.h:671-708.  The first input is addressed from
    [last], the others ([ptrs]) and the output by their own pointers. *)
Fixpoint transform_epilogue (fuel : nat) (vs0 leftover last dst : Z) (ptrs : list Z) (al : bool) : WT unit :=
  match fuel with
  | O => stopT SDiverge
  | S fuel' =>
    if negb (1 <? vs0) then stopT SIllFormed else
    if vs0 =? 2 then tellT (mkstep ((last - 1) :: ptrs) dst 1 1 al) else
    let vs := bit_ceil vs0 / 2 in
    let take := negb (Z.land leftover vs =? 0) in
    bindT (if take then tellT (mkstep ((last - leftover) :: ptrs) dst vs 1 al) else retT tt) (fun _ =>
    let leftover' := if take then leftover - vs else leftover in
    let ptrs' := if take then adv vs ptrs else ptrs in
    let dst' := if take then dst + vs else dst in
    if (1 <? vs) && negb (leftover' =? 0)
    then transform_epilogue fuel' vs leftover' last dst' ptrs' al
    else retT tt)
  end.

(** The pointers that move in lockstep: first1, d_first, first2... *)
Definition ptrs3 : Type := (Z * Z * list Z)%type.
Definition advance (n : Z) (p : ptrs3) : ptrs3 :=
  let '(f, d, s) := p in (f + n, d + n, adv n s).
Definition step_at (p : ptrs3) (k : Z) (n : nat) (al : bool) : step :=
  let '(f, d, s) := p in mkstep (f :: s) d k n al.

(** [for (; cond(first1); advance(stepsize, ...)) ...]: simd_execution.h:742-746, 748-753,
    774-784, 788-793, which differ in the condition. *)
Fixpoint transform_loop (fuel : nat) (cond : Z -> bool) (w : Z) (n : nat) (al : bool) (p : ptrs3)
  : WT ptrs3 :=
  match fuel with
  | O => stopT SDiverge
  | S fuel' =>
    if cond (fst (fst p))
    then bindT (tellT (step_at p w n al)) (fun _ =>
         transform_loop fuel' cond w n al (advance (w * Z.of_nat n) p))
    else retT p
  end.

(** The run-time branch after the prologue, simd_execution.h:769-802; result: d_first. *)
Definition transform_body (c : cfg) (pol : policy) (w last distance : Z) (p : ptrs3) : WT Z :=
  let al := use_aligned_loadstore c pol w in
  let fuel := loop_fuel (fst (fst p)) last in
  bindT (if 1 <? p_unroll pol
         then transform_loop fuel (fun f => f <=? last - w * p_unroll pol) w
                             (Z.to_nat (p_unroll pol)) al p
         else retT p) (fun p1 =>
  bindT (if p_match pol
         then transform_loop fuel (fun f => negb (f =? last)) w 1 al p1
         else transform_loop fuel (fun f => f <=? last - w) w 1 al p1) (fun p2 =>
  let '(_, d, s) := p2 in
  if (1 <? w) && negb (p_match pol) then
    let leftover := distance mod w in
    if leftover =? 0 then retT d
    else bindT (transform_epilogue 64 w leftover last d s al) (fun _ => retT (d + leftover))
  else retT d)).

(** The run-time branch, simd_execution.h:757-803. *)
Definition transform_rt (c : cfg) (pol : policy) (w first last dst : Z) (srcs2 : list Z) : WT Z :=
  let distance := last - first in
  match prologue_args c pol w distance dst with
  | None => transform_body c pol w last distance (first, dst, srcs2)
  | Some (maxe, tp) =>
    bindT (transform_prologue 64 1 maxe tp (first :: srcs2) dst) (fun _ =>
    transform_body c pol w last ((distance - tp) mod two64) (advance tp (first, dst, srcs2)))
  end.

(** The constant-evaluation branch, simd_execution.h:739-754. *)
Definition transform_ce (w first last dst : Z) (srcs2 : list Z) : WT Z :=
  bindT (transform_loop (loop_fuel first last) (fun f => f + (w - 1) <? last) w 1 false
                        (first, dst, srcs2)) (fun p1 =>
  bindT (transform_loop (loop_fuel first last) (fun f => f <? last) 1 1 false p1) (fun p2 =>
  let '(_, d, _) := p2 in retT d)).

(** detail::transform, simd_execution.h:710-806. *)
Definition transform (c : cfg) (pol : policy) (w first last dst : Z) (srcs2 : list Z) : WT Z :=
  if first =? last then retT dst else
  if p_match pol && negb ((last - first) mod w =? 0) then stopT STrap else
  if c_ce c then transform_ce w first last dst srcs2
  else transform_rt c pol w first last dst srcs2.

(** ** Execution *)
Section Run.
  Context {T : Type}.
  (** The callable on chunks. *)
  Variable op : list (list T) -> list T.

  (** simdized_load_and_invoke, simd_execution.h:618-624: element_aligned loads. *)
  Definition invoke_at (m : mem T) (srcs : list Z) (k : Z) : res (list T) :=
    bindR (mapR (fun p => of_option (load m p (Z.to_nat k))) srcs) (fun chunks => Ok (op chunks)).

  (** unroll2 (detail.h:270-280): all invocations first, then all stores. *)
  Fixpoint invoke_all (m : mem T) (srcs : list Z) (k : Z) (n : nat) : res (list (list T)) :=
    match n with
    | O => Ok []
    | S n' => bindR (invoke_at m srcs k) (fun r =>
              bindR (invoke_all m (adv k srcs) k n') (fun rs => Ok (r :: rs)))
    end.

  Definition run_step (c : cfg) (m : mem T) (s : step) : res (mem T) :=
    bindR (invoke_all m (t_srcs s) (t_k s) (t_n s)) (fun rs =>
    store_chunks c m (t_al s) (t_dst s) (t_k s) rs).

  Fixpoint run_steps (c : cfg) (m : mem T) (l : list step) : res (mem T) :=
    match l with
    | [] => Ok m
    | s :: l' => bindR (run_step c m s) (fun m' => run_steps c m' l')
    end.

  (** A whole execution: final memory and returned iterator. *)
  Definition run_transform (c : cfg) (pol : policy) (w first last dst : Z) (srcs2 : list Z)
             (m : mem T) : res (mem T * Z) :=
    let (steps, r) := transform c pol w first last dst srcs2 in
    bindR (run_steps c m steps) (fun m' => bindR r (fun d => Ok (m', d))).
End Run.
