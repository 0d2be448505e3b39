(** The iterators computed by for_each, detail::transform and detail::transform_reduce,
    vir/simd_execution.h:710-806, 808-1088, 1110-1172.

    ExecModel, TransformModel and TReduceModel record which elements are loaded and stored; here the
    values of all iterator (and pointer) expressions are recorded as well, whether dereferenced or
    not.  Positions are element indices, as there.  Comparisons are on positions, i.e. the model
    goes on after an iterator has left the array, which in C++ already is undefined behaviour. *)
From Verif Require Import Base ExecModel TransformModel TReduceModel.

(** An expression over all iterators that move in lockstep ([first1] comes first), or one that is
    formed from [first1] or [last1] alone, to compare with. *)
Inductive itv : Type := Moved (ps : list Z) | Compared (p : Z).

Definition P (A : Type) : Type := (list itv * res A)%type.
Definition retP {A} (a : A) : P A := ([], Ok a).
Definition stopP {A} (s : stop) : P A := ([], Stop s).
Definition tellP (e : itv) : P unit := ([e], Ok tt).
Definition bindP {A B} (x : P A) (f : A -> P B) : P B :=
  match x with
  | (l, Stop s) => (l, Stop s)
  | (l, Ok a) => let (l', r) := f a in (l ++ l', r)
  end.

(** [p + size * i] for the chunks i = 0..n-1 and the position after the last of them. *)
Definition chunk_its (ps : list Z) (k : Z) (n : nat) : list itv :=
  map (fun i => Moved (adv (k * Z.of_nat i) ps)) (seq 0 (S n)).

Definition call_its (k : call) : list itv := chunk_its [k_pos k] (k_k k) (k_n k).
(** The first input, the output, the other inputs. *)
Definition step_ptrs (s : step) : list Z :=
  match t_srcs s with
  | f :: r => f :: t_dst s :: r
  | [] => [t_dst s]
  end.
Definition step_its (s : step) : list itv := chunk_its (step_ptrs s) (t_k s) (t_n s).

(** Parts of the algorithms that form no iterators but those of their chunks: the loops over
    [first], simd_load_and_invoke, the prologues and epilogues (simd_execution.h:50-61, 87-356,
    618-708). *)
Definition calls_it {A} (x : W A) : P A := (flat_map call_its (fst x), snd x).
Definition steps_it {A} (x : WT A) : P A := (flat_map step_its (fst x), snd x).

(** [for (; first + (size - 1) < last; first += size)], simd_execution.h:1133-1135. *)
Fixpoint const_it (fuel : nat) (w : Z) (last first : Z) : P Z :=
  match fuel with
  | O => stopP SDiverge
  | S fuel' =>
    bindP (tellP (Compared (first + (w - 1)))) (fun _ =>
    if first + (w - 1) <? last
    then bindP (calls_it (tellW (mkcall first w 1 false))) (fun _ =>
         const_it fuel' w last (first + w))
    else retP first)
  end.

(** for_each at run time, after the prologue, simd_execution.h:1149-1170: [unrolled_last] (1154) and
    [simd_last] (1163) are formed before the loops. *)
Definition for_each_body_it (c : cfg) (pol : policy) (w first last distance : Z) : P unit :=
  let al := use_aligned_loadstore c pol w in
  let leftover := distance mod w in
  bindP (if 1 <? p_unroll pol
         then bindP (tellP (Compared (last - w * p_unroll pol))) (fun _ =>
              calls_it (main_loop (loop_fuel first last) w (Z.to_nat (p_unroll pol)) al
                                  (last - w * p_unroll pol) first))
         else retP first) (fun first1 =>
  bindP (tellP (Compared (last - w))) (fun _ =>
  bindP (calls_it (if p_match pol
                   then match_loop (loop_fuel first last) w al last first1
                   else main_loop (loop_fuel first last) w 1 al (last - w) first1)) (fun _ =>
  if negb (p_match pol) && (1 <? w) && negb (leftover =? 0)
  then calls_it (for_each_epilogue 64 c w leftover last al)
  else retP tt))).

(** vir::for_each, simd_execution.h:1110-1172. *)
Definition for_each_it (c : cfg) (pol : policy) (w first last : Z) : P unit :=
  if first =? last then retP tt else
  let distance := last - first in
  if p_match pol && negb (distance mod w =? 0) then stopP STrap else
  if c_ce c then
    bindP (const_it (loop_fuel first last) w last first) (fun _ =>
    if 1 <? w then calls_it (for_each_epilogue 64 c w (distance mod w) last false) else retP tt)
  else
    match prologue_args c pol w distance first with
    | None => for_each_body_it c pol w first last distance
    | Some (maxe, tp) =>
      bindP (calls_it (for_each_prologue 64 c 1 maxe first tp)) (fun _ =>
      bindP (tellP (Moved [first + tp])) (fun _ =>
      for_each_body_it c pol w (first + tp) last ((distance - tp) mod two64)))
    end.

(** All iterators of detail::transform that move in lockstep. *)
Definition lockstep (p : ptrs3) : list Z := let '(f, d, s) := p in f :: d :: s.

(** [for (; first1 + (size - 1) < last1; advance(size, ...))], simd_execution.h:742-746. *)
Fixpoint transform_const_it (fuel : nat) (w last : Z) (p : ptrs3) : P ptrs3 :=
  match fuel with
  | O => stopP SDiverge
  | S fuel' =>
    bindP (tellP (Compared (fst (fst p) + (w - 1)))) (fun _ =>
    if fst (fst p) + (w - 1) <? last
    then bindP (steps_it (tellT (step_at p w 1 false))) (fun _ =>
         transform_const_it fuel' w last (advance (w * 1) p))
    else retP p)
  end.

(** detail::transform after the prologue, simd_execution.h:771-805: [unrolled_last] is line 774,
    [simd_last] line 786, [d_first += leftover] line 801. *)
Definition transform_body_it (c : cfg) (pol : policy) (w last distance : Z) (p : ptrs3) : P Z :=
  let al := use_aligned_loadstore c pol w in
  let fuel := loop_fuel (fst (fst p)) last in
  bindP (if 1 <? p_unroll pol
         then bindP (tellP (Compared (last - w * p_unroll pol))) (fun _ =>
              steps_it (transform_loop fuel (fun f => f <=? last - w * p_unroll pol) w
                                       (Z.to_nat (p_unroll pol)) al p))
         else retP p) (fun p1 =>
  bindP (tellP (Compared (last - w))) (fun _ =>
  bindP (steps_it (if p_match pol
                   then transform_loop fuel (fun f => negb (f =? last)) w 1 al p1
                   else transform_loop fuel (fun f => f <=? last - w) w 1 al p1)) (fun p2 =>
  let '(f, d, s) := p2 in
  if (1 <? w) && negb (p_match pol) then
    let leftover := distance mod w in
    if leftover =? 0 then retP d
    else bindP (steps_it (transform_epilogue 64 w leftover last d s al)) (fun _ =>
         bindP (tellP (Moved [last; d + leftover])) (fun _ => retP (d + leftover)))
  else retP d))).

(** detail::transform, simd_execution.h:710-806. *)
Definition transform_it (c : cfg) (pol : policy) (w first last dst : Z) (srcs2 : list Z) : P Z :=
  if first =? last then retP dst else
  let distance := last - first in
  if p_match pol && negb (distance mod w =? 0) then stopP STrap else
  if c_ce c then
    bindP (transform_const_it (loop_fuel first last) w last (first, dst, srcs2)) (fun p1 =>
    bindP (steps_it (transform_loop (loop_fuel first last) (fun f => f <? last) 1 1 false p1)) (fun p2 =>
    let '(_, d, _) := p2 in retP d))
  else
    match prologue_args c pol w distance dst with
    | None => transform_body_it c pol w last distance (first, dst, srcs2)
    | Some (maxe, tp) =>
      bindP (steps_it (transform_prologue 64 1 maxe tp (first :: srcs2) dst)) (fun _ =>
      bindP (tellP (Moved (lockstep (advance tp (first, dst, srcs2))))) (fun _ =>
      transform_body_it c pol w last ((distance - tp) mod two64) (advance tp (first, dst, srcs2))))
    end.

(** simd_transform_reduce_prologue, simd_execution.h:808-834: [first1 + offset]. *)
Fixpoint tr_prologue_it (fuel : nat) (size max_size : Z) (ps : list Z) (to_process : Z) : P unit :=
  match fuel with
  | O => stopP SDiverge
  | S fuel' =>
    if negb (has_single_bit size && has_single_bit max_size) then stopP SIllFormed else
    bindP (if Z.land to_process size =? 0 then retP tt
           else tellP (Moved (adv (Z.land to_process (size - 1)) ps))) (fun _ =>
    if size <? max_size then tr_prologue_it fuel' (size * 2) max_size ps to_process else retP tt)
  end.

(** Both simd_transform_reduce_epilogue overloads, simd_execution.h:836-886, 888-934, which load at
    the same places: a chunk of [s] if that bit of [leftover] is set, and then [first1 += s]. *)
Fixpoint tr_epilogue_it (fuel : nat) (s : Z) (ps : list Z) (leftover : Z) : P unit :=
  match fuel with
  | O => stopP SDiverge
  | S fuel' =>
    if negb (has_single_bit s) then stopP SIllFormed else
    if negb (Z.land leftover s =? 0) then
      bindP (tellP (Moved ps)) (fun _ =>
      if s =? 1 then retP tt else
      if Z.land leftover (s - 1) =? 0 then retP tt else
      bindP (tellP (Moved (adv s ps))) (fun _ => tr_epilogue_it fuel' (s / 2) (adv s ps) leftover))
    else if Z.land leftover (s - 1) =? 0 then stopP SUB
    else if 1 <? s then tr_epilogue_it fuel' (s / 2) ps leftover
    else stopP SUB
  end.

(** [first1 + i * size] for i < n, then [first1 += step]: simd_execution.h:1012-1020, 1023-1034. *)
Definition tellsP (l : list itv) : P unit := (l, Ok tt).

(** [do ... while (first1 <= unrolled_last)], simd_execution.h:1021-1036. *)
Fixpoint tr_unrolled_it (fuel : nat) (w : Z) (n : nat) (unrolled_last first1 : Z) (ps : list Z)
  : P (Z * list Z) :=
  match fuel with
  | O => stopP SDiverge
  | S fuel' =>
    bindP (tellsP (chunk_its ps w n)) (fun _ =>
    let first1' := first1 + w * Z.of_nat n in
    let ps' := adv (w * Z.of_nat n) ps in
    if first1' <=? unrolled_last then tr_unrolled_it fuel' w n unrolled_last first1' ps'
    else retP (first1', ps'))
  end.

(** The initial accumulator, simd_execution.h:999-1055: [unrolled_last] is line 1004, [first1 + step]
    line 1005. *)
Definition tr_first_it (pol : policy) (w first1 last1 : Z) (ps : list Z) : P (Z * list Z) :=
  let single := bindP (tellsP (chunk_its ps w 1)) (fun _ => retP (first1 + w, adv w ps)) in
  if 1 <? p_unroll pol then
    let n := Z.to_nat (p_unroll pol) in
    let step := w * p_unroll pol in
    let unrolled_last := last1 - step in
    bindP (tellP (Compared unrolled_last)) (fun _ =>
    bindP (tellP (Compared (first1 + step))) (fun _ =>
    if first1 + step <=? unrolled_last then
      bindP (tellsP (chunk_its ps w n)) (fun _ =>
      tr_unrolled_it (loop_fuel first1 last1) w n unrolled_last (first1 + step) (adv step ps))
    else single))
  else single.

(** The main loop, simd_execution.h:1056-1062. *)
Fixpoint tr_loop_it (fuel : nat) (matching : bool) (w last1 first1 : Z) (ps : list Z) : P (list Z) :=
  match fuel with
  | O => stopP SDiverge
  | S fuel' =>
    if (if matching then negb (first1 =? last1) else first1 <=? last1 - w) then
      bindP (tellsP (chunk_its ps w 1)) (fun _ =>
      tr_loop_it fuel' matching w last1 (first1 + w) (adv w ps))
    else retP ps
  end.

(** After the prologue, simd_execution.h:989-1086: [simd_last] is line 994. *)
Definition tr_body_it (pol : policy) (w first1 last1 distance : Z) (ps : list Z) : P unit :=
  let leftover := distance mod w in
  let lo_size := bit_ceil w / 2 in
  bindP (tellP (Compared (last1 - w))) (fun _ =>
  if p_match pol || (first1 <=? last1 - w) then
    bindP (tr_first_it pol w first1 last1 ps) (fun r =>
    let '(f, ps1) := r in
    bindP (tr_loop_it (loop_fuel first1 last1) (p_match pol) w last1 f ps1) (fun ps2 =>
    if w =? 1 then retP tt else
    if p_match pol || (leftover =? 0) then retP tt else
    tr_epilogue_it 64 lo_size ps2 leftover))
  else if 0 <? lo_size then tr_epilogue_it 64 lo_size ps leftover
  else stopP SUB).

(** Constant evaluation, simd_execution.h:972-976. *)
Fixpoint tr_const_it (fuel : nat) (last1 first1 : Z) (ps : list Z) : P unit :=
  match fuel with
  | O => stopP SDiverge
  | S fuel' =>
    if first1 <? last1 then
      bindP (tellsP (chunk_its ps 1 1)) (fun _ => tr_const_it fuel' last1 (first1 + 1) (adv 1 ps))
    else retP tt
  end.

(** detail::transform_reduce, simd_execution.h:939-1088. *)
Definition transform_reduce_it (c : cfg) (pol : policy) (w first1 last1 : Z) (first2 : list Z)
  : P unit :=
  if first1 =? last1 then retP tt else
  let distance := last1 - first1 in
  if p_match pol && negb (distance mod w =? 0) then stopP STrap else
  let ps := first1 :: first2 in
  if c_ce c then tr_const_it (loop_fuel first1 last1) last1 first1 ps else
  match prologue_args c pol w distance first1 with
  | None => tr_body_it pol w first1 last1 distance ps
  | Some (maxe, tp) =>
    bindP (tr_prologue_it 65 1 maxe ps tp) (fun _ =>
    bindP (tellP (Moved (adv tp ps))) (fun _ =>
    tr_body_it pol w (first1 + tp) last1 ((distance - tp) mod two64) (adv tp ps)))
  end.
