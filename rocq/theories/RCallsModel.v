(** Model of the calls detail::transform_reduce makes to transform_op and reduce_op,
    vir/simd_execution.h:808-1088, and reduce(simd, op) to op, vir/simd.h:2278-2307.

    The control flow is the one of TReduceModel; here the operations may be any functions of whole simd objects
    and may change a state they share (objects they hold references to), and every call is recorded.
    [rop]: reduce_op on two simd objects; [sop]: reduce_op on two scalars (simd.h:2303-2304).
    In which order the operands of the outer binary_op in simd.h:2292 are evaluated is left to the compiler. *)
From Verif Require Import Base ExecModel TransformModel ReduceModel TReduceModel.

(** transform_op on [k] elements of every range, from the given positions on; reduce_op on simd objects of [k] lanes;
    reduce_op on scalars. *)
Variant event : Type := Transform (ps : list Z) (k : Z) | Reduce (k : nat) | Scalar.

(** Whether the left operand in simd.h:2292 is evaluated first, for each number of lanes: unspecified in C++, one choice
    per instantiation. *)
Class eval_order : Type := left_first : nat -> bool.

Section Calls.
  Context {A St : Type} {EO : eval_order}.

  Definition M (X : Type) : Type := St -> list event * St * res X.
  Definition retM {X} (x : X) : M X := fun s => ([], s, Ok x).
  Definition stopM {X} (e : stop) : M X := fun s => ([], s, Stop e).
  Definition bindM {X Y} (m : M X) (f : X -> M Y) : M Y := fun s =>
    match m s with
    | (es, s1, Stop e) => (es, s1, Stop e)
    | (es, s1, Ok x) => let '(es2, s2, r) := f x s1 in (es ++ es2, s2, r)
    end.

  Variable rop : St -> list A -> list A -> St * list A.
  Variable sop : St -> A -> A -> St * A.
  Variable ld : St -> bool -> list Z -> Z -> St * res (list A).

  (** simdized_load_flag1_and_invoke, simd_execution.h:626-634. *)
  Definition call_transform (al : bool) (ps : list Z) (k : Z) : M (list A) := fun s =>
    let (s', r) := ld s al ps k in ([Transform ps k], s', r).

  (** std::invoke(reduce_op, a, b) on simd objects of one width; the result is to be an object of that width. *)
  Definition call_reduce (a b : list A) : M (list A) := fun s =>
    if (length a =? length b)%nat then
      let (s', z) := rop s a b in
      ([Reduce (length a)], s', if (length z =? length a)%nat then Ok z else Stop SIllFormed)
    else ([], s, Stop SIllFormed).

  Definition call_scalar (x y : A) : M A := fun s => let (s', z) := sop s x y in ([Scalar], s', Ok z).

  (** [r = v[0]; r = binary_op(r, v[i])...], simd.h:2301-2305. *)
  Fixpoint fold_scalar (x : A) (v : list A) : M A :=
    match v with
    | [] => retM x
    | y :: v' => bindM (call_scalar x y) (fun z => fold_scalar z v')
    end.

  (** reduce(simd, op), simd.h:2278-2307. *)
  Fixpoint hred_fuel (fuel : nat) (v : list A) : M A :=
    match fuel with
    | O => stopM SIllFormed
    | S fuel' =>
      let n := Z.of_nat (length v) in
      if 3 <? n then
        match bit_floor (n / 2) with
        | None => stopM SIllFormed
        | Some n2z =>
          let n2 := Z.to_nat n2z in
          let l := firstn n2 v in
          let r := firstn n2 (skipn n2 v) in
          let rem := skipn (2 * n2) v in
          let left := bindM (call_reduce l r) (fun z => hred_fuel fuel' z) in
          if 0 <? n - 2 * n2z then
            if left_first (length v) then bindM left (fun x => bindM (hred_fuel fuel' rem) (fun y => call_scalar x y))
            else bindM (hred_fuel fuel' rem) (fun y => bindM left (fun x => call_scalar x y))
          else left
        end
      else
        match v with
        | [] => stopM SIllFormed
        | x :: v' => fold_scalar x v'
        end
    end.
  Definition hred (v : list A) : M A := hred_fuel (length v) v.

  (** [std::invoke(reduce_op, acc1, acc)[0]] *)
  Definition lane0 (v : list A) : M A := match v with x :: _ => retM x | [] => stopM SUB end.
  Definition last_reduce (acc1 acc : list A) : M A := bindM (call_reduce acc1 acc) lane0.
  (** [std::invoke(reduce_op, acc1, A1(reduce(acc, reduce_op)))] *)
  Definition onto (acc1 acc : list A) : M (list A) := bindM (hred acc) (fun x => call_reduce acc1 [x]).

  Definition split_at (a b : Z) (v : list A) : M (list A * list A) :=
    if Z.of_nat (length v) =? a + b then retM (firstn (Z.to_nat a) v, skipn (Z.to_nat a) v) else stopM SIllFormed.

  (** simd_transform_reduce_prologue<size, max_size>, simd_execution.h:808-834. *)
  Fixpoint c_prologue (fuel : nat) (size max_size : Z) (acc1 : list A) (ps : list Z) (to_process : Z) : M (list A) :=
    match fuel with
    | O => stopM SDiverge
    | S fuel' =>
      if negb (has_single_bit size && has_single_bit max_size) then stopM SIllFormed else
      bindM (if Z.land to_process size =? 0 then retM acc1 else
             let offset := Z.land to_process (size - 1) in
             bindM (call_transform true (adv offset ps) size) (fun v => onto acc1 v)) (fun acc1' =>
      if size <? max_size then c_prologue fuel' (size * 2) max_size acc1' ps to_process
      else retM acc1')
    end.

  (** simd_transform_reduce_epilogue with a vector accumulator, simd_execution.h:836-886. *)
  Fixpoint c_epilogue_acc (fuel : nat) (s : Z) (acc1 acc : list A) (ps : list Z) (leftover : Z) (al : bool) : M A :=
    match fuel with
    | O => stopM SDiverge
    | S fuel' =>
      if negb (has_single_bit s) then stopM SIllFormed else
      if negb (Z.land leftover s =? 0) then
        bindM (call_transform al ps s) (fun v =>
        bindM (call_reduce acc v) (fun acc' =>
        if s =? 1 then last_reduce acc1 acc' else
        if Z.land leftover (s - 1) =? 0 then bindM (onto acc1 acc') lane0 else
        bindM (split_at (s / 2) (s / 2) acc') (fun lh =>
        bindM (call_reduce (fst lh) (snd lh)) (fun acc2 =>
        c_epilogue_acc fuel' (s / 2) acc1 acc2 (adv s ps) leftover al))))
      else if Z.land leftover (s - 1) =? 0 then stopM SUB
      else if 1 <? s then
        bindM (split_at (s / 2) (s / 2) acc) (fun lh =>
        bindM (call_reduce (fst lh) (snd lh)) (fun acc2 =>
        c_epilogue_acc fuel' (s / 2) acc1 acc2 ps leftover al))
      else stopM SUB
    end.

  (** simd_transform_reduce_epilogue<size> without one, simd_execution.h:888-934. *)
  Fixpoint c_epilogue (fuel : nat) (s : Z) (acc1 : list A) (ps : list Z) (leftover : Z) (al : bool) : M A :=
    match fuel with
    | O => stopM SDiverge
    | S fuel' =>
      if negb (has_single_bit s) then stopM SIllFormed else
      if negb (Z.land leftover s =? 0) then
        bindM (call_transform al ps s) (fun acc =>
        if s =? 1 then last_reduce acc1 acc else
        if Z.land leftover (s - 1) =? 0 then bindM (onto acc1 acc) lane0 else
        bindM (split_at (s / 2) (s / 2) acc) (fun lh =>
        bindM (call_reduce (fst lh) (snd lh)) (fun acc2 =>
        c_epilogue_acc fuel' (s / 2) acc1 acc2 (adv s ps) leftover al)))
      else if Z.land leftover (s - 1) =? 0 then stopM SUB
      else if 1 <? s then c_epilogue fuel' (s / 2) acc1 ps leftover al
      else stopM SUB
    end.

  (** The array of accumulators, in the order of the initialiser list, simd_execution.h:1007-1018. *)
  Fixpoint c_ld_n (al : bool) (ps : list Z) (w : Z) (n : nat) : M (list (list A)) :=
    match n with
    | O => retM []
    | S n' => bindM (call_transform al ps w) (fun v =>
              bindM (c_ld_n al (adv w ps) w n') (fun vs => retM (v :: vs)))
    end.

  (** One pass of the unrolled loop: transform, then reduce, for one accumulator after the other,
      simd_execution.h:1023-1032. *)
  Fixpoint c_each (al : bool) (ps : list Z) (w : Z) (accs : list (list A)) : M (list (list A)) :=
    match accs with
    | [] => retM []
    | acc :: accs' =>
      bindM (call_transform al ps w) (fun v =>
      bindM (call_reduce acc v) (fun z =>
      bindM (c_each al (adv w ps) w accs') (fun zs => retM (z :: zs))))
    end.

  (** [do ... while (first1 <= unrolled_last)], simd_execution.h:1021-1036. *)
  Fixpoint c_unrolled (fuel : nat) (w : Z) (n : nat) (al : bool) (unrolled_last first1 : Z)
           (ps : list Z) (accs : list (list A)) : M (list (list A) * Z * list Z) :=
    match fuel with
    | O => stopM SDiverge
    | S fuel' =>
      bindM (c_each al ps w accs) (fun accs' =>
      let first1' := first1 + w * Z.of_nat n in
      let ps' := adv (w * Z.of_nat n) ps in
      if first1' <=? unrolled_last
      then c_unrolled fuel' w n al unrolled_last first1' ps' accs'
      else retM (accs', first1', ps'))
    end.

  (** Tree reduction into acc[0], simd_execution.h:1038-1047. *)
  Definition c_tree_one (n j ii : nat) (accs : list (list A)) : M (list (list A)) :=
    let i := (ii * 2 * j)%nat in
    if (i + j <? n)%nat then
      match nth_error accs i, nth_error accs (i + j) with
      | Some a, Some b => bindM (call_reduce a b) (fun z => retM (set_nth accs i z))
      | _, _ => stopM SUB
      end
    else retM accs.

  Fixpoint c_tree_inner (n j : nat) (iis : list nat) (accs : list (list A)) : M (list (list A)) :=
    match iis with
    | [] => retM accs
    | ii :: iis' => bindM (c_tree_one n j ii accs) (c_tree_inner n j iis')
    end.

  Fixpoint c_tree_outer (n : nat) (outers : list nat) (accs : list (list A)) : M (list (list A)) :=
    match outers with
    | [] => retM accs
    | o :: outers' => bindM (c_tree_inner n (Nat.pow 2 o) (seq 0 (n / 2)) accs) (c_tree_outer n outers')
    end.

  Definition c_tree (n : nat) (accs : list (list A)) : M (list A) :=
    bindM (c_tree_outer n (seq 0 (bit_width (n - 1))) accs) (fun accs' =>
    match accs' with x :: _ => retM x | [] => stopM SUB end).

  (** The initial accumulator, simd_execution.h:999-1055; result: acc, first1, all pointers. *)
  Definition c_first (pol : policy) (w : Z) (al : bool) (first1 last1 : Z) (ps : list Z)
    : M (list A * Z * list Z) :=
    let single := bindM (call_transform al ps w) (fun v => retM (v, first1 + w, adv w ps)) in
    if 1 <? p_unroll pol then
      let n := Z.to_nat (p_unroll pol) in
      let step := w * p_unroll pol in
      let unrolled_last := last1 - step in
      if first1 + step <=? unrolled_last then
        bindM (c_ld_n al ps w n) (fun accs =>
        bindM (c_unrolled (loop_fuel first1 last1) w n al unrolled_last (first1 + step)
                          (adv step ps) accs) (fun r =>
        let '(accs', f, ps') := r in
        bindM (c_tree n accs') (fun acc => retM (acc, f, ps'))))
      else single
    else single.

  (** The main loop, simd_execution.h:1056-1062. *)
  Fixpoint c_loop (fuel : nat) (matching : bool) (w : Z) (al : bool) (last1 first1 : Z)
           (ps : list Z) (acc : list A) : M (list A * list Z) :=
    match fuel with
    | O => stopM SDiverge
    | S fuel' =>
      if (if matching then negb (first1 =? last1) else first1 <=? last1 - w) then
        bindM (call_transform al ps w) (fun v =>
        bindM (call_reduce acc v) (fun acc' =>
        c_loop fuel' matching w al last1 (first1 + w) (adv w ps) acc'))
      else retM (acc, ps)
    end.

  (** After the prologue, simd_execution.h:989-1087. *)
  Definition c_body (pol : policy) (w : Z) (al : bool) (acc1 : list A) (first1 last1 distance : Z)
             (ps : list Z) : M A :=
    let leftover := distance mod w in
    let lo_size := bit_ceil w / 2 in
    let hi_size := w - lo_size in
    if p_match pol || (first1 <=? last1 - w) then
      bindM (c_first pol w al first1 last1 ps) (fun r =>
      let '(acc0, f, ps1) := r in
      bindM (c_loop (loop_fuel first1 last1) (p_match pol) w al last1 f ps1 acc0) (fun r2 =>
      let '(acc, ps2) := r2 in
      if w =? 1 then last_reduce acc1 acc else
      if p_match pol || (leftover =? 0) then bindM (onto acc1 acc) lane0 else
      bindM (split_at lo_size hi_size acc) (fun lh =>
      if lo_size =? hi_size then
        bindM (call_reduce (fst lh) (snd lh)) (fun acc2 =>
        c_epilogue_acc 64 lo_size acc1 acc2 ps2 leftover al)
      else
        bindM (onto acc1 (snd lh)) (fun acc1' =>
        c_epilogue_acc 64 lo_size acc1' (fst lh) ps2 leftover al))))
    else if 0 <? lo_size then c_epilogue 64 lo_size acc1 ps leftover al
    else stopM SUB.

  (** Constant evaluation, simd_execution.h:969-978. *)
  Fixpoint c_const (fuel : nat) (last1 first1 : Z) (ps : list Z) (acc1 : list A) : M A :=
    match fuel with
    | O => stopM SDiverge
    | S fuel' =>
      if first1 <? last1 then
        bindM (call_transform false ps 1) (fun r =>
        bindM (call_reduce acc1 r) (fun acc1' =>
        c_const fuel' last1 (first1 + 1) (adv 1 ps) acc1'))
      else lane0 acc1
    end.

  (** detail::transform_reduce, simd_execution.h:939-1088. *)
  Definition c_transform_reduce (c : cfg) (pol : policy) (w first1 last1 : Z) (first2 : list Z) (init : A) : M A :=
    if first1 =? last1 then retM init else
    let distance := last1 - first1 in
    if p_match pol && negb (distance mod w =? 0) then stopM STrap else
    let ps := first1 :: first2 in
    if c_ce c then c_const (loop_fuel first1 last1) last1 first1 ps [init] else
    let al := use_aligned_loadstore c pol w in
    match prologue_args c pol w distance first1 with
    | None => c_body pol w al [init] first1 last1 distance ps
    | Some (maxe, tp) =>
      bindM (c_prologue 65 1 maxe [init] ps tp) (fun acc1 =>
      c_body pol w al acc1 (first1 + tp) last1 ((distance - tp) mod two64) (adv tp ps))
    end.
End Calls.

(** The loads, and transform_op with the state. *)
Definition ld_with {T A St} (c : cfg) (tr : St -> list (list T) -> St * list A) (m : mem T)
           (s : St) (al : bool) (ps : list Z) (k : Z) : St * res (list A) :=
  match ps with
  | [] => (s, Stop SIllFormed)
  | p1 :: ps' =>
    match bindR (load_chunk c m al p1 k) (fun v1 =>
          bindR (mapR (fun p => load_chunk c m false p k) ps') (fun vs => Ok (v1 :: vs))) with
    | Stop e => (s, Stop e)
    | Ok chunks => let (s', v) := tr s chunks in (s', Ok v)
    end
  end.

Definition transform_reduce_calls {T A St} {EO : eval_order} (c : cfg) (rop : St -> list A -> list A -> St * list A)
           (sop : St -> A -> A -> St * A) (tr : St -> list (list T) -> St * list A) (m : mem T)
           (pol : policy) (w first1 last1 : Z) (first2 : list Z) (init : A) (s : St) : list event * St * res A :=
  c_transform_reduce rop sop (ld_with c tr m) c pol w first1 last1 first2 init s.
