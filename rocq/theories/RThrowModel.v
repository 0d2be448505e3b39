(** transform_reduce with operations that may throw, vir/simd_execution.h:808-1088 and vir/simd.h:2278-2307.  The
    control flow is the one of RCallsModel, function by function; an exception ends it at the call that throws, since no
    function on the way has a handler.  (Nor is there anything to undo: the accumulators are local objects.) *)
From Verif Require Import Base ExecModel TransformModel ReduceModel TReduceModel RCallsModel.

Variant outcome (X : Type) : Type := Ends (r : res X) | Throws.
Arguments Ends {X} r.
Arguments Throws {X}.

Section Throwing.
  Context {A St : Type} {EO : eval_order}.

  Definition T (X : Type) : Type := St -> list event * St * outcome X.
  Definition retT {X} (x : X) : T X := fun s => ([], s, Ends (Ok x)).
  Definition stopT {X} (e : stop) : T X := fun s => ([], s, Ends (Stop e)).
  Definition bindT {X Y} (m : T X) (f : X -> T Y) : T Y := fun s =>
    match m s with
    | (es, s1, Throws) => (es, s1, Throws)
    | (es, s1, Ends (Stop e)) => (es, s1, Ends (Stop e))
    | (es, s1, Ends (Ok x)) => let '(es2, s2, r) := f x s1 in (es ++ es2, s2, r)
    end.

  (** The operations; [None]: they throw. *)
  Variable rop : St -> list A -> list A -> St * option (list A).
  Variable sop : St -> A -> A -> St * option A.
  Variable ld : St -> bool -> list Z -> Z -> St * outcome (list A).

  (** simdized_load_flag1_and_invoke, simd_execution.h:626-634. *)
  Definition x_transform (al : bool) (ps : list Z) (k : Z) : T (list A) := fun s =>
    let (s', r) := ld s al ps k in ([Transform ps k], s', r).

  (** std::invoke(reduce_op, a, b). *)
  Definition x_reduce (a b : list A) : T (list A) := fun s =>
    if (length a =? length b)%nat then
      let (s', o) := rop s a b in
      ([Reduce (length a)], s',
       match o with
       | Some z => Ends (if (length z =? length a)%nat then Ok z else Stop SIllFormed)
       | None => Throws
       end)
    else ([], s, Ends (Stop SIllFormed)).

  Definition x_scalar (x y : A) : T A := fun s =>
    let (s', o) := sop s x y in ([Scalar], s', match o with Some z => Ends (Ok z) | None => Throws end).

  (** [r = v[0]; r = binary_op(r, v[i])...], simd.h:2301-2305. *)
  Fixpoint x_fold_scalar (x : A) (v : list A) : T A :=
    match v with
    | [] => retT x
    | y :: v' => bindT (x_scalar x y) (fun z => x_fold_scalar z v')
    end.

  (** reduce(simd, op), simd.h:2278-2307. *)
  Fixpoint x_hred_fuel (fuel : nat) (v : list A) : T A :=
    match fuel with
    | O => stopT SIllFormed
    | S fuel' =>
      let n := Z.of_nat (length v) in
      if 3 <? n then
        match bit_floor (n / 2) with
        | None => stopT SIllFormed
        | Some n2z =>
          let n2 := Z.to_nat n2z in
          let l := firstn n2 v in
          let r := firstn n2 (skipn n2 v) in
          let rem := skipn (2 * n2) v in
          let left := bindT (x_reduce l r) (fun z => x_hred_fuel fuel' z) in
          if 0 <? n - 2 * n2z then
            if left_first (length v) then bindT left (fun x => bindT (x_hred_fuel fuel' rem) (fun y => x_scalar x y))
            else bindT (x_hred_fuel fuel' rem) (fun y => bindT left (fun x => x_scalar x y))
          else left
        end
      else
        match v with
        | [] => stopT SIllFormed
        | x :: v' => x_fold_scalar x v'
        end
    end.
  Definition x_hred (v : list A) : T A := x_hred_fuel (length v) v.

  (** [std::invoke(reduce_op, acc1, acc)[0]] *)
  Definition x_lane0 (v : list A) : T A := match v with x :: _ => retT x | [] => stopT SUB end.
  Definition x_last_reduce (acc1 acc : list A) : T A := bindT (x_reduce acc1 acc) x_lane0.
  (** [std::invoke(reduce_op, acc1, A1(reduce(acc, reduce_op)))] *)
  Definition x_onto (acc1 acc : list A) : T (list A) := bindT (x_hred acc) (fun x => x_reduce acc1 [x]).

  Definition x_split_at (a b : Z) (v : list A) : T (list A * list A) :=
    if Z.of_nat (length v) =? a + b then retT (firstn (Z.to_nat a) v, skipn (Z.to_nat a) v) else stopT SIllFormed.

  (** simd_transform_reduce_prologue<size, max_size>, simd_execution.h:808-834. *)
  Fixpoint x_prologue (fuel : nat) (size max_size : Z) (acc1 : list A) (ps : list Z) (to_process : Z) : T (list A) :=
    match fuel with
    | O => stopT SDiverge
    | S fuel' =>
      if negb (has_single_bit size && has_single_bit max_size) then stopT SIllFormed else
      bindT (if Z.land to_process size =? 0 then retT acc1 else
             let offset := Z.land to_process (size - 1) in
             bindT (x_transform true (adv offset ps) size) (fun v => x_onto acc1 v)) (fun acc1' =>
      if size <? max_size then x_prologue fuel' (size * 2) max_size acc1' ps to_process
      else retT acc1')
    end.

  (** simd_transform_reduce_epilogue with a vector accumulator, simd_execution.h:836-886. *)
  Fixpoint x_epilogue_acc (fuel : nat) (s : Z) (acc1 acc : list A) (ps : list Z) (leftover : Z) (al : bool) : T A :=
    match fuel with
    | O => stopT SDiverge
    | S fuel' =>
      if negb (has_single_bit s) then stopT SIllFormed else
      if negb (Z.land leftover s =? 0) then
        bindT (x_transform al ps s) (fun v =>
        bindT (x_reduce acc v) (fun acc' =>
        if s =? 1 then x_last_reduce acc1 acc' else
        if Z.land leftover (s - 1) =? 0 then bindT (x_onto acc1 acc') x_lane0 else
        bindT (x_split_at (s / 2) (s / 2) acc') (fun lh =>
        bindT (x_reduce (fst lh) (snd lh)) (fun acc2 =>
        x_epilogue_acc fuel' (s / 2) acc1 acc2 (adv s ps) leftover al))))
      else if Z.land leftover (s - 1) =? 0 then stopT SUB
      else if 1 <? s then
        bindT (x_split_at (s / 2) (s / 2) acc) (fun lh =>
        bindT (x_reduce (fst lh) (snd lh)) (fun acc2 =>
        x_epilogue_acc fuel' (s / 2) acc1 acc2 ps leftover al))
      else stopT SUB
    end.

  (** simd_transform_reduce_epilogue<size> without one, simd_execution.h:888-934. *)
  Fixpoint x_epilogue (fuel : nat) (s : Z) (acc1 : list A) (ps : list Z) (leftover : Z) (al : bool) : T A :=
    match fuel with
    | O => stopT SDiverge
    | S fuel' =>
      if negb (has_single_bit s) then stopT SIllFormed else
      if negb (Z.land leftover s =? 0) then
        bindT (x_transform al ps s) (fun acc =>
        if s =? 1 then x_last_reduce acc1 acc else
        if Z.land leftover (s - 1) =? 0 then bindT (x_onto acc1 acc) x_lane0 else
        bindT (x_split_at (s / 2) (s / 2) acc) (fun lh =>
        bindT (x_reduce (fst lh) (snd lh)) (fun acc2 =>
        x_epilogue_acc fuel' (s / 2) acc1 acc2 (adv s ps) leftover al)))
      else if Z.land leftover (s - 1) =? 0 then stopT SUB
      else if 1 <? s then x_epilogue fuel' (s / 2) acc1 ps leftover al
      else stopT SUB
    end.

  (** The array of accumulators, in the order of the initialiser list, simd_execution.h:1007-1018. *)
  Fixpoint x_ld_n (al : bool) (ps : list Z) (w : Z) (n : nat) : T (list (list A)) :=
    match n with
    | O => retT []
    | S n' => bindT (x_transform al ps w) (fun v =>
              bindT (x_ld_n al (adv w ps) w n') (fun vs => retT (v :: vs)))
    end.

  (** One pass of the unrolled loop: transform, then reduce, for one accumulator after the other,
      simd_execution.h:1023-1032. *)
  Fixpoint x_each (al : bool) (ps : list Z) (w : Z) (accs : list (list A)) : T (list (list A)) :=
    match accs with
    | [] => retT []
    | acc :: accs' =>
      bindT (x_transform al ps w) (fun v =>
      bindT (x_reduce acc v) (fun z =>
      bindT (x_each al (adv w ps) w accs') (fun zs => retT (z :: zs))))
    end.

  (** [do ... while (first1 <= unrolled_last)], simd_execution.h:1021-1036. *)
  Fixpoint x_unrolled (fuel : nat) (w : Z) (n : nat) (al : bool) (unrolled_last first1 : Z)
           (ps : list Z) (accs : list (list A)) : T (list (list A) * Z * list Z) :=
    match fuel with
    | O => stopT SDiverge
    | S fuel' =>
      bindT (x_each al ps w accs) (fun accs' =>
      let first1' := first1 + w * Z.of_nat n in
      let ps' := adv (w * Z.of_nat n) ps in
      if first1' <=? unrolled_last
      then x_unrolled fuel' w n al unrolled_last first1' ps' accs'
      else retT (accs', first1', ps'))
    end.

  (** Tree reduction into acc[0], simd_execution.h:1038-1047. *)
  Definition x_tree_one (n j ii : nat) (accs : list (list A)) : T (list (list A)) :=
    let i := (ii * 2 * j)%nat in
    if (i + j <? n)%nat then
      match nth_error accs i, nth_error accs (i + j) with
      | Some a, Some b => bindT (x_reduce a b) (fun z => retT (set_nth accs i z))
      | _, _ => stopT SUB
      end
    else retT accs.

  Fixpoint x_tree_inner (n j : nat) (iis : list nat) (accs : list (list A)) : T (list (list A)) :=
    match iis with
    | [] => retT accs
    | ii :: iis' => bindT (x_tree_one n j ii accs) (x_tree_inner n j iis')
    end.

  Fixpoint x_tree_outer (n : nat) (outers : list nat) (accs : list (list A)) : T (list (list A)) :=
    match outers with
    | [] => retT accs
    | o :: outers' => bindT (x_tree_inner n (Nat.pow 2 o) (seq 0 (n / 2)) accs) (x_tree_outer n outers')
    end.

  Definition x_tree (n : nat) (accs : list (list A)) : T (list A) :=
    bindT (x_tree_outer n (seq 0 (bit_width (n - 1))) accs) (fun accs' =>
    match accs' with x :: _ => retT x | [] => stopT SUB end).

  (** The initial accumulator, simd_execution.h:999-1055; result: acc, first1, all pointers. *)
  Definition x_first (pol : policy) (w : Z) (al : bool) (first1 last1 : Z) (ps : list Z)
    : T (list A * Z * list Z) :=
    let single := bindT (x_transform al ps w) (fun v => retT (v, first1 + w, adv w ps)) in
    if 1 <? p_unroll pol then
      let n := Z.to_nat (p_unroll pol) in
      let step := w * p_unroll pol in
      let unrolled_last := last1 - step in
      if first1 + step <=? unrolled_last then
        bindT (x_ld_n al ps w n) (fun accs =>
        bindT (x_unrolled (loop_fuel first1 last1) w n al unrolled_last (first1 + step)
                          (adv step ps) accs) (fun r =>
        let '(accs', f, ps') := r in
        bindT (x_tree n accs') (fun acc => retT (acc, f, ps'))))
      else single
    else single.

  (** The main loop, simd_execution.h:1056-1062. *)
  Fixpoint x_loop (fuel : nat) (matching : bool) (w : Z) (al : bool) (last1 first1 : Z)
           (ps : list Z) (acc : list A) : T (list A * list Z) :=
    match fuel with
    | O => stopT SDiverge
    | S fuel' =>
      if (if matching then negb (first1 =? last1) else first1 <=? last1 - w) then
        bindT (x_transform al ps w) (fun v =>
        bindT (x_reduce acc v) (fun acc' =>
        x_loop fuel' matching w al last1 (first1 + w) (adv w ps) acc'))
      else retT (acc, ps)
    end.

  (** After the prologue, simd_execution.h:989-1087. *)
  Definition x_body (pol : policy) (w : Z) (al : bool) (acc1 : list A) (first1 last1 distance : Z)
             (ps : list Z) : T A :=
    let leftover := distance mod w in
    let lo_size := bit_ceil w / 2 in
    let hi_size := w - lo_size in
    if p_match pol || (first1 <=? last1 - w) then
      bindT (x_first pol w al first1 last1 ps) (fun r =>
      let '(acc0, f, ps1) := r in
      bindT (x_loop (loop_fuel first1 last1) (p_match pol) w al last1 f ps1 acc0) (fun r2 =>
      let '(acc, ps2) := r2 in
      if w =? 1 then x_last_reduce acc1 acc else
      if p_match pol || (leftover =? 0) then bindT (x_onto acc1 acc) x_lane0 else
      bindT (x_split_at lo_size hi_size acc) (fun lh =>
      if lo_size =? hi_size then
        bindT (x_reduce (fst lh) (snd lh)) (fun acc2 =>
        x_epilogue_acc 64 lo_size acc1 acc2 ps2 leftover al)
      else
        bindT (x_onto acc1 (snd lh)) (fun acc1' =>
        x_epilogue_acc 64 lo_size acc1' (fst lh) ps2 leftover al))))
    else if 0 <? lo_size then x_epilogue 64 lo_size acc1 ps leftover al
    else stopT SUB.

  (** Constant evaluation, simd_execution.h:969-978. *)
  Fixpoint x_const (fuel : nat) (last1 first1 : Z) (ps : list Z) (acc1 : list A) : T A :=
    match fuel with
    | O => stopT SDiverge
    | S fuel' =>
      if first1 <? last1 then
        bindT (x_transform false ps 1) (fun r =>
        bindT (x_reduce acc1 r) (fun acc1' =>
        x_const fuel' last1 (first1 + 1) (adv 1 ps) acc1'))
      else x_lane0 acc1
    end.

  (** detail::transform_reduce, simd_execution.h:939-1088. *)
  Definition x_transform_reduce (c : cfg) (pol : policy) (w first1 last1 : Z) (first2 : list Z) (init : A) : T A :=
    if first1 =? last1 then retT init else
    let distance := last1 - first1 in
    if p_match pol && negb (distance mod w =? 0) then stopT STrap else
    let ps := first1 :: first2 in
    if c_ce c then x_const (loop_fuel first1 last1) last1 first1 ps [init] else
    let al := use_aligned_loadstore c pol w in
    match prologue_args c pol w distance first1 with
    | None => x_body pol w al [init] first1 last1 distance ps
    | Some (maxe, tp) =>
      bindT (x_prologue 65 1 maxe [init] ps tp) (fun acc1 =>
      x_body pol w al acc1 (first1 + tp) last1 ((distance - tp) mod two64) (adv tp ps))
    end.
End Throwing.

(** The loads, and transform_op with the state. *)
Definition ld_throwing {T A St} (c : cfg) (tr : St -> list (list T) -> St * option (list A)) (m : mem T)
           (s : St) (al : bool) (ps : list Z) (k : Z) : St * outcome (list A) :=
  match ps with
  | [] => (s, Ends (Stop SIllFormed))
  | p1 :: ps' =>
    match bindR (load_chunk c m al p1 k) (fun v1 =>
          bindR (mapR (fun p => load_chunk c m false p k) ps') (fun vs => Ok (v1 :: vs))) with
    | Stop e => (s, Ends (Stop e))
    | Ok chunks => let (s', o) := tr s chunks in (s', match o with Some v => Ends (Ok v) | None => Throws end)
    end
  end.

Definition transform_reduce_throwing {T A St} {EO : eval_order} (c : cfg) (rop : St -> list A -> list A -> St * option (list A))
           (sop : St -> A -> A -> St * option A) (tr : St -> list (list T) -> St * option (list A)) (m : mem T)
           (pol : policy) (w first1 last1 : Z) (first2 : list Z) (init : A) (s : St) : list event * St * outcome A :=
  x_transform_reduce rop sop (ld_throwing c tr m) c pol w first1 last1 first2 init s.
