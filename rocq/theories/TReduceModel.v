(** Model of detail::transform_reduce, vir/simd_execution.h:808-1088 (all public
    transform_reduce and reduce overloads, 1330-1472, forward to it).

    Inputs have element type [T], the accumulator type is [A].  All input pointers are kept in one
    list, the first being [first1], the only one accessed with [flags]; [c] describes the
    alignment of that range.  The reduction operation acts lane by lane ([op]), the transform
    operation [tr] maps equally long chunks of all inputs to a chunk of results. *)
From Verif Require Import Base ExecModel TransformModel ReduceModel.

Section Load.
  Context {T A : Type}.
  Variable c : cfg.
  Variable tr : list (list T) -> list A.
  Variable m : mem T.

  (** simdized_load_flag1_and_invoke, simd_execution.h:626-634. *)
  Definition ld (al : bool) (ps : list Z) (k : Z) : res (list A) :=
    match ps with
    | [] => Stop SIllFormed
    | p1 :: ps' =>
      bindR (load_chunk c m al p1 k) (fun v1 =>
      bindR (mapR (fun p => load_chunk c m false p k) ps') (fun vs =>
      Ok (tr (v1 :: vs))))
    end.
End Load.

(** The control flow; [ld al ps k] loads [k] elements from all the ranges and transforms them
    (StructReduceModel uses it with other loads). *)
Section TReduce.
  Context {A : Type}.
  Variable op : A -> A -> A.
  Variable ld : bool -> list Z -> Z -> res (list A).

  (** std::invoke(reduce_op, a, b) on simd objects; the widths have to agree. *)
  Definition vop (a b : list A) : res (list A) :=
    if (length a =? length b)%nat then Ok (map2 op a b) else Stop SIllFormed.

  (** reduce(v, reduce_op). *)
  Definition hreduce (v : list A) : res A :=
    match reduce op v with Some x => Ok x | None => Stop SIllFormed end.

  (** stdx::split<a, b>(v). *)
  Definition split2 (a b : Z) (v : list A) : res (list A * list A) :=
    if Z.of_nat (length v) =? a + b then Ok (firstn (Z.to_nat a) v, skipn (Z.to_nat a) v)
    else Stop SIllFormed.

  (** simd_transform_reduce_prologue<size, max_size>, simd_execution.h:808-834. *)
  Fixpoint tr_prologue (fuel : nat) (size max_size : Z) (acc1 : A) (ps : list Z) (to_process : Z)
    : res A :=
    match fuel with
    | O => Stop SDiverge
    | S fuel' =>
      if negb (has_single_bit size && has_single_bit max_size) then Stop SIllFormed else
      bindR (if Z.land to_process size =? 0 then Ok acc1 else
             let offset := Z.land to_process (size - 1) in
             bindR (ld true (adv offset ps) size) (fun v =>
             bindR (hreduce v) (fun x => Ok (op acc1 x)))) (fun acc1' =>
      if size <? max_size then tr_prologue fuel' (size * 2) max_size acc1' ps to_process
      else Ok acc1')
    end.

  (** simd_transform_reduce_epilogue with a vector accumulator, simd_execution.h:836-886;
      [s] is A::size(). *)
  Fixpoint tr_epilogue_acc (fuel : nat) (s : Z) (acc1 : A) (acc : list A) (ps : list Z)
           (leftover : Z) (al : bool) : res A :=
    match fuel with
    | O => Stop SDiverge
    | S fuel' =>
      if negb (has_single_bit s) then Stop SIllFormed else
      if negb (Z.land leftover s =? 0) then
        bindR (ld al ps s) (fun v =>
        bindR (vop acc v) (fun acc' =>
        if s =? 1 then bindR (hreduce acc') (fun x => Ok (op acc1 x)) else
        if Z.land leftover (s - 1) =? 0 then bindR (hreduce acc') (fun x => Ok (op acc1 x)) else
        bindR (split2 (s / 2) (s / 2) acc') (fun lh =>
        bindR (vop (fst lh) (snd lh)) (fun acc2 =>
        tr_epilogue_acc fuel' (s / 2) acc1 acc2 (adv s ps) leftover al))))
      else if Z.land leftover (s - 1) =? 0 then Stop SUB
      else if 1 <? s then
        bindR (split2 (s / 2) (s / 2) acc) (fun lh =>
        bindR (vop (fst lh) (snd lh)) (fun acc2 =>
        tr_epilogue_acc fuel' (s / 2) acc1 acc2 ps leftover al))
      else Stop SUB
    end.

  (** simd_transform_reduce_epilogue<size> without one, simd_execution.h:888-934. *)
  Fixpoint tr_epilogue (fuel : nat) (s : Z) (acc1 : A) (ps : list Z) (leftover : Z) (al : bool)
    : res A :=
    match fuel with
    | O => Stop SDiverge
    | S fuel' =>
      if negb (has_single_bit s) then Stop SIllFormed else
      if negb (Z.land leftover s =? 0) then
        bindR (ld al ps s) (fun acc =>
        if s =? 1 then bindR (hreduce acc) (fun x => Ok (op acc1 x)) else
        if Z.land leftover (s - 1) =? 0 then bindR (hreduce acc) (fun x => Ok (op acc1 x)) else
        bindR (split2 (s / 2) (s / 2) acc) (fun lh =>
        bindR (vop (fst lh) (snd lh)) (fun acc2 =>
        tr_epilogue_acc fuel' (s / 2) acc1 acc2 (adv s ps) leftover al)))
      else if Z.land leftover (s - 1) =? 0 then Stop SUB
      else if 1 <? s then tr_epilogue fuel' (s / 2) acc1 ps leftover al
      else Stop SUB
    end.

  (** The chunks first1 + i*size, i = 0..n-1, simd_execution.h:1007-1018 / 1023-1032. *)
  Fixpoint ld_n (al : bool) (ps : list Z) (w : Z) (n : nat) : res (list (list A)) :=
    match n with
    | O => Ok []
    | S n' => bindR (ld al ps w) (fun v =>
              bindR (ld_n al (adv w ps) w n') (fun vs => Ok (v :: vs)))
    end.

  Fixpoint vop_n (a b : list (list A)) : res (list (list A)) :=
    match a, b with
    | [], [] => Ok []
    | x :: a', y :: b' => bindR (vop x y) (fun z => bindR (vop_n a' b') (fun zs => Ok (z :: zs)))
    | _, _ => Stop SIllFormed
    end.

  (** [do ... while (first1 <= unrolled_last)], simd_execution.h:1021-1036. *)
  Fixpoint tr_unrolled (fuel : nat) (w : Z) (n : nat) (al : bool) (unrolled_last first1 : Z)
           (ps : list Z) (accs : list (list A)) : res (list (list A) * Z * list Z) :=
    match fuel with
    | O => Stop SDiverge
    | S fuel' =>
      bindR (ld_n al ps w n) (fun vs =>
      bindR (vop_n accs vs) (fun accs' =>
      let first1' := first1 + w * Z.of_nat n in
      let ps' := adv (w * Z.of_nat n) ps in
      if first1' <=? unrolled_last
      then tr_unrolled fuel' w n al unrolled_last first1' ps' accs'
      else Ok (accs', first1', ps')))
    end.

  Definition set_nth (l : list (list A)) (i : nat) (x : list A) : list (list A) :=
    firstn i l ++ x :: skipn (S i) l.

  (** One iteration of the inner unroll, simd_execution.h:1042-1044. *)
  Definition tree_one (n j ii : nat) (accs : list (list A)) : res (list (list A)) :=
    let i := (ii * 2 * j)%nat in
    if (i + j <? n)%nat then
      match nth_error accs i, nth_error accs (i + j) with
      | Some a, Some b => bindR (vop a b) (fun z => Ok (set_nth accs i z))
      | _, _ => Stop SUB
      end
    else Ok accs.

  Fixpoint tree_inner (n j : nat) (iis : list nat) (accs : list (list A)) : res (list (list A)) :=
    match iis with
    | [] => Ok accs
    | ii :: iis' => bindR (tree_one n j ii accs) (tree_inner n j iis')
    end.

  Fixpoint tree_outer (n : nat) (outers : list nat) (accs : list (list A)) : res (list (list A)) :=
    match outers with
    | [] => Ok accs
    | o :: outers' => bindR (tree_inner n (Nat.pow 2 o) (seq 0 (n / 2)) accs) (tree_outer n outers')
    end.

  (** std::bit_width(unsigned(n - 1)) for n >= 2. *)
  Definition bit_width (x : nat) : nat := match x with O => O | _ => S (Nat.log2 x) end.

  (** Tree reduction into acc[0], simd_execution.h:1038-1047. *)
  Definition tree (n : nat) (accs : list (list A)) : res (list A) :=
    bindR (tree_outer n (seq 0 (bit_width (n - 1))) accs) (fun accs' =>
    match accs' with x :: _ => Ok x | [] => Stop SUB end).

  (** The initial accumulator, simd_execution.h:999-1055; result: acc, first1, all pointers. *)
  Definition tr_first (pol : policy) (w : Z) (al : bool) (first1 last1 : Z) (ps : list Z)
    : res (list A * Z * list Z) :=
    let single :=
      bindR (ld al ps w) (fun v => Ok (v, first1 + w, adv w ps)) in
    if 1 <? p_unroll pol then
      let n := Z.to_nat (p_unroll pol) in
      let step := w * p_unroll pol in
      let unrolled_last := last1 - step in
      if first1 + step <=? unrolled_last then
        bindR (ld_n al ps w n) (fun accs =>
        bindR (tr_unrolled (loop_fuel first1 last1) w n al unrolled_last (first1 + step)
                           (adv step ps) accs) (fun r =>
        let '(accs', f, ps') := r in
        bindR (tree n accs') (fun acc => Ok (acc, f, ps'))))
      else single
    else single.

  (** The main loop, simd_execution.h:1056-1062. *)
  Fixpoint tr_loop (fuel : nat) (matching : bool) (w : Z) (al : bool) (last1 first1 : Z)
           (ps : list Z) (acc : list A) : res (list A * list Z) :=
    match fuel with
    | O => Stop SDiverge
    | S fuel' =>
      if (if matching then negb (first1 =? last1) else first1 <=? last1 - w) then
        bindR (ld al ps w) (fun v =>
        bindR (vop acc v) (fun acc' =>
        tr_loop fuel' matching w al last1 (first1 + w) (adv w ps) acc'))
      else Ok (acc, ps)
    end.

  (** After the prologue, simd_execution.h:989-1087; [distance] is what remains. *)
  Definition tr_body (pol : policy) (w : Z) (al : bool) (acc1 : A) (first1 last1 distance : Z)
             (ps : list Z) : res A :=
    let leftover := distance mod w in
    let lo_size := bit_ceil w / 2 in
    let hi_size := w - lo_size in
    if p_match pol || (first1 <=? last1 - w) then
      bindR (tr_first pol w al first1 last1 ps) (fun r =>
      let '(acc0, f, ps1) := r in
      bindR (tr_loop (loop_fuel first1 last1) (p_match pol) w al last1 f ps1 acc0) (fun r2 =>
      let '(acc, ps2) := r2 in
      if w =? 1 then bindR (hreduce acc) (fun x => Ok (op acc1 x)) else
      if p_match pol || (leftover =? 0) then bindR (hreduce acc) (fun x => Ok (op acc1 x)) else
      bindR (split2 lo_size hi_size acc) (fun lh =>
      if lo_size =? hi_size then
        bindR (vop (fst lh) (snd lh)) (fun acc2 =>
        tr_epilogue_acc 64 lo_size acc1 acc2 ps2 leftover al)
      else
        bindR (hreduce (snd lh)) (fun x =>
        tr_epilogue_acc 64 lo_size (op acc1 x) (fst lh) ps2 leftover al))))
    else if 0 <? lo_size then tr_epilogue 64 lo_size acc1 ps leftover al
    else Stop SUB.

  (** Constant evaluation, simd_execution.h:969-978. *)
  Fixpoint tr_const (fuel : nat) (last1 first1 : Z) (ps : list Z) (acc1 : A) : res A :=
    match fuel with
    | O => Stop SDiverge
    | S fuel' =>
      if first1 <? last1 then
        bindR (ld false ps 1) (fun r =>
        bindR (hreduce r) (fun x =>
        tr_const fuel' last1 (first1 + 1) (adv 1 ps) (op acc1 x)))
      else Ok acc1
    end.

  (** detail::transform_reduce, simd_execution.h:939-1088. *)
  Definition transform_reduce_on (c : cfg) (pol : policy) (w first1 last1 : Z) (first2 : list Z)
             (init : A) : res A :=
    if first1 =? last1 then Ok init else
    let distance := last1 - first1 in
    if p_match pol && negb (distance mod w =? 0) then Stop STrap else
    let ps := first1 :: first2 in
    if c_ce c then tr_const (loop_fuel first1 last1) last1 first1 ps init else
    let al := use_aligned_loadstore c pol w in
    match prologue_args c pol w distance first1 with
    | None => tr_body pol w al init first1 last1 distance ps
    | Some (maxe, tp) =>
      bindR (tr_prologue 65 1 maxe init ps tp) (fun acc1 =>
      tr_body pol w al acc1 (first1 + tp) last1 ((distance - tp) mod two64) (adv tp ps))
    end.
End TReduce.

Definition transform_reduce {T A} (c : cfg) (op : A -> A -> A) (tr : list (list T) -> list A)
           (m : mem T) (pol : policy) (w first1 last1 : Z) (first2 : list Z) (init : A) : res A :=
  transform_reduce_on op (ld c tr m) c pol w first1 last1 first2 init.

(** vir::reduce(policy, first, last, init, op), simd_execution.h:1435-1443; the range overloads and
    the [std::plus] ones (1405-1425, 1438-1472) only fix [op], [init] or the iterators. *)
Definition reduce_alg {T} (c : cfg) (op : T -> T -> T) (m : mem T) (pol : policy)
           (w first last : Z) (init : T) : res T :=
  transform_reduce c op (fun chunks => hd [] chunks) m pol w first last [] init.

(** vir::reduce(policy, first, last): std::plus<>, starting from a value-initialised object,
    simd_execution.h:1416-1422. *)
Definition sum_alg {T} (zero : T) (plus : T -> T -> T) (c : cfg) (m : mem T) (pol : policy)
           (w first last : Z) : res T :=
  reduce_alg c plus m pol w first last zero.

(** vir::transform_reduce(policy, first1, last1, first2, init): std::plus<> and std::multiplies<>,
    simd_execution.h:1335-1343. *)
Definition inner_product {T} (plus mult : T -> T -> T) (c : cfg) (m : mem T) (pol : policy)
           (w first1 last1 first2 : Z) (init : T) : res T :=
  transform_reduce c plus (fun chunks => match chunks with [a; b] => map2 mult a b | _ => [] end)
                   m pol w first1 last1 [first2] init.
