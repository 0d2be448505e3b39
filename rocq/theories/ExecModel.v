(** Model of [vir/simd_execution.h]: policies, chunking, [for_each], [count_if].

    The control flow of [for_each] never looks at element values, so every function below is
    modelled by the sequence of [simd_load_and_invoke] calls it makes (a writer monad that
    keeps the calls made before an abnormal stop).  [run_calls] then executes the calls. *)
From Verif Require Import Base.

(** What the target fixes.
    [c_sz]: sizeof(T);  [c_base]: byte address of element index 0;
    [c_malign k]: memory_alignment_v of a k-element simd (simd_execution.h:536-558);
    [c_osize]: __OPTIMIZE_SIZE__;  [c_ce]: std::is_constant_evaluated(). *)
Record cfg : Type := mkcfg {
  c_sz : Z; c_base : Z; c_malign : Z -> Z; c_osize : bool; c_ce : bool }.

(** The observable content of a policy type, simd_execution.h:427-440. *)
Record policy : Type := mkpol {
  p_aligned : bool;      (* _prefers_aligned *)
  p_auto : bool;         (* _auto_prologue *)
  p_match : bool;        (* _assume_matching_size *)
  p_unroll : Z;          (* _unroll_by, 0 if not given *)
  p_size : Z }.          (* _size, 0 if not given *)

(** One call of [simd_load_and_invoke] (simd_execution.h:50-61): [c_n] chunks of [c_k]
    elements from position [c_pos] on, with [vector_aligned] iff [c_al]. *)
Record call : Type := mkcall { k_pos : Z; k_k : Z; k_n : nat; k_al : bool }.

(** Writer monad. *)
Definition W (A : Type) : Type := (list call * res A)%type.
Definition retW {A} (a : A) : W A := ([], Ok a).
Definition stopW {A} (s : stop) : W A := ([], Stop s).
Definition tellW (c : call) : W unit := ([c], Ok tt).
Definition bindW {A B} (x : W A) (f : A -> W B) : W B :=
  match x with
  | (l, Stop s) => (l, Stop s)
  | (l, Ok a) => let (l', r) := f a in (l ++ l', r)
  end.
Notation "x <- a ;; b" := (bindW a (fun x => b)) (at level 61, a at next level, right associativity).
Notation "a ;;; b" := (bindW a (fun _ => b)) (at level 61, right associativity).

(** VIR_CASE entries of simd_for_each_jumptable_prologue, simd_execution.h:109-171,
    transcribed one by one (note (38,34)). *)
Definition prologue_table : list (Z * Z) :=
  [(1,0);(2,0);(3,2);(4,0);(5,4);(6,4);(7,6);(8,0);(9,8);(10,8);(11,10);(12,8);(13,12);(14,12);
   (15,14);(16,0);(17,16);(18,16);(19,18);(20,16);(21,20);(22,20);(23,22);(24,16);(25,24);(26,24);
   (27,26);(28,24);(29,28);(30,28);(31,30);(32,0);(33,32);(34,32);(35,34);(36,32);(37,36);(38,34);
   (39,38);(40,32);(41,40);(42,40);(43,42);(44,40);(45,44);(46,44);(47,46);(48,32);(49,48);(50,48);
   (51,50);(52,48);(53,52);(54,52);(55,54);(56,48);(57,56);(58,56);(59,58);(60,56);(61,60);(62,60);
   (63,62)].

(** VIR_CASE entries of simd_for_each_jumptable_epilogue, simd_execution.h:241-303. *)
Definition epilogue_table : list (Z * Z) :=
  [(1,0);(2,0);(3,1);(4,0);(5,1);(6,2);(7,3);(8,0);(9,1);(10,2);(11,3);(12,4);(13,5);(14,6);(15,7);
   (16,0);(17,1);(18,2);(19,3);(20,4);(21,5);(22,6);(23,7);(24,8);(25,9);(26,10);(27,11);(28,12);
   (29,13);(30,14);(31,15);(32,0);(33,1);(34,2);(35,3);(36,4);(37,5);(38,6);(39,7);(40,8);(41,9);
   (42,10);(43,11);(44,12);(45,13);(46,14);(47,15);(48,16);(49,17);(50,18);(51,19);(52,20);(53,21);
   (54,22);(55,23);(56,24);(57,25);(58,26);(59,27);(60,28);(61,29);(62,30);(63,31)].

Fixpoint lookup (t : list (Z * Z)) (n : Z) : option Z :=
  match t with
  | [] => None
  | (a, b) :: t' => if a =? n then Some b else lookup t' n
  end.

(** The body shared by both jump tables: case N processes N-M elements and jumps to case M
    (simd_execution.h:94-180, 228-312); a missing case is the [default: unreachable()];
    [N >= bound] is the [if constexpr ... unreachable()]. *)
Fixpoint jumptable (fuel : nat) (t : list (Z * Z)) (bound : Z) (al : bool) (n ptr : Z) : W unit :=
  match fuel with
  | O => stopW SDiverge
  | S fuel' =>
    if n =? 0 then retW tt else
    match lookup t n with
    | None => stopW SUB
    | Some m =>
      if bound <=? n then stopW SUB
      else tellW (mkcall ptr (n - m) 1 al) ;;;
           jumptable fuel' t bound al m (ptr + (n - m))
    end
  end.

(** [switch (to_process)]: unlike the jumps, an entry value of 0 is the [default] case. *)
Definition jumptable_entry (t : list (Z * Z)) (bound : Z) (al : bool) (n ptr : Z) : W unit :=
  if n =? 0 then stopW SUB else jumptable 64 t bound al n ptr.

(** simd_for_each_prologue<V, write_back, max_elements>, simd_execution.h:182-219.
    [vs] is V::size(); the recursion doubles it; [fuel] bounds the template recursion. *)
Fixpoint for_each_prologue (fuel : nat) (c : cfg) (vs maxe ptr to_process : Z) : W unit :=
  match fuel with
  | O => stopW SDiverge
  | S fuel' =>
    if negb ((1 <? maxe) && has_single_bit maxe && has_single_bit vs) then stopW SIllFormed else
    if (to_process =? 0) || (maxe <=? to_process) then stopW SUB else
    if maxe =? 2 then tellW (mkcall ptr vs 1 true) else
    if negb (c_osize c) && (vs =? 1) && (maxe <? 64) && negb (c_ce c) then
      jumptable_entry prologue_table maxe true to_process ptr
    else
      let take := negb (Z.land vs to_process =? 0) in
      (if take then tellW (mkcall ptr vs 1 true) else retW tt) ;;;
      let ptr' := if take then ptr + vs else ptr in
      if vs * 2 <? maxe then for_each_prologue fuel' c (vs * 2) maxe ptr' to_process
      else retW tt
  end.

(** simd_for_each_epilogue<V0, write_back>, simd_execution.h:314-356. [vs0] is V0::size(). *)
Fixpoint for_each_epilogue (fuel : nat) (c : cfg) (vs0 leftover last : Z) (al : bool) : W unit :=
  match fuel with
  | O => stopW SDiverge
  | S fuel' =>
    if negb (1 <? vs0) then stopW SIllFormed else
    if vs0 =? 2 then tellW (mkcall (last - 1) 1 1 al) else
    if (vs0 <=? 4) && negb (c_ce c) then
      jumptable_entry epilogue_table vs0 al leftover (last - leftover) else
    if negb (c_osize c) && (vs0 <=? 64) && negb (c_ce c) then
      jumptable_entry epilogue_table vs0 al leftover (last - leftover) else
    let vs := bit_ceil vs0 / 2 in
    let take := negb (Z.land leftover vs =? 0) in
    (if take then tellW (mkcall (last - leftover) vs 1 al) else retW tt) ;;;
    let leftover' := if take then leftover - vs else leftover in
    if (1 <? vs) && negb (leftover' =? 0)
    then for_each_epilogue fuel' c vs leftover' last al
    else retW tt
  end.

(** prologue<V, Policy>, simd_execution.h:560-609. [w] is V::size(). *)
Definition prologue_is_possible (c : cfg) (w : Z) : bool :=
  (1 <? w) && ((w * c_sz c) mod (c_malign c w) =? 0) && (c_sz c <? c_malign c w).
Definition use_aligned_loadstore (c : cfg) (pol : policy) (w : Z) : bool :=
  p_aligned pol && prologue_is_possible c w.
Definition maybe_prologue (c : cfg) (pol : policy) (w : Z) : bool :=
  p_auto pol && prologue_is_possible c w.

(** prologue::operator(), simd_execution.h:583-608: the arguments of do_prologue,
    (max_misalignment, to_process), if it is called. [size_t] arithmetic wraps. *)
Definition prologue_args (c : cfg) (pol : policy) (w remaining p : Z) : option (Z * Z) :=
  if use_aligned_loadstore c pol w || maybe_prologue c pol w then
    let al := c_malign c w in
    let max_misalignment := al / c_sz c in
    let misaligned_by_bytes := (c_base c + p * c_sz c) mod al in
    if misaligned_by_bytes =? 0 then None else
    let to_process := (max_misalignment - misaligned_by_bytes / c_sz c) mod two64 in
    if use_aligned_loadstore c pol w then Some (max_misalignment, to_process)
    else if (4000 <? (remaining * c_sz c) mod two64) || (Z.land to_process remaining =? to_process)
    then Some (max_misalignment, to_process) else None
  else None.

(** [for (; first <= limit; first += step) simd_load_and_invoke<V>(fun, first, flags, n)]:
    simd_execution.h:1154-1160 (n = unroll factor) and 1163-1166 (n = 1). Returns [first]. *)
Fixpoint main_loop (fuel : nat) (w : Z) (n : nat) (al : bool) (limit first : Z) : W Z :=
  match fuel with
  | O => stopW SDiverge
  | S fuel' =>
    if first <=? limit
    then tellW (mkcall first w n al) ;;; main_loop fuel' w n al limit (first + w * Z.of_nat n)
    else retW first
  end.

(** Same with the loop condition [first != last] of assume_matching_size,
    simd_execution.h:1164-1166. *)
Fixpoint match_loop (fuel : nat) (w : Z) (al : bool) (last first : Z) : W Z :=
  match fuel with
  | O => stopW SDiverge
  | S fuel' =>
    if first =? last then retW first
    else tellW (mkcall first w 1 al) ;;; match_loop fuel' w al last (first + w)
  end.

(** [for (; first + (size - 1) < last; first += size)], simd_execution.h:1133-1135. *)
Fixpoint const_loop (fuel : nat) (w : Z) (last first : Z) : W Z :=
  match fuel with
  | O => stopW SDiverge
  | S fuel' =>
    if first + (w - 1) <? last
    then tellW (mkcall first w 1 false) ;;; const_loop fuel' w last (first + w)
    else retW first
  end.

Definition loop_fuel (first last : Z) : nat := S (Z.to_nat (last - first)).

(** The run-time part of for_each after the prologue, simd_execution.h:1149-1170. *)
Definition for_each_body (c : cfg) (pol : policy) (w first last distance : Z) : W unit :=
  let al := use_aligned_loadstore c pol w in                       (* flags, 580-581 *)
  let leftover := distance mod w in
  first1 <- (if 1 <? p_unroll pol
             then main_loop (loop_fuel first last) w (Z.to_nat (p_unroll pol)) al
                            (last - w * p_unroll pol) first
             else retW first) ;;
  (if p_match pol
   then match_loop (loop_fuel first last) w al last first1
   else main_loop (loop_fuel first last) w 1 al (last - w) first1) ;;;
  (if negb (p_match pol) && (1 <? w) && negb (leftover =? 0)
   then for_each_epilogue 64 c w leftover last al
   else retW tt).

(** The run-time branch of for_each, simd_execution.h:1144-1170: prologue, then the body. *)
Definition for_each_rt (c : cfg) (pol : policy) (w first last : Z) : W unit :=
  let distance := last - first in
  match prologue_args c pol w distance first with
  | None => for_each_body c pol w first last distance
  | Some (maxe, to_process) =>
    for_each_prologue 64 c 1 maxe first to_process ;;;
    for_each_body c pol w (first + to_process) last ((distance - to_process) mod two64)
  end.

(** vir::for_each, simd_execution.h:1110-1172. [w] is V::size(). *)
Definition for_each (c : cfg) (pol : policy) (w first last : Z) : W unit :=
  if first =? last then retW tt else
  let distance := last - first in
  if p_match pol && negb (distance mod w =? 0) then stopW STrap else
  if c_ce c then
    const_loop (loop_fuel first last) w last first ;;;
    (if 1 <? w then for_each_epilogue 64 c w (distance mod w) last false else retW tt)
  else for_each_rt c pol w first last.

(** ** Execution of the calls *)
Section Run.
  Context {T St : Type}.
  (** The callable: gets the chunks of one invocation, may keep state, and leaves the chunks'
      new values in its (reference) arguments. *)
  Variable f : St -> list (list T) -> St * list (list T).

  Definition aligned_at (c : cfg) (pos k : Z) : bool :=
    (c_base c + pos * c_sz c) mod (c_malign c k) =? 0.

  (** V(ptr, flags): simd load constructor on a chunk. *)
  Definition load_chunk (c : cfg) (m : mem T) (al : bool) (pos k : Z) : res (list T) :=
    if al && negb (aligned_at c pos k) then Stop SUB
    else of_option (load m pos (Z.to_nat k)).

  Definition store_chunk (c : cfg) (m : mem T) (al : bool) (pos k : Z) (v : list T) : res (mem T) :=
    if al && negb (aligned_at c pos k) then Stop SUB
    else of_option (store m pos v).

  Fixpoint load_chunks (c : cfg) (m : mem T) (al : bool) (pos k : Z) (n : nat)
    : res (list (list T)) :=
    match n with
    | O => Ok []
    | S n' => bindR (load_chunk c m al pos k) (fun v =>
              bindR (load_chunks c m al (pos + k) k n') (fun vs => Ok (v :: vs)))
    end.

  Fixpoint store_chunks (c : cfg) (m : mem T) (al : bool) (pos k : Z) (vs : list (list T))
    : res (mem T) :=
    match vs with
    | [] => Ok m
    | v :: vs' => bindR (store_chunk c m al pos k v) (fun m' =>
                  store_chunks c m' al (pos + k) k vs')
    end.

  (** Memory, callable state, and the arguments of all invocations so far (oldest first). *)
  Record state : Type := mkst { s_mem : mem T; s_st : St; s_trace : list (list (list T)) }.

  (** simd_load_and_invoke, simd_execution.h:50-61: load all chunks, invoke, then (for
      lvalue-reference callables) copy all chunks back. *)
  Definition load_and_invoke (c : cfg) (write_back : bool) (s : state) (k : call) : res state :=
    bindR (load_chunks c (s_mem s) (k_al k) (k_pos k) (k_k k) (k_n k)) (fun chunks =>
    let (st', out) := f (s_st s) chunks in
    bindR (if write_back then store_chunks c (s_mem s) (k_al k) (k_pos k) (k_k k) out
           else Ok (s_mem s)) (fun m' =>
    Ok (mkst m' st' (s_trace s ++ [chunks])))).

  Fixpoint run_calls (c : cfg) (write_back : bool) (l : list call) (s : state) : res state :=
    match l with
    | [] => Ok s
    | k :: l' => bindR (load_and_invoke c write_back s k) (run_calls c write_back l')
    end.

  (** A whole execution of for_each on memory [m]. If a call stops abnormally, so does the
      program; otherwise the outcome of the control flow decides. *)
  Definition run_for_each (c : cfg) (pol : policy) (w : Z) (write_back : bool)
             (first last : Z) (m : mem T) (st : St) : res state :=
    let (calls, r) := for_each c pol w first last in
    bindR (run_calls c write_back calls (mkst m st [])) (fun s =>
    bindR r (fun _ => Ok s)).
End Run.
Arguments state : clear implicits.
