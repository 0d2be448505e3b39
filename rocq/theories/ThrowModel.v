(** for_each and transform with a callable that may throw.  The control flow is that of
    [for_each] (ExecModel.v) and [transform] (TransformModel.v); nothing in simd_execution.h
    catches, and no function there is noexcept, so an exception leaves the algorithm at once. *)
From Verif Require Import Base ExecModel TransformModel.

(** How a run ends: regularly, or with the exception of the invocation on [chunks]. *)
Inductive ended (S C : Type) : Type :=
| Returned (s : S)
| Threw (s : S) (chunks : C).
Arguments Returned {S C} s.
Arguments Threw {S C} s chunks.

Section ForEach.
  Context {T St : Type}.
  (** The callable: a new state, and the new values of its arguments unless it throws. *)
  Variable f : St -> list (list T) -> St * option (list (list T)).

  (** simd_load_and_invoke, simd_execution.h:50-61.  The chunks are the by-value parameters of a
      lambda (56), std::invoke comes before the copy_to of any of them (57-59): if it throws,
      none is stored.  [s_trace] lists the invocations that returned. *)
  Definition load_and_invoke_throwing (c : cfg) (write_back : bool) (s : state T St) (k : call)
    : res (ended (state T St) (list (list T))) :=
    bindR (load_chunks c (s_mem s) (k_al k) (k_pos k) (k_k k) (k_n k)) (fun chunks =>
    match f (s_st s) chunks with
    | (st', None) => Ok (Threw (mkst (s_mem s) st' (s_trace s)) chunks)
    | (st', Some out) =>
        bindR (if write_back then store_chunks c (s_mem s) (k_al k) (k_pos k) (k_k k) out
               else Ok (s_mem s)) (fun m' =>
        Ok (Returned (mkst m' st' (s_trace s ++ [chunks]))))
    end).

  Fixpoint run_calls_throwing (c : cfg) (write_back : bool) (l : list call) (s : state T St)
    : res (ended (state T St) (list (list T))) :=
    match l with
    | [] => Ok (Returned s)
    | k :: l' => bindR (load_and_invoke_throwing c write_back s k) (fun e =>
                 match e with
                 | Threw s' ch => Ok (Threw s' ch)
                 | Returned s' => run_calls_throwing c write_back l' s'
                 end)
    end.

  (** for_each, simd_execution.h:1110-1172. *)
  Definition run_for_each_throwing (c : cfg) (pol : policy) (w : Z) (write_back : bool)
             (first last : Z) (m : mem T) (st : St)
    : res (ended (state T St) (list (list T))) :=
    let (calls, r) := for_each c pol w first last in
    bindR (run_calls_throwing c write_back calls (mkst m st [])) (fun e =>
    match e with
    | Threw s ch => Ok (Threw s ch)
    | Returned s => bindR r (fun _ => Ok (Returned s))
    end).
End ForEach.

Section Transform.
  Context {T : Type}.
  Variable op : list (list T) -> option (list T).

  (** simdized_load_and_invoke, simd_execution.h:618-624: the chunks, and what [op] says. *)
  Definition invoke_at_throwing (m : mem T) (srcs : list Z) (k : Z)
    : res (list (list T) * option (list T)) :=
    bindR (mapR (fun p => of_option (load m p (Z.to_nat k))) srcs) (fun chunks =>
    Ok (chunks, op chunks)).

  (** unroll2, detail.h:270-280: fun0 runs for all chunks (278) before fun1 stores any (277).
      The order of the fun0 is unspecified there; here the one on the lowest addresses is first. *)
  Fixpoint invoke_all_throwing (m : mem T) (srcs : list Z) (k : Z) (n : nat)
    : res (ended (list (list T)) (list (list T))) :=
    match n with
    | O => Ok (Returned [])
    | S n' => bindR (invoke_at_throwing m srcs k) (fun rc =>
              match rc with
              | (chunks, None) => Ok (Threw [] chunks)
              | (_, Some r) =>
                  bindR (invoke_all_throwing m (adv k srcs) k n') (fun e =>
                  match e with
                  | Threw _ chunks => Ok (Threw [] chunks)
                  | Returned rs => Ok (Returned (r :: rs))
                  end)
              end)
    end.

  Definition run_step_throwing (c : cfg) (m : mem T) (s : step)
    : res (ended (mem T) (list (list T))) :=
    bindR (invoke_all_throwing m (t_srcs s) (t_k s) (t_n s)) (fun e =>
    match e with
    | Threw _ chunks => Ok (Threw m chunks)
    | Returned rs =>
        bindR (store_chunks c m (t_al s) (t_dst s) (t_k s) rs) (fun m' => Ok (Returned m'))
    end).

  Fixpoint run_steps_throwing (c : cfg) (m : mem T) (l : list step)
    : res (ended (mem T) (list (list T))) :=
    match l with
    | [] => Ok (Returned m)
    | s :: l' => bindR (run_step_throwing c m s) (fun e =>
                 match e with
                 | Threw m' chunks => Ok (Threw m' chunks)
                 | Returned m' => run_steps_throwing c m' l'
                 end)
    end.

  (** detail::transform, simd_execution.h:710-806 (as [run_transform]): memory, with the returned iterator unless
      an exception leaves the algorithm. *)
  Definition run_transform_throwing (c : cfg) (pol : policy) (w first last dst : Z)
             (srcs2 : list Z) (m : mem T) : res (ended (mem T) (list (list T)) * option Z) :=
    let (steps, r) := transform c pol w first last dst srcs2 in
    bindR (run_steps_throwing c m steps) (fun e =>
    match e with
    | Threw _ _ => Ok (e, None)
    | Returned _ => bindR r (fun d => Ok (e, Some d))
    end).
End Transform.
